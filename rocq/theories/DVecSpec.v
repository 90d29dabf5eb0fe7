(** Specification of distributed vectors. *)
From Verif Require Import Base DVecModel.

(** The rows are divided among the ranks. *)
Definition one_owner (n p : nat) (start count : nat -> nat) : Prop :=
  forall k, k < n -> exists r, r < p /\ start r <= k < start r + count r /\
    forall s, s < p -> start s <= k < start s + count s -> s = r.

(** Every vector made was destroyed once. *)
Definition each_vector_once (st : vstate) : Prop :=
  forall m, m < v_next st -> count_occ Nat.eq_dec (v_destroyed st) m = 1.
Definition all_gone (st : vstate) : Prop := forall o, v_objs st o = None.
(** The object has a vector. *)
Definition has_vector (st : vstate) (o : nat) : Prop := exists x, v_objs st o = Some x /\ v_created x = true.
(** Calls that neither copy a vector nor write over one. *)
Definition single_owner (st : vstate) (c : vcall) : Prop :=
  match c with
  | VCopy _ s => ~ has_vector st s
  | VAssign o s => o = s \/ (~ has_vector st o /\ ~ has_vector st s)
  | VCreate o => ~ has_vector st o
  | _ => True
  end.
Fixpoint single_owner_run (st : vstate) (cs : list vcall) : Prop :=
  match cs with
  | [] => True
  | c :: cs' => single_owner st c /\ forall st', v_step st c = Ok st' -> single_owner_run st' cs'
  end.
(** What happens to the vectors inside of a patch: they are never made. *)
Definition patch_use (c : vcall) : Prop :=
  match c with VMake _ | VCreate _ => False | _ => True end.
