(** Specification of the ownership of matrices. *)
From Verif Require Import Base PMatModel.

(** All objects are gone. *)
Definition no_objects (st : pstate) : Prop := forall o, p_objs st o = None.
(** Every matrix made was destroyed exactly once. *)
Definition each_destroyed_once (st : pstate) : Prop := forall m, m < p_next st -> count_occ Nat.eq_dec (p_destroyed st) m = 1.

(** The object owns a matrix. *)
Definition owns (st : pstate) (o : nat) : Prop := exists x, p_objs st o = Some x /\ p_created x = true.
(** Calls that keep ownership unique: no copy of an owning object, no move into and no create on an
    owning object, no constructor with a new communicator. *)
Definition careful (st : pstate) (c : pcall) : Prop :=
  match c with
  | PSubComm _ _ => False
  | PCopy _ s => ~ owns st s
  | PMove o s => o = s \/ ~ owns st o
  | PCreate o => ~ owns st o
  | _ => True
  end.
(** Every call of the program is careful when it is made. *)
Fixpoint careful_run (st : pstate) (cs : list pcall) : Prop :=
  match cs with
  | [] => True
  | c :: cs' => careful st c /\ forall st', p_step st c = Ok st' -> careful_run st' cs'
  end.
