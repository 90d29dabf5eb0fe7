(** Specification of runs with collective calls inside leaf solves. *)
From Verif Require Import Base VectorModel MatrixModel HPSModel TreeModel TreeSpec ParModel ParSpec WorldModel.

(** Number of leaves of a rank. *)
Definition leaves_of (rank : nat) (f : forest) : nat := length (filter (Nat.eqb rank) (owners f)).

(** All ranks have returned from their programs without an exception. *)
Definition all_done {D A} (size : nat) (s : @config D A) : Prop :=
  forall r, r < size -> exists x, s r = Fin (Ok x).

(** Objects of a kind held after a sequence of operations. *)
Definition same_kind (a b : petsc_kind) : bool :=
  match a, b with PMat, PMat | PVec, PVec | PIS, PIS => true | _, _ => false end.
Fixpoint held (k : petsc_kind) (l : list petsc_op) : Z :=
  match l with
  | [] => 0
  | Create o :: l' => (if same_kind k o then 1 else 0) + held k l'
  | Destroy o :: l' => (if same_kind k o then -1 else 0) + held k l'
  end%Z.

(** A quadrant with leaves of several ranks has all leaves of each of these ranks. *)
Definition aligned (F : forest) : Prop :=
  forall ds f, sub F ds = Some f -> pfirst f <> plast f ->
  forall r, In r (owners f) -> leaves_of r f = leaves_of r F.

(** The descent never stops early. *)
Definition descends {D S} (g : stage D S) : Prop :=
  match g with
  | Split _ fam => forall s n ch s' d ds b, fam s n ch = Ok (s', d, ds, b) -> b = true
  | _ => True
  end.
