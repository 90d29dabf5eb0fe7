(** Specification of updates by a scalar. *)
From Verif Require Import Base.

(** Each entry of [v] is combined with [x]. *)
Definition combined {A} (op : A -> A -> A) (v : list A) (x : A) (w : list A) : Prop :=
  length w = length v /\ forall i a, nth_error v i = Some a -> nth_error w i = Some (op a x).
