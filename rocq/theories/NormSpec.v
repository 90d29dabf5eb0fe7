(** Largest difference of finitely many pairs of numbers. *)
From Verif Require Import Base VectorModel MatrixModel LinSpec.

(** [m] bounds the size of every d i in the index set, and is the size of one of
    them or zero. *)
Definition largest {I} (P : I -> Prop) (d : I -> Qc) (m : Qc) : Prop :=
  (0 <= m)%Qc /\ (forall i, P i -> (- m <= d i)%Qc /\ (d i <= m)%Qc) /\
  (m = 0%Qc \/ exists i, P i /\ (m = d i \/ m = (- d i)%Qc)).
