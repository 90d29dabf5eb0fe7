(** Specification of the greatest difference of two lists of doubles, as a real number. *)
From Coq Require Import Reals.
From Flocq Require Import Core Binary Bits.
From Verif Require Import Base VectorModel MatrixModel FloatModel FloatSpec FNormModel.

Local Open Scope R_scope.

Definition difference (p : double * double) : R := Rabs (val (fst p) - val (snd p)).

(** [M] is the greatest of the differences, 0 if there are none. *)
Definition greatest (l : list (double * double)) (M : R) : Prop :=
  (forall p, In p l -> difference p <= M) /\
  ((l = [] /\ M = 0) \/ exists p, In p l /\ M = difference p).

(** [r] is [M] rounded to the nearest double. *)
Definition nearest (M : R) (r : double) : Prop :=
  finite r /\ (forall x : double, finite x -> Rabs (val r - M) <= Rabs (val x - M)) /\
  Rabs (val r - M) <= bpow radix2 (-53) * M.

(** Both numbers are finite and below half of the range of doubles. *)
Definition tame (p : double * double) : Prop := moderate (fst p) /\ moderate (snd p).

Definition is_zero (r : double) : Prop := finite r /\ val r = 0.
