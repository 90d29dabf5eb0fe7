(** Specification of piecewise linear interpolation. *)
From Verif Require Import Base.

Definition at_ (v : list Qc) (i : nat) : Qc := nth i v 0%Qc.
Definition ascending (xs : list Qc) : Prop := forall i j, i < j -> j < length xs -> (at_ xs i < at_ xs j)%Qc.
Definition descending (xs : list Qc) : Prop := forall i j, i < j -> j < length xs -> (at_ xs j < at_ xs i)%Qc.

(** A table of at least two points. *)
Definition table (xs ys : list Qc) : Prop :=
  2 <= length xs /\ length ys = length xs /\ (ascending xs \/ descending xs).

(** Interval [j] is used at [x]: [x] lies between its ends, or beyond the end of the table
    at which the interval is. *)
Definition covers (xs : list Qc) (x : Qc) (j : nat) : Prop :=
  j + 2 <= length xs /\
  ((ascending xs /\ (j = 0 \/ (at_ xs j <= x)%Qc) /\ (j + 2 = length xs \/ (x <= at_ xs (j + 1)%nat)%Qc)) \/
   (descending xs /\ (j = 0 \/ (x <= at_ xs j)%Qc) /\ (j + 2 = length xs \/ (at_ xs (j + 1)%nat <= x)%Qc))).

(** The line through two points of the table. *)
Definition line (xs ys : list Qc) (j : nat) (x : Qc) : Qc :=
  (at_ ys j + (x - at_ xs j) * ((at_ ys (j + 1)%nat - at_ ys j) / (at_ xs (j + 1)%nat - at_ xs j)))%Qc.

(** [v] is the value of the piecewise linear function, continued linearly. *)
Definition piecewise_linear (xs ys : list Qc) (x v : Qc) : Prop :=
  (exists j, covers xs x j) /\ forall j, covers xs x j -> v = line xs ys j x.
