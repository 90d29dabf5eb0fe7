(** Specification of sums of products in double arithmetic: the exact sum and bounds for
    the rounding errors. *)
From Coq Require Import Reals Permutation.
From Flocq Require Import Core Binary Bits.
From Verif Require Import Base VectorModel MatrixModel FloatModel FloatSpec.

Local Open Scope R_scope.

Definition product (p : double * double) : R := val (fst p) * val (snd p).
Definition exact_sum (l : list (double * double)) : R := Rsum (map product l).
Definition size_sum (l : list (double * double)) : R := Rsum (map (fun p => Rabs (product p)) l).
(** The number of products that are not zero. *)
Definition terms (l : list (double * double)) : nat := length (filter (fun p => negb (Req_bool (product p) 0)) l).

Definition numbers (l : list (double * double)) : Prop := Forall (fun p => finite (fst p) /\ finite (snd p)) l.

(** The error of [n] terms of total size [A], with the relative rounding error 2^-53 and the
    error 2^-1075 of a product near zero. *)
Definition rounding (n : nat) (A : R) : R :=
  ((1 + bpow radix2 (-53)) ^ n - 1) * A + INR n * (1 + bpow radix2 (-53)) ^ n * bpow radix2 (-1075).

(** The double is the rational number. *)
Definition is_double (d : double) (q : Qc) : Prop := finite d /\ val d = qval q.
Definition same_vector : list double -> list Qc -> Prop := Forall2 is_double.
Definition same_matrix (D : matrix double) (M : matrix Qc) : Prop :=
  nr D = nr M /\ nc D = nc M /\ Forall2 is_double (dat D) (dat M).

(** Sum of the sizes and number of the nonzero products of row and vector, from the exact
    entries. *)
Definition qproducts (M : matrix Qc) (x : list Qc) (i : nat) : list R :=
  map (fun j => qval (nth (i * nc M + j) (dat M) 0%Qc) * qval (nth j x 0%Qc)) (seq 0 (nc M)).
Definition sizes (l : list R) : R := Rsum (map Rabs l).
Definition nonzeros (l : list R) : nat := length (filter (fun r => negb (Req_bool r 0)) l).

(** No entry is larger than [B]. *)
Definition bounded (B : R) (l : list double) : Prop := Forall (fun x => Rabs (val x) <= B) l.

(** A column of a matrix stored by rows. *)
Definition qcolumn (M : matrix Qc) (j : nat) : list Qc := map (fun i => nth (i * nc M + j) (dat M) 0%Qc) (seq 0 (nr M)).

(** A double m * 2^E with at most 46 binary digits. *)
Definition few_digits (E : Z) (x : double) : Prop := finite x /\ exists m, val x = IZR m * bpow radix2 E /\ (Z.abs m <= 2 ^ 46)%Z.

(** All entries are the number [v]. *)
Definition constant (v : R) (g : list double) : Prop := Forall (fun x => finite x /\ val x = v) g.
