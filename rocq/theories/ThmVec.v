(** Property theorems.  Proofs are in VecProps.v; this file only restates the
    statements.  Written by tools/gen_thm.py. *)
From Verif Require Import Base VectorModel MatrixModel LinSpec VecSpec MatProofs MatProofs2 MatProofs3 LinProofs LinProps.
From Coq Require Import Lia.
From Verif Require Import VecProps.

(** [C66] v * w is the sum of the products of the entries; vectors of different length
    are rejected. *)
Theorem dot_product : forall v w,
  (length w = length v -> vdot v w = Ok (dot v w)) /\
  (length w <> length v -> vdot v w = Throw invalid_argument).
Proof. exact @dot_product_pf. Qed.
Print Assumptions dot_product.

(** [C66] IdentityMatrix is neutral for the multiplication of vectors and matrices. *)
Theorem identity_matrix : forall n, exists m, IdentityMatrix n = Ok m /\ neutral n m.
Proof. exact @identity_matrix_pf. Qed.
Print Assumptions identity_matrix.

(** [C66] DiagonalMatrix(d) has the entries of d on the diagonal and zero elsewhere; it
    multiplies every entry of a vector by the matching one of d. *)
Theorem diagonal_matrix : forall d, exists m, DiagonalMatrix d = Ok m /\
  well_formed m /\ nr m = length d /\ nc m = length d /\
  (forall i j, i < length d -> j < length d -> val m i j = if i =? j then vval d i else 0%Qc) /\
  forall x y, length x = length d -> is_product_mv m x y ->
    length y = length d /\ forall i, i < length d -> vval y i = (vval d i * vval x i)%Qc.
Proof. exact @diagonal_matrix_pf. Qed.
Print Assumptions diagonal_matrix.

(** [C66] v(I): entry a of the result is v[I[a]]; negative indices and indices above the
    size are rejected.  Not rejected: index = size, see below. *)
Theorem vector_index_set_partial : forall (A : Type) (v : list A) (I : list Z), length I <= length v ->
  ((forall z, In z I -> (0 <= z < Z.of_nat (length v))%Z) ->
   exists r, vgetFromIndexSet v I = Ok r /\ length r = length I /\
     forall a, a < length I -> nth_error r a = nth_error v (Z.to_nat (nth a I 0%Z))) /\
  ((forall z, In z I -> z <> Z.of_nat (length v)) -> (exists z, In z I /\ ~ (0 <= z < Z.of_nat (length v))%Z) ->
   vgetFromIndexSet v I = Throw out_of_range).
Proof. exact @vector_index_set_partial_pf. Qed.
Print Assumptions vector_index_set_partial.

(** [C66] Index = size passes both checks and reads past the end. *)
Theorem vector_index_set_refuted : exists (v : list Z) (I : list Z) z, length I <= length v /\ In z I /\
  ~ (0 <= z < Z.of_nat (length v))%Z /\ vgetFromIndexSet v I = UB.
Proof. exact @vector_index_set_refuted_pf. Qed.
Print Assumptions vector_index_set_refuted.

Example vec_examples :
  vdot (map q [1; 2; 3]%Z) (map q [4; -5; 6]%Z) = Ok (q 12) /\
  IdentityMatrix 2 = Ok (Mat 2 2 (map q [1; 0; 0; 1]%Z)) /\
  DiagonalMatrix (map q [5; 7]%Z) = Ok (Mat 2 2 (map q [5; 0; 0; 7]%Z)) /\
  vgetFromIndexSet [10; 20; 30]%Z [2; 0; 2]%Z = Ok [30; 10; 30]%Z.
Proof. exact @vec_examples_expf. Qed.
