(** Property theorems.  Proofs are in FProdProps.v; this file only restates the
    statements.  Written by tools/gen_thm.py. *)
From Coq Require Import Reals Lra Permutation.
From Flocq Require Import Core Binary Bits.
From Verif Require Import Base VectorModel MatrixModel LinSpec HPSModel FloatModel FloatSpec FProdModel FProdSpec.
From Verif Require Import FloatProofs FloatProofs2 MatProofs MatProofs3 FProdProofs FProdProofs2 FProdProofs3 FProdProofs4 FProdProofs5 FProdProofs6 FProdProofs7 FProdProofs8 FProdProofs9.
Local Open Scope R_scope.
From Verif Require Import FProdProps.

(** [C82] However a sum of products is ordered and fused: if the result is finite, its
    error is at most that of [n] roundings, [n] the number of nonzero products. *)
Theorem double_sum_error : forall l r, sum_value l r -> finite r ->
  Rabs (FloatSpec.val r - exact_sum l) <= rounding (terms l) (size_sum l).
Proof. exact @double_sum_error_pf. Qed.
Print Assumptions double_sum_error.

(** [C82] A sum of finite products whose sizes stay below 2^1023 with the roundings is
    finite in every order. *)
Theorem double_sum_finite : forall l r, sum_value l r -> numbers l ->
  size_sum l + rounding (terms l) (size_sum l) <= bpow radix2 1023 -> finite r.
Proof. exact @double_sum_finite_pf. Qed.
Print Assumptions double_sum_finite.

(** [C82] A sum of products that are multiples of 2^E, with sizes adding up to less than
    2^(E+53), is exact in every order. *)
Theorem double_sum_exact : forall E l r, sum_value l r -> numbers l ->
  Forall (fun p => exists k, product p = IZR k * bpow radix2 E) l -> size_sum l < bpow radix2 (53 + E) -> (-1074 <= E <= 971)%Z ->
  finite r /\ FloatSpec.val r = exact_sum l.
Proof. exact @double_sum_exact_pf. Qed.
Print Assumptions double_sum_exact.

(** [C82] An infinity or a NaN among the factors shows in the result, unless it is
    multiplied by zero. *)
Theorem double_sum_shows_nonfinite : forall l r, sum_value l r -> finite r ->
  Forall (fun p => (finite (fst p) /\ finite (snd p)) \/ zero_double (fst p) || zero_double (snd p) = true) l.
Proof. exact @double_sum_shows_nonfinite_pf. Qed.
Print Assumptions double_sum_shows_nonfinite.

(** [C82] Matrix times vector: the outcome has the length of the exact product, and every
    finite entry differs from the exact one by at most the roundings of its row. *)
Theorem double_product_error : forall D M x xq yq r, well_formed M -> same_matrix D M -> same_vector x xq ->
  mulv M xq = Ok yq -> dmulv_outcome D x r ->
  exists y, r = Ok y /\ length y = length yq /\
    forall i, (i < length yq)%nat -> finite (nth i y (dint 0)) ->
      Rabs (FloatSpec.val (nth i y (dint 0)) - qval (nth i yq 0%Qc)) <=
      rounding (nonzeros (qproducts M xq i)) (sizes (qproducts M xq i)).
Proof. exact @double_product_error_pf. Qed.
Print Assumptions double_product_error.

(** [C82] Matrix times matrix, entry by entry. *)
Theorem double_matrix_product_error : forall DM M DN N P r, well_formed M -> well_formed N -> same_matrix DM M -> same_matrix DN N ->
  mulm M N = Ok P -> dmulm_outcome DM DN r ->
  exists C, r = Ok C /\ nr C = nr P /\ nc C = nc P /\ length (dat C) = length (dat P) /\
    forall i j, (i < nr P)%nat -> (j < nc P)%nat ->
      finite (nth (i * nc P + j) (dat C) (dint 0)) ->
       Rabs (FloatSpec.val (nth (i * nc P + j) (dat C) (dint 0)) - qval (nth (i * nc P + j) (dat P) 0%Qc)) <=
       rounding (nonzeros (qproducts M (qcolumn N j) i)) (sizes (qproducts M (qcolumn N j) i)).
Proof. exact @double_matrix_product_error_pf. Qed.
Print Assumptions double_matrix_product_error.

(** [C82] The scalar product of two vectors. *)
Theorem double_dot_error : forall v w r, dvdot v w = Ok r -> finite r ->
  length w = length v /\
  Rabs (FloatSpec.val r - exact_sum (combine w v)) <= rounding (terms (combine w v)) (size_sum (combine w v)).
Proof. exact @double_dot_error_pf. Qed.
Print Assumptions double_dot_error.

(** [C82] The values on the interior edges, S g + w. *)
Theorem double_interior_error : forall DS S g gq w wq u vq, well_formed S -> same_matrix DS S -> same_vector g gq -> same_vector w wq ->
  (p <- mulv S gq ;; vadd p wq) = Ok vq -> dinterior_data DS g w u ->
  length u = length vq /\ forall i, (i < length vq)%nat -> finite (nth i u (dint 0)) ->
    Rabs (FloatSpec.val (nth i u (dint 0)) - qval (nth i vq 0%Qc)) <=
    rounding (1 + nonzeros (qproducts S gq i)) (sizes (qproducts S gq i) + Rabs (qval (nth i wq 0%Qc))).
Proof. exact @double_interior_error_pf. Qed.
Print Assumptions double_interior_error.

(** Every well-formed matrix and vector have an outcome. *)
Example double_product_exists : forall D x, well_formed D -> exists r, dmulv_outcome D x r.
Proof. exact @double_product_exists_expf. Qed.

Example order_matters : exists r s, sum_value three_pairs r /\ sum_value three_pairs s /\ finite r /\ finite s /\ r <> s.
Proof. exact @order_matters_expf. Qed.

(** [C83] One pass to the finer resolution: every entry is finite and its error does not
    grow with the number of cells. *)
Theorem double_refine_error : forall c g gq yq r B, (3 <= c)%nat -> same_vector g gq -> length gq = (4 * c)%nat ->
  bounded B g -> B <= bpow radix2 1020 ->
  (L <- Coarse2Fine (2 * c) ;; M <- four_diag L ;; mulv M gq) = Ok yq -> drefine (2 * c) g r ->
  exists y, r = Ok y /\ length y = (8 * c)%nat /\
    forall i, (i < 8 * c)%nat -> finite (nth i y (dint 0)) /\
      Rabs (FloatSpec.val (nth i y (dint 0)) - qval (nth i yq 0%Qc)) <= bpow radix2 (-50) * B + bpow radix2 (-1073).
Proof. exact @double_refine_error_pf. Qed.
Print Assumptions double_refine_error.

(** [C83] One pass is exact for data of at most 46 binary digits. *)
Theorem double_refine_exact : forall c g gq yq r E, (3 <= c)%nat -> same_vector g gq -> length gq = (4 * c)%nat ->
  Forall (few_digits E) g -> (-1069 <= E <= 976)%Z ->
  (L <- Coarse2Fine (2 * c) ;; M <- four_diag L ;; mulv M gq) = Ok yq -> drefine (2 * c) g r ->
  exists y, r = Ok y /\ length y = (8 * c)%nat /\
    forall i, (i < 8 * c)%nat -> is_double (nth i y (dint 0)) (nth i yq 0%Qc).
Proof. exact @double_refine_exact_pf. Qed.
Print Assumptions double_refine_exact.

(** [C83] All passes of uncoarsen_ together, against the exact passes on the patch. *)
Theorem double_passes_error : forall n0 tau tau' g g' B, (3 <= n0)%nat -> gnx (pgrid tau) = (2 ^ pnc tau * n0)%nat ->
  same_vector g (pg tau) -> length g = (4 * n0)%nat -> bounded B g -> 3 ^ pnc tau * (B + bpow radix2 (-1000)) <= bpow radix2 1020 ->
  uncoarsen tau = Ok tau' -> duncoarsen (gnx (pgrid tau)) (pnc tau) 0 g g' ->
  length g' = (4 * gnx (pgrid tau))%nat /\ Forall finite g' /\ length (pg tau') = length g' /\
  forall i, (i < length g')%nat -> Rabs (FloatSpec.val (nth i g' (dint 0)) - qval (nth i (pg tau') 0%Qc)) <=
    INR (pnc tau) * 3 ^ pnc tau * (bpow radix2 (-50) * (B + bpow radix2 (-1000))).
Proof. exact @double_passes_error_pf. Qed.
Print Assumptions double_passes_error.

(** [C83] Between the ends of the sides one pass keeps every constant whose quarter is a
    double. *)
Theorem double_constant_inside : forall c g r v, (3 <= c)%nat -> length g = (4 * c)%nat -> constant v g ->
  (exists q, finite q /\ FloatSpec.val q = v / 4) -> drefine (2 * c) g r ->
  exists y, r = Ok y /\ length y = (8 * c)%nat /\
    forall i, (i < 8 * c)%nat -> (i mod (2 * c))%nat <> 0%nat -> (i mod (2 * c))%nat <> (2 * c - 1)%nat ->
      finite (nth i y (dint 0)) /\ FloatSpec.val (nth i y (dint 0)) = v.
Proof. exact @double_constant_inside_pf. Qed.
Print Assumptions double_constant_inside.

(** [C83] All passes of uncoarsen_ together keep a constant of at most 46 binary digits. *)
Theorem double_constant_kept_partial : forall n0 ncoarse E m g g', (3 <= n0)%nat -> (Z.abs m <= 2 ^ 46)%Z -> (-1069 <= E <= 976)%Z ->
  duncoarsen (2 ^ ncoarse * n0) ncoarse 0 g g' -> length g = (4 * n0)%nat -> constant (IZR m * bpow radix2 E) g ->
  length g' = (4 * (2 ^ ncoarse * n0))%nat /\ constant (IZR m * bpow radix2 E) g'.
Proof. exact @double_constant_kept_partial_pf. Qed.
Print Assumptions double_constant_kept_partial.

(** [C83] Other constants are not kept: 0.3 changes at the ends of the sides. *)
Theorem double_constant_kept_refuted : exists v g y, constant v g /\ length g = 12%nat /\ drefine 6 g (Ok y) /\ ~ constant v y.
Proof. exact @double_constant_kept_refuted_pf. Qed.
Print Assumptions double_constant_kept_refuted.

(** [C83] One pass to the coarser resolution: the error does not grow with the number of
    cells. *)
Theorem double_average_error : forall c h hq yq r B, (0 < c)%nat -> same_vector h hq -> length hq = (8 * c)%nat ->
  bounded B h -> B <= bpow radix2 1020 ->
  (L <- Fine2Coarse c ;; M <- four_diag L ;; mulv M hq) = Ok yq -> daverage (2 * c) h r ->
  exists y, r = Ok y /\ length y = (4 * c)%nat /\
    forall i, (i < 4 * c)%nat -> finite (nth i y (dint 0)) /\
      Rabs (FloatSpec.val (nth i y (dint 0)) - qval (nth i yq 0%Qc)) <= bpow radix2 (-51) * B + bpow radix2 (-1073).
Proof. exact @double_average_error_pf. Qed.
Print Assumptions double_average_error.

(** [C83] Averaging keeps every constant whose half is a double. *)
Theorem double_average_constant : forall c h r v, (0 < c)%nat -> length h = (8 * c)%nat -> constant v h ->
  (exists d, finite d /\ FloatSpec.val d = v / 2) -> daverage (2 * c) h r ->
  exists y, r = Ok y /\ length y = (4 * c)%nat /\ constant v y.
Proof. exact @double_average_constant_pf. Qed.
Print Assumptions double_average_constant.

(** A case with two passes: three cells per side, constant 1, twelve cells in the end. *)
Example uncoarsen_exists : exists g g', length g = 12%nat /\ constant (IZR 1 * bpow radix2 0) g /\ duncoarsen 12 2 0 g g'.
Proof. exact @uncoarsen_exists_expf. Qed.

Example exact_passes_exist : exists tau', uncoarsen ex_refined = Ok tau' /\ gnx (pgrid ex_refined) = (2 ^ pnc ex_refined * 3)%nat /\
  length (pg ex_refined) = 12%nat.
Proof. exact @exact_passes_exist_expf. Qed.
