(** Property theorems.  Proofs are in SpecialProps.v; this file only restates the
    statements.  Written by tools/gen_thm.py. *)
From Coq Require Import Permutation.
From Verif Require Import Base VectorModel MatrixModel LinSpec LinSpec2.
From Verif Require Import MatProofs MatProofs2 MatProofs3 LinProofs Gauss LinProps.
From Verif Require Import SpecialProps.

(** [C07] Products of nonempty conforming matrices are the mathematical ones;
    non-conforming shapes are rejected.  Missing: shapes with a zero dimension,
    see [empty_products_refuted]. *)
Theorem products_partial :
  forall (a b : matrix Qc) (x : list Qc), well_formed a -> well_formed b ->
  (length x = nc a -> nc a <> 0 -> exists y, mulv a x = Ok y /\ is_product_mv a x y) /\
  (length x <> nc a -> mulv a x = Throw invalid_argument) /\
  (nr b = nc a -> nr a <> 0 -> nc a <> 0 -> nc b <> 0 ->
     exists c, mulm a b = Ok c /\ is_product_mm a b c) /\
  (nr b <> nc a -> mulm a b = Throw invalid_argument).
Proof. exact @products_partial_pf. Qed.
Print Assumptions products_partial.

Example products_example :
  let a := Mat 2 3 (map q [1; 2; 3; 4; 5; 6]%Z) in
  let b := Mat 3 1 (map q [7; 8; 9]%Z) in
  mulv a (map q [7; 8; 9]%Z) = Ok (map q [50; 122]%Z) /\
  mulm a b = Ok (Mat 2 1 (map q [50; 122]%Z)) /\ mulm b a = Throw invalid_argument.
Proof. exact @products_example_expf. Qed.

(** [C07] The full property is false: for an empty inner dimension the product
    exists mathematically (it is zero) but BLAS rejects the leading dimension 0. *)
Theorem empty_products_refuted :
  exists (a b : matrix Qc) (x : list Qc), well_formed a /\ well_formed b /\
    length x = nc a /\ nr b = nc a /\
    (exists y, is_product_mv a x y) /\ mulv a x = Throw illegal_blas_argument /\
    (exists c, is_product_mm a b c) /\ mulm a b = Throw illegal_blas_argument.
Proof. exact @empty_products_refuted_pf. Qed.
Print Assumptions empty_products_refuted.

(** [C08] Solving: for any LAPACK that meets the contract, every nonsingular
    system of at least one unknown, and every right-hand side.  The solution is
    unique.  Missing: the singular case, see [solve_singular_refuted]. *)
Theorem solve_partial :
  forall (gesv : gesv_t), gesv_contract gesv ->
  forall (a : matrix Qc), nonsingular a -> nr a <> 0 ->
  (forall b, length b = nr a -> exists x, solvev gesv a b = Ok x /\ length x = nr a /\
     is_product_mv a x b /\
     (forall x', length x' = nr a -> is_product_mv a x' b -> x' = x)) /\
  (forall b, well_formed b -> nr b = nr a -> exists x, solvem gesv a b = Ok x /\
     nr x = nr a /\ is_product_mm a x b) /\
  (forall b, length b <> nr a -> solvev gesv a b = Throw invalid_argument) /\
  (forall b, nr b <> nr a -> solvem gesv a b = Throw invalid_argument).
Proof. exact @solve_partial_pf. Qed.
Print Assumptions solve_partial.

(** The contract is satisfiable (by Gaussian elimination), and a nonsymmetric
    matrix meets the hypotheses. *)
Example solve_example :
  gesv_contract gauss_gesv /\
  nonsingular (Mat 2 2 (map q [2; 1; 0; 1]%Z)) /\
  solvev gauss_gesv (Mat 2 2 (map q [2; 1; 0; 1]%Z)) (map q [7; 3]%Z) = Ok (map q [2; 3]%Z).
Proof. exact @solve_example_expf. Qed.

(** [C08] The full property is false: every LAPACK that meets the contract
    reports a singular matrix only through INFO, which [solve] ignores; the
    caller gets a normal return, and the result is not a solution. *)
Theorem solve_singular_refuted :
  exists (a : matrix Qc) (b x : list Qc),
    well_formed a /\ nr a = nc a /\ ~ nonsingular a /\ length b = nr a /\
    (forall gesv, gesv_contract gesv -> solvev gesv a b = Ok x) /\
    ~ is_product_mv a x b.
Proof. exact @solve_singular_refuted_pf. Qed.
Print Assumptions solve_singular_refuted.

(** [C13] Coarse-to-fine interpolation for at least six fine cells. *)
Theorem coarse_to_fine_partial :
  forall (n : nat) (x0 h : Qc), 3 <= n ->
  exists C, Coarse2Fine (2 * n) = Ok C /\ well_formed C /\ nr C = 2 * n /\ nc C = n /\
    (forall a b, mulv C (at_centres (linear a b) x0 (two * h) n)
                 = Ok (at_centres (linear a b) x0 h (2 * n))) /\
    (forall a b c, exists y, mulv C (at_centres (quadratic a b c) x0 (two * h) n) = Ok y /\
       vval y 0 = quadratic a b c (centre x0 h 0) /\
       vval y (2 * n - 1) = quadratic a b c (centre x0 h (2 * n - 1))).
Proof. exact @coarse_to_fine_partial_pf. Qed.
Print Assumptions coarse_to_fine_partial.

Example coarse_to_fine_example :
  (C <- Coarse2Fine 6 ;; mulv C (map q [1; 3; 5]%Z)) =
  Ok [Q2Qc (1 # 2); Q2Qc (3 # 2); Q2Qc (5 # 2); Q2Qc (7 # 2); Q2Qc (9 # 2); Q2Qc (11 # 2)].
Proof. exact @coarse_to_fine_example_expf. Qed.

(** [C13] The full property is false: with four fine cells the last row is zero,
    so even the constant 1 is not reproduced; with two fine cells the call
    throws (reads and writes one past the row and then out of range). *)
Theorem coarse_to_fine_refuted :
  (exists C y, Coarse2Fine 4 = Ok C /\ mulv C (at_centres (linear 1 0) 0 two 2) = Ok y /\
     y <> at_centres (linear 1 0) 0 1 4) /\
  raises (Coarse2Fine 2).
Proof. exact @coarse_to_fine_refuted_pf. Qed.
Print Assumptions coarse_to_fine_refuted.

(** [C14] Fine-to-coarse interpolation averages neighbouring pairs and conserves
    the total, for every size; after coarse-to-fine interpolation it reproduces
    linear data for at least three coarse cells.  Missing: the last statement
    for one and two coarse cells, see [fine_after_coarse_refuted]. *)
Theorem fine_to_coarse_partial :
  forall n : nat, n <> 0 ->
  exists F, Fine2Coarse n = Ok F /\ well_formed F /\ nr F = n /\ nc F = 2 * n /\
    (forall v, length v = 2 * n -> exists w, mulv F v = Ok w /\ length w = n /\
       (forall i, i < n -> vval w i = (Q2Qc (1 # 2) * (vval v (2 * i) + vval v (2 * i + 1)))%Qc) /\
       (forall h, two * h * total w = h * total v)%Qc) /\
    (3 <= n -> forall a b x0 h, exists C, Coarse2Fine (2 * n) = Ok C /\
       (y <- mulv C (at_centres (linear a b) x0 h n) ;; mulv F y)
       = Ok (at_centres (linear a b) x0 h n)).
Proof. exact @fine_to_coarse_partial_pf. Qed.
Print Assumptions fine_to_coarse_partial.

Example fine_to_coarse_example :
  (F <- Fine2Coarse 2 ;; mulv F (map q [1; 3; 5; 9]%Z)) = Ok (map q [2; 7]%Z).
Proof. exact @fine_to_coarse_example_expf. Qed.

(** [C14] The full property is false for two coarse cells. *)
Theorem fine_after_coarse_refuted :
  exists C F y, Coarse2Fine 4 = Ok C /\ Fine2Coarse 2 = Ok F /\
    (z <- mulv C (at_centres (linear 1 0) 0 1 2) ;; mulv F z) = Ok y /\
    y <> at_centres (linear 1 0) 0 1 2.
Proof. exact @fine_after_coarse_refuted_pf. Qed.
Print Assumptions fine_after_coarse_refuted.

(** [C15] Block diagonal assembly for any list of blocks of any shapes: entries,
    and the product with a concatenated vector (when there is at least one
    column; BLAS rejects an empty matrix, see C07). *)
Theorem block_diagonal :
  forall (ds : list (matrix Qc)), (forall d, In d ds -> well_formed d) ->
  let blk k := nth k ds (Mat 0 0 []) in
  let r0 := block_start (map (fun d => nr d) ds) in
  let c0 := block_start (map (fun d => nc d) ds) in
  exists D, blockDiagonalMatrix ds = Ok D /\ well_formed D /\
    nr D = list_sum (map (fun d => nr d) ds) /\ nc D = list_sum (map (fun d => nc d) ds) /\
    (forall k i j, k < length ds -> i < nr (blk k) -> j < nc (blk k) ->
       entry D (r0 k + i) (c0 k + j) = entry (blk k) i j) /\
    (forall i j, i < nr D -> j < nc D ->
       (forall k, k < length ds ->
          ~ (r0 k <= i < r0 k + nr (blk k) /\ c0 k <= j < c0 k + nc (blk k))) ->
       entry D i j = Some 0%Qc) /\
    (forall xs ys, length xs = length ds -> length ys = length ds -> nc D <> 0 ->
       (forall k, k < length ds ->
          length (nth k xs []) = nc (blk k) /\ is_product_mv (blk k) (nth k xs []) (nth k ys [])) ->
       mulv D (concat xs) = Ok (concat ys)).
Proof. exact @block_diagonal_pf. Qed.
Print Assumptions block_diagonal.

Example block_diagonal_example :
  blockDiagonalMatrix [Mat 1 2 (map q [1; 2]%Z); Mat 2 1 (map q [3; 4]%Z)]
  = Ok (Mat 3 3 (map q [1; 2; 0; 0; 0; 3; 0; 0; 4]%Z)).
Proof. exact @block_diagonal_example_expf. Qed.
