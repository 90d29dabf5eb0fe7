(** Products of matrices and vectors in IEEE double arithmetic (with rational numbers:
    mulv, mulm of MatrixModel.v).  BLAS does not say in which order the products are added,
    so a product is a relation: every order, fused or not, is allowed. *)
From Coq Require Import Reals Permutation.
From Flocq Require Import Core Binary Bits.
From Verif Require Import Base VectorModel MatrixModel HPSModel FloatModel.

(** A product and a sum rounded once. *)
Definition dfma (a b c : double) : double := b64_fma BinarySingleNaN.mode_NE a b c.

Definition zero_double (x : double) : bool := match x with B754_zero _ _ _ => true | _ => false end.

(** What DGEMV and DGEMM may return for the sum of the products of the pairs in a list, with
    ALPHA 1 and BETA 0: the partial sums are added in any order, a product may be fused with
    the sum it is added to, and a product with a factor 0 may be left out. *)
Inductive sum_value : list (double * double) -> double -> Prop :=
| sum_none : sum_value [] (dint 0)
| sum_skip a b : zero_double a || zero_double b = true -> sum_value [(a, b)] (dint 0)
| sum_mul a b : sum_value [(a, b)] (dmul a b)
| sum_fma a b l l' x : sum_value l x -> Permutation l' ((a, b) :: l) -> sum_value l' (dfma a b x)
| sum_add l1 l2 l' x y : sum_value l1 x -> sum_value l2 y -> Permutation l' (l1 ++ l2) -> sum_value l' (dadd x y).

(** Row and column of a matrix stored by rows. *)
Definition drow (A : matrix double) (i : nat) : res (list double) := mapM (fun j => mget A i j) (seq 0 (nc A)).
Definition dcol (A : matrix double) (j : nat) : res (list double) := mapM (fun i => mget A i j) (seq 0 (nr A)).

(** Matrix.hpp:789-816 matrix * vector: the outcomes. *)
Definition dmulv_outcome (A : matrix double) (x : list double) (r : res (list double)) : Prop :=
  if negb (nc A =? length x) then r = Throw invalid_argument
  else if nc A =? 0 then r = Throw illegal_blas_argument
  else match mapM (drow A) (seq 0 (nr A)) with
       | Ok rows => exists y, r = Ok y /\ Forall2 (fun row s => sum_value (combine row x) s) rows y
       | Throw e => r = Throw e
       | UB => r = UB
       end.

(** Matrix.hpp:827-855 matrix * matrix, for matrices that have rows and columns. *)
Definition dmulm_outcome (A B : matrix double) (r : res (matrix double)) : Prop :=
  if negb (nc A =? nr B) then r = Throw invalid_argument
  else if (nr A =? 0) || (nc A =? 0) || (nc B =? 0) then r = Throw illegal_blas_argument
  else match mapM (drow A) (seq 0 (nr A)), mapM (dcol B) (seq 0 (nc B)) with
       | Ok rows, Ok cols =>
           exists C, r = Ok (Mat (nr A) (nc B) (concat C)) /\
             Forall2 (fun row cs => Forall2 (fun col s => sum_value (combine row col) s) cols cs) rows C
       | _, _ => r = UB
       end.

(** Vector.hpp:641-655 scalar product of two vectors, without fused operations. *)
Definition dvdot (v rhs : list double) : res double :=
  if negb (length rhs =? length v) then Throw invalid_argument
  else foldM (fun s i => a <- vget rhs i ;; b <- vdata v i ;; Ok (dadd s (dmul a b))) (seq 0 (length v)) (dint 0).

(** Vector.hpp:502-514 and 536-548: the sum of two vectors. *)
Definition dvadd (v w : list double) : res (list double) :=
  if negb (length w =? length v) then Throw invalid_argument
  else mapM (fun i => a <- vdata v i ;; b <- vget w i ;; Ok (dadd a b)) (seq 0 (length v)).

(** The literal n / 2^k. *)
Definition dlit (n k : Z) : double := ddiv (dint n) (dint (2 ^ k)).

(** SpecialMatrices.hpp:102-114 InterpolationMatrixFine2Coarse. *)
Definition dFine2Coarse (ncoarse : nat) : res (matrix double) :=
  foldM (fun m i =>
    foldM (fun m j =>
      if j =? 2 * i then
        m1 <- mset m i j (dlit 1 1) ;; mset m1 i (j + 1) (dlit 1 1)
      else Ok m) (seq 0 (2 * ncoarse)) m)
  (seq 0 ncoarse) (mconst ncoarse (2 * ncoarse) (dint 0)).

(** SpecialMatrices.hpp:145-171 InterpolationMatrixCoarse2Fine. *)
Definition dCoarse2Fine (nfine : nat) : res (matrix double) :=
  let rows := nfine in
  let cols := nfine / 2 in
  let e0 := dlit 45 5 in let e1 := dlit (-9) 4 in let e2 := dlit 5 5 in
  let q3 := dlit 3 2 in let q1 := dlit 1 2 in
  foldM (fun m i =>
    foldM (fun m j =>
      if (i =? 0) && (j =? 0) then
        m1 <- mset m i j e0 ;; m2 <- mset m1 i (j + 1) e1 ;; mset m2 i (j + 2) e2
      else if (i =? rows - 1) && ((3 <=? cols) && (j =? cols - 3)) then
        m1 <- mset m i j e2 ;; m2 <- mset m1 i (j + 1) e1 ;; mset m2 i (j + 2) e0
      else if (i =? 2 * j + 1) && (i mod 2 =? 1) && negb (i =? rows - 1) then
        m1 <- mset m i j q3 ;; m2 <- mset m1 i (j + 1) q1 ;;
        m3 <- mset m2 (i + 1) j q1 ;; mset m3 (i + 1) (j + 1) q3
      else Ok m) (seq 0 cols) m)
  (seq 0 rows) (mconst rows cols (dint 0)).

(** Matrix.hpp:963-983 blockDiagonalMatrix. *)
Definition dblockDiagonal (ds : list (matrix double)) : res (matrix double) :=
  let m0 := mconst (sum_sizes (map (fun d => nr d) ds)) (sum_sizes (map (fun d => nc d) ds)) (dint 0) in
  st <- foldM (fun st d =>
          let '(m, r, c) := st in
          m' <- setBlock m r c d ;; Ok (m', r + nr d, c + nc d))
        ds (m0, 0, 0) ;;
  Ok (fst (fst st)).

(** HPSAlgorithm.hpp:1172-1179 one pass of the loop of uncoarsen_: the possible results for
    the boundary data [g]. *)
Definition drefine (nfine : nat) (g : list double) (r : res (list double)) : Prop :=
  match L <- dCoarse2Fine nfine ;; dblockDiagonal [L; L; L; L] with
  | Ok L12 => dmulv_outcome L12 g r
  | Throw e => r = Throw e
  | UB => r = UB
  end.

(** HPSAlgorithm.hpp:1038-1043 one pass of the inner loop of coarsenUpwards_. *)
Definition daverage (nfine : nat) (h : list double) (r : res (list double)) : Prop :=
  match L <- dFine2Coarse (nfine / 2) ;; dblockDiagonal [L; L; L; L] with
  | Ok L21 => dmulv_outcome L21 h r
  | Throw e => r = Throw e
  | UB => r = UB
  end.

(** HPSAlgorithm.hpp:1165-1183 uncoarsen_: all passes for a grid of [ngrid] cells. *)
Inductive duncoarsen (ngrid nc : nat) : nat -> list double -> list double -> Prop :=
| unc_done g : duncoarsen ngrid nc nc g g
| unc_pass n g g1 g' : n < nc -> drefine (ngrid / 2 ^ (nc - (n + 1))) g (Ok g1) ->
    duncoarsen ngrid nc (n + 1) g1 g' -> duncoarsen ngrid nc n g g'.

(** HPSAlgorithm.hpp:1197-1204 applyS_: the possible values on the interior edges. *)
Definition dinterior_data (S : matrix double) (g w : list double) (u : list double) : Prop :=
  exists p, dmulv_outcome S g (Ok p) /\ dvadd p w = Ok u.
