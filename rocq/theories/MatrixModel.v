(** Model of src/Matrix.hpp (class Matrix, products, solves) and
    src/SpecialMatrices.hpp. *)
From Verif Require Import Base VectorModel.

(** Matrix.hpp:85-97: number of rows, number of columns, row-major storage.  The
    constructors Matrix.hpp:143-160 do not check the length of the data. *)
Record matrix (A : Type) : Type := Mat { nr : nat; nc : nat; dat : list A }.
Arguments Mat {A} _ _ _.
Arguments nr {A} _.
Arguments nc {A} _.
Arguments dat {A} _.

Section Poly.
Context {A : Type}.

(** Matrix.hpp:711-727 flattenIndex_: the checks are [i > nrows_] and
    [j > ncols_]. *)
Definition flattenIndex (m : matrix A) (i j : nat) : res nat :=
  if nr m <? i then Throw out_of_range
  else if nc m <? j then Throw out_of_range
  else Ok (i * nc m + j).

(** Matrix.hpp:245-258 getEntry, operator()(i,j) as an rvalue. *)
Definition mget (m : matrix A) (i j : nat) : res A :=
  p <- flattenIndex m i j ;; vdata (dat m) p.

(** Matrix.hpp:256-258 operator()(i,j) on the left of an assignment. *)
Definition mset (m : matrix A) (i j : nat) (a : A) : res (matrix A) :=
  p <- flattenIndex m i j ;;
  if p <? length (dat m) then Ok (Mat (nr m) (nc m) (upd (dat m) p a)) else UB.

(** Matrix.hpp:129-134: every entry equal to [a]. *)
Definition mconst (r c : nat) (a : A) : matrix A := Mat r c (repeat a (r * c)).

(** The loop nest [for i < r, for j < c: res(i,j) = f i j] on a fresh r x c
    matrix, which writes every entry once in storage order. *)
Definition mbuild (r c : nat) (f : nat -> nat -> res A) : res (matrix A) :=
  rows <- mapM (fun i => mapM (fun j => f i j) (seq 0 c)) (seq 0 r) ;;
  Ok (Mat r c (concat rows)).

(** Matrix.hpp:269-277 operator()(a,b,c,d) with the row count (b-a)+1 and column
    count (d-c)+1 as arguments. *)
Definition mrange (m : matrix A) (a rows c cols : nat) : res (matrix A) :=
  mbuild rows cols (fun i j => mget m (a + i) (c + j)).

(** Matrix.hpp:285-292 getRow. *)
Definition getRow (zero : A) (m : matrix A) (i : nat) : res (list A) :=
  rm <- mrange m i 1 0 (nc m) ;;
  foldM (fun r j => a <- mget rm 0 j ;; vset r j a) (seq 0 (nc m)) (repeat zero (nc m)).

(** Matrix.hpp:300-307 getCol: the loop bound is the number of columns. *)
Definition getCol (zero : A) (m : matrix A) (j : nat) : res (list A) :=
  cm <- mrange m 0 (nr m) j 1 ;;
  foldM (fun r i => a <- mget cm i 0 ;; vset r i a) (seq 0 (nc m)) (repeat zero (nr m)).

(** Matrix.hpp:399-419 setColumn. *)
Definition setColumn (m : matrix A) (j : nat) (v : list A) : res (matrix A) :=
  if nc m <? j then Throw out_of_range
  else if negb (length v =? nr m) then Throw invalid_argument
  else foldM (fun m i => a <- vget v i ;; mset m i j a) (seq 0 (nr m)) m.

(** Matrix.hpp:483-510 getBlock.  Simplification: sums do not wrap; see
    [getBlock_sz]. *)
Definition getBlock (m : matrix A) (ri ci rl cl : nat) : res (matrix A) :=
  if nr m <? ri + rl then Throw out_of_range
  else if nc m <? ci + cl then Throw out_of_range
  else mbuild rl cl (fun i j => mget m (ri + i) (ci + j)).

(** Matrix.hpp:519-542 setBlock, same simplification. *)
Definition setBlock (m : matrix A) (ri ci : nat) (b : matrix A) : res (matrix A) :=
  if nr m <? ri + nr b then Throw out_of_range
  else if nc m <? ci + nc b then Throw out_of_range
  else foldM (fun m i =>
         foldM (fun m j => a <- mget b i j ;; mset m (ri + i) (ci + j) a)
               (seq 0 (nc b)) m)
       (seq 0 (nr b)) m.

(** Matrix.hpp:549-557 T. *)
Definition mT (m : matrix A) : res (matrix A) :=
  mbuild (nc m) (nr m) (fun j i => mget m i j).

End Poly.

(** Matrix.hpp:316-352 getFromIndexSet (and 361-363).  The tests at 335 and 341
    only build a message.  An int index is converted to size_t when passed to
    operator(), so a negative index is a huge one, which flattenIndex_
    rejects. *)
Definition mget_z {A} (m : matrix A) (i j : Z) : res A :=
  if (i <? 0)%Z then Throw out_of_range
  else if nr m <? Z.to_nat i then Throw out_of_range
  else if (j <? 0)%Z then Throw out_of_range
  else mget m (Z.to_nat i) (Z.to_nat j).

Definition mgetFromIndexSet {A} (m : matrix A) (I J : list Z) : res (matrix A) :=
  if nr m <? length I then Throw out_of_range
  else if nc m <? length J then Throw out_of_range
  else mbuild (length I) (length J)
         (fun i j => zi <- vget I i ;; zj <- vget J j ;; mget_z m zi zj).

(** Matrix.hpp:430-472 blockPermute. *)
Definition mblockPermute {A} (m : matrix A) (I J R C : list nat) : res (matrix A) :=
  if negb (sum_sizes R =? nr m) then Throw invalid_argument
  else if negb (sum_sizes C =? nc m) then Throw invalid_argument
  else gi <- blockIndexList I R (nr m) ;;
       gj <- blockIndexList J C (nc m) ;;
       mgetFromIndexSet m gi gj.

(** ** Arithmetic (Matrix<double>)

    The compound operators update [this] in place, entry by entry, reading only
    the entry being written; they are modelled by rebuilding the storage. *)

(** Matrix.hpp:587-595 unary minus. *)
Definition mneg (m : matrix Qc) : res (matrix Qc) :=
  mbuild (nr m) (nc m) (fun i j => a <- mget m i j ;; Ok (- a)%Qc).

(** Matrix.hpp:603-625 (+=), 648-670 (-=). *)
Definition mzipeq (op : Qc -> Qc -> Qc) (a b : matrix Qc) : res (matrix Qc) :=
  if negb (nr b =? nr a) then Throw invalid_argument
  else if negb (nc b =? nc a) then Throw invalid_argument
  else mbuild (nr a) (nc a)
         (fun i j => x <- mget a i j ;; y <- mget b i j ;; Ok (op x y)).
Definition maddeq := mzipeq Qcplus.
Definition msubeq := mzipeq Qcminus.

(** setRow (Matrix.hpp:371-391) and the compound operators with a scalar (633-640,
    678-685, 693-700) are in InPlaceModel. *)

(** Matrix.hpp:740-744, 755-759: copy, then compound operator. *)
Definition madd (a b : matrix Qc) : res (matrix Qc) := maddeq a b.
Definition msub (a b : matrix Qc) : res (matrix Qc) := msubeq a b.

(** Matrix.hpp:770-778 scalar * matrix. *)
Definition mscal (c : Qc) (m : matrix Qc) : res (matrix Qc) :=
  mbuild (nr m) (nc m) (fun i j => a <- mget m i j ;; Ok (c * a)%Qc).

(** Matrix.hpp:994-1018 matrixInfNorm. *)
Definition matrixInfNorm (a b : matrix Qc) : res Qc :=
  if negb (nr a =? nr b) then Throw invalid_argument
  else if negb (nc a =? nc b) then Throw invalid_argument
  else foldM (fun m i =>
         foldM (fun m j => x <- mget a i j ;; y <- mget b i j ;;
                           Ok (Qcmax m (Qcabs (x - y)%Qc)))
               (seq 0 (nc b)) m)
       (seq 0 (nr a)) 0%Qc.

(** ** BLAS and LAPACK

    Documented behaviour of the Fortran routines.  Arrays are column-major: entry
    (i,j) of an array with leading dimension [ld] is element [i + j*ld].  An
    illegal leading dimension makes the reference implementation call XERBLA,
    which stops the program. *)
Definition fget (a : list Qc) (ld i j : nat) : res Qc := vdata a (i + j * ld).

Fixpoint sumM (n : nat) (f : nat -> res Qc) : res Qc :=
  match n with
  | O => Ok 0%Qc
  | S k => s <- sumM k f ;; x <- f k ;; Ok (s + x)%Qc
  end.

(** DGEMV: y := alpha*op(A)*x + beta*y with INCX = INCY = 1; A is M x N. *)
Definition dgemv (trans : bool) (M N : nat) (alpha : Qc) (a : list Qc) (lda : nat)
    (x : list Qc) (beta : Qc) (y : list Qc) : res (list Qc) :=
  if lda <? Nat.max 1 M then Throw illegal_blas_argument
  else
    let lenx := if trans then M else N in
    let leny := if trans then N else M in
    if negb (leny =? length y) then UB
    else mapM (fun j =>
           s <- sumM lenx (fun i =>
                  e <- (if trans then fget a lda i j else fget a lda j i) ;;
                  xi <- vdata x i ;; Ok (e * xi)%Qc) ;;
           yj <- vdata y j ;;
           Ok (alpha * s + beta * yj)%Qc) (seq 0 leny).

(** DGEMM: C := alpha*op(A)*op(B) + beta*C; op(A) is M x K, op(B) is K x N, C is
    M x N.  [C] must not be larger than the M x N array that is written, which is
    the case at the only call site. *)
Definition dgemm (ta tb : bool) (M N K : nat) (alpha : Qc) (a : list Qc) (lda : nat)
    (b : list Qc) (ldb : nat) (beta : Qc) (c : list Qc) (ldc : nat) : res (list Qc) :=
  if lda <? Nat.max 1 (if ta then K else M) then Throw illegal_blas_argument
  else if ldb <? Nat.max 1 (if tb then N else K) then Throw illegal_blas_argument
  else if ldc <? Nat.max 1 M then Throw illegal_blas_argument
  else if negb ((ldc =? M) && (length c =? M * N)) then UB
  else
    cols <- mapM (fun j => mapM (fun i =>
              s <- sumM K (fun k =>
                     x <- (if ta then fget a lda k i else fget a lda i k) ;;
                     y <- (if tb then fget b ldb j k else fget b ldb k j) ;;
                     Ok (x * y)%Qc) ;;
              cij <- fget c ldc i j ;;
              Ok (alpha * s + beta * cij)%Qc) (seq 0 M)) (seq 0 N) ;;
    Ok (concat cols).

(** DGESV as a function: [gesv n nrhs a b = (x, info)], a an n x n array and b, x
    n x nrhs arrays with leading dimension n. *)
Definition gesv_t : Type := nat -> nat -> list Qc -> list Qc -> list Qc * Z.

(** Matrix.hpp:789-816 matrix * vector. *)
Definition mulv (m : matrix Qc) (x : list Qc) : res (list Qc) :=
  if negb (nc m =? length x) then Throw invalid_argument
  else dgemv true (nc m) (nr m) 1%Qc (dat m) (nc m) x 0%Qc (repeat 0%Qc (nr m)).

(** Matrix.hpp:827-855 matrix * matrix. *)
Definition mulm (a b : matrix Qc) : res (matrix Qc) :=
  if negb (nc a =? nr b) then Throw invalid_argument
  else
    c <- dgemm true true (nr a) (nc b) (nc a) 1%Qc (dat a) (nc a) (dat b) (nc b)
               0%Qc (repeat 0%Qc (nc b * nr a)) (nr a) ;;
    mT (Mat (nc b) (nr a) c).

(** Matrix.hpp:866-904 solve(A, b).  A non-zero INFO is only written to stderr.
    LDA = LDB = N must be at least 1. *)
Definition solvev (gesv : gesv_t) (a : matrix Qc) (b : list Qc) : res (list Qc) :=
  if negb (nr a =? nc a) then Throw invalid_argument
  else if negb (nr a =? length b) then Throw invalid_argument
  else
    at_ <- mT a ;;
    if nr at_ <? 1 then Throw illegal_blas_argument
    else Ok (fst (gesv (nr at_) 1 (dat at_) b)).

(** Matrix.hpp:915-953 solve(A, B). *)
Definition solvem (gesv : gesv_t) (a b : matrix Qc) : res (matrix Qc) :=
  if negb (nr a =? nc a) then Throw invalid_argument
  else if negb (nr a =? nr b) then Throw invalid_argument
  else
    x <- mT b ;;
    at_ <- mT a ;;
    if nr at_ <? 1 then Throw illegal_blas_argument
    else mT (Mat (nr x) (nc x) (fst (gesv (nr at_) (nc b) (dat at_) (dat x)))).

(** Matrix.hpp:963-983 blockDiagonalMatrix. *)
Definition blockDiagonalMatrix (ds : list (matrix Qc)) : res (matrix Qc) :=
  let m0 := mconst (sum_sizes (map (fun d => nr d) ds)) (sum_sizes (map (fun d => nc d) ds)) 0%Qc in
  st <- foldM (fun st d =>
          let '(m, r, c) := st in
          m' <- setBlock m r c d ;; Ok (m', r + nr d, c + nc d))
        ds (m0, 0, 0) ;;
  Ok (fst (fst st)).

(** ** Special matrices *)

(** SpecialMatrices.hpp:18-25 IdentityMatrix. *)
Definition IdentityMatrix (n : nat) : res (matrix Qc) :=
  foldM (fun m i => mset m i i 1%Qc) (seq 0 n) (mconst n n 0%Qc).

(** SpecialMatrices.hpp:81-88 DiagonalMatrix. *)
Definition DiagonalMatrix (d : list Qc) : res (matrix Qc) :=
  foldM (fun m i => a <- vget d i ;; mset m i i a) (seq 0 (length d))
        (mconst (length d) (length d) 0%Qc).

Definition half : Qc := Q2Qc (1 # 2).

(** SpecialMatrices.hpp:102-114 InterpolationMatrixFine2Coarse. *)
Definition Fine2Coarse (ncoarse : nat) : res (matrix Qc) :=
  foldM (fun m i =>
    foldM (fun m j =>
      if j =? 2 * i then
        m1 <- mset m i j half ;; mset m1 i (j + 1) half
      else Ok m) (seq 0 (2 * ncoarse)) m)
  (seq 0 ncoarse) (mconst ncoarse (2 * ncoarse) 0%Qc).

Definition edge0 : Qc := Q2Qc (45 # 32).   (* 1.40625 *)
Definition edge1 : Qc := Q2Qc (- 9 # 16).  (* -0.5625 *)
Definition edge2 : Qc := Q2Qc (5 # 32).    (* 0.15625 *)
Definition threeq : Qc := Q2Qc (3 # 4).
Definition oneq : Qc := Q2Qc (1 # 4).

(** SpecialMatrices.hpp:145-171 InterpolationMatrixCoarse2Fine.  In
    [j == ncols_ - k] the difference is a size_t, so for fewer than three columns
    it wraps and the comparison is false. *)
Definition Coarse2Fine (nfine : nat) : res (matrix Qc) :=
  let rows := nfine in
  let cols := nfine / 2 in
  foldM (fun m i =>
    foldM (fun m j =>
      if (i =? 0) && (j =? 0) then
        m1 <- mset m i j edge0 ;; m2 <- mset m1 i (j + 1) edge1 ;; mset m2 i (j + 2) edge2
      else if (i =? rows - 1) && ((3 <=? cols) && (j =? cols - 3)) then
        m1 <- mset m i j edge2 ;; m2 <- mset m1 i (j + 1) edge1 ;; mset m2 i (j + 2) edge0
      else if (i =? 2 * j + 1) && (i mod 2 =? 1) && negb (i =? rows - 1) then
        m1 <- mset m i j threeq ;; m2 <- mset m1 i (j + 1) oneq ;;
        m3 <- mset m2 (i + 1) j oneq ;; mset m3 (i + 1) (j + 1) threeq
      else Ok m) (seq 0 cols) m)
  (seq 0 rows) (mconst rows cols 0%Qc).

(** ** Versions with 64-bit [size_t] arithmetic *)

(** Matrix.hpp:483-510 getBlock with wrap-around: the loops run
    [w64(ri+rl) - ri] and [w64(ci+cl) - ci] times; the result object is given the
    requested sizes together with whatever data was collected. *)
Definition getBlock_sz {A} (m : matrix A) (ri ci rl cl : N) : res (N * N * list A) :=
  let re := w64 (ri + rl) in
  let ce := w64 (ci + cl) in
  if (N.of_nat (nr m) <? re)%N then Throw out_of_range
  else if (N.of_nat (nc m) <? ce)%N then Throw out_of_range
  else if too_long (w64 (rl * cl)) then Throw length_error
  else rows <- mapM (fun i => mapM (fun j => mget m (N.to_nat ri + i) (N.to_nat ci + j))
                                   (seq 0 (N.to_nat (ce - ci))))
                    (seq 0 (N.to_nat (re - ri))) ;;
       Ok (rl, cl, concat rows).
