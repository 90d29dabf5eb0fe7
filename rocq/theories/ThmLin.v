(** Property theorems.  Proofs are in LinProps.v; this file only restates the
    statements.  Written by tools/gen_thm.py. *)
From Coq Require Import Permutation NArith Nnat.
From Verif Require Import Base VectorModel MatrixModel InPlaceModel LinSpec LinSpec2.
From Verif Require Import MatProofs MatProofs2 MatProofs3 LinProofs.
From Verif Require Import LinProps.

(** [C01] Transposing a matrix of any element type and shape. *)
Theorem transpose : forall (A : Type) (m : matrix A), well_formed m ->
  exists t, mT m = Ok t /\ well_formed t /\ nr t = nc m /\ nc t = nr m /\
    (forall i j, i < nr m -> j < nc m -> entry t j i = entry m i j) /\
    mT t = Ok m.
Proof. exact @transpose_pf. Qed.
Print Assumptions transpose.

Example transpose_example :
  well_formed mat23 /\ mT mat23 = Ok (Mat 3 2 [1; 4; 2; 5; 3; 6]%Z).
Proof. exact @transpose_example_expf. Qed.

(** [C02] Writing a block and reading it back, for all positions for which
    position + block size does not overflow 64 bits.  (The block is assumed to
    have fewer than 2^60 entries, the largest size a std::vector<double> can
    have.)  Missing from the full property: positions for which the sum
    overflows; see [block_write_wraps_refuted]. *)
Theorem block_write_read_partial :
  forall (A : Type) (m b : matrix A) (r c : N),
  well_formed m -> well_formed b ->
  (r + N.of_nat (nr b) < 2 ^ 64)%N -> (c + N.of_nat (nc b) < 2 ^ 64)%N ->
  (N.of_nat (nr b) * N.of_nat (nc b) < 2 ^ 60)%N ->
  let fits := N.to_nat r + nr b <= nr m /\ N.to_nat c + nc b <= nc m in
  (fits -> exists m',
     setBlock_st m r c b = (m', Ok tt) /\
     well_formed m' /\ nr m' = nr m /\ nc m' = nc m /\
     getBlock_sz m' r c (N.of_nat (nr b)) (N.of_nat (nc b))
       = Ok (N.of_nat (nr b), N.of_nat (nc b), dat b) /\
     (forall i j, i < nr m -> j < nc m ->
        (i < N.to_nat r \/ N.to_nat r + nr b <= i \/ j < N.to_nat c \/ N.to_nat c + nc b <= j) ->
        entry m' i j = entry m i j) /\
     (forall i j, i < nr b -> j < nc b ->
        entry m' (N.to_nat r + i) (N.to_nat c + j) = entry b i j)) /\
  (~ fits -> setBlock_st m r c b = (m, Throw out_of_range) /\
             getBlock_sz m r c (N.of_nat (nr b)) (N.of_nat (nc b)) = Throw out_of_range).
Proof. exact @block_write_read_partial_pf. Qed.
Print Assumptions block_write_read_partial.

Example block_write_read_example :
  let b := Mat 1 2 [8; 9]%Z in
  well_formed mat23 /\ well_formed b /\
  setBlock_st mat23 1 1 b = (Mat 2 3 [1; 2; 3; 4; 8; 9]%Z, Ok tt) /\
  setBlock_st mat23 1 2 b = (mat23, Throw out_of_range).
Proof. exact @block_write_read_example_expf. Qed.

(** [C02] The full property is false: at row 2^64 - 1 a block with two rows is
    accepted silently, although it does not fit. *)
Theorem block_write_wraps_refuted :
  exists (m b : matrix Z) (r c : N),
    well_formed m /\ well_formed b /\ (r < 2 ^ 64)%N /\ (c < 2 ^ 64)%N /\
    nr m < N.to_nat r + nr b /\
    setBlock_st m r c b = (m, Ok tt).
Proof. exact @block_write_wraps_refuted_pf. Qed.
Print Assumptions block_write_wraps_refuted.

(** [C03] Selecting rows and columns by index sets that are in range and not
    longer than the matrix.  Indices that are negative or larger than the size
    are rejected.  Missing: index = size, longer index sets with repetitions,
    and bad columns together with no rows; see the refutations below. *)
Theorem index_sets_partial :
  forall (A : Type) (m : matrix A) (I J : list Z),
  well_formed m -> length I <= nr m -> length J <= nc m ->
  ((forall z, In z I -> (0 <= z < Z.of_nat (nr m))%Z) ->
   (forall z, In z J -> (0 <= z < Z.of_nat (nc m))%Z) ->
   exists s, mgetFromIndexSet m I J = Ok s /\ well_formed s /\
     nr s = length I /\ nc s = length J /\
     forall a b, a < length I -> b < length J ->
       entry s a b = entry m (Z.to_nat (nth a I 0%Z)) (Z.to_nat (nth b J 0%Z))) /\
  ((forall z, In z I -> z <> Z.of_nat (nr m)) ->
   (forall z, In z J -> z <> Z.of_nat (nc m)) ->
   I <> [] -> J <> [] ->
   (exists z, (In z I /\ ~ (0 <= z < Z.of_nat (nr m))%Z) \/
              (In z J /\ ~ (0 <= z < Z.of_nat (nc m))%Z)) ->
   mgetFromIndexSet m I J = Throw out_of_range).
Proof. exact @index_sets_partial_pf. Qed.
Print Assumptions index_sets_partial.

Example index_sets_example :
  mgetFromIndexSet mat23 [1; 0]%Z [2; 2; 0]%Z = Ok (Mat 2 3 [6; 6; 4; 3; 3; 1]%Z) /\
  mgetFromIndexSet mat23 [1]%Z [-1]%Z = Throw out_of_range /\
  mgetFromIndexSet mat23 [1]%Z [4]%Z = Throw out_of_range.
Proof. exact @index_sets_example_expf. Qed.

(** [C03] The full property is false: column index = number of columns is
    accepted and silently returns the first entry of the next row; row index =
    number of rows reads past the storage; and in-range indices are rejected
    when there are more of them than rows. *)
Theorem index_sets_refuted :
  (exists (m : matrix Z) I J z, well_formed m /\ In z J /\ ~ (0 <= z < Z.of_nat (nc m))%Z /\
     exists s, mgetFromIndexSet m I J = Ok s) /\
  (exists (m : matrix Z) I J z, well_formed m /\ In z I /\ ~ (0 <= z < Z.of_nat (nr m))%Z /\
     mgetFromIndexSet m I J = UB) /\
  (exists (m : matrix Z) I J, well_formed m /\
     (forall z, In z I -> (0 <= z < Z.of_nat (nr m))%Z) /\
     (forall z, In z J -> (0 <= z < Z.of_nat (nc m))%Z) /\
     raises (mgetFromIndexSet m I J)).
Proof. exact @index_sets_refuted_pf. Qed.
Print Assumptions index_sets_refuted.

(** [C04] Block permutation of a matrix: where blocks go, and how to undo it. *)
Theorem block_permute :
  forall (A : Type) (m : matrix A) (I J R C : list nat),
  well_formed m ->
  is_perm I (length R) -> list_sum R = nr m ->
  is_perm J (length C) -> list_sum C = nc m ->
  exists p, mblockPermute m I J R C = Ok p /\
    well_formed p /\ nr p = nr m /\ nc p = nc m /\
    (forall a b i j, a < length R -> b < length C ->
       i < nth (nth a I 0) R 0 -> j < nth (nth b J 0) C 0 ->
       entry p (block_start (rearranged R I) a + i) (block_start (rearranged C J) b + j)
       = entry m (block_start R (nth a I 0) + i) (block_start C (nth b J 0) + j)) /\
    (forall I' J', inverse_perm I I' -> inverse_perm J J' ->
       mblockPermute p I' J' (rearranged R I) (rearranged C J) = Ok m).
Proof. exact @block_permute_pf. Qed.
Print Assumptions block_permute.

Example block_permute_example :
  is_perm [2; 0; 1] 3 /\ inverse_perm [2; 0; 1] [1; 2; 0] /\
  mblockPermute mat23 [1; 0] [2; 0; 1] [1; 1] [1; 1; 1] = Ok (Mat 2 3 [6; 4; 5; 3; 1; 2]%Z).
Proof. exact @block_permute_example_expf. Qed.

(** [C06] Block permutation commutes with matrix-vector multiplication. *)
Theorem block_permute_mulv :
  forall (m : matrix Qc) (x : list Qc) (I J R C : list nat),
  well_formed m -> length x = nc m ->
  is_perm I (length R) -> list_sum R = nr m ->
  is_perm J (length C) -> list_sum C = nc m ->
  (p <- mblockPermute m I J R C ;; y <- vblockPermute x J C ;; mulv p y)
  = (z <- mulv m x ;; vblockPermute z I R).
Proof. exact @block_permute_mulv_pf. Qed.
Print Assumptions block_permute_mulv.

Example block_permute_mulv_example :
  let m := Mat 2 3 (map q [1; 2; 3; 4; 5; 6]%Z) in
  let x := map q [7; 8; 9]%Z in
  (p <- mblockPermute m [1; 0] [2; 0; 1] [1; 1] [1; 1; 1] ;;
   y <- vblockPermute x [2; 0; 1] [1; 1; 1] ;; mulv p y) = Ok (map q [122; 50]%Z) /\
  mulv m x = Ok (map q [50; 122]%Z).
Proof. exact @block_permute_mulv_example_expf. Qed.

(** [C05] Concatenation and segments, for all start positions and lengths whose
    sum does not overflow 64 bits (lengths below 2^60, the largest possible
    vector).  Missing: sums that overflow, see [segments_wrap_refuted]. *)
Theorem concatenate_segments_partial :
  forall (A : Type) (zero : A) (vs : list (list A)),
  exists c, concatenate zero vs = Ok c /\
    length c = list_sum (map (@length A) vs) /\
    ((N.of_nat (length c) < 2 ^ 60)%N ->
     forall k, k < length vs ->
       getSegment_sz zero c (N.of_nat (block_start (map (@length A) vs) k))
                            (N.of_nat (length (nth k vs []))) = Ok (nth k vs [])).
Proof. exact @concatenate_segments_partial_pf. Qed.
Print Assumptions concatenate_segments_partial.

(** [C05] Writing a segment and reading it back; same restriction. *)
Theorem segment_write_read_partial :
  forall (A : Type) (zero : A) (v w : list A) (start : N),
  (start + N.of_nat (length w) < 2 ^ 64)%N -> (N.of_nat (length w) < 2 ^ 60)%N ->
  let fits := N.to_nat start + length w <= length v in
  (fits -> exists v', setSegment_st v start w = (v', Ok tt) /\ length v' = length v /\
     getSegment_sz zero v' start (N.of_nat (length w)) = Ok w /\
     forall i, i < N.to_nat start \/ N.to_nat start + length w <= i ->
       nth_error v' i = nth_error v i) /\
  (~ fits -> setSegment_st v start w = (v, Throw out_of_range) /\
             getSegment_sz zero v start (N.of_nat (length w)) = Throw out_of_range).
Proof. exact @segment_write_read_partial_pf. Qed.
Print Assumptions segment_write_read_partial.

Example segments_example :
  concatenate 0%Z [[1; 2]; []; [3; 4; 5]]%Z = Ok [1; 2; 3; 4; 5]%Z /\
  getSegment_sz 0%Z [1; 2; 3; 4; 5]%Z 2 3 = Ok [3; 4; 5]%Z /\
  setSegment_st [1; 2; 3; 4; 5]%Z 1 [8; 9]%Z = ([1; 8; 9; 4; 5]%Z, Ok tt) /\
  setSegment_st [1; 2; 3; 4; 5]%Z 4 [8; 9]%Z = ([1; 2; 3; 4; 5]%Z, Throw out_of_range).
Proof. exact @segments_example_expf. Qed.

(** [C05] The full property is false: at start 2^64 - 1 a segment of length two
    passes the check; reading returns two made-up zeros and writing is ignored. *)
Theorem segments_wrap_refuted :
  exists (v w : list Z) (start : N), (start < 2 ^ 64)%N /\
    length v < N.to_nat start + length w /\
    setSegment_st v start w = (v, Ok tt) /\
    getSegment_sz 0%Z v start (N.of_nat (length w)) = Ok [0; 0]%Z.
Proof. exact @segments_wrap_refuted_pf. Qed.
Print Assumptions segments_wrap_refuted.

(** [C09] Element access.  In range: the element.  Beyond size: exception.
    Missing: index = size (one past the end), see [access_refuted]. *)
Theorem access_partial :
  forall (A : Type) (v : list A) (m : matrix A) (i j : nat),
  (forall a, nth_error v i = Some a -> vget v i = Ok a) /\
  (length v < i -> vget v i = Throw out_of_range) /\
  (well_formed m -> forall a, entry m i j = Some a -> mget m i j = Ok a) /\
  (nr m < i \/ nc m < j -> mget m i j = Throw out_of_range).
Proof. exact @access_partial_pf. Qed.
Print Assumptions access_partial.

Example access_example :
  vget [4; 5]%Z 1 = Ok 5%Z /\ vget [4; 5]%Z 3 = Throw out_of_range /\
  mget mat23 1 2 = Ok 6%Z /\ mget mat23 1 4 = Throw out_of_range.
Proof. exact @access_example_expf. Qed.

(** [C09] The full property is false: one past the end is undefined behaviour
    instead of an exception, for every vector; a column index one past the end
    silently reads the next row. *)
Theorem access_refuted :
  (forall (A : Type) (v : list A), vget v (length v) = UB) /\
  (exists m : matrix Z, well_formed m /\ mget m 0 (nc m) = Ok 4%Z) /\
  (exists m : matrix Z, well_formed m /\ mget m (nr m) 0 = UB).
Proof. exact @access_refuted_pf. Qed.
Print Assumptions access_refuted.

(** [C10] Contiguous ranges.  The property is false: the entries returned are
    the indices a, a+1, ..., b instead of the values stored there. *)
Theorem get_range_refuted :
  exists (v : list Z) a b, a <= b < length v /\
    getRange Z.of_nat v a b <> Ok (firstn (b + 1 - a) (skipn a v)).
Proof. exact @get_range_refuted_pf. Qed.
Print Assumptions get_range_refuted.

(** [C10] What does hold: the result has the right length, and it is the right
    range for exactly those vectors whose entries in the range equal their
    index. *)
Theorem get_range_partial :
  forall (A : Type) (of_nat : nat -> A) (v : list A) a b, a <= b < length v ->
  exists r, getRange of_nat v a b = Ok r /\ length r = b + 1 - a /\
    (r = firstn (b + 1 - a) (skipn a v) <->
     forall i, a <= i <= b -> nth_error v i = Some (of_nat i)).
Proof. exact @get_range_partial_pf. Qed.
Print Assumptions get_range_partial.

Example get_range_example :
  getRange Z.of_nat [0; 1; 2; 3]%Z 1 2 = Ok [1; 2]%Z /\
  getRange Z.of_nat [5; 6; 7; 8]%Z 1 2 = Ok [1; 2]%Z.
Proof. exact @get_range_example_expf. Qed.

(** [C11] Rows, setting rows and setting columns for every shape; reading a
    column for square matrices.  Missing: getCol of a non-square matrix, see
    [get_col_refuted]. *)
Theorem rows_columns_partial :
  forall (A : Type) (zero : A) (m : matrix A), well_formed m ->
  (forall i, i < nr m -> exists r, getRow zero m i = Ok r /\ length r = nc m /\
     forall j, j < nc m -> nth_error r j = entry m i j) /\
  (forall j, j < nc m -> nr m = nc m -> exists c, getCol zero m j = Ok c /\ length c = nr m /\
     forall i, i < nr m -> nth_error c i = entry m i j) /\
  (forall i v, i < nr m -> length v = nc m ->
     exists m', setRow_st m i v = (m', Ok tt) /\ well_formed m' /\ nr m' = nr m /\ nc m' = nc m /\
       forall i' j, i' < nr m -> j < nc m ->
         entry m' i' j = if Nat.eq_dec i' i then nth_error v j else entry m i' j) /\
  (forall j v, j < nc m -> length v = nr m ->
     exists m', setColumn_st m j v = (m', Ok tt) /\ well_formed m' /\ nr m' = nr m /\ nc m' = nc m /\
       forall i j', i < nr m -> j' < nc m ->
         entry m' i j' = if Nat.eq_dec j' j then nth_error v i else entry m i j') /\
  (forall i v, i < nr m -> length v <> nc m -> setRow_st m i v = (m, Throw invalid_argument)) /\
  (forall j v, j < nc m -> length v <> nr m -> setColumn_st m j v = (m, Throw invalid_argument)).
Proof. exact @rows_columns_partial_pf. Qed.
Print Assumptions rows_columns_partial.

Example rows_columns_example :
  getRow 0%Z mat23 1 = Ok [4; 5; 6]%Z /\
  setColumn_st mat23 1 [8; 9]%Z = (Mat 2 3 [1; 8; 3; 4; 9; 6]%Z, Ok tt) /\
  getCol 0%Z (Mat 2 2 [1; 2; 3; 4]%Z) 1 = Ok [2; 4]%Z.
Proof. exact @rows_columns_example_expf. Qed.

(** [C11] The full property is false: for a matrix with more columns than rows
    every getCol runs past the end, and for one with more rows than columns the
    remaining entries are left zero. *)
Theorem get_col_refuted :
  (forall (A : Type) (zero : A) (m : matrix A) j,
     well_formed m -> j < nc m -> nr m < nc m -> getCol zero m j = UB) /\
  (exists (m : matrix Z) j, well_formed m /\ j < nc m /\ nc m < nr m /\
     getCol 0%Z m j = Ok [1; 0; 0]%Z /\ entry m 2 j = Some 3%Z).
Proof. exact @get_col_refuted_pf. Qed.
Print Assumptions get_col_refuted.

(** [C12] Vector arithmetic: entrywise results, agreement of compound and binary
    forms, and rejection of mismatched sizes without changing the operand.
    Division is by nonzero numbers. *)
Theorem vector_arithmetic :
  forall (v w : list Qc) (c : Qc),
  (length w = length v ->
     (exists r, vadd v w = Ok r /\ vaddeq_st v w = (r, Ok tt) /\ entrywise_v Qcplus v w r) /\
     (exists r, vsub v w = Ok r /\ vsubeq_st v w = (r, Ok tt) /\ entrywise_v Qcminus v w r) /\
     (exists r, vhad v w = Ok r /\ entrywise_v Qcmult v w r) /\
     ((forall i, i < length w -> vval w i <> 0%Qc) ->
      exists r, vquot v w = Ok r /\ length r = length v /\
        forall i, i < length v -> (vval r i * vval w i = vval v i)%Qc)) /\
  (length w <> length v ->
     vadd v w = Throw invalid_argument /\ vaddeq_st v w = (v, Throw invalid_argument) /\
     vsub v w = Throw invalid_argument /\ vsubeq_st v w = (v, Throw invalid_argument) /\
     vhad v w = Throw invalid_argument /\ vquot v w = Throw invalid_argument /\
     vdot v w = Throw invalid_argument) /\
  (exists r, vneg v = Ok r /\ length r = length v /\
     forall i, i < length v -> vval r i = (- vval v i)%Qc) /\
  (exists r, vscal c v = Ok r /\ vmulseq_st v c = (r, Ok tt) /\ length r = length v /\
     forall i, i < length v -> vval r i = (c * vval v i)%Qc) /\
  (exists r, vadds v c = Ok r /\ vaddseq_st v c = (r, Ok tt) /\ length r = length v /\
     forall i, i < length v -> vval r i = (vval v i + c)%Qc) /\
  (exists r, vsubs v c = Ok r /\ vsubseq_st v c = (r, Ok tt) /\ length r = length v /\
     forall i, i < length v -> vval r i = (vval v i - c)%Qc) /\
  (c <> 0%Qc -> exists r, vdivseq_st v c = (r, Ok tt) /\ length r = length v /\
     forall i, i < length v -> (vval r i * c = vval v i)%Qc).
Proof. exact @vector_arithmetic_pf. Qed.
Print Assumptions vector_arithmetic.

(** [C12] Matrix arithmetic, except [*=] by a scalar (see
    [matrix_times_assign_refuted]). *)
Theorem matrix_arithmetic_partial :
  forall (a b : matrix Qc) (c : Qc), well_formed a -> well_formed b ->
  (nr b = nr a -> nc b = nc a ->
     (exists r, madd a b = Ok r /\ maddeq_st a b = (r, Ok tt) /\ entrywise_m Qcplus a b r) /\
     (exists r, msub a b = Ok r /\ msubeq_st a b = (r, Ok tt) /\ entrywise_m Qcminus a b r)) /\
  (nr b <> nr a \/ nc b <> nc a ->
     madd a b = Throw invalid_argument /\ maddeq_st a b = (a, Throw invalid_argument) /\
     msub a b = Throw invalid_argument /\ msubeq_st a b = (a, Throw invalid_argument)) /\
  (exists r, mneg a = Ok r /\ entrywise_m (fun x _ => - x)%Qc a a r) /\
  (exists r, mscal c a = Ok r /\ entrywise_m (fun x _ => c * x)%Qc a a r) /\
  (exists r, maddseq_st a c = (r, Ok tt) /\ entrywise_m (fun x _ => x + c)%Qc a a r) /\
  (exists r, msubseq_st a c = (r, Ok tt) /\ entrywise_m (fun x _ => x - c)%Qc a a r).
Proof. exact @matrix_arithmetic_partial_pf. Qed.
Print Assumptions matrix_arithmetic_partial.

(** [C12] [A *= c] adds [c] to every entry: it gives the entrywise product for
    no nonempty matrix unless x + c = c * x happens to hold. *)
Theorem matrix_times_assign_refuted :
  (exists (a : matrix Qc) (c : Qc), well_formed a /\
     exists r, mmulseq_st a c = (r, Ok tt) /\ ~ entrywise_m (fun x _ => c * x)%Qc a a r) /\
  (forall (a : matrix Qc) (c : Qc), well_formed a ->
     exists r, mmulseq_st a c = (r, Ok tt) /\ entrywise_m (fun x _ => x + c)%Qc a a r).
Proof. exact @matrix_times_assign_refuted_pf. Qed.
Print Assumptions matrix_times_assign_refuted.

Example arithmetic_example :
  vadd (map q [1; 2]%Z) (map q [3; 4]%Z) = Ok (map q [4; 6]%Z) /\
  vsubeq_st (map q [1; 2]%Z) (map q [3]%Z) = (map q [1; 2]%Z, Throw invalid_argument) /\
  vquot (map q [6; 8]%Z) (map q [3; 4]%Z) = Ok (map q [2; 2]%Z) /\
  msub (Mat 1 2 (map q [1; 2]%Z)) (Mat 1 2 (map q [3; 5]%Z)) = Ok (Mat 1 2 (map q [-2; -3]%Z)) /\
  madd (Mat 1 2 (map q [1; 2]%Z)) (Mat 2 1 (map q [3; 5]%Z)) = Throw invalid_argument.
Proof. exact @arithmetic_example_expf. Qed.
