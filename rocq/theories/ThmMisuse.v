(** Property theorems.  Proofs are in MisuseProps.v; this file only restates the
    statements.  Written by tools/gen_thm.py. *)
From Verif Require Import Base VectorModel MatrixModel LinSpec HPSModel HPSSpec StageSpec FVModel FVSpec MisuseSpec.
From Verif Require Import Gauss LinProps HPSTree HPSProps HPSSizes FVFish MisuseProofs.
From Coq Require Import Lia.
From Verif Require Import MisuseProps.

(** [C89] On a mesh of more than one leaf, of any shape, boundary data with a number
    of entries other than 4 times the root's side stops the solve with
    std::invalid_argument, whatever options are set. *)
Theorem wrong_boundary_rejected : forall m sv gesv load s t cache hom g,
  3 <= m -> gesv_contract gesv -> fresh load s t -> sized_leaves m sv s ->
  divided s -> length g <> 4 * (m * 2 ^ level s) ->
  exists st t1 t2, buildStage sv gesv cache None t = Ok (st, t1) /\ upwardsStage sv gesv hom load t1 = Ok t2 /\
    solveStage sv hom g t2 = Throw invalid_argument.
Proof. exact @wrong_boundary_rejected_pf. Qed.
Print Assumptions wrong_boundary_rejected.

Example wrong_boundary_example :
  fresh (ex_load 3) (ex_tree 3) (fresh_tree (ex_tree 3)) /\ sized_leaves 3 (toy 3) (ex_tree 3) /\
  divided (ex_tree 3) /\ length (repeat 1%Qc 36) <> 4 * (3 * 2 ^ level (ex_tree 3)).
Proof. exact @wrong_boundary_example_expf. Qed.

(** [C89] Both patch solvers report boundary data that is too short with
    std::out_of_range, in the solve and in the flux map, for every load. *)
Theorem short_boundary_leaf : forall lu hst c G g f, length g < 4 * gnx G ->
  fv_solve lu c G g f = Throw out_of_range /\ fv_map (fv_solve lu c) G g f = Throw out_of_range /\
  fish_solve hst c G g f = Throw out_of_range /\ fv_map (fish_solve hst c) G g f = Throw out_of_range.
Proof. exact @short_boundary_leaf_pf. Qed.
Print Assumptions short_boundary_leaf.

Example short_boundary_example :
  let G := Grid 3 3 0 1 0 1 in length (repeat 1%Qc 11) < 4 * gnx G.
Proof. exact @short_boundary_example_expf. Qed.

(** [C89] Both patch solvers ignore the entries of the boundary data beyond the first
    4n: nothing is reported. *)
Theorem long_boundary_ignored : forall lu hst c G g f, 4 * gnx G <= length g ->
  fv_solve lu c G g f = fv_solve lu c G (firstn (4 * gnx G) g) f /\
  fish_solve hst c G g f = fish_solve hst c G (firstn (4 * gnx G) g) f.
Proof. exact @long_boundary_ignored_pf. Qed.
Print Assumptions long_boundary_ignored.

(** [C89] A load that is too short, five-point solver.  If the number k of entries is
    a multiple of n, or larger than (n-1)n, the first entry read past the end is
    the one at k itself, which Vector's range check lets through; otherwise it is a
    later one, and std::out_of_range is thrown. *)
Theorem short_load_five_point : forall lu c G n g f,
  gnx G = n -> gny G = n -> length g = 4 * n -> length f < n * n ->
  (length f mod n = 0 \/ (n - 1) * n < length f ->
    fv_solve lu c G g f = UB /\ fv_map (fv_solve lu c) G g f = UB /\ sv_h (fv_solver lu c) G f = UB) /\
  (length f mod n <> 0 -> length f <= (n - 1) * n ->
    fv_solve lu c G g f = Throw out_of_range /\ fv_map (fv_solve lu c) G g f = Throw out_of_range /\
    sv_h (fv_solver lu c) G f = Throw out_of_range).
Proof. exact @short_load_five_point_pf. Qed.
Print Assumptions short_load_five_point.

Example short_load_example :
  let G := Grid 3 3 0 1 0 1 in
  length (repeat 1%Qc 12) = 4 * gnx G /\
  (length (repeat 1%Qc 8) < 3 * 3 /\ (3 - 1) * 3 < length (repeat 1%Qc 8)) /\
  (length (repeat 1%Qc 4) < 3 * 3 /\ length (repeat 1%Qc 4) mod 3 <> 0 /\ length (repeat 1%Qc 4) <= (3 - 1) * 3).
Proof. exact @short_load_example_expf. Qed.

(** [C89] A load that is too short, FISHPACK solver: the loop that transposes the load
    reads it in storage order, so the first bad read is always the one at the end
    itself, which is let through. *)
Theorem short_load_fishpack : forall hst c G n g f,
  gnx G = n -> gny G = n -> length g = 4 * n -> length f < n * n ->
  fish_solve hst c G g f = UB /\ fv_map (fish_solve hst c) G g f = UB /\ sv_h (fish_solver hst c) G f = UB.
Proof. exact @short_load_fishpack_pf. Qed.
Print Assumptions short_load_fishpack.

(** [C89] Entries of a load beyond the first n*n are not read by either solver. *)
Theorem long_load_ignored : forall lu hst c G n g f,
  gnx G = n -> gny G = n -> n * n <= length f ->
  fv_solve lu c G g f = fv_solve lu c G g (firstn (n * n) f) /\
  fish_solve hst c G g f = fish_solve hst c G g (firstn (n * n) f).
Proof. exact @long_load_ignored_pf. Qed.
Print Assumptions long_load_ignored.

(** [C89] If the upwards stage with one of the two solvers ends normally, on a mesh of
    any shape, then the callback gave every leaf with a square grid a load with at
    least one entry per cell. *)
Theorem upwards_loads_complete : forall lu hst c gesv hom load t t',
  upwardsStage (fv_solver lu c) gesv hom load t = Ok t' \/ upwardsStage (fish_solver hst c) gesv hom load t = Ok t' ->
  leaves_have (fun G => gnx G = gny G -> gnx G * gny G <= length (load G)) t.
Proof. exact @upwards_loads_complete_pf. Qed.
Print Assumptions upwards_loads_complete.

(** [C89] With FISHPACK a load that is too short for the leaf visited first gives
    undefined behaviour of the whole stage, on every mesh. *)
Theorem short_load_stage_undefined : forall hst c gesv hom load t n,
  gnx (pgrid (first_leaf t)) = n -> gny (pgrid (first_leaf t)) = n -> length (load (pgrid (first_leaf t))) < n * n ->
  upwardsStage (fish_solver hst c) gesv hom load t = UB.
Proof. exact @short_load_stage_undefined_pf. Qed.
Print Assumptions short_load_stage_undefined.

(** [C89] Not every wrong length is reported.  A leaf of its own accepts boundary data
    that is one entry too long and gives the result for its beginning; and a load
    that is one entry too short gives undefined behaviour with both solvers. *)
Theorem wrong_lengths_reported_refuted :
  exists lu hst c G g f u,
    length g = 4 * gnx G + 1 /\ fv_solve lu c G g f = Ok u /\ fv_solve lu c G (firstn (4 * gnx G) g) f = Ok u /\
    length (tl f) + 1 = gnx G * gny G /\ fv_solve lu c G (tl g) (tl f) = UB /\ fish_solve hst c G (tl g) (tl f) = UB.
Proof. exact @wrong_lengths_reported_refuted_pf. Qed.
Print Assumptions wrong_lengths_reported_refuted.

(** [C90] The solve before the build on a new mesh of more than one leaf ends with an
    error for all boundary data: std::invalid_argument, or, for an empty vector,
    an argument that BLAS rejects. *)
Theorem solve_before_build : forall sv hom p a b c d g, new_tree (Node p a b c d) ->
  (g <> [] -> solveStage sv hom g (Node p a b c d) = Throw invalid_argument) /\
  (g = [] -> solveStage sv hom g (Node p a b c d) = Throw illegal_blas_argument).
Proof. exact @solve_before_build_pf. Qed.
Print Assumptions solve_before_build.

(** [C90] The solve with functions for the boundary condition, before any other stage,
    throws std::invalid_argument on every new mesh, a single leaf included. *)
Theorem solve_fn_before_build : forall sv gesv hom a b r t, new_tree t -> gnx (pgrid (data t)) <> 0 ->
  solveStage_fn sv gesv hom a b r t = Throw invalid_argument.
Proof. exact @solve_fn_before_build_pf. Qed.
Print Assumptions solve_fn_before_build.

(** [C90] The upwards stage before the build on a new mesh of more than one leaf, of
    any shape: the first family to be merged has operators without entries, and the
    linear solver is called with dimension 0, which LAPACK rejects. *)
Theorem upwards_before_build : forall sv gesv load m p a b c d,
  new_tree (Node p a b c d) -> leaves_have (h_known sv load m) (Node p a b c d) ->
  upwardsStage sv gesv false load (Node p a b c d) = Throw illegal_blas_argument.
Proof. exact @upwards_before_build_pf. Qed.
Print Assumptions upwards_before_build.

(** [C90] The solve directly after the build, without the upwards stage: given boundary
    data it throws std::invalid_argument on every mesh of more than one leaf, given
    functions on every mesh. *)
Theorem solve_before_upwards : forall m sv gesv load s t cache g a b r,
  3 <= m -> gesv_contract gesv -> fresh load s t -> sized_leaves m sv s -> new_tree t ->
  exists st t1, buildStage sv gesv cache None t = Ok (st, t1) /\
    (divided s -> solveStage sv false g t1 = Throw invalid_argument) /\
    (forall hom, solveStage_fn sv gesv hom a b r t1 = Throw invalid_argument).
Proof. exact @solve_before_upwards_pf. Qed.
Print Assumptions solve_before_upwards.

(** [C90] The upwards stage with homogeneous-rhs set does not merge the loads.  If the
    option is cleared before the solve, the solve throws std::invalid_argument on
    every mesh of more than one leaf. *)
Theorem solve_after_homogeneous_upwards : forall m sv gesv load s t cache g,
  3 <= m -> gesv_contract gesv -> fresh load s t -> sized_leaves m sv s -> new_tree t -> divided s ->
  exists st t1 t2, buildStage sv gesv cache None t = Ok (st, t1) /\ upwardsStage sv gesv true load t1 = Ok t2 /\
    solveStage sv false g t2 = Throw invalid_argument.
Proof. exact @solve_after_homogeneous_upwards_pf. Qed.
Print Assumptions solve_after_homogeneous_upwards.

Example stage_order_example :
  let t := all_new (ex_tree 3) in
  new_tree t /\ fresh (ex_load 3) (ex_tree 3) t /\ sized_leaves 3 (toy 3) (ex_tree 3) /\ divided (ex_tree 3) /\
  leaves_have (h_known (toy 3) (ex_load 3) 3) t /\ gnx (pgrid (data t)) <> 0.
Proof. exact @stage_order_example_expf. Qed.

(** [C90] On a single leaf nothing is reported: after any build, the solve without the
    upwards stage reads the empty load of the patch, with both solvers. *)
Theorem single_leaf_order_undefined : forall lu hst c gesv cache st st' G n g t1,
  gnx G = n -> gny G = n -> n <> 0 -> length g = 4 * n ->
  (buildStage (fv_solver lu c) gesv cache st (Leaf (new_patch G)) = Ok (st', t1) -> solveStage (fv_solver lu c) false g t1 = UB) /\
  (buildStage (fish_solver hst c) gesv cache st (Leaf (new_patch G)) = Ok (st', t1) -> solveStage (fish_solver hst c) false g t1 = UB).
Proof. exact @single_leaf_order_undefined_pf. Qed.
Print Assumptions single_leaf_order_undefined.

(** [C90] Hence the order of the stages is not always checked. *)
Theorem stage_order_reported_refuted :
  exists lu c gesv G g st t1, gesv_contract gesv /\ length g = 4 * gnx G /\
    buildStage (fv_solver lu c) gesv false None (Leaf (new_patch G)) = Ok (st, t1) /\
    solveStage (fv_solver lu c) false g t1 = UB.
Proof. exact @stage_order_reported_refuted_pf. Qed.
Print Assumptions stage_order_reported_refuted.
