(** Data of the wrong length, and stages called in the wrong order. *)
From Verif Require Import Base VectorModel MatrixModel LinSpec HPSModel HPSSpec StageSpec FVModel FVSpec MisuseSpec.
From Verif Require Import Gauss LinProps HPSTree HPSProps HPSSizes FVFish MisuseProofs.
From Coq Require Import Lia.

(** [C89] On a mesh of more than one leaf, of any shape, boundary data with a number
    of entries other than 4 times the root's side stops the solve with
    std::invalid_argument, whatever options are set. *)
Lemma wrong_boundary_rejected_pf : forall m sv gesv load s t cache hom g,
  3 <= m -> gesv_contract gesv -> fresh load s t -> sized_leaves m sv s ->
  divided s -> length g <> 4 * (m * 2 ^ level s) ->
  exists st t1 t2, buildStage sv gesv cache None t = Ok (st, t1) /\ upwardsStage sv gesv hom load t1 = Ok t2 /\
    solveStage sv hom g t2 = Throw invalid_argument.
Proof. exact wrong_boundary. Qed.

Lemma wrong_boundary_example_expf :
  fresh (ex_load 3) (ex_tree 3) (fresh_tree (ex_tree 3)) /\ sized_leaves 3 (toy 3) (ex_tree 3) /\
  divided (ex_tree 3) /\ length (repeat 1%Qc 36) <> 4 * (3 * 2 ^ level (ex_tree 3)).
Proof.
  split; [apply ex_tree_fresh|]. split; [exact (sized_of_good 3 (toy 3) (ex_tree 3) (ex_tree_good 3))|].
  split; [exact I|]. vm_compute. discriminate.
Qed.

(** [C89] Both patch solvers report boundary data that is too short with
    std::out_of_range, in the solve and in the flux map, for every load. *)
Lemma short_boundary_leaf_pf : forall lu hst c G g f, length g < 4 * gnx G ->
  fv_solve lu c G g f = Throw out_of_range /\ fv_map (fv_solve lu c) G g f = Throw out_of_range /\
  fish_solve hst c G g f = Throw out_of_range /\ fv_map (fish_solve hst c) G g f = Throw out_of_range.
Proof.
  intros lu hst c G g f H. pose proof (sides_short _ _ H) as E.
  unfold fv_solve, fv_system, fish_solve, fv_map. cbv zeta. rewrite E. auto.
Qed.

Lemma short_boundary_example_expf :
  let G := Grid 3 3 0 1 0 1 in length (repeat 1%Qc 11) < 4 * gnx G.
Proof. vm_compute. repeat constructor. Qed.

(** [C89] Both patch solvers ignore the entries of the boundary data beyond the first
    4n: nothing is reported. *)
Lemma long_boundary_ignored_pf : forall lu hst c G g f, 4 * gnx G <= length g ->
  fv_solve lu c G g f = fv_solve lu c G (firstn (4 * gnx G) g) f /\
  fish_solve hst c G g f = fish_solve hst c G (firstn (4 * gnx G) g) f.
Proof.
  intros lu hst c G g f H. unfold fv_solve, fv_system, fish_solve. cbv zeta.
  rewrite <- (sides_firstn _ _ H). auto.
Qed.

(** [C89] A load that is too short, five-point solver.  If the number k of entries is
    a multiple of n, or larger than (n-1)n, the first entry read past the end is
    the one at k itself, which Vector's range check lets through; otherwise it is a
    later one, and std::out_of_range is thrown. *)
Lemma short_load_five_point_pf : forall lu c G n g f,
  gnx G = n -> gny G = n -> length g = 4 * n -> length f < n * n ->
  (length f mod n = 0 \/ (n - 1) * n < length f ->
    fv_solve lu c G g f = UB /\ fv_map (fv_solve lu c) G g f = UB /\ sv_h (fv_solver lu c) G f = UB) /\
  (length f mod n <> 0 -> length f <= (n - 1) * n ->
    fv_solve lu c G g f = Throw out_of_range /\ fv_map (fv_solve lu c) G g f = Throw out_of_range /\
    sv_h (fv_solver lu c) G f = Throw out_of_range).
Proof.
  intros lu c G n g f Ex Ey Lg Lf. destruct (five_short lu c G n g f Ex Ey Lg Lf) as (E1 & E2).
  pose proof (five_h_short lu c G n f Ex Ey Lf) as E3. unfold short_outcome in *.
  split.
  - intros H. assert (Q : (length f mod n =? 0) || ((n - 1) * n <? length f) = true).
    { apply Bool.orb_true_iff. destruct H as [H|H]; [left; apply Nat.eqb_eq|right; apply Nat.ltb_lt]; exact H. }
    rewrite Q in *. auto.
  - intros H1 H2. assert (Q : (length f mod n =? 0) || ((n - 1) * n <? length f) = false).
    { apply Bool.orb_false_iff. split; [apply Nat.eqb_neq; exact H1|apply Nat.ltb_ge; exact H2]. }
    rewrite Q in *. auto.
Qed.

Lemma short_load_example_expf :
  let G := Grid 3 3 0 1 0 1 in
  length (repeat 1%Qc 12) = 4 * gnx G /\
  (length (repeat 1%Qc 8) < 3 * 3 /\ (3 - 1) * 3 < length (repeat 1%Qc 8)) /\
  (length (repeat 1%Qc 4) < 3 * 3 /\ length (repeat 1%Qc 4) mod 3 <> 0 /\ length (repeat 1%Qc 4) <= (3 - 1) * 3).
Proof. vm_compute. repeat split; try discriminate; repeat constructor. Qed.

(** [C89] A load that is too short, FISHPACK solver: the loop that transposes the load
    reads it in storage order, so the first bad read is always the one at the end
    itself, which is let through. *)
Lemma short_load_fishpack_pf : forall hst c G n g f,
  gnx G = n -> gny G = n -> length g = 4 * n -> length f < n * n ->
  fish_solve hst c G g f = UB /\ fv_map (fish_solve hst c) G g f = UB /\ sv_h (fish_solver hst c) G f = UB.
Proof.
  intros hst c G n g f Ex Ey Lg Lf. destruct (fish_short hst c G n g f Ex Ey Lg Lf) as (E1 & E2).
  split; [exact E1|]. split; [exact E2|]. eapply fish_h_short; eauto.
Qed.

(** [C89] Entries of a load beyond the first n*n are not read by either solver. *)
Lemma long_load_ignored_pf : forall lu hst c G n g f,
  gnx G = n -> gny G = n -> n * n <= length f ->
  fv_solve lu c G g f = fv_solve lu c G g (firstn (n * n) f) /\
  fish_solve hst c G g f = fish_solve hst c G g (firstn (n * n) f).
Proof.
  intros lu hst c G n g f Ex Ey Lf. split.
  - unfold fv_solve. rewrite (fv_system_firstn c G g f) by (rewrite Ex, Ey; exact Lf). rewrite Ex, Ey. reflexivity.
  - apply fish_firstn; auto.
Qed.

(** [C89] If the upwards stage with one of the two solvers ends normally, on a mesh of
    any shape, then the callback gave every leaf with a square grid a load with at
    least one entry per cell. *)
Lemma upwards_loads_complete_pf : forall lu hst c gesv hom load t t',
  upwardsStage (fv_solver lu c) gesv hom load t = Ok t' \/ upwardsStage (fish_solver hst c) gesv hom load t = Ok t' ->
  leaves_have (fun G => gnx G = gny G -> gnx G * gny G <= length (load G)) t.
Proof.
  intros lu hst c gesv hom load t t' [H|H]; (eapply up_loads; [|exact H]); intros G (h & Eh) Exy; cbv beta;
    (destruct (Nat.le_gt_cases (gnx G * gny G) (length (load G))) as [L|L]; [exact L|exfalso]); rewrite <- Exy in L.
  - rewrite (five_h_short lu c G (gnx G) (load G) eq_refl (eq_sym Exy) L) in Eh.
    unfold short_outcome in Eh. destruct (_ || _); discriminate.
  - rewrite (fish_h_short hst c G (gnx G) (load G) eq_refl (eq_sym Exy) L) in Eh. discriminate.
Qed.

(** [C89] With FISHPACK a load that is too short for the leaf visited first gives
    undefined behaviour of the whole stage, on every mesh. *)
Lemma short_load_stage_undefined_pf : forall hst c gesv hom load t n,
  gnx (pgrid (first_leaf t)) = n -> gny (pgrid (first_leaf t)) = n -> length (load (pgrid (first_leaf t))) < n * n ->
  upwardsStage (fish_solver hst c) gesv hom load t = UB.
Proof. intros hst c gesv hom load t n Ex Ey L. apply up_first. eapply fish_h_short; eauto. Qed.

(** [C89] Not every wrong length is reported.  A leaf of its own accepts boundary data
    that is one entry too long and gives the result for its beginning; and a load
    that is one entry too short gives undefined behaviour with both solvers. *)
Lemma wrong_lengths_reported_refuted_pf :
  exists lu hst c G g f u,
    length g = 4 * gnx G + 1 /\ fv_solve lu c G g f = Ok u /\ fv_solve lu c G (firstn (4 * gnx G) g) f = Ok u /\
    length (tl f) + 1 = gnx G * gny G /\ fv_solve lu c G (tl g) (tl f) = UB /\ fish_solve hst c G (tl g) (tl f) = UB.
Proof.
  exists lu_gauss, hst_gauss, (Coefs (fun _ _ => 1%Qc) (fun _ _ => 1%Qc) (fun _ _ => 0%Qc)), (Grid 2 2 0 1 0 1)%Qc, (repeat 1%Qc 9), (repeat 1%Qc 4).
  eexists. split; [reflexivity|]. split; [vm_compute; reflexivity|]. split; [vm_compute; reflexivity|].
  split; [reflexivity|]. split; vm_compute; reflexivity.
Qed.

(** [C90] The solve before the build on a new mesh of more than one leaf ends with an
    error for all boundary data: std::invalid_argument, or, for an empty vector,
    an argument that BLAS rejects. *)
Lemma solve_before_build_pf : forall sv hom p a b c d g, new_tree (Node p a b c d) ->
  (g <> [] -> solveStage sv hom g (Node p a b c d) = Throw invalid_argument) /\
  (g = [] -> solveStage sv hom g (Node p a b c d) = Throw illegal_blas_argument).
Proof.
  intros sv hom p a b c d g H. pose proof (solve_unbuilt sv hom p a b c d g H) as E. split; intros K.
  - destruct g; [destruct (K eq_refl)|exact E].
  - subst g. exact E.
Qed.

(** [C90] The solve with functions for the boundary condition, before any other stage,
    throws std::invalid_argument on every new mesh, a single leaf included. *)
Lemma solve_fn_before_build_pf : forall sv gesv hom a b r t, new_tree t -> gnx (pgrid (data t)) <> 0 ->
  solveStage_fn sv gesv hom a b r t = Throw invalid_argument.
Proof. exact solve_fn_unbuilt. Qed.

(** [C90] The upwards stage before the build on a new mesh of more than one leaf, of
    any shape: the first family to be merged has operators without entries, and the
    linear solver is called with dimension 0, which LAPACK rejects. *)
Lemma upwards_before_build_pf : forall sv gesv load m p a b c d,
  new_tree (Node p a b c d) -> leaves_have (h_known sv load m) (Node p a b c d) ->
  upwardsStage sv gesv false load (Node p a b c d) = Throw illegal_blas_argument.
Proof. exact up_before_build. Qed.

(** [C90] The solve directly after the build, without the upwards stage: given boundary
    data it throws std::invalid_argument on every mesh of more than one leaf, given
    functions on every mesh. *)
Lemma solve_before_upwards_pf : forall m sv gesv load s t cache g a b r,
  3 <= m -> gesv_contract gesv -> fresh load s t -> sized_leaves m sv s -> new_tree t ->
  exists st t1, buildStage sv gesv cache None t = Ok (st, t1) /\
    (divided s -> solveStage sv false g t1 = Throw invalid_argument) /\
    (forall hom, solveStage_fn sv gesv hom a b r t1 = Throw invalid_argument).
Proof. exact no_upwards. Qed.

(** [C90] The upwards stage with homogeneous-rhs set does not merge the loads.  If the
    option is cleared before the solve, the solve throws std::invalid_argument on
    every mesh of more than one leaf. *)
Lemma solve_after_homogeneous_upwards_pf : forall m sv gesv load s t cache g,
  3 <= m -> gesv_contract gesv -> fresh load s t -> sized_leaves m sv s -> new_tree t -> divided s ->
  exists st t1 t2, buildStage sv gesv cache None t = Ok (st, t1) /\ upwardsStage sv gesv true load t1 = Ok t2 /\
    solveStage sv false g t2 = Throw invalid_argument.
Proof. exact hom_upwards_only. Qed.

(** The tree of new patches of shape [s]. *)
Fixpoint all_new (s : qtree) : tree :=
  match s with
  | QLeaf G _ => Leaf (new_patch G)
  | QNode a b c d => Node (new_patch (ex_grid 3 0 0 1)) (all_new a) (all_new b) (all_new c) (all_new d)
  end.
Lemma stage_order_example_expf :
  let t := all_new (ex_tree 3) in
  new_tree t /\ fresh (ex_load 3) (ex_tree 3) t /\ sized_leaves 3 (toy 3) (ex_tree 3) /\ divided (ex_tree 3) /\
  leaves_have (h_known (toy 3) (ex_load 3) 3) t /\ gnx (pgrid (data t)) <> 0.
Proof.
  cbv zeta. split; [cbn; repeat split|]. split; [cbn; repeat split|].
  split; [exact (sized_of_good 3 (toy 3) (ex_tree 3) (ex_tree_good 3))|]. split; [exact I|].
  split; [|discriminate]. cbn [all_new ex_tree ex_leaf leaves_have]. unfold h_known. cbn [pgrid new_patch].
  repeat split; eexists; reflexivity.
Qed.

(** [C90] On a single leaf nothing is reported: after any build, the solve without the
    upwards stage reads the empty load of the patch, with both solvers. *)
Lemma single_leaf_order_undefined_pf : forall lu hst c gesv cache st st' G n g t1,
  gnx G = n -> gny G = n -> n <> 0 -> length g = 4 * n ->
  (buildStage (fv_solver lu c) gesv cache st (Leaf (new_patch G)) = Ok (st', t1) -> solveStage (fv_solver lu c) false g t1 = UB) /\
  (buildStage (fish_solver hst c) gesv cache st (Leaf (new_patch G)) = Ok (st', t1) -> solveStage (fish_solver hst c) false g t1 = UB).
Proof.
  intros lu hst c gesv cache st st' G n g t1 Ex Ey Hn Lg.
  assert (L : length (@nil Qc) < n * n) by (cbn; nia). split; intros H; (eapply leaf_unloaded; [|exact H]).
  - cbn [sv_solve fv_solver solver_of]. rewrite (proj1 (five_short lu c G n g [] Ex Ey Lg L)). unfold short_outcome.
    cbn [length]. rewrite Nat.mod_0_l by exact Hn. reflexivity.
  - exact (proj1 (fish_short hst c G n g [] Ex Ey Lg L)).
Qed.

(** [C90] Hence the order of the stages is not always checked. *)
Lemma stage_order_reported_refuted_pf :
  exists lu c gesv G g st t1, gesv_contract gesv /\ length g = 4 * gnx G /\
    buildStage (fv_solver lu c) gesv false None (Leaf (new_patch G)) = Ok (st, t1) /\
    solveStage (fv_solver lu c) false g t1 = UB.
Proof.
  set (c := Coefs (fun _ _ => 1%Qc) (fun _ _ => 1%Qc) (fun _ _ => 0%Qc)).
  assert (B : exists st t1, buildStage (fv_solver lu_gauss c) gauss_gesv false None (Leaf (new_patch (Grid 2 2 0 1 0 1)%Qc)) = Ok (st, t1)).
  { eexists. eexists. vm_compute. reflexivity. }
  destruct B as (st & t1 & B). exists lu_gauss, c, gauss_gesv, (Grid 2 2 0 1 0 1)%Qc, (repeat 1%Qc 8), st, t1.
  split; [exact gauss_gesv_contract|]. split; [reflexivity|]. split; [exact B|].
  exact (proj1 (single_leaf_order_undefined_pf lu_gauss hst_gauss c gauss_gesv false None st (Grid 2 2 0 1 0 1)%Qc 2 (repeat 1%Qc 8) t1 eq_refl eq_refl (Nat.neq_succ_0 1) eq_refl) B).
Qed.
