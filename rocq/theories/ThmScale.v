(** Property theorems.  Proofs are in ScaleProps.v; this file only restates the
    statements.  Written by tools/gen_thm.py. *)
From Verif Require Import Base VectorModel MatrixModel LinSpec HPSModel HPSSpec FVModel FVSpec GlobalSpec StageSpec AdaptSpec ScaleSpec.
From Verif Require Import MatProofs MatProofs2 LinProofs Gauss LinProps HPSProofs HPSProofs3 HPSProofs4 HPSTree HPSTree2 HPSStage2 HPSRebuild HPSProps.
From Verif Require Import FVProofs FVProofs2 FVProofs3 FVMax FVJoin FVGlobal FVFish FVProps AdaptCert AdaptProofs AdaptPlane AdaptEnd AdaptProps StageProps ScaleProofs.
From Coq Require Import Lia.
From Verif Require Import ScaleProps.

(** [C91] Five-point patch solver, quadtree of any shape.  The domain is enlarged by
    s > 0 and moved, the equation is the moved one and multiplied by k, and the boundary
    data are the same.  If the glued problem is well posed on the first domain, both
    runs succeed, all leaves get the same values, and the fluxes at the root are divided
    by s. *)
Theorem moved_domain : forall m lu lu' c c' gesv gesv' G load load' q t t' st st' k s X Y g,
  2 <= m -> lu_contract lu -> lu_contract lu' -> gesv_contract gesv -> gesv_contract gesv' ->
  right_signs c -> k <> 0%Qc -> (0 < s)%Qc -> moved_coefs k s X Y c c' ->
  oriented (rect m G) -> tiled m G q -> fresh load q t -> fresh load' (moved_tree k s X Y q) t' ->
  well_posed m (fv_solver lu c) q -> 3 <= m \/ equal_levels q -> length g = 4 * (m * 2 ^ level q) ->
  exists st1 t1 t2 t3 st1' t1' t2' t3',
    buildStage (fv_solver lu c) gesv false st t = Ok (st1, t1) /\
    upwardsStage (fv_solver lu c) gesv false load t1 = Ok t2 /\
    solveStage (fv_solver lu c) false g t2 = Ok t3 /\
    buildStage (fv_solver lu' c') gesv' false st' t' = Ok (st1', t1') /\
    upwardsStage (fv_solver lu' c') gesv' false load' t1' = Ok t2' /\
    solveStage (fv_solver lu' c') false g t2' = Ok t3' /\
    computed_values t3' = computed_values t3 /\
    vplus (apply_op (pT (data t2')) g) (ph (data t2')) = vscale (/ s) (vplus (apply_op (pT (data t2)) g) (ph (data t2))).
Proof. exact @moved_domain_pf. Qed.
Print Assumptions moved_domain.

(** [C91] Enlarging and moving the domain keeps the glued problem well posed. *)
Theorem moved_well_posed : forall m lu lu' c c' G q k s X Y,
  2 <= m -> lu_contract lu -> lu_contract lu' -> right_signs c -> k <> 0%Qc -> (0 < s)%Qc -> moved_coefs k s X Y c c' ->
  oriented (rect m G) -> tiled m G q ->
  well_posed m (fv_solver lu c) q -> well_posed m (fv_solver lu' c') (moved_tree k s X Y q).
Proof. exact @moved_well_posed_pf. Qed.
Print Assumptions moved_well_posed.

(** [C91] With FISHPACK alpha is 1 in both problems, so the loads and lambda are divided
    by s squared. *)
Theorem moved_domain_fish : forall m hst hst' c c' lam gesv gesv' G load load' q t t' st st' s X Y g,
  3 <= m -> hst_contract hst -> hst_contract hst' -> gesv_contract gesv -> gesv_contract gesv' ->
  (forall x y, c_alpha c x y = 1%Qc /\ c_beta c x y = 1%Qc /\ c_lambda c x y = lam) -> (lam <= 0)%Qc -> (0 < s)%Qc ->
  (forall x y, c_alpha c' x y = 1%Qc /\ c_beta c' x y = 1%Qc /\ c_lambda c' x y = (lam / (s * s))%Qc) ->
  oriented (rect m G) -> tiled m G q -> fresh load q t -> fresh load' (moved_tree (/ (s * s)) s X Y q) t' ->
  well_posed m (fish_solver hst c) q -> length g = 4 * (m * 2 ^ level q) ->
  exists st1 t1 t2 t3 st1' t1' t2' t3',
    buildStage (fish_solver hst c) gesv false st t = Ok (st1, t1) /\
    upwardsStage (fish_solver hst c) gesv false load t1 = Ok t2 /\
    solveStage (fish_solver hst c) false g t2 = Ok t3 /\
    buildStage (fish_solver hst' c') gesv' false st' t' = Ok (st1', t1') /\
    upwardsStage (fish_solver hst' c') gesv' false load' t1' = Ok t2' /\
    solveStage (fish_solver hst' c') false g t2' = Ok t3' /\
    computed_values t3' = computed_values t3 /\
    vplus (apply_op (pT (data t2')) g) (ph (data t2')) = vscale (/ s) (vplus (apply_op (pT (data t2)) g) (ph (data t2))).
Proof. exact @moved_domain_fish_pf. Qed.
Print Assumptions moved_domain_fish.

(** Laplace's equation on the unit square with seven leaves, and the square from
    (1, -2) of side 3. *)
Example moved_domain_example : forall rhs,
  let q := adapted rhs 3 unit_square in let s := (1 + 1 + 1)%Qc in let Y := (- (1 + 1))%Qc in
  moved_coefs (/ (s * s)) s 1 Y (helmholtz 0) (helmholtz 0) /\
  (forall x y, c_lambda (helmholtz 0) x y = (0 / (s * s))%Qc) /\
  tiled 3 unit_square q /\ fresh (sampled rhs) q (fresh_tree q) /\
  fresh (fun G => vscale (/ (s * s)) (sampled rhs (Grid (gnx G) (gny G) ((gxl G - 1) / s) ((gxu G - 1) / s) ((gyl G - Y) / s) ((gyu G - Y) / s))%Qc))
    (moved_tree (/ (s * s)) s 1 Y q) (fresh_tree (moved_tree (/ (s * s)) s 1 Y q)) /\
  well_posed 3 (fv_solver lu_gauss (helmholtz 0)) q /\ well_posed 3 (fish_solver hst_gauss (helmholtz 0)) q /\
  length (leaves (moved_tree (/ (s * s)) s 1 Y q)) = 7.
Proof. exact @moved_domain_example_expf. Qed.

(** [C23] Five-point solver with constant coefficients.  If all leaves have the same
    size, the cache changes nothing: same tree, or the same failure. *)
Theorem cache_equal_leaves : forall m lu c gesv t al be lam w h,
  2 <= m -> lu_contract lu -> right_signs c ->
  (forall x y, c_alpha c x y = al /\ c_beta c x y = be /\ c_lambda c x y = lam) ->
  (forall G, In G (leaf_grids t) -> oriented G /\ gnx G = m /\ gny G = m /\ (gxu G - gxl G = w)%Qc /\ (gyu G - gyl G = h)%Qc) ->
  same (fun r r' => snd r = snd r') (buildStage (fv_solver lu c) gesv true None t) (buildStage (fv_solver lu c) gesv false None t).
Proof. exact @cache_equal_leaves_pf. Qed.
Print Assumptions cache_equal_leaves.

(** [C23] Constant coefficients without lambda: the operator of a leaf s times as large
    is the operator of the first leaf divided by s.  So with the cache every leaf of
    another size gets a wrong operator. *)
Theorem leaf_operator_scales : forall m lu c al be G1 G2 s,
  2 <= m -> lu_contract lu -> right_signs c -> (0 < s)%Qc ->
  (forall x y, c_alpha c x y = al /\ c_beta c x y = be /\ c_lambda c x y = 0%Qc) ->
  oriented G1 -> gnx G1 = m -> gny G1 = m -> gnx G2 = m -> gny G2 = m ->
  (gxu G2 - gxl G2 = s * (gxu G1 - gxl G1))%Qc -> (gyu G2 - gyl G2 = s * (gyu G1 - gyl G1))%Qc ->
  exists T T', sv_build (fv_solver lu c) G1 = Ok T /\ sv_build (fv_solver lu c) G2 = Ok T' /\
    scaled_matrix (/ s) T T' /\ (s <> 1%Qc -> T' <> T).
Proof. exact @leaf_operator_scales_pf. Qed.
Print Assumptions leaf_operator_scales.

(** [C23] The same with FISHPACK, which takes lambda at the origin for all leaves; any coefficient functions. *)
Theorem cache_equal_leaves_fish : forall m hst c gesv t w h,
  3 <= m -> hst_contract hst -> (c_lambda c 0%Qc 0%Qc <= 0)%Qc ->
  (forall G, In G (leaf_grids t) -> oriented G /\ gnx G = m /\ gny G = m /\ (gxu G - gxl G = w)%Qc /\ (gyu G - gyl G = h)%Qc) ->
  same (fun r r' => snd r = snd r') (buildStage (fish_solver hst c) gesv true None t) (buildStage (fish_solver hst c) gesv false None t).
Proof. exact @cache_equal_leaves_fish_pf. Qed.
Print Assumptions cache_equal_leaves_fish.

(** Four leaves, constant coefficients. *)
Example cache_equal_leaves_example : let t := fresh_tree (divided (fun x y => x) 2 1 (Grid 4 4 0 1 0 1)%Qc) in
  right_signs (helmholtz (- (1))) /\ length (leaf_grids t) = 4 /\
  (forall G, In G (leaf_grids t) -> oriented G /\ gnx G = 2 /\ gny G = 2 /\ (gxu G - gxl G = Q2Qc (1 # 2))%Qc /\ (gyu G - gyl G = Q2Qc (1 # 2))%Qc).
Proof. exact @cache_equal_leaves_example_expf. Qed.

Example cache_equal_leaves_fish_example : let t := fresh_tree (divided (fun x y => x) 3 1 (Grid 6 6 0 1 0 1)%Qc) in
  hst_contract hst_gauss /\ length (leaf_grids t) = 4 /\
  (forall G, In G (leaf_grids t) -> oriented G /\ gnx G = 3 /\ gny G = 3 /\ (gxu G - gxl G = Q2Qc (1 # 2))%Qc /\ (gyu G - gyl G = Q2Qc (1 # 2))%Qc).
Proof. exact @cache_equal_leaves_fish_example_expf. Qed.

(** [C23] On a refined mesh the cache gives wrong answers already for Laplace's equation
    with boundary data u = x, where the run without the cache returns u = x in all
    leaves. *)
Theorem cache_refined_refuted : exists lu gesv c q t load g,
  let sv := fv_solver lu c in
  lu_contract lu /\ gesv_contract gesv /\ (forall x y, c_alpha c x y = 1%Qc /\ c_beta c x y = 1%Qc /\ c_lambda c x y = 0%Qc) /\
  tiled 3 unit_square q /\ fresh load q t /\ well_posed 3 sv q /\
  exists st1 t1 t2 t3 st1' t1' t2' t3',
    buildStage sv gesv false None t = Ok (st1, t1) /\ upwardsStage sv gesv false load t1 = Ok t2 /\ solveStage sv false g t2 = Ok t3 /\
    buildStage sv gesv true None t = Ok (st1', t1') /\ upwardsStage sv gesv false load t1' = Ok t2' /\ solveStage sv false g t2' = Ok t3' /\
    computed_values t3 = map (fun z => (on_boundary (plane 0 1 0) (fst z), sampled (plane 0 1 0) (fst z))) (leaves q) /\
    computed_values t3' <> computed_values t3.
Proof. exact @cache_refined_refuted_pf. Qed.
Print Assumptions cache_refined_refuted.
