(** Moved and enlarged domains, and the cache of leaf operators. *)
From Verif Require Import Base VectorModel MatrixModel LinSpec HPSModel HPSSpec FVModel FVSpec GlobalSpec StageSpec AdaptSpec ScaleSpec.
From Verif Require Import MatProofs MatProofs2 LinProofs Gauss LinProps HPSProofs HPSProofs3 HPSProofs4 HPSTree HPSTree2 HPSStage2 HPSRebuild HPSProps.
From Verif Require Import FVProofs FVProofs2 FVProofs3 FVMax FVJoin FVGlobal FVFish FVProps AdaptCert AdaptProofs AdaptPlane AdaptEnd AdaptProps StageProps ScaleProofs.
From Coq Require Import Lia.

Lemma moved_fv_solves m lu lu' k s X Y c c' : 2 <= m -> lu_contract lu -> lu_contract lu' -> right_signs c ->
  k <> 0%Qc -> (0 < s)%Qc -> moved_coefs k s X Y c c' ->
  forall G g f, oriented G -> gnx G = m -> gny G = m -> length g = 4 * m -> length f = m * m ->
  fv_unique c G /\ (exists u, fv_solve lu c G g f = Ok u /\ fv_solution c G g f u) /\
  (exists u, fv_solve lu' c' (moved_grid s X Y G) g f = Ok u /\ fv_solution c' (moved_grid s X Y G) g f u).
Proof.
  intros Hm HL HL' HS Hk Hs HC G g f O Ex Ey Lg Lf.
  assert (U : fv_unique c G) by (apply maximum_principle; auto; apply orp; exact O). split; [exact U|]. split.
  - apply (fv_solve_ok G m Ex Ey); auto. apply orp; exact O.
  - apply (fv_solve_ok (moved_grid s X Y G) m Ex Ey); auto.
    + apply orp. apply moved_oriented; auto.
    + apply (moved_unique k s X Y c c'); auto.
Qed.

(** [C91] Five-point patch solver, quadtree of any shape.  The domain is enlarged by
    s > 0 and moved, the equation is the moved one and multiplied by k, and the boundary
    data are the same.  If the glued problem is well posed on the first domain, both
    runs succeed, all leaves get the same values, and the fluxes at the root are divided
    by s. *)
Lemma moved_domain_pf : forall m lu lu' c c' gesv gesv' G load load' q t t' st st' k s X Y g,
  2 <= m -> lu_contract lu -> lu_contract lu' -> gesv_contract gesv -> gesv_contract gesv' ->
  right_signs c -> k <> 0%Qc -> (0 < s)%Qc -> moved_coefs k s X Y c c' ->
  oriented (rect m G) -> tiled m G q -> fresh load q t -> fresh load' (moved_tree k s X Y q) t' ->
  well_posed m (fv_solver lu c) q -> 3 <= m \/ equal_levels q -> length g = 4 * (m * 2 ^ level q) ->
  exists st1 t1 t2 t3 st1' t1' t2' t3',
    buildStage (fv_solver lu c) gesv false st t = Ok (st1, t1) /\
    upwardsStage (fv_solver lu c) gesv false load t1 = Ok t2 /\
    solveStage (fv_solver lu c) false g t2 = Ok t3 /\
    buildStage (fv_solver lu' c') gesv' false st' t' = Ok (st1', t1') /\
    upwardsStage (fv_solver lu' c') gesv' false load' t1' = Ok t2' /\
    solveStage (fv_solver lu' c') false g t2' = Ok t3' /\
    computed_values t3' = computed_values t3 /\
    vplus (apply_op (pT (data t2')) g) (ph (data t2')) = vscale (/ s) (vplus (apply_op (pT (data t2)) g) (ph (data t2))).
Proof.
  intros m lu lu' c c' gesv gesv' G load load' q t t' st st' k s X Y g Hm HL HL' Hg Hg' HS Hk Hs HC HO HT HF HF' HW H3 Lg.
  pose proof (moved_fv_solves m lu lu' k s X Y c c' Hm HL HL' HS Hk Hs HC) as HA.
  apply (moved_stages m ltac:(lia) k s X Y c c' Hk Hs HC (fv_solve lu c) (fv_solve lu' c') G q HO HT); auto.
  - intros G0 O Ex Ey. apply (HA G0 (zeros (4 * m)) (zeros (m * m))); auto using zeros_length.
  - intros G0 g0 f0 O Ex Ey L1 L2. apply (HA G0 g0 f0); auto.
  - intros G0 g0 f0 O Ex Ey L1 L2. apply (HA G0 g0 f0); auto.
Qed.

(** [C91] Enlarging and moving the domain keeps the glued problem well posed. *)
Lemma moved_well_posed_pf : forall m lu lu' c c' G q k s X Y,
  2 <= m -> lu_contract lu -> lu_contract lu' -> right_signs c -> k <> 0%Qc -> (0 < s)%Qc -> moved_coefs k s X Y c c' ->
  oriented (rect m G) -> tiled m G q ->
  well_posed m (fv_solver lu c) q -> well_posed m (fv_solver lu' c') (moved_tree k s X Y q).
Proof.
  intros m lu lu' c c' G q k s X Y Hm HL HL' HS Hk Hs HC HO HT.
  pose proof (moved_fv_solves m lu lu' k s X Y c c' Hm HL HL' HS Hk Hs HC) as HA.
  apply (moved_posed m ltac:(lia) k s X Y c c' Hk Hs HC (fv_solve lu c) (fv_solve lu' c') G q HO HT); auto.
  - intros G0 O Ex Ey. apply (HA G0 (zeros (4 * m)) (zeros (m * m))); auto using zeros_length.
  - intros G0 g0 f0 O Ex Ey L1 L2. apply (HA G0 g0 f0); auto.
  - intros G0 g0 f0 O Ex Ey L1 L2. apply (HA G0 g0 f0); auto.
Qed.

(** [C91] With FISHPACK alpha is 1 in both problems, so the loads and lambda are divided
    by s squared. *)
Lemma moved_domain_fish_pf : forall m hst hst' c c' lam gesv gesv' G load load' q t t' st st' s X Y g,
  3 <= m -> hst_contract hst -> hst_contract hst' -> gesv_contract gesv -> gesv_contract gesv' ->
  (forall x y, c_alpha c x y = 1%Qc /\ c_beta c x y = 1%Qc /\ c_lambda c x y = lam) -> (lam <= 0)%Qc -> (0 < s)%Qc ->
  (forall x y, c_alpha c' x y = 1%Qc /\ c_beta c' x y = 1%Qc /\ c_lambda c' x y = (lam / (s * s))%Qc) ->
  oriented (rect m G) -> tiled m G q -> fresh load q t -> fresh load' (moved_tree (/ (s * s)) s X Y q) t' ->
  well_posed m (fish_solver hst c) q -> length g = 4 * (m * 2 ^ level q) ->
  exists st1 t1 t2 t3 st1' t1' t2' t3',
    buildStage (fish_solver hst c) gesv false st t = Ok (st1, t1) /\
    upwardsStage (fish_solver hst c) gesv false load t1 = Ok t2 /\
    solveStage (fish_solver hst c) false g t2 = Ok t3 /\
    buildStage (fish_solver hst' c') gesv' false st' t' = Ok (st1', t1') /\
    upwardsStage (fish_solver hst' c') gesv' false load' t1' = Ok t2' /\
    solveStage (fish_solver hst' c') false g t2' = Ok t3' /\
    computed_values t3' = computed_values t3 /\
    vplus (apply_op (pT (data t2')) g) (ph (data t2')) = vscale (/ s) (vplus (apply_op (pT (data t2)) g) (ph (data t2))).
Proof.
  intros m hst hst' c c' lam gesv gesv' G load load' q t t' st st' s X Y g Hm HH HH' Hg Hg' Hc Hl Hs Hc' HO HT HF HF' HW Lg.
  assert (Sz : s <> 0%Qc) by (apply s_nz; exact Hs).
  assert (Hk : (/ (s * s) <> 0)%Qc).
  { intros E. apply Sz. assert (E1 : (s * s * / (s * s) = 1)%Qc) by (apply Qcmult_inv_r; intros E2; destruct (Qcmult_integral _ _ E2); auto).
    rewrite E, Qcmult_0_r in E1. discriminate. }
  assert (HC : moved_coefs (/ (s * s)) s X Y c c').
  { intros x y. cbv zeta. destruct (Hc x y) as (-> & -> & ->). destruct (Hc' (X + s * x)%Qc (Y + s * y)%Qc) as (-> & -> & ->).
    split; [field; auto|]. split; [reflexivity|]. field. auto. }
  assert (Hl' : (lam / (s * s) <= 0)%Qc).
  { assert (P : (0 < s * s)%Qc) by (rewrite <- (Qcmult_0_l s); apply Qcmult_lt_compat_r; auto).
    destruct (Qclt_le_dec 0 (lam / (s * s))) as [H|H]; [exfalso|exact H].
    assert (H1 : (0 * (s * s) < lam / (s * s) * (s * s))%Qc) by (apply Qcmult_lt_compat_r; auto).
    replace (lam / (s * s) * (s * s))%Qc with lam in H1 by (field; auto). rewrite Qcmult_0_l in H1.
    exact (Qclt_not_le _ _ H1 Hl). }
  pose proof (helmholtz_signs c lam Hc Hl) as HS. pose proof (helmholtz_signs c' _ Hc' Hl') as HS'.
  assert (FS : forall hst c lam, hst_contract hst -> (forall x y, c_alpha c x y = 1%Qc /\ c_beta c x y = 1%Qc /\ c_lambda c x y = lam) ->
    (lam <= 0)%Qc -> forall G0 g0 f0, oriented G0 -> gnx G0 = m -> gny G0 = m -> length g0 = 4 * m -> length f0 = m * m ->
    exists u, fish_solve hst c G0 g0 f0 = Ok u /\ fv_solution c G0 g0 f0 u).
  { intros h0 c0 l0 A B C G0 g0 f0 O Ex Ey L1 L2.
    destruct (solvers_agree_partial_pf lu_gauss h0 c0 l0 G0 m g0 f0) as (u & _ & E & S); auto using lu_gauss_contract.
    { apply maximum_principle; [apply orp; exact O|]. eapply helmholtz_signs; eauto. }
    exists u. auto. }
  apply (moved_stages m ltac:(lia) (/ (s * s)) s X Y c c' Hk Hs HC (fish_solve hst c) (fish_solve hst' c') G q HO HT); auto.
  - intros G0 O Ex Ey. apply maximum_principle; auto. apply orp. exact O.
  - intros G0 g0 f0 O Ex Ey L1 L2. apply (FS hst c lam); auto.
  - intros G0 g0 f0 O Ex Ey L1 L2. apply (FS hst' c' _ HH' Hc' Hl'); auto. apply moved_oriented; auto.
Qed.

(** Laplace's equation on the unit square with seven leaves, and the square from
    (1, -2) of side 3. *)
Lemma moved_domain_example_expf : forall rhs,
  let q := adapted rhs 3 unit_square in let s := (1 + 1 + 1)%Qc in let Y := (- (1 + 1))%Qc in
  moved_coefs (/ (s * s)) s 1 Y (helmholtz 0) (helmholtz 0) /\
  (forall x y, c_lambda (helmholtz 0) x y = (0 / (s * s))%Qc) /\
  tiled 3 unit_square q /\ fresh (sampled rhs) q (fresh_tree q) /\
  fresh (fun G => vscale (/ (s * s)) (sampled rhs (Grid (gnx G) (gny G) ((gxl G - 1) / s) ((gxu G - 1) / s) ((gyl G - Y) / s) ((gyu G - Y) / s))%Qc))
    (moved_tree (/ (s * s)) s 1 Y q) (fresh_tree (moved_tree (/ (s * s)) s 1 Y q)) /\
  well_posed 3 (fv_solver lu_gauss (helmholtz 0)) q /\ well_posed 3 (fish_solver hst_gauss (helmholtz 0)) q /\
  length (leaves (moved_tree (/ (s * s)) s 1 Y q)) = 7.
Proof.
  intros rhs q s Y. destruct (adapted_example_expf rhs) as (_ & _ & _ & _ & _ & T & F & W & W' & _).
  assert (Sz : s <> 0%Qc) by discriminate.
  split. { intros x y. cbv zeta. cbn [helmholtz c_alpha c_beta c_lambda]. split; [field; auto|]. split; [reflexivity|]. ring. }
  split. { intros x y. cbn [helmholtz c_lambda]. field. auto. }
  split; [exact T|]. split; [exact F|]. split.
  { unfold q. cbn [adapted moved_tree fresh_tree fresh]. 
    assert (L : forall G, vscale (/ (s * s)) (sampled rhs (Grid (gnx (moved_grid s 1 Y G)) (gny (moved_grid s 1 Y G))
       ((gxl (moved_grid s 1 Y G) - 1) / s) ((gxu (moved_grid s 1 Y G) - 1) / s) ((gyl (moved_grid s 1 Y G) - Y) / s) ((gyu (moved_grid s 1 Y G) - Y) / s))%Qc)
       = vscale (/ (s * s)) (sampled rhs G)).
    { intros [nx ny xl xu yl yu]. cbn [moved_grid gxl gxu gyl gyu gnx gny]. do 3 f_equal; field; auto. }
    repeat split; apply L. }
  split; [exact W|]. split; [exact W'|]. reflexivity.
Qed.

(** ** The cache *)
Lemma leaf_operators m lu c al be G1 G2 s : 2 <= m -> lu_contract lu -> right_signs c -> (0 < s)%Qc ->
  (exists lam, (forall x y, c_alpha c x y = al /\ c_beta c x y = be /\ c_lambda c x y = lam) /\ (s = 1%Qc \/ lam = 0%Qc)) ->
  oriented G1 -> gnx G1 = m -> gny G1 = m -> gnx G2 = m -> gny G2 = m ->
  (gxu G2 - gxl G2 = s * (gxu G1 - gxl G1))%Qc -> (gyu G2 - gyl G2 = s * (gyu G1 - gyl G1))%Qc ->
  exists T T', sv_build (fv_solver lu c) G1 = Ok T /\ sv_build (fv_solver lu c) G2 = Ok T' /\
    square (4 * m) T /\ square (4 * m) T' /\ scaled_matrix (/ s) T T'.
Proof.
  intros Hm HL HS Hs (lam & Hc & Hlam) O Ex1 Ey1 Ex2 Ey2 Wx Wy. assert (Sz : s <> 0%Qc) by (apply s_nz; exact Hs).
  set (X := (gxl G2 - s * gxl G1)%Qc). set (Y := (gyl G2 - s * gyl G1)%Qc).
  assert (E : moved_grid s X Y G1 = G2).
  { unfold moved_grid, X, Y. destruct G2 as [nx ny xl xu yl yu]. cbn [gnx gny gxl gxu gyl gyu] in *. f_equal; try congruence; try ring.
    - replace xu with (xu - xl + xl)%Qc by ring. rewrite Wx. ring.
    - replace yu with (yu - yl + yl)%Qc by ring. rewrite Wy. ring. }
  assert (Hk : (/ (s * s) <> 0)%Qc).
  { intros E0. apply Sz. assert (E1 : (s * s * / (s * s) = 1)%Qc) by (apply Qcmult_inv_r; intros E2; destruct (Qcmult_integral _ _ E2); auto).
    rewrite E0, Qcmult_0_r in E1. discriminate. }
  assert (HC : moved_coefs (/ (s * s)) s X Y c c).
  { intros x y. cbv zeta. destruct (Hc x y) as (-> & -> & ->). destruct (Hc (X + s * x)%Qc (Y + s * y)%Qc) as (-> & -> & ->).
    split; [field; auto|]. split; [reflexivity|]. destruct Hlam as [->| ->]; [change (1 * 1)%Qc with 1%Qc; field; discriminate|ring]. }
  pose proof (moved_fv_solves m lu lu _ s X Y c c Hm HL HL HS Hk Hs HC) as HA.
  rewrite <- E.
  apply (leaf_build _ s X Y c c G1 m Hk Hs HC O Ex1 Ey1).
  - apply (HA G1 (zeros (4 * m)) (zeros (m * m))); auto using zeros_length.
  - intros. apply (HA G1 g f); auto.
  - intros. apply (HA G1 g f); auto.
Qed.

(** [C23] Five-point solver with constant coefficients.  If all leaves have the same
    size, the cache changes nothing: same tree, or the same failure. *)
Lemma cache_equal_leaves_pf : forall m lu c gesv t al be lam w h,
  2 <= m -> lu_contract lu -> right_signs c ->
  (forall x y, c_alpha c x y = al /\ c_beta c x y = be /\ c_lambda c x y = lam) ->
  (forall G, In G (leaf_grids t) -> oriented G /\ gnx G = m /\ gny G = m /\ (gxu G - gxl G = w)%Qc /\ (gyu G - gyl G = h)%Qc) ->
  same (fun r r' => snd r = snd r') (buildStage (fv_solver lu c) gesv true None t) (buildStage (fv_solver lu c) gesv false None t).
Proof.
  intros m lu c gesv t al be lam w h Hm HL HS Hc HG.
  assert (N : exists G0, In G0 (leaf_grids t)).
  { clear. induction t as [p|p a (G0 & H) b _ d _ e _]; cbn [leaf_grids]; [exists (pgrid p); left; reflexivity|].
    exists G0. apply in_or_app. left. exact H. }
  destruct N as (G0 & I0). destruct (HG G0 I0) as (O0 & X0 & Y0 & W0 & H0).
  assert (A : forall G, In G (leaf_grids t) -> exists T T', sv_build (fv_solver lu c) G0 = Ok T /\ sv_build (fv_solver lu c) G = Ok T' /\
    square (4 * m) T /\ square (4 * m) T' /\ scaled_matrix (/ 1) T T').
  { intros G I. destruct (HG G I) as (O1 & X1 & Y1 & W1 & H1).
    apply (leaf_operators m lu c al be G0 G 1%Qc); auto; [reflexivity|exists lam; auto|rewrite W1, W0; ring|rewrite H1, H0; ring]. }
  destruct (A G0 I0) as (T & _ & B & _).
  apply (cache_partial_pf _ _ T); [|left; reflexivity]. intros G I. destruct (A G I) as (T1 & T2 & B1 & B2 & S1 & S2 & (R & C & V)).
  rewrite B in B1. apply Ok_inj in B1. subst T1. rewrite B2. f_equal.
  destruct S1 as (F1 & N1 & C1), S2 as (F2 & N2 & C2). apply (mat_ext 0%Qc); auto; try congruence.
  intros i j Hi Hj. rewrite R in Hi. rewrite C in Hj. specialize (V i j Hi Hj).
  rewrite !val_ent in V by (auto; congruence). rewrite V. change (/ 1)%Qc with 1%Qc. ring.
Qed.

(** [C23] Constant coefficients without lambda: the operator of a leaf s times as large
    is the operator of the first leaf divided by s.  So with the cache every leaf of
    another size gets a wrong operator. *)
Lemma leaf_operator_scales_pf : forall m lu c al be G1 G2 s,
  2 <= m -> lu_contract lu -> right_signs c -> (0 < s)%Qc ->
  (forall x y, c_alpha c x y = al /\ c_beta c x y = be /\ c_lambda c x y = 0%Qc) ->
  oriented G1 -> gnx G1 = m -> gny G1 = m -> gnx G2 = m -> gny G2 = m ->
  (gxu G2 - gxl G2 = s * (gxu G1 - gxl G1))%Qc -> (gyu G2 - gyl G2 = s * (gyu G1 - gyl G1))%Qc ->
  exists T T', sv_build (fv_solver lu c) G1 = Ok T /\ sv_build (fv_solver lu c) G2 = Ok T' /\
    scaled_matrix (/ s) T T' /\ (s <> 1%Qc -> T' <> T).
Proof.
  intros m lu c al be G1 G2 s Hm HL HS Hs Hc O Ex1 Ey1 Ex2 Ey2 Wx Wy.
  destruct (leaf_operators m lu c al be G1 G2 s) as (T & T' & B & B' & ST & ST' & SM); auto; [exists 0%Qc; auto|].
  exists T, T'. split; [exact B|]. split; [exact B'|]. split; [exact SM|]. intros Hs1 ->.
  assert (Sz : s <> 0%Qc) by (apply s_nz; exact Hs).
  assert (TZ : forall g, apply_op T g = vec_of (4 * m) (fun _ => 0%Qc)).
  { intros g. rewrite apply_op_vec. destruct ST as (_ & -> & C). apply vec_of_ext. intros i Hi. apply sum_zero. intros j Hj.
    destruct SM as (_ & _ & V). pose proof (V i j) as Vij.
    assert (E : val T i j = (/ s * val T i j)%Qc) by (apply V; [destruct ST'; lia|destruct ST'; lia]).
    assert (E2 : ((s - 1) * val T i j = 0)%Qc).
    { replace ((s - 1) * val T i j)%Qc with (s * val T i j - val T i j)%Qc by ring. rewrite E at 1. rewrite Qcmult_assoc, Qcmult_inv_r by auto. ring. }
    apply Qcmult_integral in E2. destruct E2 as [E2|E2]; [exfalso; apply Hs1; replace s with (s - 1 + 1)%Qc by ring; rewrite E2; ring|].
    rewrite E2. ring. }
  assert (U : fv_unique c G1) by (apply maximum_principle; auto; apply orp; exact O).
  assert (AF : affine_solver m (fv_solver lu c) G1).
  { apply (solver_affine c); auto; [apply orp; exact O|]. intros. apply (fv_solve_ok G1 m Ex1 Ey1); auto. apply orp; exact O. }
  destruct AF as [_ _ (T1 & B1 & _ & H1)]. rewrite B in B1. apply Ok_inj in B1. subst T1.
  destruct (H1 (zeros (m * m)) (zeros_length _)) as (h & _ & Lh & M).
  assert (P : forall q, exists g, length g = 4 * m /\ fv_map (fv_solve lu c) G1 g (zeros (m * m)) = Ok (repeat q m ++ repeat q m ++ repeat 0%Qc m ++ repeat 0%Qc m)).
  { intros q. exists (on_boundary (plane 0 q 0) G1).
    assert (LB : length (on_boundary (plane 0 q 0) G1) = 4 * m).
    { unfold on_boundary. rewrite !app_length, !map_length, !seq_length. lia. }
    split; [exact LB|].
    apply (flux_exact_linear_pf lu c G1 m 0%Qc q 0%Qc); auto using zeros_length.
    - apply orp; exact O.
    - apply (boundary_of_plane _ _ _ G1 m); auto.
    - intros i j Hi Hj. cbv zeta. destruct (Hc (mid_x G1 i) (mid_y G1 j)) as (-> & _ & ->).
      destruct (Hc (face_x G1 (S i)) (mid_y G1 j)) as (_ & -> & _). destruct (Hc (face_x G1 i) (mid_y G1 j)) as (_ & -> & _).
      destruct (Hc (mid_x G1 i) (face_y G1 (S j))) as (_ & -> & _). destruct (Hc (mid_x G1 i) (face_y G1 j)) as (_ & -> & _).
      unfold cell. rewrite vval_zeros. unfold Qcdiv. ring. }
  destruct (P 0%Qc) as (g0 & L0 & E0). destruct (P 1%Qc) as (g1 & L1 & E1).
  destruct (M g0 L0) as (_ & M0). destruct (M g1 L1) as (_ & M1). cbn [fv_solver solver_of sv_map] in M0, M1.
  rewrite E0 in M0. rewrite E1 in M1. rewrite TZ in M0, M1. apply Ok_inj in M0, M1. rewrite <- M0 in M1.
  destruct m as [|m']; [lia|]. cbn [repeat app] in M1. discriminate M1.
Qed.

(** [C23] The same with FISHPACK, which takes lambda at the origin for all leaves; any coefficient functions. *)
Lemma cache_equal_leaves_fish_pf : forall m hst c gesv t w h,
  3 <= m -> hst_contract hst -> (c_lambda c 0%Qc 0%Qc <= 0)%Qc ->
  (forall G, In G (leaf_grids t) -> oriented G /\ gnx G = m /\ gny G = m /\ (gxu G - gxl G = w)%Qc /\ (gyu G - gyl G = h)%Qc) ->
  same (fun r r' => snd r = snd r') (buildStage (fish_solver hst c) gesv true None t) (buildStage (fish_solver hst c) gesv false None t).
Proof.
  intros m hst c gesv t w h Hm HH Hl HG. set (lam := c_lambda c 0%Qc 0%Qc) in *.
  assert (FE : forall G g f, fish_solve hst c G g f = fish_solve hst (helmholtz lam) G g f) by reflexivity.
  assert (HS : right_signs (helmholtz lam)) by (apply (helmholtz_signs _ lam); [auto|exact Hl]).
  assert (FS : forall G g f, oriented G -> gnx G = m -> gny G = m -> length g = 4 * m -> length f = m * m ->
    exists u, fish_solve hst c G g f = Ok u /\ fv_solution (helmholtz lam) G g f u).
  { intros G0 g0 f0 O Ex Ey L1 L2. rewrite FE.
    destruct (solvers_agree_partial_pf lu_gauss hst (helmholtz lam) lam G0 m g0 f0) as (u & _ & E & S); auto using lu_gauss_contract.
    { apply maximum_principle; [apply orp; exact O|exact HS]. }
    exists u. auto. }
  assert (N : exists G0, In G0 (leaf_grids t)).
  { clear. induction t as [p|p a (G0 & H) b _ d _ e _]; cbn [leaf_grids]; [exists (pgrid p); left; reflexivity|].
    exists G0. apply in_or_app. left. exact H. }
  destruct N as (G0 & I0). destruct (HG G0 I0) as (O0 & X0 & Y0 & W0 & H0).
  assert (A : forall G, In G (leaf_grids t) -> exists T T', sv_build (fish_solver hst c) G0 = Ok T /\ sv_build (fish_solver hst c) G = Ok T' /\
    square (4 * m) T /\ square (4 * m) T' /\ scaled_matrix (/ 1) T T').
  { intros G I. destruct (HG G I) as (O1 & X1 & Y1 & W1 & H1).
    assert (E : moved_grid 1 (gxl G - gxl G0) (gyl G - gyl G0) G0 = G).
    { unfold moved_grid. destruct G as [nx ny xl xu yl yu]. cbn [gnx gny gxl gxu gyl gyu] in *. f_equal; try congruence; try ring.
      - replace xu with (xu - xl + xl)%Qc by ring. rewrite W1, <- W0. ring.
      - replace yu with (yu - yl + yl)%Qc by ring. rewrite H1, <- H0. ring. }
    rewrite <- E.
    apply (leaf_build 1 1 (gxl G - gxl G0) (gyl G - gyl G0) (helmholtz lam) (helmholtz lam) G0 m); auto; try discriminate; try reflexivity.
    - intros x y. cbv zeta. cbn [helmholtz c_alpha c_beta c_lambda]. split; [ring|]. split; [reflexivity|ring].
    - apply maximum_principle; [apply orp; exact O0|exact HS].
    - rewrite E. intros. apply FS; auto. }
  destruct (A G0 I0) as (T & _ & B & _).
  apply (cache_partial_pf _ _ T); [|left; reflexivity]. intros G I. destruct (A G I) as (T1 & T2 & B1 & B2 & S1 & S2 & (R & C & V)).
  rewrite B in B1. apply Ok_inj in B1. subst T1. rewrite B2. f_equal.
  destruct S1 as (F1 & N1 & C1), S2 as (F2 & N2 & C2). apply (mat_ext 0%Qc); auto; try congruence.
  intros i j Hi Hj. rewrite R in Hi. rewrite C in Hj. specialize (V i j Hi Hj).
  rewrite !val_ent in V by (auto; congruence). rewrite V. change (/ 1)%Qc with 1%Qc. ring.
Qed.

(** Four leaves, constant coefficients. *)
Lemma cache_equal_leaves_example_expf : let t := fresh_tree (divided (fun x y => x) 2 1 (Grid 4 4 0 1 0 1)%Qc) in
  right_signs (helmholtz (- (1))) /\ length (leaf_grids t) = 4 /\
  (forall G, In G (leaf_grids t) -> oriented G /\ gnx G = 2 /\ gny G = 2 /\ (gxu G - gxl G = Q2Qc (1 # 2))%Qc /\ (gyu G - gyl G = Q2Qc (1 # 2))%Qc).
Proof.
  split; [apply (helmholtz_signs _ (- (1))%Qc); [auto|discriminate]|]. split; [reflexivity|]. intros G HG. cbn in HG.
  repeat (destruct HG as [<-|HG]; [repeat split; try discriminate; apply Qc_is_canon; reflexivity|]). destruct HG.
Qed.

Lemma cache_equal_leaves_fish_example_expf : let t := fresh_tree (divided (fun x y => x) 3 1 (Grid 6 6 0 1 0 1)%Qc) in
  hst_contract hst_gauss /\ length (leaf_grids t) = 4 /\
  (forall G, In G (leaf_grids t) -> oriented G /\ gnx G = 3 /\ gny G = 3 /\ (gxu G - gxl G = Q2Qc (1 # 2))%Qc /\ (gyu G - gyl G = Q2Qc (1 # 2))%Qc).
Proof.
  split; [exact hst_gauss_contract|]. split; [reflexivity|]. intros G HG. cbn in HG.
  repeat (destruct HG as [<-|HG]; [repeat split; try discriminate; apply Qc_is_canon; reflexivity|]). destruct HG.
Qed.

(** A run with the cache, and the western boundary value of the second leaf compared
    with [a]. *)
Definition cached_run (sv : solver) (gesv : gesv_t) (t : tree) (load : grid -> list Qc) (g : list Qc) : res tree :=
  r <- buildStage sv gesv true None t ;; t2 <- upwardsStage sv gesv false load (snd r) ;; solveStage sv false g t2.
Definition second_value (v : list (list Qc * list Qc)) : Q := this (nth 0 (fst (nth 1 v ([], []))) 0%Qc).
Definition cached_cert (sv : solver) (gesv : gesv_t) (t : tree) (load : grid -> list Qc) (g : list Qc) (a : Q) : bool :=
  match cached_run sv gesv t load g with
  | Ok t => negb (Qeq_bool (second_value (computed_values t)) a)
  | _ => false
  end.
Lemma cached_differs sv gesv t load g v : cached_cert sv gesv t load g (second_value v) = true ->
  exists st1 t1 t2 t3, buildStage sv gesv true None t = Ok (st1, t1) /\ upwardsStage sv gesv false load t1 = Ok t2 /\
    solveStage sv false g t2 = Ok t3 /\ computed_values t3 <> v.
Proof.
  unfold cached_cert. destruct (cached_run sv gesv t load g) as [t3| |] eqn:R; intros C; try discriminate C.
  unfold cached_run in R. apply bind_inv in R. destruct R as ([st1 t1] & R1 & R). apply bind_inv in R. destruct R as (t2 & R2 & R3).
  exists st1, t1, t2, t3. split; [exact R1|]. split; [exact R2|]. split; [exact R3|]. intros E. rewrite E in C.
  rewrite (Qeq_eq_bool _ _ (Qeq_refl _)) in C. discriminate C.
Qed.

(** The unit square with seven leaves, Laplace's equation, boundary data u = x. *)
Definition zero_rhs (x y : Qc) : Qc := 0%Qc.
Lemma cached_cert_true : cached_cert (fv_solver lu_gauss (helmholtz 0)) gauss_gesv (fresh_tree (adapted zero_rhs 3 unit_square))
  (sampled zero_rhs) (on_boundary (plane 0 1 0) (rect 6 unit_square))
  (second_value (map (fun z => (on_boundary (plane 0 1 0) (fst z), sampled (plane 0 1 0) (fst z))) (leaves (adapted zero_rhs 3 unit_square)))) = true.
Proof. vm_cast_no_check (eq_refl true). Qed.

(** [C23] On a refined mesh the cache gives wrong answers already for Laplace's equation
    with boundary data u = x, where the run without the cache returns u = x in all
    leaves. *)
Lemma cache_refined_refuted_pf : exists lu gesv c q t load g,
  let sv := fv_solver lu c in
  lu_contract lu /\ gesv_contract gesv /\ (forall x y, c_alpha c x y = 1%Qc /\ c_beta c x y = 1%Qc /\ c_lambda c x y = 0%Qc) /\
  tiled 3 unit_square q /\ fresh load q t /\ well_posed 3 sv q /\
  exists st1 t1 t2 t3 st1' t1' t2' t3',
    buildStage sv gesv false None t = Ok (st1, t1) /\ upwardsStage sv gesv false load t1 = Ok t2 /\ solveStage sv false g t2 = Ok t3 /\
    buildStage sv gesv true None t = Ok (st1', t1') /\ upwardsStage sv gesv false load t1' = Ok t2' /\ solveStage sv false g t2' = Ok t3' /\
    computed_values t3 = map (fun z => (on_boundary (plane 0 1 0) (fst z), sampled (plane 0 1 0) (fst z))) (leaves q) /\
    computed_values t3' <> computed_values t3.
Proof.
  pose proof cached_cert_true as C. destruct (adapted_example_expf zero_rhs) as (HL & _ & HG & HS & HO & T & F & W & _ & Lv & _).
  pose proof (adapted_loads_expf 0%Qc 1%Qc 0%Qc) as PL.
  exists lu_gauss, gauss_gesv, (helmholtz 0), (adapted zero_rhs 3 unit_square), (fresh_tree (adapted zero_rhs 3 unit_square)),
    (sampled zero_rhs), (on_boundary (plane 0 1 0) (rect 6 unit_square)). cbv zeta.
  change (adapted (fun _ _ => 0%Qc) 3 unit_square) with (adapted zero_rhs 3 unit_square) in PL.
  generalize dependent (fresh_tree (adapted zero_rhs 3 unit_square)). generalize dependent (adapted zero_rhs 3 unit_square).
  generalize dependent (sampled zero_rhs). generalize dependent gauss_gesv. intros gesv HG load q T W Lv PL t C F.
  split; [exact HL|]. split; [exact HG|]. split; [auto|]. split; [exact T|]. split; [exact F|]. split; [exact W|].
  destruct (linear_exact_pf 3 lu_gauss (helmholtz 0) gesv unit_square load q t None 0%Qc 1%Qc 0%Qc
    ltac:(lia) HL HG HS HO T F W (or_introl (le_n 3)) PL) as (st1 & t1 & t2 & t3 & E1 & E2 & E3 & E4 & _).
  rewrite Lv in E3. destruct (cached_differs _ _ _ _ _ _ C) as (st1' & t1' & t2' & t3' & R1 & R2 & R3 & R4).
  exists st1, t1, t2, t3, st1', t1', t2', t3'.
  split; [exact E1|]. split; [exact E2|]. split; [exact E3|]. split; [exact R1|]. split; [exact R2|]. split; [exact R3|].
  split; [exact E4|]. rewrite E4. exact R4.
Qed.
