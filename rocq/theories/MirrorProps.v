(** Mirrored domains, and domains with x and y exchanged. *)
From Verif Require Import Base VectorModel MatrixModel LinSpec HPSModel HPSSpec FVModel FVSpec GlobalSpec StageSpec AdaptSpec MirrorSpec.
From Verif Require Import MatProofs MatProofs2 LinProofs Gauss LinProps HPSProofs HPSProofs3 HPSProofs4 HPSTree HPSTree2 HPSStage2 HPSRebuild HPSProps.
From Verif Require Import FVProofs FVProofs2 FVProofs3 FVMax FVJoin FVGlobal FVFish FVProps AdaptCert AdaptProofs AdaptPlane AdaptEnd AdaptProps MirrorProofs.
From Coq Require Import Lia.

Lemma fv_solves m lu c : 2 <= m -> lu_contract lu -> right_signs c ->
  forall G g f, oriented G -> gnx G = m -> gny G = m -> length g = 4 * m -> length f = m * m ->
  fv_unique c G /\ (exists u, fv_solve lu c G g f = Ok u /\ fv_solution c G g f u).
Proof.
  intros Hm HL HS G g f O Ex Ey Lg Lf.
  assert (U : fv_unique c G) by (apply maximum_principle; auto; apply orp; exact O). split; [exact U|].
  apply (fv_solve_ok G m Ex Ey); auto. apply orp; exact O.
Qed.
Lemma fish_solves m hst c lam : 3 <= m -> hst_contract hst -> (forall x y, c_alpha c x y = 1%Qc /\ c_beta c x y = 1%Qc /\ c_lambda c x y = lam) ->
  (lam <= 0)%Qc -> forall G0 g0 f0, oriented G0 -> gnx G0 = m -> gny G0 = m -> length g0 = 4 * m -> length f0 = m * m ->
  exists u, fish_solve hst c G0 g0 f0 = Ok u /\ fv_solution c G0 g0 f0 u.
Proof.
  intros Hm A B C G0 g0 f0 O Ex Ey L1 L2.
  destruct (solvers_agree_partial_pf lu_gauss hst c lam G0 m g0 f0) as (u & _ & E & S); auto using lu_gauss_contract.
  { apply maximum_principle; [apply orp; exact O|]. eapply helmholtz_signs; eauto. }
  exists u. auto.
Qed.

(** [C92] Five-point patch solver, coefficients that vary, quadtree of any shape.  The
    mirrored (or exchanged) problem is solved as well, and every leaf of it gets the
    mirrored values of the leaf it is the image of.  The fluxes at the root are mirrored
    too. *)
Lemma mirrored_domain_pf : forall s m lu lu' c c' gesv gesv' G load load' q t t' st st' g,
  2 <= m -> lu_contract lu -> lu_contract lu' -> gesv_contract gesv -> gesv_contract gesv' ->
  right_signs c -> sym_coefs s c c' ->
  oriented (rect m G) -> tiled m G q -> fresh load q t -> fresh load' (sym_tree s m q) t' ->
  well_posed m (fv_solver lu c) q -> 3 <= m \/ equal_levels q -> length g = 4 * (m * 2 ^ level q) ->
  let n := m * 2 ^ level q in let g' := sym_data s n g in
  exists st1 t1 t2 t3 st1' t1' t2' t3',
    buildStage (fv_solver lu c) gesv false st t = Ok (st1, t1) /\
    upwardsStage (fv_solver lu c) gesv false load t1 = Ok t2 /\
    solveStage (fv_solver lu c) false g t2 = Ok t3 /\
    buildStage (fv_solver lu' c') gesv' false st' t' = Ok (st1', t1') /\
    upwardsStage (fv_solver lu' c') gesv' false load' t1' = Ok t2' /\
    solveStage (fv_solver lu' c') false g' t2' = Ok t3' /\
    length (computed_values t3) = length (leaves q) /\
    computed_values t3' = sym_values s m q (computed_values t3) /\
    vplus (apply_op (pT (data t2')) g') (ph (data t2')) = sym_flux s n (vplus (apply_op (pT (data t2)) g) (ph (data t2))).
Proof.
  intros s m lu lu' c c' gesv gesv' G load load' q t t' st st' g Hm HL HL' Hg Hg' HS HC HO HT HF HF' HW H3 Lg.
  pose proof (fv_solves m lu c Hm HL HS) as HA. pose proof (fv_solves m lu' c' Hm HL' (sym_signs _ _ _ HC HS)) as HA'.
  apply (sym_stages m ltac:(lia) s c c' HC (fv_solve lu c) (fv_solve lu' c') G q HO HT); auto.
  - intros G0 O Ex Ey. apply (HA G0 (zeros (4 * m)) (zeros (m * m))); auto using zeros_length.
  - intros G0 O Ex Ey. apply (HA' G0 (zeros (4 * m)) (zeros (m * m))); auto using zeros_length.
  - intros G0 g0 f0 O Ex Ey L1 L2. apply (HA G0 g0 f0); auto.
  - intros G0 g0 f0 O Ex Ey L1 L2. apply (HA' G0 g0 f0); auto.
Qed.

(** [C92] The mirrored problem is well posed when the first one is. *)
Lemma mirrored_well_posed_pf : forall s m lu lu' c c' G q,
  2 <= m -> lu_contract lu -> lu_contract lu' -> right_signs c -> sym_coefs s c c' ->
  oriented (rect m G) -> tiled m G q -> 3 <= m \/ equal_levels q ->
  well_posed m (fv_solver lu c) q -> well_posed m (fv_solver lu' c') (sym_tree s m q).
Proof.
  intros s m lu lu' c c' G q Hm HL HL' HS HC HO HT H3.
  pose proof (fv_solves m lu c Hm HL HS) as HA. pose proof (fv_solves m lu' c' Hm HL' (sym_signs _ _ _ HC HS)) as HA'.
  apply (sym_posed m ltac:(lia) s c c' HC (fv_solve lu c) (fv_solve lu' c') G q HO HT); auto.
  - intros G0 O Ex Ey. apply (HA G0 (zeros (4 * m)) (zeros (m * m))); auto using zeros_length.
  - intros G0 O Ex Ey. apply (HA' G0 (zeros (4 * m)) (zeros (m * m))); auto using zeros_length.
  - intros G0 g0 f0 O Ex Ey L1 L2. apply (HA G0 g0 f0); auto.
  - intros G0 g0 f0 O Ex Ey L1 L2. apply (HA' G0 g0 f0); auto.
Qed.

(** [C92] The same with FISHPACK, whose equation is its own mirror image. *)
Lemma mirrored_domain_fish_pf : forall s m hst hst' c lam gesv gesv' G load load' q t t' st st' g,
  3 <= m -> hst_contract hst -> hst_contract hst' -> gesv_contract gesv -> gesv_contract gesv' ->
  (forall x y, c_alpha c x y = 1%Qc /\ c_beta c x y = 1%Qc /\ c_lambda c x y = lam) -> (lam <= 0)%Qc ->
  oriented (rect m G) -> tiled m G q -> fresh load q t -> fresh load' (sym_tree s m q) t' ->
  well_posed m (fish_solver hst c) q -> length g = 4 * (m * 2 ^ level q) ->
  let n := m * 2 ^ level q in let g' := sym_data s n g in
  exists st1 t1 t2 t3 st1' t1' t2' t3',
    buildStage (fish_solver hst c) gesv false st t = Ok (st1, t1) /\
    upwardsStage (fish_solver hst c) gesv false load t1 = Ok t2 /\
    solveStage (fish_solver hst c) false g t2 = Ok t3 /\
    buildStage (fish_solver hst' c) gesv' false st' t' = Ok (st1', t1') /\
    upwardsStage (fish_solver hst' c) gesv' false load' t1' = Ok t2' /\
    solveStage (fish_solver hst' c) false g' t2' = Ok t3' /\
    length (computed_values t3) = length (leaves q) /\
    computed_values t3' = sym_values s m q (computed_values t3) /\
    vplus (apply_op (pT (data t2')) g') (ph (data t2')) = sym_flux s n (vplus (apply_op (pT (data t2)) g) (ph (data t2))).
Proof.
  intros s m hst hst' c lam gesv gesv' G load load' q t t' st st' g Hm HH HH' Hg Hg' Hc Hl HO HT HF HF' HW Lg.
  assert (HC : sym_coefs s c c).
  { intros x y. cbv zeta. destruct (Hc x y) as (-> & -> & ->). apply Hc. }
  pose proof (helmholtz_signs c lam Hc Hl) as HS.
  assert (HU : forall G0, oriented G0 -> gnx G0 = m -> gny G0 = m -> fv_unique c G0).
  { intros G0 O Ex Ey. apply maximum_principle; auto. apply orp. exact O. }
  apply (sym_stages m ltac:(lia) s c c HC (fish_solve hst c) (fish_solve hst' c) G q HO HT); auto.
  - intros G0 g0 f0 O Ex Ey L1 L2. apply (fish_solves m hst c lam); auto.
  - intros G0 g0 f0 O Ex Ey L1 L2. apply (fish_solves m hst' c lam); auto.
Qed.

(** [C92] The mirrored load of a sampled function is the mirrored function, sampled. *)
Lemma mirrored_load_pf : forall s m G rhs rhs',
  oriented G -> gnx G = m -> gny G = m ->
  (forall x y, rhs' (fst (sym_point s x y)) (snd (sym_point s x y)) = rhs x y) ->
  sym_cells s m (sampled rhs G) = sampled rhs' (sym_grid s G).
Proof.
  intros s m G rhs rhs' HO Ex Ey HR. pose proof (sgx s G m Ex Ey) as Ex'. pose proof (sgy s G m Ex Ey) as Ey'.
  assert (Nm : m <> 0) by (destruct HO as (_ & _ & H & _); congruence).
  apply vval_ext; [rewrite sym_cells_length; unfold sampled; rewrite map_length, seq_length, Ex', Ey'; reflexivity|].
  rewrite sym_cells_length. intros k Hk. unfold sym_cells, sampled. rewrite Ex, Ey, Ex', Ey'. rewrite (vval_map_seq (m * m) _ k Hk). rewrite (vval_map_seq (m * m) (fun k => rhs' _ _) k Hk).
  assert (Ki : k / m < m) by (apply Nat.div_lt_upper_bound; auto). assert (Kj : k mod m < m) by (apply Nat.mod_upper_bound; auto).
  rewrite vval_map_seq by (destruct s; nia). rewrite (sym_mid_x s G m HO Ex Ey _ Ki), sym_mid_y.
  destruct s; cbn [sym_point fst snd] in HR; rewrite <- HR; rewrite Nat.div_add, Nat.mod_add by exact Nm.
  - rewrite (Nat.div_small (k mod m)), (Nat.mod_small (k mod m)) by exact Kj. reflexivity.
  - rewrite (Nat.div_small (k / m)), (Nat.mod_small (k / m)) by exact Ki. reflexivity.
Qed.

(** [C92] If the problem is its own mirror image, so is the answer. *)
Lemma symmetric_answer_pf : forall s m lu c gesv G load q t st g,
  2 <= m -> lu_contract lu -> gesv_contract gesv -> right_signs c -> sym_coefs s c c ->
  oriented (rect m G) -> tiled m G q -> fresh load q t ->
  well_posed m (fv_solver lu c) q -> 3 <= m \/ equal_levels q -> length g = 4 * (m * 2 ^ level q) ->
  sym_tree s m q = q -> sym_data s (m * 2 ^ level q) g = g ->
  exists st1 t1 t2 t3,
    buildStage (fv_solver lu c) gesv false st t = Ok (st1, t1) /\
    upwardsStage (fv_solver lu c) gesv false load t1 = Ok t2 /\
    solveStage (fv_solver lu c) false g t2 = Ok t3 /\
    length (computed_values t3) = length (leaves q) /\
    computed_values t3 = sym_values s m q (computed_values t3).
Proof.
  intros s m lu c gesv G load q t st g Hm HL Hg HS HC HO HT HF HW H3 Lg Sq Sg.
  destruct (mirrored_domain_pf s m lu lu c c gesv gesv G load load q t t st st g) as (st1 & t1 & t2 & t3 & st1' & t1' & t2' & t3' & A & B & C & A' & B' & C' & L & V & _);
    auto; [rewrite Sq; exact HF|]. cbv zeta in C'. rewrite Sg in C'. rewrite A in A'. apply Ok_inj in A'. injection A' as <- <-.
  rewrite B in B'. apply Ok_inj in B'. subst t2'. rewrite C in C'. apply Ok_inj in C'. subst t3'.
  exists st1, t1, t2, t3. auto.
Qed.

Lemma sym_fresh s rhs m q : forall G, oriented (rect m G) -> tiled m G q -> fresh (sampled rhs) q (fresh_tree q) ->
  fresh (fun G => sym_cells s m (sampled rhs (sym_grid s G))) (sym_tree s m q) (fresh_tree (sym_tree s m q)).
Proof.
  intros G _ _. clear G. induction q as [G f|a IHa b IHb c IHc d IHd]; cbn [fresh fresh_tree sym_tree].
  - intros (_ & _ & E). cbn [fresh fresh_tree]. rewrite sym_grid_twice, E. auto.
  - intros (_ & A & B & C & D). specialize (IHa A). specialize (IHb B). specialize (IHc C). specialize (IHd D).
    destruct s; cbn [sym_four fa fb fc fd fresh fresh_tree]; auto.
Qed.

(** Laplace's equation on the unit square with seven leaves: mirrored, the refined
    corner is the lower right one; with x and y exchanged and a symmetric load, the
    problem is its own image. *)
Lemma mirrored_domain_example_expf : forall rhs,
  let q := adapted rhs 3 unit_square in
  (forall s, sym_coefs s (helmholtz 0) (helmholtz 0)) /\ oriented (rect 3 unit_square) /\
  tiled 3 unit_square q /\ fresh (sampled rhs) q (fresh_tree q) /\
  (forall s, fresh (fun G => sym_cells s 3 (sampled rhs (sym_grid s G))) (sym_tree s 3 q) (fresh_tree (sym_tree s 3 q))) /\
  well_posed 3 (fv_solver lu_gauss (helmholtz 0)) q /\ well_posed 3 (fish_solver hst_gauss (helmholtz 0)) q /\
  map (fun z => (gxu (fst z) - gxl (fst z), gyl (fst z))%Qc) (leaves (sym_tree Mirror 3 q)) <>
  map (fun z => (gxu (fst z) - gxl (fst z), gyl (fst z))%Qc) (leaves q) /\
  ((forall x y, rhs y x = rhs x y) -> sym_tree Swap 3 q = q /\
     let g := repeat 1%Qc 6 ++ repeat (1 + 1)%Qc 6 ++ repeat 1%Qc 6 ++ repeat (1 + 1)%Qc 6 in
     length g = 4 * (3 * 2 ^ level q) /\ sym_data Swap (3 * 2 ^ level q) g = g).
Proof.
  intros rhs q. destruct (adapted_example_expf rhs) as (_ & _ & _ & _ & O & T & F & W & W' & _).
  split. { intros s x y. cbv zeta. cbn [helmholtz c_alpha c_beta c_lambda]. auto. }
  split; [exact O|]. split; [exact T|]. split; [exact F|]. split; [intros s; exact (sym_fresh s rhs 3 q unit_square O T F)|].
  split; [exact W|]. split; [exact W'|]. split.
  { intros E. apply (f_equal (fun v => this (fst (nth 0 v (0, 0)%Qc)))) in E. vm_compute in E. discriminate E. }
  intros HR. split.
  { assert (L : forall G, oriented (rect 3 G) -> forall G', G' = sym_grid Swap (rect 3 G) -> QLeaf (sym_grid Swap (rect 3 G)) (sym_cells Swap 3 (sampled rhs (rect 3 G))) = QLeaf G' (sampled rhs G')).
    { intros G0 O0 G' ->. f_equal. apply (mirrored_load_pf Swap 3 (rect 3 G0) rhs rhs); auto. }
    assert (TL := tiled_leaf 3 q unit_square ltac:(discriminate) O T).
    unfold q, adapted in *. cbv zeta in *. cbn [leaves app In] in TL. cbn [sym_tree sym_four fa fb fc fd].
    assert (QN : forall a b c d a' b' c' d', a = a' -> b = b' -> c = c' -> d = d' -> QNode a b c d = QNode a' b' c' d') by congruence.
    repeat apply QN; (apply L; [|reflexivity]); eapply TL; tauto. }
  cbv zeta. split; reflexivity.
Qed.
