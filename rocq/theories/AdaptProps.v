(** Locally refined meshes: linear functions are reproduced, and fluxes and sources
    balance. *)
From Verif Require Import Base VectorModel MatrixModel LinSpec HPSModel HPSSpec FVModel FVSpec GlobalSpec StageSpec AdaptSpec.
From Verif Require Import MatProofs MatProofs2 LinProofs Gauss LinProps HPSProofs HPSProofs3 HPSProofs4 HPSTree HPSTree2 HPSStage2 HPSProps.
From Verif Require Import FVProofs FVProofs2 FVProofs3 FVMax FVJoin FVGlobal FVFish FVProps AdaptCert AdaptProofs AdaptPlane AdaptEnd.
From Coq Require Import Lia.

Lemma leaf_unique m c G s : m <> 0 -> right_signs c -> oriented (rect m G) -> tiled m G s ->
  forall G' f, In (G', f) (leaves s) -> fv_unique c G'.
Proof.
  intros Hm HS HO HT G' f HI. apply maximum_principle; auto. apply orp. eapply tiled_leaf; eauto.
Qed.

Lemma fv_leaf_solves m lu c G s : 2 <= m -> lu_contract lu -> right_signs c -> oriented (rect m G) -> tiled m G s ->
  forall G' f', In (G', f') (leaves s) -> forall g f, length g = 4 * m -> length f = m * m ->
  exists u, fv_solve lu c G' g f = Ok u /\ fv_solution c G' g f u.
Proof.
  intros Hm HL HS HO HT G' f' HI g f Lg Lf.
  destruct (tiled_leaf m s G ltac:(lia) HO HT G' f' HI) as (O & Ex & Ey & _).
  apply (fv_solve_ok G' m Ex Ey); auto; [apply orp; exact O|]. apply maximum_principle; auto. apply orp. exact O.
Qed.

Lemma helmholtz_signs c lam : (forall x y, c_alpha c x y = 1%Qc /\ c_beta c x y = 1%Qc /\ c_lambda c x y = lam) ->
  (lam <= 0)%Qc -> right_signs c.
Proof.
  intros Hc Hl x y. destruct (Hc x y) as (-> & -> & ->). split; [discriminate|]. split; [reflexivity|]. rewrite Qcmult_1_l. exact Hl.
Qed.

Lemma fish_leaf_solves m hst c lam G s : 3 <= m -> hst_contract hst ->
  (forall x y, c_alpha c x y = 1%Qc /\ c_beta c x y = 1%Qc /\ c_lambda c x y = lam) -> (lam <= 0)%Qc ->
  oriented (rect m G) -> tiled m G s ->
  forall G' f', In (G', f') (leaves s) -> forall g f, length g = 4 * m -> length f = m * m ->
  exists u, fish_solve hst c G' g f = Ok u /\ fv_solution c G' g f u.
Proof.
  intros Hm HH Hc Hl HO HT G' f' HI g f Lg Lf. pose proof (helmholtz_signs c lam Hc Hl) as HS.
  destruct (tiled_leaf m s G ltac:(lia) HO HT G' f' HI) as (O & Ex & Ey & _).
  destruct (solvers_agree_partial_pf lu_gauss hst c lam G' m g f) as (u & _ & E & S); auto using lu_gauss_contract.
  { apply maximum_principle; auto. apply orp. exact O. }
  exists u. auto.
Qed.

(** [C60] Five-point patch solver, quadtree of any shape on which the glued problem is
    well posed.  When the boundary data are a linear function p + q x + r y in the
    middle of the root's boundary faces and the loads are the operator applied to it,
    the stages return that function on the boundary and in the cells of every leaf, and
    the flux at the root is q on west and east and r on south and north. *)
Lemma linear_exact_pf : forall m lu c gesv G load s t st p q r,
  2 <= m -> lu_contract lu -> gesv_contract gesv -> right_signs c -> oriented (rect m G) -> tiled m G s ->
  fresh load s t -> well_posed m (fv_solver lu c) s -> 3 <= m \/ equal_levels s ->
  (forall G' f, In (G', f) (leaves s) -> plane_load c G' p q r f) ->
  let N := m * 2 ^ level s in
  let g := on_boundary (plane p q r) (rect N G) in
  exists st1 t1 t2 t3,
    buildStage (fv_solver lu c) gesv false st t = Ok (st1, t1) /\
    upwardsStage (fv_solver lu c) gesv false load t1 = Ok t2 /\
    solveStage (fv_solver lu c) false g t2 = Ok t3 /\
    computed_values t3 = map (fun z => (on_boundary (plane p q r) (fst z), sampled (plane p q r) (fst z))) (leaves s) /\
    vplus (apply_op (pT (data t2)) g) (ph (data t2)) = repeat q N ++ repeat q N ++ repeat r N ++ repeat r N.
Proof.
  intros m lu c gesv G load s t st p q r Hm HL Hge HS HO HT HF HW H3 HP.
  apply (stages_linear m ltac:(lia) c (fv_solve lu c) G s HO HT); auto.
  - apply (leaf_unique m c G s); auto. lia.
  - apply (fv_leaf_solves m lu c G s); auto.
Qed.

(** [C60] The same with FISHPACK. *)
Lemma linear_exact_fish_pf : forall m hst c lam gesv G load s t st p q r,
  3 <= m -> hst_contract hst -> gesv_contract gesv ->
  (forall x y, c_alpha c x y = 1%Qc /\ c_beta c x y = 1%Qc /\ c_lambda c x y = lam) -> (lam <= 0)%Qc ->
  oriented (rect m G) -> tiled m G s -> fresh load s t -> well_posed m (fish_solver hst c) s ->
  (forall G' f, In (G', f) (leaves s) -> plane_load c G' p q r f) ->
  let N := m * 2 ^ level s in
  let g := on_boundary (plane p q r) (rect N G) in
  exists st1 t1 t2 t3,
    buildStage (fish_solver hst c) gesv false st t = Ok (st1, t1) /\
    upwardsStage (fish_solver hst c) gesv false load t1 = Ok t2 /\
    solveStage (fish_solver hst c) false g t2 = Ok t3 /\
    computed_values t3 = map (fun z => (on_boundary (plane p q r) (fst z), sampled (plane p q r) (fst z))) (leaves s) /\
    vplus (apply_op (pT (data t2)) g) (ph (data t2)) = repeat q N ++ repeat q N ++ repeat r N ++ repeat r N.
Proof.
  intros m hst c lam gesv G load s t st p q r Hm HH Hge Hc Hl HO HT HF HW HP.
  apply (stages_linear m ltac:(lia) c (fish_solve hst c) G s HO HT); auto.
  - apply (leaf_unique m c G s); auto; [lia|]. eapply helmholtz_signs; eauto.
  - apply (fish_leaf_solves m hst c lam G s); auto.
Qed.

(** [C61] Five-point patch solver, constant beta, quadtree of any shape on which the
    glued problem is well posed.  For all boundary data and loads, beta times the flux
    out of the root, integrated over its boundary faces, is the integral of
    (f - lambda u) / alpha over all cells of all leaves. *)
Lemma flux_balance_pf : forall m lu c gesv G load s t st g b,
  2 <= m -> lu_contract lu -> gesv_contract gesv -> right_signs c -> (forall x y, c_beta c x y = b) ->
  oriented (rect m G) -> tiled m G s ->
  fresh load s t -> well_posed m (fv_solver lu c) s -> 3 <= m \/ equal_levels s ->
  length g = 4 * (m * 2 ^ level s) ->
  exists st1 t1 t2 t3,
    buildStage (fv_solver lu c) gesv false st t = Ok (st1, t1) /\
    upwardsStage (fv_solver lu c) gesv false load t1 = Ok t2 /\
    solveStage (fv_solver lu c) false g t2 = Ok t3 /\
    length (computed_values t3) = length (leaves s) /\
    (b * net_flux (rect (m * 2 ^ level s) G) (vplus (apply_op (pT (data t2)) g) (ph (data t2))))%Qc =
    total_source c (leaves s) (map snd (computed_values t3)).
Proof.
  intros m lu c gesv G load s t st g b Hm HL Hge HS Hb HO HT HF HW H3 Lg.
  apply (stages_balance m ltac:(lia) c (fv_solve lu c) G s HO HT); auto.
  - apply (leaf_unique m c G s); auto. lia.
  - apply (fv_leaf_solves m lu c G s); auto.
  - intros x y. apply HS.
Qed.

(** [C61] The same with FISHPACK. *)
Lemma flux_balance_fish_pf : forall m hst c lam gesv G load s t st g,
  3 <= m -> hst_contract hst -> gesv_contract gesv ->
  (forall x y, c_alpha c x y = 1%Qc /\ c_beta c x y = 1%Qc /\ c_lambda c x y = lam) -> (lam <= 0)%Qc ->
  oriented (rect m G) -> tiled m G s -> fresh load s t -> well_posed m (fish_solver hst c) s ->
  length g = 4 * (m * 2 ^ level s) ->
  exists st1 t1 t2 t3,
    buildStage (fish_solver hst c) gesv false st t = Ok (st1, t1) /\
    upwardsStage (fish_solver hst c) gesv false load t1 = Ok t2 /\
    solveStage (fish_solver hst c) false g t2 = Ok t3 /\
    length (computed_values t3) = length (leaves s) /\
    net_flux (rect (m * 2 ^ level s) G) (vplus (apply_op (pT (data t2)) g) (ph (data t2))) =
    total_source c (leaves s) (map snd (computed_values t3)).
Proof.
  intros m hst c lam gesv G load s t st g Hm HH Hge Hc Hl HO HT HF HW Lg.
  destruct (stages_balance m ltac:(lia) c (fish_solve hst c) G s HO HT) with (gesv := gesv) (load := load) (t := t) (st := st) (g := g) (b := 1%Qc)
    as (st1 & t1 & t2 & t3 & E1 & E2 & E3 & E4 & E5); auto.
  - apply (leaf_unique m c G s); auto; [lia|]. eapply helmholtz_signs; eauto.
  - apply (fish_leaf_solves m hst c lam G s); auto.
  - intros x y. destruct (Hc x y) as (-> & _). discriminate.
  - intros x y. apply Hc.
  - exists st1, t1, t2, t3. rewrite Qcmult_1_l in E5. auto.
Qed.

(** The unit square with its lower left quarter divided once more, 3 by 3 cells per
    leaf, Laplace's equation. *)
Definition adapted (rhs : Qc -> Qc -> Qc) (m : nat) (G : grid) : qtree :=
  let leaf G := QLeaf (rect m G) (sampled rhs (rect m G)) in
  let a := quarter m G false false in
  QNode (QNode (leaf (quarter m a false false)) (leaf (quarter m a true false))
               (leaf (quarter m a false true)) (leaf (quarter m a true true)))
    (leaf (quarter m G true false)) (leaf (quarter m G false true)) (leaf (quarter m G true true)).
Lemma sampled_length rhs m G : length (sampled rhs (rect m G)) = m * m.
Proof. unfold sampled. rewrite map_length, seq_length. reflexivity. Qed.
Lemma adapted_tiled rhs m G : tiled m G (adapted rhs m G).
Proof. cbn [adapted tiled]. repeat (split; try apply sampled_length). Qed.
Lemma adapted_fresh rhs m G : fresh (sampled rhs) (adapted rhs m G) (fresh_tree (adapted rhs m G)).
Proof. cbn. repeat split. Qed.
Definition unit_square : grid := (Grid 3 3 0 1 0 1)%Qc.
Lemma unit_oriented : oriented (rect 3 unit_square).
Proof. repeat split; try discriminate; reflexivity. Qed.
Lemma laplace_signs : right_signs (helmholtz 0).
Proof. apply (helmholtz_signs _ 0%Qc); [auto|discriminate]. Qed.

Lemma adapted_posed rhs : well_posed 3 (fv_solver lu_gauss (helmholtz 0)) (adapted rhs 3 unit_square).
Proof.
  cbn [adapted].
  eapply (node_cert_ok 3 (fv_solver lu_gauss (helmholtz 0)) gauss_gesv (sampled rhs));
    [discriminate|exact gauss_gesv_contract|apply (adapted_fresh rhs 3 unit_square)..| |auto|].
  - apply (tiled_good 3 ltac:(lia) (helmholtz 0) (fv_solve lu_gauss (helmholtz 0)) unit_square (adapted rhs 3 unit_square)
      unit_oriented (adapted_tiled _ _ _)).
    + apply (leaf_unique 3 _ unit_square); auto using laplace_signs, unit_oriented, adapted_tiled.
    + apply (fv_leaf_solves 3 lu_gauss (helmholtz 0) unit_square);
        auto using laplace_signs, unit_oriented, adapted_tiled, lu_gauss_contract.
  - vm_cast_no_check (eq_refl true).
Qed.

Lemma same_build m sv1 sv2 G : affine_solver m sv1 G -> affine_solver m sv2 G ->
  (forall g f, length g = 4 * m -> length f = m * m -> sv_map sv1 G g f = sv_map sv2 G g f) ->
  sv_build sv1 G = sv_build sv2 G.
Proof.
  intros [_ _ (T1 & B1 & S1 & H1)] [_ _ (T2 & B2 & S2 & H2)] E. rewrite B1, B2. f_equal.
  destruct (H1 (zeros (m * m)) (zeros_length _)) as (h1 & _ & L1 & M1).
  destruct (H2 (zeros (m * m)) (zeros_length _)) as (h2 & _ & L2 & M2).
  assert (Q : forall g, length g = 4 * m -> vplus (apply_op T1 g) h1 = vplus (apply_op T2 g) h2).
  { intros g Lg. pose proof (E g (zeros (m * m)) Lg (zeros_length _)) as E0.
    destruct (M1 g Lg) as (_ & E1). destruct (M2 g Lg) as (_ & E2). rewrite E1, E2 in E0. apply Ok_inj in E0. exact E0. }
  assert (V : forall g i, length g = 4 * m -> i < 4 * m -> (vval (apply_op T1 g) i + vval h1 i = vval (apply_op T2 g) i + vval h2 i)%Qc).
  { intros g i Lg Hi. pose proof (f_equal (fun v => vval v i) (Q g Lg)) as QQ. cbv beta in QQ.
    rewrite !vval_vplus in QQ by (rewrite apply_op_length; destruct S1 as (_ & N1 & _), S2 as (_ & N2 & _); lia). exact QQ. }
  assert (V0 : forall i, i < 4 * m -> vval h1 i = vval h2 i).
  { intros i Hi. pose proof (V (zeros (4 * m)) i (zeros_length _) Hi) as Q0. rewrite !apply_op_zeros, !vval_zeros in Q0.
    rewrite !Qcplus_0_l in Q0. exact Q0. }
  apply (apply_ext_eq (4 * m)); auto. intros g Lg.
  assert (N1 : nr T1 = 4 * m) by apply S1. assert (N2 : nr T2 = 4 * m) by apply S2.
  apply vval_ext; rewrite !apply_op_length; [lia|]. rewrite N1. intros i Hi. pose proof (V g i Lg Hi) as Q1. rewrite (V0 i Hi) in Q1.
  replace (vval (apply_op T1 g) i) with (vval (apply_op T1 g) i + vval h2 i - vval h2 i)%Qc by ring. rewrite Q1. ring.
Qed.

Lemma glued_build m sv1 sv2 s : (forall G f, In (G, f) (leaves s) -> sv_build sv1 G = sv_build sv2 G) ->
  forall g h U, glued m (linear_leaf sv1) s g h U -> glued m (linear_leaf sv2) s g h U.
Proof.
  induction s as [G f|sa IHa sb IHb sc IHc sd IHd]; intros HB g h U HG; destruct U as [g' u|z Ua Ub Uc Ud]; try (destruct HG; fail).
  - destruct HG as (E & L & T & B & Eh). split; [exact E|]. split; [exact L|]. exists T.
    rewrite <- (HB G f) by (left; reflexivity). auto.
  - cbn [glued leaves] in *. destruct HG as (Lg & Lz & H & GA & GB & GC & GD & C).
    split; [exact Lg|]. split; [exact Lz|]. exists H.
    split; [apply IHa; auto; intros; eapply HB; rewrite !in_app_iff; eauto|].
    split; [apply IHb; auto; intros; eapply HB; rewrite !in_app_iff; eauto|].
    split; [apply IHc; auto; intros; eapply HB; rewrite !in_app_iff; eauto|].
    split; [apply IHd; auto; intros; eapply HB; rewrite !in_app_iff; eauto|]. exact C.
Qed.

Lemma subtree_leaves s : forall s' z, subtree s' s -> In z (leaves s') -> In z (leaves s).
Proof.
  induction s as [G f|sa IHa sb IHb sc IHc sd IHd]; intros s' z HS HI; cbn [subtree] in HS.
  - destruct HS as [->|[]]. exact HI.
  - destruct HS as [->|HS]; [exact HI|]. cbn [leaves]. rewrite !in_app_iff.
    destruct HS as [HS|[HS|[HS|HS]]]; eauto.
Qed.

Lemma posed_build m sv1 sv2 s : (forall G f, In (G, f) (leaves s) -> sv_build sv1 G = sv_build sv2 G) ->
  well_posed m sv1 s -> well_posed m sv2 s.
Proof.
  intros HB HW a b c d Hs h z Ua Ub Uc Ud HG. apply (HW a b c d Hs h z Ua Ub Uc Ud).
  apply (glued_build m sv2 sv1); auto. intros G f HI. symmetry. apply (HB G f). eapply subtree_leaves; eauto.
Qed.

(** The glued problem does not depend on which of the two patch solvers is used. *)
Lemma posed_fish m lu hst c lam G s : 3 <= m -> lu_contract lu -> hst_contract hst ->
  (forall x y, c_alpha c x y = 1%Qc /\ c_beta c x y = 1%Qc /\ c_lambda c x y = lam) -> (lam <= 0)%Qc ->
  oriented (rect m G) -> tiled m G s -> well_posed m (fv_solver lu c) s -> well_posed m (fish_solver hst c) s.
Proof.
  intros Hm HL HH Hc Hl HO HT. pose proof (helmholtz_signs c lam Hc Hl) as HS. apply posed_build. intros G' f' HI.
  destruct (tiled_leaf m s G ltac:(lia) HO HT G' f' HI) as (O & Ex & Ey & _). pose proof (orp _ O) as P.
  pose proof (leaf_unique m c G s ltac:(lia) HS HO HT G' f' HI) as U.
  apply (same_build m).
  - apply (solver_affine c); auto; try lia. intros g f Lg Lf. apply (fv_leaf_solves m lu c G s) with (f' := f'); auto. lia.
  - apply (solver_affine c); auto; try lia. intros g f Lg Lf. apply (fish_leaf_solves m hst c lam G s) with (f' := f'); auto.
  - intros g f Lg Lf. cbn [fv_solver fish_solver solver_of sv_map].
    destruct (solvers_agree_partial_pf lu hst c lam G' m g f) as (u & E1 & E2 & (Lu & _)); auto. rewrite Ex, Ey in Lu.
    rewrite (fv_map_ok G' m Ex Ey (fv_solve lu c) g f u); auto; try lia. rewrite (fv_map_ok G' m Ex Ey (fish_solve hst c) g f u); auto. all: lia.
Qed.

Lemma adapted_example_expf : forall rhs,
  lu_contract lu_gauss /\ hst_contract hst_gauss /\ gesv_contract gauss_gesv /\ right_signs (helmholtz 0) /\
  oriented (rect 3 unit_square) /\
  tiled 3 unit_square (adapted rhs 3 unit_square) /\
  fresh (sampled rhs) (adapted rhs 3 unit_square) (fresh_tree (adapted rhs 3 unit_square)) /\
  well_posed 3 (fv_solver lu_gauss (helmholtz 0)) (adapted rhs 3 unit_square) /\
  well_posed 3 (fish_solver hst_gauss (helmholtz 0)) (adapted rhs 3 unit_square) /\
  level (adapted rhs 3 unit_square) = 1 /\ length (leaves (adapted rhs 3 unit_square)) = 7.
Proof.
  intros rhs. split; [exact lu_gauss_contract|]. split; [exact hst_gauss_contract|]. split; [exact gauss_gesv_contract|].
  split; [exact laplace_signs|]. split; [exact unit_oriented|]. split; [apply adapted_tiled|]. split; [apply adapted_fresh|].
  split; [apply adapted_posed|].
  split; [apply (posed_fish 3 lu_gauss hst_gauss (helmholtz 0) 0%Qc unit_square);
          auto using lu_gauss_contract, hst_gauss_contract, unit_oriented, adapted_tiled, adapted_posed; discriminate|].
  split; reflexivity.
Qed.

Lemma adapted_loads_expf : forall p q r G f,
  In (G, f) (leaves (adapted (fun _ _ => 0%Qc) 3 unit_square)) -> plane_load (helmholtz 0) G p q r f.
Proof.
  intros p q r G f HI.
  assert (E : gnx G = 3 /\ gny G = 3 /\ f = sampled (fun _ _ => 0%Qc) G).
  { cbn [adapted leaves app In] in HI. repeat (destruct HI as [HI|HI]; [injection HI as <- <-; auto|]). destruct HI. }
  destruct E as (Ex & Ey & ->). intros i j Hi Hj. cbv zeta. unfold cell, sampled. rewrite map_seq_vec, vval_vec_of by nia.
  cbn [helmholtz c_alpha c_beta c_lambda]. unfold Qcdiv. ring.
Qed.
