(** The stages on a locally refined rectangle: linear functions and balance. *)
From Verif Require Import Base VectorModel MatrixModel LinSpec HPSModel HPSSpec FVModel FVSpec GlobalSpec StageSpec AdaptSpec.
From Verif Require Import MatProofs MatProofs2 LinProofs HPSProofs HPSProofs3 HPSProofs4 HPSStage2 HPSTree HPSTree2 HPSProps.
From Verif Require Import FVProofs FVProofs2 FVProofs3 FVMax FVJoin FVGlobal FVFish AdaptProofs AdaptPlane.
From Coq Require Import Lia.

Lemma tiled_leaf m s : forall G, m <> 0 -> oriented (rect m G) -> tiled m G s ->
  forall G' f, In (G', f) (leaves s) -> oriented G' /\ gnx G' = m /\ gny G' = m /\ length f = m * m.
Proof.
  induction s as [G0 f0|sa IHa sb IHb sc IHc sd IHd]; intros G Hm HO HT G' f HI.
  - destruct HT as (-> & L). destruct HI as [E|[]]. injection E as <- <-. repeat split; try apply HO. exact L.
  - destruct HT as (Ta & Tb & Tc & Td). cbn [leaves] in HI. rewrite !in_app_iff in HI.
    assert (QO : forall e t, oriented (rect m (quarter m G e t))) by (intros e t; apply (quarter_orient m m G e t); auto).
    destruct HI as [H|[H|[H|H]]]; eauto.
Qed.

Lemma boundary_of_plane p q r G n : gnx G = n -> gny G = n -> plane_data G p q r (on_boundary (plane p q r) G).
Proof.
  intros Ex Ey. unfold plane_data, on_boundary, west, east, south, north. rewrite Ex, Ey, !map_seq_vec.
  split; intros k Hk.
  - rewrite (app4_0 n) by (rewrite ?vec_of_length; auto). rewrite (app4_1 n) by (rewrite ?vec_of_length; auto). rewrite !vval_vec_of by auto. auto.
  - rewrite (app4_2 n) by (rewrite ?vec_of_length; auto). rewrite (app4_3 n) by (rewrite ?vec_of_length; auto). rewrite !vval_vec_of by auto. auto.
Qed.

Section Stages.
Context (m : nat) (Hm : 1 <= m) (c : coefs) (solve : grid -> list Qc -> list Qc -> res (list Qc)).
Context (G : grid) (s : qtree) (HO : oriented (rect m G)) (HT : tiled m G s).
Context (HU : forall G' f, In (G', f) (leaves s) -> fv_unique c G').
Context (Hsolve : forall G' f', In (G', f') (leaves s) -> forall g f, length g = 4 * m -> length f = m * m ->
  exists u, solve G' g f = Ok u /\ fv_solution c G' g f u).

Lemma m_nz : m <> 0.
Proof. lia. Qed.

Lemma tiled_good : good_leaves m (solver_of solve) s.
Proof.
  pose proof (tiled_leaf m s G m_nz HO HT) as TL. clear HO HT.
  induction s as [G0 f0|sa IHa sb IHb sc IHc sd IHd].
  - destruct (TL G0 f0 (or_introl eq_refl)) as (O & Ex & Ey & Lf). split; [|exact Lf].
    apply (solver_affine c); auto; [apply orp; exact O|eapply HU; left; reflexivity|]. intros. eapply Hsolve; eauto. left; reflexivity.
  - cbn [leaves] in *. cbn [good_leaves].
    split4; [apply IHa|apply IHb|apply IHc|apply IHd]; intros;
      first [eapply HU|eapply Hsolve|eapply TL]; eauto; rewrite !in_app_iff; eauto.
Qed.

Lemma tiled_solution G' f g u h : In (G', f) (leaves s) -> oriented G' -> gnx G' = m -> gny G' = m -> length f = m * m -> length g = 4 * m ->
  solver_leaf (solver_of solve) G' f g u h -> fv_solution c G' g f u /\ h = boundary_flux G' g u.
Proof.
  intros HI HP Ex Ey Lf Lg (E1 & E2). cbn [solver_of sv_solve sv_map] in *.
  destruct (Hsolve G' f HI g f Lg Lf) as (u' & E3 & S3). rewrite E1 in E3. apply Ok_inj in E3. subst u'.
  split; [exact S3|]. destruct S3 as (Lu & _). rewrite Ex, Ey in Lu.
  rewrite (fv_map_ok G' m Ex Ey solve g f u m_nz Lg E1 Lu) in E2. apply Ok_inj in E2. auto.
Qed.

Theorem stages_balance gesv load t st g b :
  gesv_contract gesv -> fresh load s t -> well_posed m (solver_of solve) s -> 3 <= m \/ equal_levels s ->
  (forall x y, c_alpha c x y <> 0%Qc) -> (forall x y, c_beta c x y = b) ->
  length g = 4 * (m * 2 ^ level s) ->
  exists st1 t1 t2 t3,
    buildStage (solver_of solve) gesv false st t = Ok (st1, t1) /\
    upwardsStage (solver_of solve) gesv false load t1 = Ok t2 /\
    solveStage (solver_of solve) false g t2 = Ok t3 /\
    length (computed_values t3) = length (leaves s) /\
    (b * net_flux (rect (m * 2 ^ level s) G) (vplus (apply_op (pT (data t2)) g) (ph (data t2))))%Qc =
    total_source c (leaves s) (map snd (computed_values t3)).
Proof.
  intros Hge HF HW H3 Ha Hb Lg.
  destruct (solver_glued_pf m (solver_of solve) gesv load s t st g) as (st1 & t1 & t2 & t3 & U & h & E1 & E2 & E3 & Gl & Ev & Eh & _);
    auto using tiled_good.
  exists st1, t1, t2, t3. split; [exact E1|]. split; [exact E2|]. split; [exact E3|]. rewrite Ev, <- Eh.
  split; [rewrite (leaves_length _ _ _ _ _ _ Gl); symmetry; apply map_length|].
  eapply (balance m m_nz c b Ha Hb); eauto. intros. eapply tiled_solution; eauto.
Qed.

Theorem stages_linear gesv load t st p q r :
  gesv_contract gesv -> fresh load s t -> well_posed m (solver_of solve) s -> 3 <= m \/ equal_levels s ->
  (forall G' f, In (G', f) (leaves s) -> plane_load c G' p q r f) ->
  let N := m * 2 ^ level s in
  let g := on_boundary (plane p q r) (rect N G) in
  exists st1 t1 t2 t3,
    buildStage (solver_of solve) gesv false st t = Ok (st1, t1) /\
    upwardsStage (solver_of solve) gesv false load t1 = Ok t2 /\
    solveStage (solver_of solve) false g t2 = Ok t3 /\
    computed_values t3 = map (fun z => (on_boundary (plane p q r) (fst z), sampled (plane p q r) (fst z))) (leaves s) /\
    vplus (apply_op (pT (data t2)) g) (ph (data t2)) = repeat q N ++ repeat q N ++ repeat r N ++ repeat r N.
Proof.
  intros Hge HF HW H3 HL N g.
  assert (Nn : N <> 0) by (apply pow_nz; lia).
  destruct (solver_glued_pf m (solver_of solve) gesv load s t st g) as (st1 & t1 & t2 & t3 & U & h & E1 & E2 & E3 & Gl & Ev & Eh & Un);
    auto using tiled_good; [unfold g; rewrite on_boundary_length; auto|].
  exists st1, t1, t2, t3. split; [exact E1|]. split; [exact E2|]. split; [exact E3|].
  assert (PG : glued m (solver_leaf (solver_of solve)) s g (plane_flux q r N) (plane_solution_of p q r m G s)).
  { apply plane_glued; auto. intros G' f HP Ex Ey Lf HI.
    pose proof (boundary_of_plane p q r G' m Ex Ey) as PD.
    assert (LB : length (on_boundary (plane p q r) G') = 4 * m).
    { unfold on_boundary. rewrite !app_length, !map_length, !seq_length, Ex, Ey. lia. }
    destruct (Hsolve G' f HI _ _ LB Lf) as (u & E & S).
    pose proof (plane_solution c G' (orp _ HP) p q r _ f PD (HL _ _ HI)) as S2.
    assert (Eu : u = sampled (plane p q r) G').
    { change (sampled (plane p q r) G') with (plane_cells G' p q r). eapply (solution_unique c G' (orp _ HP)); eauto; rewrite Ex, Ey; lia. }
    pose proof S as (Lu & _). rewrite Ex, Ey in Lu.
    split; cbn [solver_of sv_solve sv_map]; [rewrite <- Eu; exact E|].
    rewrite (fv_map_ok G' m Ex Ey solve _ f u m_nz LB E Lu). rewrite Eu.
    change (sampled (plane p q r) G') with (plane_cells G' p q r).
    rewrite (FVFish.plane_flux G' (orp _ HP) p q r _ PD), Ex, Ey. reflexivity. }
  destruct (Un _ _ PG) as (EU & Eh'). split.
  - rewrite Ev, <- EU. eapply plane_values; eauto.
  - rewrite <- Eh, <- Eh'. reflexivity.
Qed.
End Stages.
