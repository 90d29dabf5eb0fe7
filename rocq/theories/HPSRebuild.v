(** Building twice, and the operator cache. *)
From Verif Require Import Base VectorModel MatrixModel LinSpec HPSModel HPSSpec StageSpec.
From Verif Require Import HPSProofs HPSProofs2 HPSHistory.

(** What the merge reads: grid, operator and number of coarsenings of the
    children, nothing of the parent. *)
Definition stripB (p : patch) : patch := Patch (pgrid p) m0 m0 m0 (pT p) [] [] [] [] [] (pnc p).
Definition nopatch : patch := Patch (Grid 0 0 0 0 0 0) m0 m0 m0 m0 [] [] [] [] [] 0.

Lemma coarsen_step_form p n :
  coarsen_step p n = (q <- coarsen_step (stripB p) n ;; Ok (set_nc (set_T p (pT q)) (pnc q))).
Proof.
  unfold coarsen_step. cbv zeta. cbn [pgrid pT pnc stripB set_T set_nc].
  repeat match goal with |- bind ?m _ = _ => rewrite (bind_assoc m); destruct m as [?| |]; try reflexivity; rewrite !bind_Ok end.
Qed.

Lemma coarsen_one_form p k :
  coarsen_one p k = (q <- coarsen_one (stripB p) k ;; Ok (set_nc (set_T p (pT q)) (pnc q))).
Proof.
  unfold coarsen_one. generalize (seq 0 k). intros l.
  assert (forall p' q, stripB p' = q -> pgrid p' = pgrid p -> (forall T k, set_nc (set_T p' T) k = set_nc (set_T p T) k) ->
    foldM coarsen_step l p' = (q' <- foldM coarsen_step l q ;; Ok (set_nc (set_T p (pT q')) (pnc q')))) as H.
  { induction l as [|n l IH]; intros p' q Hq Hg Hs.
    - cbn [foldM]. rewrite bind_Ok. subst q. cbn [pT pnc stripB]. rewrite <- Hs. destruct p'; reflexivity.
    - cbn [foldM]. rewrite coarsen_step_form, !bind_assoc. rewrite Hq.
      destruct (coarsen_step q n) as [q1| |] eqn:E; try reflexivity. rewrite !bind_Ok. apply IH.
      + rewrite coarsen_step_form in E. apply bind_inv in E as (q2 & _ & E). apply Ok_inj in E. subst q q1. reflexivity.
      + exact Hg.
      + intros T k'. rewrite <- Hs. reflexivity. }
  apply H; reflexivity.
Qed.

Lemma coarsen_form ch :
  coarsen ch = (q <- coarsen (fmap stripB ch) ;;
    Ok (Four (set_nc (set_T (fa ch) (pT (fa q))) (pnc (fa q))) (set_nc (set_T (fb ch) (pT (fb q))) (pnc (fb q)))
             (set_nc (set_T (fc ch) (pT (fc q))) (pnc (fc q))) (set_nc (set_T (fd ch) (pT (fd q))) (pnc (fd q))))).
Proof.
  unfold coarsen. change (tagPatches (fmap stripB ch)) with (tagPatches ch).
  rewrite bind_assoc. destruct (tagPatches ch) as [t| |]; try reflexivity. rewrite !bind_Ok.
  rewrite (coarsen_one_form (fa ch)), (coarsen_one_form (fb ch)), (coarsen_one_form (fc ch)), (coarsen_one_form (fd ch)).
  cbn [fmap fa fb fc fd].
  repeat match goal with |- bind (bind ?m _) _ = _ => rewrite !(bind_assoc m); destruct m as [?| |]; try reflexivity; rewrite !bind_Ok end.
Qed.

Lemma merge_rest_form gesv tau ch :
  merge_rest gesv tau ch = (r <- merge_rest gesv nopatch (fmap stripB ch) ;;
    Ok (set_grid (set_T (set_S (set_H (set_X tau (pX r)) (pH r)) (pS r)) (pT r)) (pgrid r))).
Proof.
  unfold merge_rest.
  change (createIndexSets (fmap stripB ch)) with (createIndexSets ch).
  rewrite bind_assoc. destruct (createIndexSets ch) as [s| |]; try reflexivity. rewrite !bind_Ok.
  change (createMatrixBlocks s (fmap stripB ch)) with (createMatrixBlocks s ch).
  rewrite bind_assoc. destruct (createMatrixBlocks s ch) as [b| |]; try reflexivity. rewrite !bind_Ok.
  rewrite (mergeX_strip tau), (mergeX_strip nopatch). change (stripH nopatch) with nopatch.
  replace (mergeX (stripH tau) b) with (q <- mergeX nopatch b ;; Ok (set_X (stripH tau) (pX q))).
  2:{ rewrite (mergeX_strip (stripH tau)). change (stripH (stripH tau)) with (stripH tau).
      unfold mergeX.
      repeat match goal with |- bind (bind ?m _) _ = _ => rewrite !(bind_assoc m); destruct m as [?| |]; try reflexivity; rewrite !bind_Ok end. }
  rewrite !bind_assoc. destruct (mergeX nopatch b) as [q| |]; try reflexivity. rewrite !bind_Ok.
  unfold mergeS. cbn [pX set_X]. rewrite !bind_assoc. destruct (S_RHS b) as [R| |]; try reflexivity. rewrite !bind_Ok, !bind_assoc.
  destruct (solvem gesv (pX q) R) as [S| |]; try reflexivity. rewrite !bind_Ok.
  unfold mergeT. rewrite !bind_assoc.
  destruct (blockDiagonalMatrix _) as [L| |]; try reflexivity. rewrite !bind_Ok, !bind_assoc.
  destruct (buildH b) as [H| |]; try reflexivity. rewrite !bind_Ok. cbv zeta. cbn [pH pS set_H set_S set_X].
  rewrite !bind_assoc. destruct (mulm H S) as [HS| |]; try reflexivity. rewrite !bind_Ok, !bind_assoc.
  destruct (madd L HS) as [T| |]; try reflexivity. rewrite !bind_Ok. unfold reorderOperators.
  change (pT (fa (fmap stripB ch))) with (pT (fa ch)). cbv zeta. cbn [pS pT set_T set_S set_H].
  rewrite !bind_assoc. destruct (mblockPermute S _ _ _ _) as [S2| |]; try reflexivity. rewrite !bind_Ok, !bind_assoc.
  cbn [pT set_T set_S]. destruct (mblockPermute T _ _ _ _) as [T2| |]; try reflexivity.
Qed.

Lemma merge_form gesv tau ch :
  merge4to1 gesv tau ch = (r <- merge4to1 gesv nopatch (fmap stripB ch) ;;
    Ok (set_grid (set_T (set_S (set_H (set_X tau (pX (fst r))) (pH (fst r))) (pS (fst r))) (pT (fst r))) (pgrid (fst r)),
        Four (set_nc (set_T (fa ch) (pT (fa (snd r)))) (pnc (fa (snd r)))) (set_nc (set_T (fb ch) (pT (fb (snd r)))) (pnc (fb (snd r))))
             (set_nc (set_T (fc ch) (pT (fc (snd r)))) (pnc (fc (snd r)))) (set_nc (set_T (fd ch) (pT (fd (snd r)))) (pnc (fd (snd r)))))).
Proof.
  rewrite !merge4to1_rest. rewrite (coarsen_form ch). rewrite (coarsen_form (fmap stripB ch)).
  change (fmap stripB (fmap stripB ch)) with (fmap stripB ch).
  rewrite !bind_assoc. destruct (coarsen (fmap stripB ch)) as [q| |]; try reflexivity. rewrite !bind_Ok.
  rewrite (merge_rest_form gesv tau).
  cbn [fmap fa fb fc fd].
  match goal with |- _ = bind (bind (merge_rest gesv nopatch ?y) _) _ => set (x := y) end.
  cbv zeta. rewrite !bind_assoc.
  match goal with |- bind (merge_rest gesv nopatch ?y) _ = _ => change y with x end.
  destruct (merge_rest gesv nopatch x) as [r| |]; try reflexivity.
Qed.

(** Before the build: same leaf grids, same coarsening counters. *)
Definition K0 (b : bool) (p p' : patch) : Prop := pnc p = pnc p' /\ (b = true -> pgrid p = pgrid p').
(** After it. *)
Definition K1 (b : bool) (p p' : patch) : Prop :=
  pgrid p = pgrid p' /\ pnc p = pnc p' /\ pT p = pT p' /\
  (b = false -> pX p = pX p' /\ pH p = pH p' /\ pS p = pS p').

Lemma build_rel sv gesv cache st t t' : trel K0 t t' ->
  same (fun r r' => fst r = fst r' /\ trel K1 (snd r) (snd r'))
    (buildStage sv gesv cache st t) (buildStage sv gesv cache st t').
Proof.
  unfold buildStage. revert st t'.
  induction t as [p|p a IHa b IHb c IHc d IHd]; intros st [p'|p' a' b' c' d'] HR; try (destruct HR; fail).
  - cbn [tmerge trel] in *. destruct HR as (N & G). specialize (G eq_refl). unfold build_leaf. rewrite G.
    assert (K : forall T, K1 true (set_T p T) (set_T p' T)) by (intros T; split; [exact G|split; [exact N|split; [reflexivity|discriminate]]]).
    destruct cache; [destruct st as [T|]|]; rewrite ?bind_Ok; cbn [same fst snd trel].
    + auto.
    + destruct (sv_build sv (pgrid p')) as [T| |]; [|exact eq_refl|exact I]. rewrite !bind_Ok. cbn [same fst snd trel]. auto.
    + destruct (sv_build sv (pgrid p')) as [T| |]; [|exact eq_refl|exact I]. rewrite !bind_Ok. cbn [same fst snd trel]. auto.
  - destruct HR as (HR0 & Ra & Rb & Rc & Rd). cbn [tmerge].
    eapply same_bind; [apply (IHa st a' Ra)|]. intros [sa ta] [sa' ta'] (Ea & Qa). cbn [fst snd] in *. subst sa'.
    eapply same_bind; [apply (IHb sa b' Rb)|]. intros [sb tb] [sb' tb'] (Eb & Qb). cbn [fst snd] in *. subst sb'.
    eapply same_bind; [apply (IHc sb c' Rc)|]. intros [sc tc] [sc' tc'] (Ec & Qc). cbn [fst snd] in *. subst sc'.
    eapply same_bind; [apply (IHd sc d' Rd)|]. intros [sd td] [sd' td'] (Ed & Qd). cbn [fst snd] in *. subst sd'.
    destruct (trel_data _ _ _ Qa) as (Da & _), (trel_data _ _ _ Qb) as (Db & _),
             (trel_data _ _ _ Qc) as (Dc & _), (trel_data _ _ _ Qd) as (Dd & _).
    rewrite (merge_form gesv p), (merge_form gesv p').
    match goal with |- same _ (bind (bind (merge4to1 gesv nopatch ?x) _) _) (bind (bind (merge4to1 gesv nopatch ?y) _) _) =>
      assert (E : x = y) end.
    { unfold fmap, stripB. cbn [fa fb fc fd].
      destruct Da as (-> & -> & -> & _), Db as (-> & -> & -> & _), Dc as (-> & -> & -> & _), Dd as (-> & -> & -> & _). reflexivity. }
    rewrite E. clear E. destruct (merge4to1 gesv nopatch _) as [r| |]; [|exact eq_refl|exact I].
    rewrite !bind_Ok. cbn [same fst snd fa fb fc fd trel]. split; [reflexivity|].
    split; [split; [reflexivity|split; [exact (proj1 HR0)|split; [reflexivity|intros _; repeat split]]]|].
    assert (C : forall x x' T k, trel K1 x x' -> trel K1 (set_data x (set_nc (set_T (data x) T) k)) (set_data x' (set_nc (set_T (data x') T) k))).
    { intros x x' T k H. apply trel_set; [exact H|]. destruct (trel_data _ _ _ H) as ((G1 & _ & _ & G4) & _).
      split; [exact G1|]. split; [reflexivity|]. split; [reflexivity|exact G4]. }
    auto.
Qed.

(** buildStage does not touch leaf grids. *)
Lemma build_leaf_grids sv gesv cache st t r : buildStage sv gesv cache st t = Ok r ->
  trel (fun b p p' => b = true -> pgrid p = pgrid p') t (snd r).
Proof.
  unfold buildStage. revert st r. induction t as [p|p a IHa b IHb c IHc d IHd]; intros st r E; cbn [tmerge] in E.
  - apply bind_inv in E as (x & E & E2). apply Ok_inj in E2. subst r. cbn [snd trel]. intros _.
    unfold build_leaf in E. destruct cache; [destruct st|].
    + apply Ok_inj in E. subst x. reflexivity.
    + apply bind_inv in E as (T & _ & E). apply Ok_inj in E. subst x. reflexivity.
    + apply bind_inv in E as (T & _ & E). apply Ok_inj in E. subst x. reflexivity.
  - apply bind_inv in E as (ra & Ea & E). apply bind_inv in E as (rb & Eb & E).
    apply bind_inv in E as (rc & Ec & E). apply bind_inv in E as (rd & Ed & E).
    apply IHa in Ea. apply IHb in Eb. apply IHc in Ec. apply IHd in Ed.
    apply bind_inv in E as (f & Ef & E). apply Ok_inj in E. subst r. cbn [snd trel]. split; [discriminate|].
    rewrite merge_form in Ef. apply bind_inv in Ef as (q & _ & Ef). apply Ok_inj in Ef. subst f. cbn [fst snd fa fb fc fd].
    assert (S : forall x x' T k, trel (fun b p p' => b = true -> pgrid p = pgrid p') x x' ->
      trel (fun b p p' => b = true -> pgrid p = pgrid p') x (set_data x' (set_nc (set_T (data x') T) k))).
    { intros [y|y ? ? ? ?] [y'|y' ? ? ? ?] T k; cbn; auto. }
    split; [apply S; auto|]. split; [apply S; auto|]. split; apply S; auto.
Qed.

Lemma rebuild_ok sv sv' gesv st st1 t t1 : buildStage sv gesv false st t = Ok (st1, t1) ->
  not_coarsened t -> not_coarsened t1 ->
  same (fun r r' => trel K1 (snd r) (snd r')) (buildStage sv' gesv false st1 t1) (buildStage sv' gesv false st t).
Proof.
  intros E U U1. pose proof (build_leaf_grids _ _ _ _ _ _ E) as G. cbn [snd] in G.
  assert (K : trel K0 t1 t).
  { clear E. revert t1 U U1 G. induction t as [p|p a IHa b IHb c IHc d IHd]; intros [p'|p' a' b' c' d']; cbn [trel not_coarsened]; try tauto.
    - intros N N1 G. split; [congruence|]. intros _. symmetry. auto.
    - intros (N & Ua & Ub & Uc & Ud) (N1 & U1a & U1b & U1c & U1d) (_ & Ga & Gb & Gc & Gd).
      split; [split; [congruence|discriminate]|]. auto. }
  assert (C : forall st st' t, same (fun r r' => trel K1 (snd r) (snd r'))
              (buildStage sv' gesv false st t) (buildStage sv' gesv false st' t)).
  { clear. intros st st' t. unfold buildStage. revert st st'.
    assert (RF : forall t, trel K1 t t) by (intros; apply trel_refl; intros; repeat split).
    assert (H : forall st st' : option (matrix Qc), same (fun r r' => snd r = snd r')
              (tmerge (build_leaf sv' false) (merge4to1 gesv) st t) (tmerge (build_leaf sv' false) (merge4to1 gesv) st' t)).
    { induction t as [p|p a IHa b IHb c IHc d IHd]; intros st st'; cbn [tmerge].
      - unfold build_leaf. destruct (sv_build sv' (pgrid p)); cbn; auto.
      - eapply same_bind; [apply IHa|]. intros [sa ta] [sa' ta'] Qa. cbn [fst snd] in *. subst ta'.
        eapply same_bind; [apply IHb|]. intros [sb tb] [sb' tb'] Qb. cbn [fst snd] in *. subst tb'.
        eapply same_bind; [apply IHc|]. intros [sc tc] [sc' tc'] Qc. cbn [fst snd] in *. subst tc'.
        eapply same_bind; [apply IHd|]. intros [sd td] [sd' td'] Qd. cbn [fst snd] in *. subst td'.
        destruct (merge4to1 gesv p _) as [f| |]; [|exact eq_refl|exact I]. rewrite !bind_Ok. reflexivity. }
    intros st st'. eapply same_impl; [apply H|]. intros r r' <-. apply RF. }
  pose proof (build_rel sv' gesv false st1 t1 t K) as B. pose proof (C st1 st t) as C1.
  destruct (buildStage sv' gesv false st1 t1) as [r| |], (buildStage sv' gesv false st1 t) as [r'| |],
    (buildStage sv' gesv false st t) as [r''| |]; cbn [same] in *; try tauto; try congruence.
  eapply trel_trans; [|apply B|exact C1].
  intros b p q r0 (A1 & A2 & A3 & A4) (B1 & B2 & B3 & B4). split; [congruence|]. split; [congruence|]. split; [congruence|].
  intros Hb. destruct (A4 Hb) as (? & ? & ?), (B4 Hb) as (? & ? & ?). repeat split; congruence.
Qed.

(** ** The operator cache *)
Lemma cache_ok sv gesv T0 t : (forall G, In G (leaf_grids t) -> sv_build sv G = Ok T0) ->
  forall st, st = None \/ st = Some T0 ->
  same (fun r r' => (fst r = None \/ fst r = Some T0) /\ snd r = snd r')
    (buildStage sv gesv true st t) (buildStage sv gesv false None t).
Proof.
  intros H st. unfold buildStage.
  assert (Q : forall st st' : option (matrix Qc), st = None \/ st = Some T0 ->
     same (fun r r' => (fst r = None \/ fst r = Some T0) /\ snd r = snd r')
     (tmerge (build_leaf sv true) (merge4to1 gesv) st t) (tmerge (build_leaf sv false) (merge4to1 gesv) st' t)).
  { induction t as [p|p a IHa b IHb c IHc d IHd]; intros st0 st' Hs; cbn [tmerge].
    - unfold build_leaf. rewrite (H (pgrid p)) by (left; reflexivity).
      destruct Hs as [-> | ->]; cbn; auto.
    - cbn [leaf_grids] in H.
      eapply same_bind; [apply IHa; [intros; apply H; rewrite !in_app_iff; auto|exact Hs]|].
      intros [sa ta] [sa' ta'] (Ha & Qa). cbn [fst snd] in *. subst ta'.
      eapply same_bind; [apply IHb; [intros; apply H; rewrite !in_app_iff; auto|exact Ha]|].
      intros [sb tb] [sb' tb'] (Hb & Qb). cbn [fst snd] in *. subst tb'.
      eapply same_bind; [apply IHc; [intros; apply H; rewrite !in_app_iff; auto|exact Hb]|].
      intros [sc tc] [sc' tc'] (Hc & Qc). cbn [fst snd] in *. subst tc'.
      eapply same_bind; [apply IHd; [intros; apply H; rewrite !in_app_iff; auto|exact Hc]|].
      intros [sd td] [sd' td'] (Hd & Qd). cbn [fst snd] in *. subst td'.
      destruct (merge4to1 gesv p _) as [f| |]; [|exact eq_refl|exact I]. rewrite !bind_Ok. cbn. auto. }
  intros Hs. apply Q. exact Hs.
Qed.

Lemma K1_same t t' : trel K1 t t' -> same_operators t t'.
Proof.
  revert t'. induction t as [p|p a IHa b IHb c IHc d IHd]; intros [p'|p' a' b' c' d']; cbn [trel same_operators]; try tauto.
  - intros (A & B & C & _). auto.
  - intros ((A & B & C & D) & Ra & Rb & Rc & Rd). destruct (D eq_refl) as (X & H & S). auto 15.
Qed.

(** The other side of the merged grid. *)
Lemma build_gny sv gesv cache st t st1 p a b c d : buildStage sv gesv cache st t = Ok (st1, Node p a b c d) ->
  gny (pgrid p) = psize (data a) + psize (data c).
Proof.
  unfold buildStage. destruct t as [q|q ta tb tc td]; cbn [tmerge]; intros E.
  - apply bind_inv in E as (x & _ & E). discriminate E.
  - apply bind_inv in E as (ra & Ea & E). apply bind_inv in E as (rb & Eb & E).
    apply bind_inv in E as (rc & Ec & E). apply bind_inv in E as (rd & Ed & E).
    apply bind_inv in E as (f & Ef & E). apply Ok_inj in E. injection E as _ <- <- <- <- <-.
    unfold merge4to1 in Ef. apply bind_inv in Ef as (ch & _ & Ef). apply bind_inv in Ef as (s & _ & Ef).
    apply bind_inv in Ef as (bl & _ & Ef). apply bind_inv in Ef as (t1 & _ & Ef). apply bind_inv in Ef as (t2 & _ & Ef).
    apply bind_inv in Ef as (t3 & _ & Ef). apply bind_inv in Ef as (t4 & _ & Ef). apply Ok_inj in Ef. subst f.
    cbn [fst snd mergePatch pgrid set_grid gny]. destruct (snd ra), (snd rc); reflexivity.
Qed.

(** Nothing is coarsened when siblings are refined equally. *)
Lemma merge_equal gesv tau ch N r : all4 (fun p => psize p = N) ch -> merge4to1 gesv tau ch = Ok r ->
  snd r = ch /\ pnc (fst r) = pnc tau /\ gnx (pgrid (fst r)) = N + N.
Proof.
  intros (A & B & C & D) E. rewrite merge4to1_rest in E. apply bind_inv in E as (ch' & Ec & E).
  apply bind_inv in E as (t1 & Em & E). apply Ok_inj in E. subst r. cbn [fst snd].
  assert (ch' = ch) as ->.
  { unfold coarsen, tagPatches in Ec. unfold fmap, fmapM in Ec. cbn [fa fb fc fd] in Ec.
    rewrite A, B, C, D in Ec. unfold int_log2 in Ec. rewrite !Nat.min_id in Ec. destruct (N =? 0); [discriminate Ec|].
    rewrite !bind_Ok in Ec. rewrite Nat.sub_diag in Ec. cbn [fa fb fc fd] in Ec. unfold coarsen_one in Ec. cbn [seq foldM] in Ec.
    rewrite !bind_Ok in Ec. apply Ok_inj in Ec. destruct ch. cbn in Ec. auto. }
  split; [reflexivity|]. rewrite merge_rest_form in Em. apply bind_inv in Em as (q & Eq & Em). apply Ok_inj in Em. subst t1.
  cbn [pnc pgrid set_grid set_T set_S set_H set_X]. split; [reflexivity|].
  unfold merge_rest in Eq. 
  apply bind_inv in Eq as (s & _ & Ef).
  apply bind_inv in Ef as (bl & _ & Ef). apply bind_inv in Ef as (t1 & _ & Ef). apply bind_inv in Ef as (t2 & _ & Ef).
  apply bind_inv in Ef as (t3 & _ & Ef). apply bind_inv in Ef as (t4 & _ & Ef). apply Ok_inj in Ef. subst q.
  cbn [mergePatch pgrid set_grid gnx fmap fa fb fc fd].
  change (psize (stripB (fa ch)) + psize (stripB (fb ch)) = N + N).
  change (psize (fa ch) + psize (fb ch) = N + N). congruence.
Qed.

Lemma build_uniform sv gesv cache st load m t r : m <> 0 -> not_coarsened t -> (forall G, In G (leaf_grids t) -> gnx G = m) ->
  equal_levels (problem load t) -> buildStage sv gesv cache st t = Ok r ->
  not_coarsened (snd r) /\ pnc (data (snd r)) = 0 /\ gnx (pgrid (data (snd r))) = m * 2 ^ level (problem load t).
Proof.
  intros Hm. unfold buildStage. revert st r. induction t as [p|p a IHa b IHb c IHc d IHd]; intros st r HN HG HE E; cbn [tmerge] in E.
  - apply bind_inv in E as (x & E & E2). apply Ok_inj in E2. subst r. cbn [snd not_coarsened data problem level Nat.pow].
    rewrite Nat.mul_1_r. assert (K : pnc (snd x) = pnc p /\ pgrid (snd x) = pgrid p).
    { unfold build_leaf in E. destruct cache; [destruct st|]; try (apply bind_inv in E as (T & _ & E)); apply Ok_inj in E; subst x; auto. }
    destruct K as (-> & ->). cbn in HN. rewrite HN, (HG (pgrid p) (or_introl eq_refl)). auto.
  - apply bind_inv in E as (ra & Ea & E). apply bind_inv in E as (rb & Eb & E).
    apply bind_inv in E as (rc & Ec & E). apply bind_inv in E as (rd & Ed & E).
    apply bind_inv in E as (f & Ef & E). apply Ok_inj in E. subst r. cbn [snd].
    destruct HN as (Np & Na & Nb & Nc & Nd). cbn [problem equal_levels] in HE. destruct HE as (L1 & L2 & L3 & HEa & HEb & HEc & HEd).
    cbn [leaf_grids] in HG.
    apply IHa in Ea as (Ca & Pa & Ga); auto; [|intros; apply HG; rewrite !in_app_iff; auto].
    apply IHb in Eb as (Cb & Pb & Gb); auto; [|intros; apply HG; rewrite !in_app_iff; auto].
    apply IHc in Ec as (Cc & Pc & Gc); auto; [|intros; apply HG; rewrite !in_app_iff; auto].
    apply IHd in Ed as (Cd & Pd & Gd); auto; [|intros; apply HG; rewrite !in_app_iff; auto].
    assert (PS : forall q x, pnc q = 0 -> gnx (pgrid q) = x -> psize q = x) by (intros q x H1 H2; unfold psize; rewrite H1, H2; apply Nat.div_1_r).
    destruct (merge_equal gesv p (Four (data (snd ra)) (data (snd rb)) (data (snd rc)) (data (snd rd)))
      (m * 2 ^ level (problem load a)) f) as (Es & E1 & E2); [|exact Ef|].
    { unfold all4. cbn [fa fb fc fd]. split; [apply PS; auto|]. split; [apply PS; auto; congruence|]. split; [apply PS; auto; congruence|]. apply PS; auto. congruence. }
    cbn [not_coarsened data]. rewrite E1, Es. cbn [fa fb fc fd].
    assert (SD : forall x, set_data x (data x) = x) by (intros []; reflexivity). rewrite !SD.
    split; [auto 10|]. split; [auto|]. rewrite E2. cbn [problem level]. rewrite <- L3, <- L2, <- L1, !Nat.min_id. cbn [Nat.add Nat.pow]. lia.
Qed.

Lemma rebuild_uniform sv sv' gesv st st1 load m t t1 : buildStage sv gesv false st t = Ok (st1, t1) ->
  m <> 0 -> not_coarsened t -> (forall G, In G (leaf_grids t) -> gnx G = m) -> equal_levels (problem load t) ->
  same (fun r r' => same_operators (snd r) (snd r')) (buildStage sv' gesv false st1 t1) (buildStage sv' gesv false st t).
Proof.
  intros E Hm HN HG HE. eapply same_impl; [|intros r r' H; apply K1_same; exact H].
  eapply rebuild_ok; eauto. destruct (build_uniform sv gesv false st load m t (st1, t1) Hm HN HG HE E). auto.
Qed.
