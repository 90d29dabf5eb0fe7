(** The thermal example on meshes that are refined in places. *)
From Coq Require Import Lqa.
From Verif Require Import Base VectorModel MatrixModel LinSpec HPSModel HPSSpec StageSpec FVModel FVSpec GlobalSpec AdaptSpec CompareSpec MixSpec ThermalModel ThermalSpec.
From Verif Require Import MatProofs LinProofs HPSProofs HPSProofs2 HPSProofs3 HPSProofs4 HPSTree HPSTree2 HPSHistory HPSStage HPSStage2 HPSRebuild StageProps HPSProps FVProofs FVProofs2 FVProofs3 FVMax FVJoin FVGlobal FVCompare FVMixed ConvProofs AdaptProofs AdaptEnd AdaptProps MixProps SymProofs ThermalProofs HeatProofs.
From Coq Require Import Lia.

(** ** Other values on the same mesh *)
Fixpoint remap (phi : grid -> list Qc -> list Qc) (s : qtree) : qtree :=
  match s with
  | QLeaf G f => QLeaf G (phi G f)
  | QNode a b c d => QNode (remap phi a) (remap phi b) (remap phi c) (remap phi d)
  end.
Fixpoint same_mesh (s s' : qtree) : Prop :=
  match s, s' with
  | QLeaf G _, QLeaf G' _ => G = G'
  | QNode a b c d, QNode a' b' c' d' => same_mesh a a' /\ same_mesh b b' /\ same_mesh c c' /\ same_mesh d d'
  | _, _ => False
  end.
Lemma remap_mesh phi s : same_mesh s (remap phi s).
Proof. induction s; cbn; auto. Qed.
Lemma mesh_refl s : same_mesh s s.
Proof. induction s; cbn; auto. Qed.
Lemma mesh_sym s : forall s', same_mesh s s' -> same_mesh s' s.
Proof. induction s as [G f|a IHa b IHb c IHc d IHd]; intros [G' f'|a' b' c' d']; cbn; try tauto; [auto|]. intuition. Qed.
Lemma mesh_trans s : forall s' s'', same_mesh s s' -> same_mesh s' s'' -> same_mesh s s''.
Proof.
  induction s as [G f|a IHa b IHb c IHc d IHd]; intros [G' f'|a' b' c' d'] [G'' f''|a'' b'' c'' d'']; cbn; try tauto; [congruence|].
  intros (A & B & C & D) (A' & B' & C' & D'). split; [|split; [|split]]; eauto.
Qed.
Lemma cold_remap m s : cold m s = remap (fun _ _ => zeros (m * m)) s.
Proof. induction s as [|a IHa b IHb c IHc d IHd]; cbn; [reflexivity|]. rewrite IHa, IHb, IHc, IHd. reflexivity. Qed.
Lemma cold_mesh m s : same_mesh s (cold m s).
Proof. rewrite cold_remap. apply remap_mesh. Qed.
Lemma mesh_level s : forall s', same_mesh s s' -> level s = level s'.
Proof.
  induction s as [G f|a IHa b IHb c IHc d IHd]; intros [G' f'|a' b' c' d']; cbn [same_mesh]; try tauto.
  intros (A & B & C & D). cbn [level]. rewrite (IHa _ A), (IHb _ B), (IHc _ C), (IHd _ D). reflexivity.
Qed.
Lemma mesh_min a b c d a' b' c' d' : same_mesh a a' -> same_mesh b b' -> same_mesh c c' -> same_mesh d d' ->
  min_level a b c d = min_level a' b' c' d'.
Proof. intros A B C D. unfold min_level. rewrite (mesh_level _ _ A), (mesh_level _ _ B), (mesh_level _ _ C), (mesh_level _ _ D). reflexivity. Qed.
Lemma mesh_equal s : forall s', same_mesh s s' -> equal_levels s -> equal_levels s'.
Proof.
  induction s as [G f|a IHa b IHb c IHc d IHd]; intros [G' f'|a' b' c' d']; cbn [same_mesh]; try tauto.
  intros (A & B & C & D). cbn [equal_levels]. rewrite (mesh_level _ _ A), (mesh_level _ _ B), (mesh_level _ _ C), (mesh_level _ _ D). intuition.
Qed.
Lemma mesh_grids s : forall s', same_mesh s s' -> map fst (leaves s) = map fst (leaves s').
Proof.
  induction s as [G f|a IHa b IHb c IHc d IHd]; intros [G' f'|a' b' c' d']; cbn [same_mesh]; try tauto; [intros ->; reflexivity|].
  intros (A & B & C & D). cbn [leaves]. rewrite !map_app, (IHa _ A), (IHb _ B), (IHc _ C), (IHd _ D). reflexivity.
Qed.
Lemma mesh_tiled m s : forall G s', same_mesh s s' -> tiled m G s -> (forall G' f, In (G', f) (leaves s') -> length f = m * m) -> tiled m G s'.
Proof.
  induction s as [G0 f|a IHa b IHb c IHc d IHd]; intros G [G' f'|a' b' c' d']; cbn [same_mesh]; try tauto.
  - intros <- (-> & _) L. split; [reflexivity|]. eapply L. left. reflexivity.
  - intros (A & B & C & D) (TA & TB & TC & TD) L. cbn [leaves] in L. cbn [tiled].
    split; [|split; [|split]]; [eapply IHa|eapply IHb|eapply IHc|eapply IHd]; eauto; intros; eapply L; rewrite !in_app_iff; eauto.
Qed.
Lemma mesh_fresh load load' s : forall s' t, same_mesh s s' -> fresh load s t -> (forall G' f, In (G', f) (leaves s') -> load' G' = f) -> fresh load' s' t.
Proof.
  induction s as [G0 f|a IHa b IHb c IHc d IHd]; intros [G' f'|a' b' c' d'] [p|p ta tb tc td]; cbn [same_mesh]; try tauto; try (cbn; tauto).
  - intros <- (A & B & _) L. split; [exact A|]. split; [exact B|]. apply L. left. reflexivity.
  - intros (A & B & C & D) (HP & TA & TB & TC & TD) L. cbn [leaves] in L. cbn [fresh]. split; [exact HP|].
    split; [|split; [|split]]; [eapply IHa|eapply IHb|eapply IHc|eapply IHd]; eauto; intros; eapply L; rewrite !in_app_iff; eauto.
Qed.
Lemma mesh_linear m sv s : forall s' g h U, same_mesh s s' -> glued m (linear_leaf sv) s g h U -> glued m (linear_leaf sv) s' g h U.
Proof.
  induction s as [G0 f|a IHa b IHb c IHc d IHd]; intros [G' f'|a' b' c' d'] g h [g' u|z Ua Ub Uc Ud]; cbn [same_mesh]; try tauto; try (cbn; tauto).
  - intros <- H. exact H.
  - intros (A & B & C & D). cbn [glued]. rewrite <- (mesh_min _ _ _ _ _ _ _ _ A B C D), <- (mesh_level _ _ A), <- (mesh_level _ _ B), <- (mesh_level _ _ C), <- (mesh_level _ _ D).
    intros (L1 & L2 & H & HA & HB & HC & HD & X). split; [exact L1|]. split; [exact L2|]. exists H. eauto 10.
Qed.
Lemma mesh_sub s : forall s' x', same_mesh s s' -> subtree x' s' -> exists x, subtree x s /\ same_mesh x x'.
Proof.
  induction s as [G0 f|a IHa b IHb c IHc d IHd]; intros [G' f'|a' b' c' d'] x'; cbn [same_mesh]; try tauto.
  - intros <- [->|[]]. exists (QLeaf G0 f). split; [left; reflexivity|reflexivity].
  - intros (A & B & C & D) [->|H]; [exists (QNode a b c d); split; [left; reflexivity|cbn; auto]|].
    destruct H as [H|[H|[H|H]]].
    + destruct (IHa _ _ A H) as (x & X1 & X2). exists x. split; [right; auto|exact X2].
    + destruct (IHb _ _ B H) as (x & X1 & X2). exists x. split; [right; auto|exact X2].
    + destruct (IHc _ _ C H) as (x & X1 & X2). exists x. split; [right; auto|exact X2].
    + destruct (IHd _ _ D H) as (x & X1 & X2). exists x. split; [right; auto 6|exact X2].
Qed.
Lemma mesh_posed m sv s s' : same_mesh s s' -> well_posed m sv s -> well_posed m sv s'.
Proof.
  intros HM HW a b c d HS h z Ua Ub Uc Ud HG. destruct (mesh_sub _ _ _ HM HS) as ([G0 f|a0 b0 c0 d0] & X1 & X2); cbn [same_mesh] in X2; [contradiction|].
  destruct X2 as (A & B & C & D). rewrite <- (mesh_min _ _ _ _ _ _ _ _ A B C D) in *. eapply (HW _ _ _ _ X1).
  eapply mesh_linear; [|exact HG]. apply mesh_sym. cbn. auto.
Qed.

(** ** Changing the leaf relation *)
Lemma glued_remap m (L L' : leaf_relation) phi s : (forall G f, In (G, f) (leaves s) -> forall g u h, length g = 4 * m -> L G f g u h -> L' G (phi G f) g u h) ->
  forall g h U, glued m L s g h U -> glued m L' (remap phi s) g h U.
Proof.
  induction s as [G0 f|a IHa b IHb c IHc d IHd]; intros HL g h [g' u|z Ua Ub Uc Ud]; cbn [remap]; try (cbn; tauto).
  - cbn [glued]. intros (A & B & C). split; [exact A|]. split; [exact B|]. apply HL; auto. left. reflexivity.
  - cbn [leaves] in HL. cbn [glued]. rewrite <- (mesh_min _ _ _ _ _ _ _ _ (remap_mesh phi a) (remap_mesh phi b) (remap_mesh phi c) (remap_mesh phi d)).
    rewrite <- !(mesh_level _ _ (remap_mesh phi _)). intros (L1 & L2 & H & HA & HB & HC & HD & X). split; [exact L1|]. split; [exact L2|]. exists H.
    split; [apply IHa; auto; intros; apply HL; auto; rewrite !in_app_iff; auto|].
    split; [apply IHb; auto; intros; apply HL; auto; rewrite !in_app_iff; auto|].
    split; [apply IHc; auto; intros; apply HL; auto; rewrite !in_app_iff; auto|].
    split; [apply IHd; auto; intros; apply HL; auto; rewrite !in_app_iff; auto|]. exact X.
Qed.
Lemma glued_unmap m (L L' : leaf_relation) phi s : (forall G f, In (G, f) (leaves s) -> forall g u h, length g = 4 * m -> L' G (phi G f) g u h -> L G f g u h) ->
  forall g h U, glued m L' (remap phi s) g h U -> glued m L s g h U.
Proof.
  induction s as [G0 f|a IHa b IHb c IHc d IHd]; intros HL g h [g' u|z Ua Ub Uc Ud]; cbn [remap]; try (cbn; tauto).
  - cbn [glued]. intros (A & B & C). split; [exact A|]. split; [exact B|]. apply HL; auto. left. reflexivity.
  - cbn [leaves] in HL. cbn [glued]. rewrite <- (mesh_min _ _ _ _ _ _ _ _ (remap_mesh phi a) (remap_mesh phi b) (remap_mesh phi c) (remap_mesh phi d)).
    rewrite <- !(mesh_level _ _ (remap_mesh phi _)). intros (L1 & L2 & H & HA & HB & HC & HD & X). split; [exact L1|]. split; [exact L2|]. exists H.
    split; [apply IHa; auto; intros; apply HL; auto; rewrite !in_app_iff; auto|].
    split; [apply IHb; auto; intros; apply HL; auto; rewrite !in_app_iff; auto|].
    split; [apply IHc; auto; intros; apply HL; auto; rewrite !in_app_iff; auto|].
    split; [apply IHd; auto; intros; apply HL; auto; rewrite !in_app_iff; auto|]. exact X.
Qed.
Lemma glued_other m (L L' : leaf_relation) phi s : (forall G f, In (G, f) (leaves s) -> forall g u h, length g = 4 * m -> L G f g u h -> exists u', L' G (phi G f) g u' h) ->
  forall g h U, glued m L s g h U -> exists U', glued m L' (remap phi s) g h U'.
Proof.
  induction s as [G0 f|a IHa b IHb c IHc d IHd]; intros HL g h [g' u|z Ua Ub Uc Ud]; cbn [remap]; try (cbn; tauto).
  - cbn [glued]. intros (A & B & C). destruct (HL G0 f (or_introl eq_refl) g u h B C) as (u' & Q). exists (SLeaf g' u'). cbn [glued]. auto.
  - cbn [leaves] in HL. cbn [glued]. intros (L1 & L2 & H & HA & HB & HC & HD & X).
    apply IHa in HA as (Va & HA); [|intros; eapply HL; eauto; rewrite !in_app_iff; auto].
    apply IHb in HB as (Vb & HB); [|intros; eapply HL; eauto; rewrite !in_app_iff; auto].
    apply IHc in HC as (Vc & HC); [|intros; eapply HL; eauto; rewrite !in_app_iff; auto].
    apply IHd in HD as (Vd & HD); [|intros; eapply HL; eauto; rewrite !in_app_iff; auto].
    exists (SNode z Va Vb Vc Vd). cbn [glued]. rewrite <- (mesh_min _ _ _ _ _ _ _ _ (remap_mesh phi a) (remap_mesh phi b) (remap_mesh phi c) (remap_mesh phi d)).
    rewrite <- !(mesh_level _ _ (remap_mesh phi _)). split; [exact L1|]. split; [exact L2|]. exists H. auto 10.
Qed.

(** The leaves of a state made of a solution. *)
Lemma valued_mesh m (L : leaf_relation) s : forall g h U, glued m L s g h U -> same_mesh s (valued s U).
Proof.
  induction s as [G0 f|a IHa b IHb c IHc d IHd]; intros g h [g' u|z Ua Ub Uc Ud]; cbn [glued]; try tauto; [reflexivity|].
  intros (_ & _ & H & HA & HB & HC & HD & _). cbn [valued same_mesh]. eauto 10.
Qed.
Lemma valued_values m (L : leaf_relation) s : forall g h U, glued m L s g h U -> map snd (leaves (valued s U)) = map snd (leaf_values U).
Proof.
  induction s as [G0 f|a IHa b IHb c IHc d IHd]; intros g h [g' u|z Ua Ub Uc Ud]; cbn [glued]; try tauto.
  intros (_ & _ & H & HA & HB & HC & HD & _). cbn [valued leaves leaf_values]. rewrite !map_app.
  rewrite (IHa _ _ _ HA), (IHb _ _ _ HB), (IHc _ _ _ HC), (IHd _ _ _ HD). reflexivity.
Qed.
Lemma valued_lengths m (L : leaf_relation) s : (forall G f, In (G, f) (leaves s) -> forall g u h, L G f g u h -> length u = m * m) ->
  forall g h U, glued m L s g h U -> forall G f, In (G, f) (leaves (valued s U)) -> length f = m * m.
Proof.
  induction s as [G0 f|a IHa b IHb c IHc d IHd]; intros HL g h [g' u|z Ua Ub Uc Ud]; cbn [glued]; try tauto.
  - intros (_ & _ & Q) G1 f1 [E|[]]. injection E as <- <-. eapply HL; [left; reflexivity|exact Q].
  - intros (_ & _ & H & HA & HB & HC & HD & _) G1 f1. cbn [valued leaves] in *. rewrite !in_app_iff.
    intros [Q|[Q|[Q|Q]]].
    + eapply IHa; eauto. intros; eapply HL; eauto; rewrite !in_app_iff; auto.
    + eapply IHb; eauto. intros; eapply HL; eauto; rewrite !in_app_iff; auto.
    + eapply IHc; eauto. intros; eapply HL; eauto; rewrite !in_app_iff; auto.
    + eapply IHd; eauto. intros; eapply HL; eauto; rewrite !in_app_iff; auto.
Qed.
Lemma remap_leaves phi s : leaves (remap phi s) = map (fun z => (fst z, phi (fst z) (snd z))) (leaves s).
Proof. induction s as [|a IHa b IHb c IHc d IHd]; cbn [remap leaves map fst snd]; [reflexivity|]. rewrite IHa, IHb, IHc, IHd, !map_app. reflexivity. Qed.

(** ** No two leaves have the same corner *)
Lemma tiled_inside m s : forall G, (gxl G < gxu G)%Qc -> (gyl G < gyu G)%Qc -> tiled m G s -> Forall (inside G) (map fst (leaves s)).
Proof.
  induction s as [G0 f|a IHa b IHb c IHc d IHd]; intros G Hx Hy HT.
  - destruct HT as (-> & _). repeat constructor; auto using Qcle_refl.
  - destruct (half_between _ _ Hx) as (X1 & X2), (half_between _ _ Hy) as (Y1 & Y2). destruct HT as (TA & TB & TC & TD). cbn [leaves]. rewrite !map_app, !Forall_app.
    assert (QX : forall e t, (gxl (quarter m G e t) < gxu (quarter m G e t))%Qc) by (intros [] t; cbn; auto).
    assert (QY : forall e t, (gyl (quarter m G e t) < gyu (quarter m G e t))%Qc) by (intros e []; cbn; auto).
    split; [|split; [|split]]; [eapply Forall_impl; [|apply (IHa _ (QX _ _) (QY _ _) TA)]|eapply Forall_impl; [|apply (IHb _ (QX _ _) (QY _ _) TB)]|
      eapply Forall_impl; [|apply (IHc _ (QX _ _) (QY _ _) TC)]|eapply Forall_impl; [|apply (IHd _ (QX _ _) (QY _ _) TD)]];
    intros G' (A1 & A2 & A3 & A4 & A5 & A6); cbn [quarter gxl gxu gyl gyu] in *; repeat split; auto;
      eapply Qcle_trans; eauto; apply Qclt_le_weak; auto.
Qed.
Lemma tiled_NoDup m s : forall G, (gxl G < gxu G)%Qc -> (gyl G < gyu G)%Qc -> tiled m G s -> NoDup (map (fun w => corner (fst w)) (leaves s)).
Proof.
  induction s as [G0 f|a IHa b IHb c IHc d IHd]; intros G Hx Hy HT; [repeat constructor; intros []|].
  destruct (half_between _ _ Hx) as (X1 & X2), (half_between _ _ Hy) as (Y1 & Y2). destruct HT as (TA & TB & TC & TD). cbn [leaves]. rewrite !map_app.
  assert (I : forall e t s' x, tiled m (quarter m G e t) s' -> In x (map (fun w => corner (fst w)) (leaves s')) ->
    (gxl (quarter m G e t) <= fst x)%Qc /\ (fst x < gxu (quarter m G e t))%Qc /\
    (gyl (quarter m G e t) <= snd x)%Qc /\ (snd x < gyu (quarter m G e t))%Qc).
  { intros e t s' x HT' Hx'. apply in_map_iff in Hx' as (w & <- & Hw).
    assert (Q : inside (quarter m G e t) (fst w)).
    { pose proof (tiled_inside m s' (quarter m G e t)) as Q. rewrite Forall_forall in Q. apply Q; [destruct e; auto|destruct t; auto|exact HT'|]. apply in_map. exact Hw. }
    destruct Q as (A1 & A2 & A3 & A4 & A5 & A6). unfold corner. cbn [fst snd]. repeat split; auto; eapply Qclt_le_trans; eauto. }
  assert (QX : forall e t, (gxl (quarter m G e t) < gxu (quarter m G e t))%Qc) by (intros [] t; cbn; auto).
  assert (QY : forall e t, (gyl (quarter m G e t) < gyu (quarter m G e t))%Qc) by (intros e []; cbn; auto).
  assert (D : forall x e t s1 e' t' s2, tiled m (quarter m G e t) s1 -> tiled m (quarter m G e' t') s2 -> (e <> e' \/ t <> t') ->
    In x (map (fun w => corner (fst w)) (leaves s1)) -> In x (map (fun w => corner (fst w)) (leaves s2)) -> False).
  { intros x e t s1 e' t' s2 T1 T2 N A B. apply (I _ _ _ _ T1) in A as (A1 & A2 & A3 & A4). apply (I _ _ _ _ T2) in B as (B1 & B2 & B3 & B4).
    destruct e, t, e', t', N as [N|N]; try congruence; cbn [quarter gxl gxu gyl gyu] in *;
      match goal with H : (?a < ?b)%Qc, K : (?b <= ?a)%Qc |- _ => exact (Qclt_not_le _ _ H K) end. }
  apply NoDup_app2; [eauto|apply NoDup_app2; [eauto|apply NoDup_app2; [eauto|eauto|]|]|]; intros x A B; rewrite ?in_app_iff in B.
  - apply (D x _ _ _ _ _ _ TC TD); auto; left; discriminate.
  - destruct B as [B|B]; [apply (D x _ _ _ _ _ _ TB TC)|apply (D x _ _ _ _ _ _ TB TD)]; auto; right; discriminate.
  - destruct B as [B|[B|B]]; [apply (D x _ _ _ _ _ _ TA TB)|apply (D x _ _ _ _ _ _ TA TC)|apply (D x _ _ _ _ _ _ TA TD)]; auto; try (left; discriminate); right; discriminate.
Qed.

Lemma tiled_corners sv gesv m : forall s G load t st st1 t1, tiled m G s -> fresh load s t ->
  buildStage sv gesv false st t = Ok (st1, t1) -> corners (pgrid (data t1)) = corners G.
Proof.
  induction s as [G0 f|sa IHa sb IHb sc IHc sd IHd]; intros G load [p|p ta tb tc td] st st1 t1 U F E; try contradiction.
  - cbn in U. destruct U as (-> & _). destruct F as (F & _). unfold buildStage in E. cbn [tmerge] in E. apply bind_inv in E as (r & Er & E).
    injection E as _ <-. cbn [data]. unfold build_leaf in Er. cbn in Er. apply bind_inv in Er as (T & _ & Er). injection Er as <-. cbn. rewrite F. reflexivity.
  - destruct U as (Ua & Ub & Uc & _). destruct F as (_ & Fa & Fb & Fc & _). unfold buildStage in E. cbn [tmerge] in E.
    apply bind_inv in E as (ra & Ea & E). apply bind_inv in E as (rb & Eb & E). apply bind_inv in E as (rc & Ec & E).
    apply bind_inv in E as (rd & _ & E). apply bind_inv in E as ((q & ch) & Ef & E). injection E as _ <-. cbn [data fst].
    rewrite (merge_corners _ _ _ _ _ Ef). cbn [fa fb fc].
    destruct ra as [sa1 ra], rb as [sb1 rb], rc as [sc1 rc]. cbn [snd fst] in *.
    apply (IHa _ _ _ _ _ _ Ua Fa) in Ea. apply (IHb _ _ _ _ _ _ Ub Fb) in Eb. apply (IHc _ _ _ _ _ _ Uc Fc) in Ec.
    unfold corners in *. injection Ea as A1 A2 A3 A4. injection Eb as B1 B2 B3 B4. injection Ec as C1 C2 C3 C4.
    rewrite A1, A3, B2, C4. reflexivity.
Qed.
Lemma tiled_root_grid sv gesv m s G load t st st1 t1 : m <> 0 -> tiled m G s -> fresh load s t -> good_leaves m sv s ->
  buildStage sv gesv false st t = Ok (st1, t1) -> built m sv 0 s t1 -> pgrid (data t1) = rect (m * 2 ^ level s) G.
Proof.
  intros Hm HT HF Good E1 B1. pose proof (tiled_corners _ _ _ _ _ _ _ _ _ _ HT HF E1) as EC.
  destruct (built_root m sv 0 s t1 Hm Good B1) as (_ & EX & _).
  assert (EY : gny (pgrid (data t1)) = m * 2 ^ level s).
  { destruct t1 as [p|p ta tb tc td].
    - destruct s as [G0 f0|]; [|destruct B1]. destruct B1 as (_ & EQ & _). cbn [tiled] in HT. destruct HT as (-> & _). cbn [data]. rewrite EQ. cbn [rect gny level Nat.pow]. lia.
    - cbn [data]. rewrite (build_gny _ _ _ _ _ _ _ _ _ _ _ E1).
      destruct s as [|sa sb sc sd]; [destruct B1|]. destruct Good as (Ga & Gb & Gc & Gd).
      destruct B1 as (Ba & Bb & Bc & Bd & _).
      destruct (built_root m sv _ sa ta Hm Ga Ba) as (Na & Xa & _).
      destruct (built_root m sv _ sc tc Hm Gc Bc) as (Nc & Xc & _).
      destruct (min_level_le sa sb sc sd) as (La & Lb & Lc & Ld).
      unfold psize. rewrite Na, Xa, Nc, Xc.
      rewrite <- (scale_level m (min_level sa sb sc sd) (level sa)) by auto.
      rewrite <- (scale_level m (min_level sa sb sc sd) (level sc)) by auto.
      rewrite !Nat.div_mul by (apply Nat.pow_nonzero; lia).
      change (level (QNode sa sb sc sd)) with (S (min_level sa sb sc sd)). rewrite Nat.pow_succ_r'. lia. }
  destruct (pgrid (data t1)) as [n1 n2 x1 x2 y1 y2]. unfold corners in EC. cbn [gnx gny gxl gxu gyl gyu rect] in *. injection EC as -> -> -> ->. subst. reflexivity.
Qed.

(** ** One leaf *)
Section Leaf.
Context (beta : Qc -> Qc -> Qc) (dt : Qc) (Hb : forall x y, (0 < beta x y)%Qc) (Hdt : (0 < dt)%Qc).
Notation c := (hc beta dt).

Lemma cell_iff (q : Qc -> Qc -> Qc) G E g u old i j : i < gnx G -> j < gny G -> ghosts G g u E ->
  (elliptic c G E i j = cell G (pointwise (heat_load dt q) G old) i j <->
   (cell G u i j - cell G old i j) / dt = elliptic (diffusion beta) G E i j + q (mid_x G i) (mid_y G j))%Qc.
Proof.
  intros Hi Hj (Hc & _). unfold cell at 1. rewrite pointwise_val by auto. fold (cell G old i j).
  assert (EH : (elliptic c G E i j = elliptic (diffusion beta) G E i j - 1 / dt * cell G u i j)%Qc).
  { rewrite <- (Hc i j Hi Hj). unfold elliptic. cbv zeta. cbn [hc diffusion c_alpha c_beta c_lambda]. unfold Qcdiv. ring. }
  rewrite EH. unfold heat_load. set (e := elliptic _ _ _ _ _). pose proof (dt_nz dt Hdt) as Nd. split; intros Q.
  - transitivity (e - (e - 1 / dt * cell G u i j) - 1 / dt * cell G old i j)%Qc; [unfold Qcdiv; ring|]. rewrite Q. ring.
  - assert (Q2 : (e = (cell G u i j - cell G old i j) / dt - q (mid_x G i) (mid_y G j))%Qc) by (rewrite Q; ring). rewrite Q2. field. exact Nd.
Qed.
Lemma heat_leaf_iff q G old g u h :
  heat_leaf beta dt q G old g u h <-> fv_solution c G g (pointwise (heat_load dt q) G old) u /\ h = boundary_flux G g u.
Proof.
  unfold heat_leaf, fv_solution. split.
  - intros (L & HE & Eh). split; [|exact Eh]. split; [exact L|]. intros E HG i j Hi Hj. apply (cell_iff q G E g u old i j Hi Hj HG). apply HE; auto.
  - intros ((L & HE) & Eh). split; [exact L|]. split; [|exact Eh]. intros E HG i j Hi Hj. apply (cell_iff q G E g u old i j Hi Hj HG). apply HE; auto.
Qed.
Lemma pointwise_cold G n : gnx G * gny G = n -> pointwise (heat_load dt (fun _ _ => 0%Qc)) G (zeros n) = zeros n.
Proof.
  intros <-. apply zeros_eq; [apply pointwise_length|]. intros k Hk. unfold pointwise. rewrite map_seq_vec, vval_vec_of by exact Hk.
  rewrite vval_zeros. unfold heat_load. ring.
Qed.
End Leaf.

Lemma linear_of_solution m c (solve : grid -> list Qc -> list Qc -> res (list Qc)) G f g u :
  m <> 0 -> right_signs c -> oriented G -> gnx G = m -> gny G = m -> length g = 4 * m ->
  (forall G, oriented G -> gnx G = m -> gny G = m -> forall g f, length g = 4 * m -> length f = m * m -> exists u, solve G g f = Ok u /\ fv_solution c G g f u) ->
  fv_solution c G g (zeros (m * m)) u -> linear_leaf (solver_of solve) G f g u (boundary_flux G g u).
Proof.
  intros Hm HS HP Ex Ey Lg HSo Su. pose proof (maximum_principle c G (orp _ HP) HS) as HU.
  assert (AF : affine_solver m (solver_of solve) G) by (apply (solver_affine c); auto; apply orp; exact HP).
  destruct AF as [_ _ (T & ET & _)]. exists T. split; [exact ET|].
  destruct (leaf_linear m c HS solve HSo G f g u (apply_op T g) HP Ex Ey (zeros_length _) Lg) as (u' & Su' & EH).
  { exists T. auto. }
  rewrite EH. f_equal. eapply (solution_unique c G (orp _ HP) g (zeros (m * m)) u u'); eauto; rewrite ?Ex, ?Ey; [lia|apply zeros_length].
Qed.

(** ** Conditions at the root *)
Lemma root_iff m l G (uW uE vS vN : Qc -> Qc -> Qc) g h : m <> 0 -> let N := m * 2 ^ l in
  mixed_condition N (rect N G) thermal_a thermal_b (bc_r uW uE vS vN) g h <-> root_conditions N G uW uE vS vN g h.
Proof.
  intros Hm N. pose proof (side_mid m l (gxl G) (gxu G) (gyl G) (gyu G) Hm) as SP. cbv zeta in SP.
  change (whole m l (gxl G) (gxu G) (gyl G) (gyu G)) with (rect N G) in SP. unfold root_conditions. cbv zeta. set (G0 := rect N G) in *.
  assert (Ex : gnx G0 = N) by reflexivity. assert (Ey : gny G0 = N) by reflexivity.
  assert (I1 : forall v i, vval v (0 * N + i) = west G0 v i) by reflexivity.
  assert (I2 : forall v i, vval v (1 * N + i) = east G0 v i) by (intros; unfold east; rewrite Ey; f_equal; lia).
  assert (I3 : forall v i, vval v (2 * N + i) = south G0 v i) by (intros; unfold south; rewrite Ey; f_equal; lia).
  assert (I4 : forall v i, vval v (3 * N + i) = north G0 v i) by (intros; unfold north; rewrite Ey, Ex; f_equal; lia).
  split.
  - intros MC i Hi. destruct (SP i) as (P0 & P1 & P2 & P3).
    pose proof (MC 0 i ltac:(lia) Hi) as C0. pose proof (MC 1 i ltac:(lia) Hi) as C1.
    pose proof (MC 2 i ltac:(lia) Hi) as C2. pose proof (MC 3 i ltac:(lia) Hi) as C3. unfold at_side in C0, C1, C2, C3.
    rewrite P0, !I1 in C0. rewrite P1, !I2 in C1. rewrite P2, !I3 in C2. rewrite P3, !I4 in C3.
    cbn [thermal_a thermal_b bc_r fst snd] in C0, C1, C2, C3. rewrite <- C0, <- C1, <- C2, <- C3. repeat split; ring.
  - intros H n i Hn Hi. destruct (SP i) as (P0 & P1 & P2 & P3). destruct (H i Hi) as (H0 & H1 & H2 & H3). unfold at_side.
    destruct n as [|[|[|[|n]]]]; [| | | |lia].
    + rewrite P0, !I1. cbn [thermal_a thermal_b bc_r fst snd]. rewrite H0. ring.
    + rewrite P1, !I2. cbn [thermal_a thermal_b bc_r fst snd]. rewrite H1. ring.
    + rewrite P2, !I3. cbn [thermal_a thermal_b bc_r fst snd]. rewrite H2. ring.
    + rewrite P3, !I4. cbn [thermal_a thermal_b bc_r fst snd]. rewrite H3. ring.
Qed.

(** Two solutions of the boundary system. *)
Lemma mixed_two N G T a b r g g' ph : square (4 * N) T -> mixed_unique N G T a b -> length g = 4 * N -> length g' = 4 * N ->
  mixed_condition N G a b r g (vplus (apply_op T g) ph) -> mixed_condition N G a b r g' (vplus (apply_op T g') ph) -> g = g'.
Proof.
  intros (WT & RT & CT) MU Lg Lg' C C'. set (d := vec_of (4 * N) (fun k => (vval g k - vval g' k)%Qc)).
  assert (Ld : length d = 4 * N) by apply vec_of_length.
  assert (Vd : forall k, k < 4 * N -> vval d k = (vval g k - vval g' k)%Qc) by (intros; apply vval_vec_of; auto).
  assert (Z : d = zeros (4 * N)).
  { apply MU; [exact Ld|]. intros n i Hn Hi. specialize (C n i Hn Hi). specialize (C' n i Hn Hi). assert (K : n * N + i < 4 * N) by nia.
    assert (LA : forall v, length (apply_op T v) = 4 * N) by (intros; rewrite apply_op_length; exact RT).
    rewrite vval_vplus in C, C' by (rewrite LA; exact K).
    assert (E : vval (apply_op T d) (n * N + i) = (vval (apply_op T g) (n * N + i) - vval (apply_op T g') (n * N + i))%Qc).
    { rewrite !apply_op_vec, !vval_vec_of by (rewrite RT; exact K). rewrite <- Base.sum_minus. apply sum_ext. intros j Hj. rewrite Vd by lia. ring. }
    rewrite E, Vd by exact K. transitivity (at_side G r n i - at_side G r n i)%Qc; [rewrite <- C at 1; rewrite <- C'; ring|].
    unfold at_side. destruct n as [|[|[|[|n]]]]; try ring. }
  apply vval_ext; [congruence|]. intros k Hk. rewrite Lg in Hk. specialize (Vd k Hk). rewrite Z, vval_zeros in Vd.
  transitivity (vval g k - (vval g k - vval g' k))%Qc; [rewrite <- Vd; ring|ring].
Qed.

(** ** One iteration *)
Section Step.
Context (m : nat) (Hm : 2 <= m) (lu : lu_t) (HL : lu_contract lu) (gesv : gesv_t) (HG : gesv_contract gesv).
Context (G : grid) (HO : oriented (rect m G)).
Context (P : thermal) (Hb : forall x y, (0 < th_beta P x y)%Qc) (Hdt : (0 < th_dt P)%Qc).
Notation sv := (fv_solver lu (th_coefs P)).
Context (load0 : grid -> list Qc) (s : qtree) (t : tree) (st : option (matrix Qc)).
Context (HT : tiled m G s) (HF : fresh load0 s t) (HW : well_posed m sv s) (H3 : 3 <= m \/ equal_levels s).
Context (HP : heat_posed (th_beta P) (th_dt P) m G s).
Notation N := (m * 2 ^ level s).

Lemma mz : m <> 0.
Proof. clear - Hm. lia. Qed.
Lemma m1 : 1 <= m.
Proof. clear - Hm. lia. Qed.
Lemma tsigns : right_signs (th_coefs P).
Proof. apply (hc_signs (th_beta P) (th_dt P) Hb Hdt). Qed.
Lemma tsolves : forall G, oriented G -> gnx G = m -> gny G = m -> forall g f, length g = 4 * m -> length f = m * m ->
  exists u, fv_solve lu (th_coefs P) G g f = Ok u /\ fv_solution (th_coefs P) G g f u.
Proof. intros G' O Ex Ey g' f' Lg' Lf'. apply orp in O. apply (fv_solve_ok G' m Ex Ey); auto. apply maximum_principle; auto. apply tsigns. Qed.

(** Everything holds for other values on the same mesh. *)
Lemma good s' : tiled m G s' -> good_leaves m sv s'.
Proof.
  intros HT'. apply (tiled_good m m1 (th_coefs P) (fv_solve lu (th_coefs P)) G s' HO HT').
  - apply (leaf_unique m _ G); auto using tsigns, mz.
  - apply (fv_leaf_solves m lu _ G); auto using tsigns.
Qed.
Lemma same3 s' : same_mesh s s' -> 3 <= m \/ equal_levels s'.
Proof. intros HM. destruct H3; [auto|]. right. eapply mesh_equal; eauto. Qed.

Lemma leaf_iff q G' f g u h s' : tiled m G s' -> In (G', f) (leaves s') -> length g = 4 * m ->
  (heat_leaf (th_beta P) (th_dt P) q G' f g u h <-> solver_leaf sv G' (pointwise (heat_load (th_dt P) q) G' f) g u h).
Proof.
  clear HT HF HW H3 HP. intros HT' HI Lg. destruct (tiled_leaf m s' G mz HO HT' G' f HI) as (O & Ex & Ey & Lf).
  rewrite (heat_leaf_iff (th_beta P) (th_dt P) Hdt). change (hc (th_beta P) (th_dt P)) with (th_coefs P).
  set (F := pointwise (heat_load (th_dt P) q) G' f). assert (LF : length F = m * m) by (unfold F; rewrite pointwise_length, Ex, Ey; reflexivity).
  destruct (tsolves G' O Ex Ey g F Lg LF) as (u0 & E0 & S0).
  assert (L0 : length u0 = m * m) by (destruct S0 as (L & _); rewrite Ex, Ey in L; exact L).
  pose proof (fv_map_ok G' m Ex Ey (fv_solve lu (th_coefs P)) g F u0 mz Lg E0 L0) as M0.
  unfold solver_leaf. cbn [fv_solver solver_of sv_solve sv_map]. rewrite E0, M0. split.
  - intros (S & ->). assert (u0 = u) as ->; [|auto]. eapply (solution_unique (th_coefs P) G' (orp _ O) g F u0 u); eauto; rewrite ?Ex, ?Ey; [clear - Lg; lia|exact LF|].
    apply maximum_principle; [apply orp; exact O|apply tsigns].
  - intros (E1 & E2). apply Ok_inj in E1, E2. subst. auto.
Qed.
Lemma glued_heat q s' g h U : tiled m G s' ->
  glued m (heat_leaf (th_beta P) (th_dt P) q) s' g h U <-> glued m (solver_leaf sv) (remap (pointwise (heat_load (th_dt P) q)) s') g h U.
Proof.
  intros HT'. split.
  - apply glued_remap. intros G' f HI g0 u h0 Lg. apply (leaf_iff q G' f g0 u h0 s' HT' HI Lg).
  - apply glued_unmap. intros G' f HI g0 u h0 Lg. apply (leaf_iff q G' f g0 u h0 s' HT' HI Lg).
Qed.
Lemma remap_tiled phi s' : tiled m G s' -> (forall G' f, gnx G' = m -> gny G' = m -> length (phi G' f) = m * m) -> tiled m G (remap phi s').
Proof.
  intros HT' HL'. eapply mesh_tiled; [apply remap_mesh|exact HT'|]. intros G' f HI. rewrite remap_leaves in HI. apply in_map_iff in HI as ([G1 f1] & E & HI).
  cbn [fst snd] in E. injection E as <- <-. destruct (tiled_leaf m s' G mz HO HT' G1 f1 HI) as (_ & Ex & Ey & _). auto.
Qed.

Lemma linear_heat g h U : glued m (linear_leaf sv) s g h U ->
  exists U', glued m (heat_leaf (th_beta P) (th_dt P) (fun _ _ => 0%Qc)) (cold m s) g h U'.
Proof.
  rewrite cold_remap. apply glued_other. intros G' f HI g0 u h0 Lg HLf. destruct (tiled_leaf m s G mz HO HT G' f HI) as (O & Ex & Ey & Lf).
  destruct (leaf_linear m (th_coefs P) tsigns (fv_solve lu (th_coefs P)) tsolves G' f g0 u h0 O Ex Ey (zeros_length _) Lg HLf) as (u' & S & E).
  exists u'. apply (heat_leaf_iff (th_beta P) (th_dt P) Hdt). change (hc (th_beta P) (th_dt P)) with (th_coefs P).
  rewrite pointwise_cold by (rewrite Ex, Ey; reflexivity). auto.
Qed.
Lemma heat_linear g h U : glued m (heat_leaf (th_beta P) (th_dt P) (fun _ _ => 0%Qc)) (cold m s) g h U -> glued m (linear_leaf sv) s g h U.
Proof.
  rewrite cold_remap. apply glued_unmap. intros G' f HI g0 u h0 Lg HLf. destruct (tiled_leaf m s G mz HO HT G' f HI) as (O & Ex & Ey & Lf).
  apply (heat_leaf_iff (th_beta P) (th_dt P) Hdt) in HLf as (S & ->). change (hc (th_beta P) (th_dt P)) with (th_coefs P) in S.
  rewrite pointwise_cold in S by (rewrite Ex, Ey; reflexivity).
  apply (linear_of_solution m (th_coefs P)); auto using mz, tsigns, tsolves.
Qed.

Lemma built_first : exists st1 t1, buildStage sv gesv false st t = Ok (st1, t1) /\ built m sv 0 s t1.
Proof.
  destruct (build_ok m sv gesv load0 s t (build_leaf sv false) st mz HG (build_leaf_off sv m) HF (good s HT) HW H3) as (st1 & t1 & E1 & B1).
  exists st1, t1. split; [exact E1|exact B1].
Qed.
Context (st1 : option (matrix Qc)) (t1 : tree) (HB : buildStage sv gesv false st t = Ok (st1, t1)).
Lemma built_t1 : built m sv 0 s t1.
Proof. destruct built_first as (a & b & E & B). rewrite HB in E. injection E as <- <-. exact B. Qed.

Lemma root_T : exists T0, Aff m (linear_leaf sv) s T0 (zeros (4 * N)) /\ pT (data t1) = T0.
Proof.
  destruct (built_lin m sv 0 s t1 mz (good s HT) built_t1) as (T0 & A & R). exists T0. split; [exact A|].
  apply resolved_0_eq with (c := N); [apply A|]. rewrite Nat.sub_0_r in R. exact R.
Qed.

Lemma unique_root : mixed_unique N (rect N G) (pT (data t1)) thermal_a thermal_b.
Proof.
  intros g Lg MC. destruct root_T as (T0 & (Sq & _ & Hex & _) & ET). rewrite ET in MC. destruct (Hex g Lg) as (U & HU).
  rewrite vplus_zeros_n in HU by (rewrite apply_op_length; apply Sq).
  apply linear_heat in HU as (U' & HU). apply (HP U' g _ HU).
  apply root_iff; [exact mz|]. intros n i Hn Hi. rewrite (MC n i Hn Hi). unfold at_side. destruct n as [|[|[|[|n]]]]; reflexivity.
Qed.

Theorem one_refined cb tn s' r : same_mesh s s' -> tiled m G s' -> trel R1 t1 tn ->
  Forall2 (fun p z => pgrid p = fst z /\ cb p = Ok (snd z)) (tree_leaves tn) (leaves s') ->
  exists t2 t3 U g h,
    upwardsStage_cb sv gesv false cb tn = Ok t2 /\ solveStage_fn sv gesv false thermal_a thermal_b r t2 = Ok t3 /\ trel R1 t1 t3 /\
    map pu (tree_leaves t3) = map snd (leaf_values U) /\
    glued m (solver_leaf sv) s' g h U /\ mixed_condition N (rect N G) thermal_a thermal_b r g h.
Proof.
  intros HM HT' HR HC. set (L := fun G' : grid => find_load (leaves s') [] (gxl G') (gyl G')).
  assert (LA : forall G' f, In (G', f) (leaves s') -> L G' = f).
  { intros G' f HI. unfold L. apply find_load_ok; [|exact HI]. destruct HO as (Ox & Oy & _). eapply (tiled_NoDup m s' G); [exact Ox|exact Oy|exact HT']. }
  assert (HF' : fresh L s' t) by (eapply mesh_fresh; eauto).
  assert (EL : level s' = level s) by (symmetry; apply mesh_level; exact HM).
  destruct (mixed_solution_pf m sv gesv L s' t st thermal_a thermal_b r m1 HG HF' (good s' HT') (mesh_posed _ _ _ _ HM HW) (same3 s' HM)) as (st1' & t1' & t2' & E1 & E2 & K).
  rewrite EL in K. rewrite HB in E1. injection E1 as <- <-.
  assert (KD : ops (data t1) = ops (data t2')).
  { unfold upwardsStage in E2. apply bind_inv in E2 as (r2 & E2 & E2'). apply Ok_inj in E2'. subst t2'.
    pose proof (up_keeps _ _ _ _ _ _ E2) as K2. destruct (trel_data _ _ _ K2) as (K0 & _). exact K0. }
  destruct (ops_inj _ _ KD) as (KG & _ & _ & KT & _).
  rewrite <- KG, <- KT in K. rewrite (tiled_root_grid sv gesv m s G load0 t st st1 t1 mz HT HF (good s HT) HB built_t1) in K.
  destruct (K unique_root) as (t3' & U & g & h & E3 & HGl & EV & MC).
  assert (EU : upwardsStage_cb sv gesv false cb tn = upwardsStage sv gesv false L tn).
  { unfold upwardsStage_cb, upwardsStage. f_equal. apply tmerge_leaves. intros p Hp sx. unfold up_leaf_cb, up_leaf. cbv zeta. cbn [pgrid pf set_f].
    assert (Q : exists z, In z (leaves s') /\ pgrid p = fst z /\ cb p = Ok (snd z)).
    { clear - HC Hp. revert HC Hp. generalize (leaves s') (tree_leaves tn). intros zs0 ps0 HC. induction HC as [|q z qs zs HQ HC IH]; [intros []|]. intros [->|Hp].
      - exists z. split; [left; reflexivity|exact HQ].
      - destruct (IH Hp) as (w & W1 & W2). exists w. split; [right; exact W1|exact W2]. }
    destruct Q as ([G' f] & Q1 & Q2 & Q3). cbn [fst snd] in Q2, Q3. rewrite Q3, bind_Ok, Q2, (LA _ _ Q1). reflexivity. }
  pose proof (up_rel sv gesv false L t1 tn HR) as RU. unfold upwardsStage in E2, EU.
  apply bind_inv in E2 as (x1 & X1 & X2). apply Ok_inj in X2. subst t2'. rewrite X1 in RU.
  destruct (tmerge _ _ _ tn) as [y1| |] eqn:Y1; try contradiction. cbn [same] in RU. rewrite bind_Ok in EU.
  pose proof (solve_fn_rel sv gesv thermal_a thermal_b r _ _ RU) as RS. rewrite E3 in RS.
  destruct (solveStage_fn sv gesv false thermal_a thermal_b r (snd y1)) as [t3| |] eqn:Y3; try contradiction. cbn [same] in RS.
  exists (snd y1), t3, U, g, h. split; [exact EU|]. split; [exact Y3|]. split.
  { eapply trel_trans; [apply R1_trans|exact HR|]. eapply trel_trans; [apply R1_trans|eapply up_keeps; exact Y1|eapply solve_fn_keeps; exact Y3]. }
  split; [|auto]. rewrite <- EV, RS. unfold computed_values. rewrite map_map. reflexivity.
Qed.

Lemma grids_tn tn s' : trel R1 t1 tn -> same_mesh s s' -> map pgrid (tree_leaves tn) = map fst (leaves s').
Proof. intros HR HM. rewrite <- (trel_grids _ _ HR), (built_grids _ _ _ _ _ built_t1). apply mesh_grids. exact HM. Qed.

(** Two steps from the same values. *)
Lemma step_unique uW uE vS vN q old new new' : same_mesh s old -> tiled m G old ->
  refined_step (th_beta P) (th_dt P) m G uW uE vS vN q old new -> refined_step (th_beta P) (th_dt P) m G uW uE vS vN q old new' -> new = new'.
Proof.
  intros HM HT' (U & g & h & H1 & -> & H2) (U' & g' & h' & H1' & -> & H2').
  set (s' := remap (pointwise (heat_load (th_dt P) q)) old).
  assert (HM' : same_mesh s s') by (eapply mesh_trans; [exact HM|apply remap_mesh]).
  assert (HTs : tiled m G s').
  { apply remap_tiled; [exact HT'|]. intros G' f Ex Ey. rewrite pointwise_length, Ex, Ey. reflexivity. }
  apply (glued_heat q old g h U HT') in H1. apply (glued_heat q old g' h' U' HT') in H1'. fold s' in H1, H1'.
  set (L := fun G' : grid => find_load (leaves s') [] (gxl G') (gyl G')).
  assert (LA : forall G' f, In (G', f) (leaves s') -> L G' = f).
  { intros G' f HI. unfold L. apply find_load_ok; [|exact HI]. destruct HO as (Ox & Oy & _). eapply (tiled_NoDup m s' G); [exact Ox|exact Oy|exact HTs]. }
  assert (HF' : fresh L s' t) by (eapply mesh_fresh; eauto).
  assert (EL : level s' = level s) by (symmetry; apply mesh_level; exact HM').
  assert (EO : level old = level s) by (symmetry; apply mesh_level; exact HM).
  pose proof (glued_length m _ _ _ _ _ H1) as Lg. pose proof (glued_length m _ _ _ _ _ H1') as Lg'.
  destruct (solver_glued_pf m sv gesv L s' t st g m1 HG HF' (good s' HTs) (mesh_posed _ _ _ _ HM' HW) (same3 s' HM') Lg)
    as (sa & ta & tb & tc & V & k & A1 & A2 & _ & _ & _ & A3 & A4).
  destruct (solver_glued_pf m sv gesv L s' t st g' m1 HG HF' (good s' HTs) (mesh_posed _ _ _ _ HM' HW) (same3 s' HM') Lg')
    as (sa' & ta' & tb' & tc' & V' & k' & B1 & B2 & _ & _ & _ & B3 & B4).
  rewrite HB in A1, B1. injection A1 as <- <-. injection B1 as <- <-. rewrite A2 in B2. apply Ok_inj in B2. subst tb'.
  destruct (A4 _ _ H1) as (-> & ->). destruct (B4 _ _ H1') as (-> & ->).
  assert (E : g = g').
  { assert (KD : ops (data t1) = ops (data tb)).
    { unfold upwardsStage in A2. apply bind_inv in A2 as (r2 & A2 & A2'). apply Ok_inj in A2'. subst tb.
      pose proof (up_keeps _ _ _ _ _ _ A2) as K2. destruct (trel_data _ _ _ K2) as (K0 & _). exact K0. }
    destruct (ops_inj _ _ KD) as (_ & _ & _ & KT & _). rewrite EL in Lg, Lg'.
    destruct root_T as (T0 & (Sq & _) & ET).
    eapply (mixed_two N (rect N G) (pT (data tb)) thermal_a thermal_b (bc_r uW uE vS vN) g g' (ph (data tb))); auto.
    - rewrite <- KT, ET. exact Sq.
    - rewrite <- KT. apply unique_root.
    - apply root_iff; [exact mz|]. rewrite <- A3, <- EO. exact H2.
    - apply root_iff; [exact mz|]. rewrite <- B3, <- EO. exact H2'. }
  subst g'. destruct (A4 _ _ H1') as (-> & _). reflexivity.
Qed.
End Step.
