(** The homogeneous option, mixed boundary conditions, superposition. *)
From Coq Require Import Permutation.
From Verif Require Import Base VectorModel MatrixModel LinSpec MatProofs MatProofs2 MatProofs3 LinProofs.
From Verif Require Import BlockProofs HPSModel HPSSpec StageSpec HPSProofs HPSProofs2 HPSProofs3 HPSProofs4.
From Verif Require Import HPSTree HPSTree2 HPSHistory.

(** * homogeneous-rhs *)
Fixpoint zero_w (m : nat) (s : qtree) (t : tree) : Prop :=
  match s, t with
  | QLeaf G f, Leaf p => True
  | QNode a b c d, Node p ta tb tc td =>
      pw p = zeros (4 * (m * 2 ^ min_level a b c d)) /\
      zero_w m a ta /\ zero_w m b tb /\ zero_w m c tc /\ zero_w m d td
  | _, _ => False
  end.

Lemma up_zero m sv k kh s t : m <> 0 -> good_leaves m sv s -> built m sv k s t -> upped m sv kh s t ->
  at_rest m sv s -> ph (data t) = zeros (4 * (m * 2 ^ (level s - kh))) /\ zero_w m s t.
Proof.
  intros Hm. revert k kh t. induction s as [G f|a IHa b IHb c IHc d IHd]; intros k kh t Hg HB HP HZ.
  - destruct t as [p|]; [|destruct HB]. destruct HP as (-> & Ef & Eh). destruct HZ as (_ & Z).
    cbn [level Nat.sub Nat.pow data zero_w]. rewrite Nat.mul_1_r. split; [|exact I]. rewrite Z in Eh. apply Ok_inj in Eh. auto.
  - destruct t as [|p ta tb tc td]; [destruct HB|]. destruct Hg as (Ga & Gb & Gc & Gd).
    destruct HB as (Ba & Bb & Bc & Bd & Hk & H3 & Ep & Ex & HU & T0 & HF & HR).
    destruct HP as (Pa & Pb & Pc & Pd & Hkh & Lw & Cw & Eh).
    destruct HZ as (Za & Zb & Zc & Zd).
    set (l := min_level a b c d) in *. set (n := m * 2 ^ l) in *.
    destruct (min_level_le a b c d) as (La & Lb & Lc & Ld). fold l in La, Lb, Lc, Ld.
    assert (Hl : forall s', l <= level s' -> m * 2 ^ (level s' - (level s' - l)) = n).
    { intros s' Hl. unfold n. do 2 f_equal. lia. }
    destruct (built_root m sv _ a ta Hm Ga Ba) as (_ & _ & Sa & _).
    destruct (built_root m sv _ b tb Hm Gb Bb) as (_ & _ & Sb & _).
    destruct (built_root m sv _ c tc Hm Gc Bc) as (_ & _ & Sc & _).
    destruct (built_root m sv _ d td Hm Gd Bd) as (_ & _ & Sd & _).
    rewrite Hl in Sa, Sb, Sc, Sd by auto.
    destruct (IHa _ _ ta Ga Ba Pa Za) as (Ha & Wa). destruct (IHb _ _ tb Gb Bb Pb Zb) as (Hb & Wb).
    destruct (IHc _ _ tc Gc Bc Pc Zc) as (Hc & Wc). destruct (IHd _ _ td Gd Bd Pd Zd) as (Hd & Wd).
    rewrite Hl in Ha, Hb, Hc, Hd by auto. rewrite Ha, Hb, Hc, Hd in Cw, Eh.
    change (Four (zeros (4 * n)) (zeros (4 * n)) (zeros (4 * n)) (zeros (4 * n))) with (zero4 (4 * n)) in Cw, Eh.
    assert (W : pw p = zeros (4 * n)).
    { rewrite total_fluxes_zero in Cw by (split4; auto). apply HU; auto. }
    split; [|cbn [zero_w]; fold l n; auto 10].
    rewrite W, total_zero, outer_flux_zero in Eh by (split4; auto). cbn [data]. rewrite Eh.
    change (level (QNode a b c d)) with (S l).
    replace (8 * n) with (4 * (m * 2 ^ (S l - kh) * 2 ^ kh)); [apply coarsen_by_zeros|].
    rewrite <- Nat.mul_assoc, <- Nat.pow_add_r. replace (S l - kh + kh) with (S l) by lia.
    rewrite Nat.pow_succ_r'. unfold n. lia.
Qed.

Lemma hom_split m sv s k t g : m <> 0 -> good_leaves m sv s -> built m sv k s t ->
  zero_w m s t -> (forall p, In p (tree_leaves t) -> pf p = repeat 0%Qc (gnx (pgrid p) * gny (pgrid p))) ->
  length g = 4 * (m * 2 ^ (level s - k)) ->
  tsplit (leafSolve sv true) (split1to4 true) t (set_g (data t) g) =
  tsplit (leafSolve sv false) (split1to4 false) t (set_g (data t) g).
Proof.
  intros Hm. revert k t g. induction s as [G f|a IHa b IHb c IHc d IHd]; intros k t g Hg HB HZ HL Lg.
  - destruct t as [p|]; [|destruct HB]. cbn [tsplit data]. unfold leafSolve.
    pose proof (HL p (or_introl eq_refl)) as E. cbn [pgrid pg pf set_g set_f]. rewrite <- E. destruct p; reflexivity.
  - destruct t as [|p ta tb tc td]; [destruct HB|]. destruct Hg as (Ga & Gb & Gc & Gd).
    destruct HB as (Ba & Bb & Bc & Bd & Hk & H3 & Ep & Ex & HU & T0 & HF & HR).
    destruct HZ as (W & Wa & Wb & Wc & Wd).
    set (l := min_level a b c d) in *. set (n := m * 2 ^ l) in *.
    change (level (QNode a b c d)) with (S l) in *.
    destruct (min_level_le a b c d) as (La & Lb & Lc & Ld). fold l in La, Lb, Lc, Ld.
    assert (Hn : n <> 0) by (pose proof (pow_pos l); unfold n; nia).
    set (cc := m * 2 ^ (S l - k)) in *.
    assert (Hcc : cc * 2 ^ k = 2 * n).
    { unfold cc. rewrite <- Nat.mul_assoc, <- Nat.pow_add_r. replace (S l - k + k) with (S l) by lia.
      rewrite Nat.pow_succ_r'. unfold n. lia. }
    destruct (built_root m sv _ a ta Hm Ga Ba) as (Na & Xa & Sa & _).
    destruct HF as [(WS & NS & CS) FH FT FC FF].
    assert (Ps : psize (data ta) = n).
    { unfold psize. rewrite Na, Xa. rewrite <- (scale_level m l (level a)) by auto.
      apply Nat.div_mul. apply Nat.pow_nonzero. lia. }
    assert (Ex' : gnx (pgrid p) = cc * 2 ^ k) by (rewrite Ex, Hcc; lia).
    assert (H3c : k = 0 \/ 3 <= cc) by (destruct H3; [auto|right; unfold cc; pose proof (pow_pos (S l - k)); nia]).
    assert (E : forall hom, split1to4 hom (set_g p g) (Four (data ta) (data tb) (data tc) (data td)) =
       let g' := refine_by k cc g in let x := children_data n g' (apply_op (pS p) g') in
       Ok (set_g p g', Four (set_g (data ta) (fa x)) (set_g (data tb) (fb x)) (set_g (data tc) (fc x)) (set_g (data td) (fd x)))).
    { intros hom. pose proof (family_split hom (set_g p g) (Four (data ta) (data tb) (data tc) (data td)) n Hn) as E.
      cbn [fa fb fc fd pS pw pnc pgrid pg set_g] in E.
      specialize (E Ps WS NS CS). rewrite W in E. specialize (E (fun _ => zeros_length _) k cc Ep Ex' Hcc H3c Lg).
      cbv zeta in E |- *. rewrite E. destruct hom; [reflexivity|].
      rewrite vplus_zeros_n by (rewrite apply_op_length; auto). reflexivity. }
    cbn [tsplit data]. rewrite !E. cbv zeta. rewrite !bind_Ok. cbn [fst snd fa fb fc fd].
    set (g' := refine_by k cc g).
    assert (Lg' : length g' = 8 * n) by (unfold g'; rewrite refine_by_length by auto; lia).
    assert (Lz : length (apply_op (pS p) g') = 4 * n) by (rewrite apply_op_length; auto).
    destruct (children_data_length n g' _ Lg' Lz) as (Ya & Yb & Yc & Yd).
    set (x := children_data n g' _) in *.
    assert (Hl : forall s', l <= level s' -> m * 2 ^ (level s' - (level s' - l)) = n).
    { intros s' Hl. unfold n. do 2 f_equal. lia. }
    cbn [tree_leaves] in HL.
    rewrite (IHa (level a - l) ta (fa x) Ga Ba Wa); [|intros; apply HL; rewrite !in_app_iff; auto|rewrite Hl; auto].
    rewrite (IHb (level b - l) tb (fb x) Gb Bb Wb); [|intros; apply HL; rewrite !in_app_iff; auto|rewrite Hl; auto].
    rewrite (IHc (level c - l) tc (fc x) Gc Bc Wc); [|intros; apply HL; rewrite !in_app_iff; auto|rewrite Hl; auto].
    rewrite (IHd (level d - l) td (fd x) Gd Bd Wd); [|intros; apply HL; rewrite !in_app_iff; auto|rewrite Hl; auto].
    reflexivity.
Qed.

Lemma up_hom_ok m sv gesv load s k t : good_leaves m sv s -> built m sv k s t ->
  (forall G, length (load G) = gnx G * gny G) ->
  exists t', tmerge (up_leaf sv load) (upwards4to1 gesv true) tt t = Ok (tt, t').
Proof.
  intros Hg HB HL. revert k t Hg HB. induction s as [G f|a IHa b IHb c IHc d IHd]; intros k t Hg HB.
  - destruct t as [p|]; [|destruct HB]. destruct HB as (-> & EG & E0 & EB). destruct Hg as ([Ex Ey (T & ET & Sq & Hh)] & Lf).
    cbn [tmerge]. unfold up_leaf. cbn [pgrid pf set_f]. rewrite EG.
    destruct (Hh (load G)) as (h & E & _); [rewrite HL, Ex, Ey; auto|]. rewrite E, !bind_Ok. eexists. reflexivity.
  - destruct t as [|p ta tb tc td]; [destruct HB|]. destruct Hg as (Ga & Gb & Gc & Gd).
    destruct HB as (Ba & Bb & Bc & Bd & _). cbn [tmerge].
    destruct (IHa _ ta Ga Ba) as (ta' & ->). destruct (IHb _ tb Gb Bb) as (tb' & Eb).
    destruct (IHc _ tc Gc Bc) as (tc' & Ec). destruct (IHd _ td Gd Bd) as (td' & Ed).
    rewrite bind_Ok. cbn [fst snd]. rewrite Eb, bind_Ok. cbn [fst snd]. rewrite Ec, bind_Ok. cbn [fst snd]. rewrite Ed, bind_Ok.
    cbn [fst snd upwards4to1]. rewrite bind_Ok. eexists. reflexivity.
Qed.

Lemma upped_leaves m sv k kh s t : good_leaves m sv s -> built m sv k s t -> upped m sv kh s t -> at_rest m sv s ->
  forall p, In p (tree_leaves t) -> pf p = repeat 0%Qc (gnx (pgrid p) * gny (pgrid p)).
Proof.
  revert k kh t. induction s as [G f|a IHa b IHb c IHc d IHd]; intros k kh t Hg HB HP HZ p Hp.
  - destruct t as [p0|]; [|destruct HB]. destruct HB as (_ & EG & _). destruct HP as (_ & Ef & _). destruct HZ as (Z & _).
    destruct Hg as ([Ex Ey _] & _). destruct Hp as [<-|[]]. rewrite Ef, Z, EG, Ex, Ey. reflexivity.
  - destruct t as [|p0 ta tb tc td]; [destruct HB|]. destruct Hg as (Ga & Gb & Gc & Gd).
    destruct HB as (Ba & Bb & Bc & Bd & _). destruct HP as (Pa & Pb & Pc & Pd & _). destruct HZ as (Za & Zb & Zc & Zd).
    cbn [tree_leaves] in Hp. rewrite !in_app_iff in Hp. destruct Hp as [Hp|[Hp|[Hp|Hp]]]; eauto.
Qed.

Theorem homogeneous_ok m sv gesv load load' s t st g :
  m <> 0 -> gesv_contract gesv -> fresh load s t -> good_leaves m sv s -> well_posed m sv s ->
  3 <= m \/ equal_levels s -> at_rest m sv s -> (forall G, length (load' G) = gnx G * gny G) ->
  length g = 4 * (m * 2 ^ level s) ->
  exists st1 t1 t2 t3 t2' t3',
    buildStage sv gesv false st t = Ok (st1, t1) /\
    upwardsStage sv gesv false load t1 = Ok t2 /\ solveStage sv false g t2 = Ok t3 /\
    upwardsStage sv gesv true load' t1 = Ok t2' /\ solveStage sv true g t2' = Ok t3' /\
    computed_values t3' = computed_values t3.
Proof.
  intros Hm Hge HF Hg HW H3 HZ HL Lg.
  destruct (build_ok m sv gesv load s t (build_leaf sv false) st Hm Hge (build_leaf_off sv m) HF Hg HW H3)
    as (st1 & t1 & E1 & B1).
  destruct (up_ok m sv gesv load s 0 t1 Hm Hge (fresh_loads _ _ _ HF) Hg B1) as (t2 & E2 & B2 & P2 & _).
  destruct (solve_ok m sv s 0 t2 g Hm Hg B2 P2) as (t3 & U & h & E3 & G & V); [rewrite Nat.sub_0_r; auto|].
  destruct (up_hom_ok m sv gesv load' s 0 t1 Hg B1 HL) as (t2' & E2').
  destruct (up_zero m sv 0 0 s t2 Hm Hg B2 P2 HZ) as (_ & W).
  pose proof (hom_split m sv s 0 t2 g Hm Hg B2 W (upped_leaves m sv 0 0 s t2 Hg B2 P2 HZ)) as HS.
  rewrite Nat.sub_0_r in HS. specialize (HS Lg). rewrite E3 in HS.
  pose proof (up_keeps _ _ _ _ _ _ E2) as K. pose proof (up_keeps _ _ _ _ _ _ E2') as K'. cbn [snd] in K, K'.
  assert (R : trel R1 t2' t2).
  { eapply trel_trans; [apply R1_trans| |exact K]. clear - K'. revert t2' K'.
    induction t1 as [p|p a IHa b IHb c IHc d IHd]; intros [p'|p' a' b' c' d']; cbn; try tauto; unfold R1.
    - congruence.
    - intros (A & B). split; [congruence|]. destruct B as (B1 & B2 & B3 & B4). auto. }
  pose proof (solve_rel sv true t2' t2 (set_g (data t2') g) (set_g (data t2) g)) as SR.
  rewrite HS in SR. cbn [same] in SR.
  specialize (SR (trel_impl R1 (R2 true) _ _ (fun b p q H => conj H (fun e => False_ind _ (diff_true_false e))) R)).
  destruct (trel_data _ _ _ R) as (RD & _).
  specialize (SR (conj RD (fun e => False_ind _ (diff_true_false e))) eq_refl).
  destruct (tsplit _ _ t2' _) as [t3'| |] eqn:E3'; try (destruct SR; fail). cbn [same] in SR.
  exists st1, t1, t2, t3, t2', t3'. split; [exact E1|]. split; [unfold upwardsStage; rewrite E2; reflexivity|].
  split; [exact E3|]. split; [unfold upwardsStage; rewrite E2'; reflexivity|]. split; [exact E3'|exact SR].
Qed.
