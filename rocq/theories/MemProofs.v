(** Shapes of everything a patch holds after the three stages. *)
From Verif Require Import Base VectorModel MatrixModel LinSpec HPSModel HPSSpec StageSpec.
From Verif Require Import MatProofs LinProofs BlockProofs HPSProofs HPSProofs2 HPSProofs3 HPSProofs4 HPSHistory HPSRebuild HPSTree HPSTree2.
From Verif Require Import MemModel MemSpec.

(** ** What the stages leave alone *)
Definition KB (b : bool) (p p' : patch) : Prop :=
  pu p = pu p' /\ pg p = pg p' /\ pf p = pf p' /\ ph p = ph p' /\ pw p = pw p' /\
  (b = true -> pX p = pX p' /\ pH p = pH p' /\ pS p = pS p').
Definition KU (b : bool) (p p' : patch) : Prop :=
  pu p = pu p' /\ pg p = pg p' /\
  (b = true -> pX p = pX p' /\ pH p = pH p' /\ pS p = pS p' /\ pw p = pw p') /\
  (b = false -> pf p = pf p').
Definition KS (b : bool) (p p' : patch) : Prop :=
  pX p = pX p' /\ pH p = pH p' /\ pS p = pS p' /\ pT p = pT p' /\ pf p = pf p' /\ ph p = ph p' /\ pw p = pw p' /\
  (b = false -> pu p = pu p').

Lemma trel_set_r (R : bool -> patch -> patch -> Prop) t t' q :
  (forall b x y z, R b x y -> R b y z -> R b x z) ->
  trel R t t' -> R (is_leaf t) (data t') q -> trel R t (set_data t' q).
Proof.
  intros HT. destruct t as [y|y ? ? ? ?], t' as [y'|y' ? ? ? ?]; cbn; try tauto; intros A B; try (eapply HT; eauto; fail).
  destruct A as (A & A'). split; [eapply HT; eauto|exact A'].
Qed.

Lemma KB_trans b x y z : KB b x y -> KB b y z -> KB b x z.
Proof. unfold KB. intros A B. destruct b; intuition congruence. Qed.
Lemma KU_trans b x y z : KU b x y -> KU b y z -> KU b x z.
Proof. unfold KU. intros A B. destruct b; intuition congruence. Qed.

Lemma build_frame sv gesv st t r :
  tmerge (build_leaf sv false) (merge4to1 gesv) st t = Ok r -> trel KB t (snd r).
Proof.
  revert st r. induction t as [p|p a IHa b IHb c IHc d IHd]; intros st r E.
  - cbn [tmerge] in E. unfold build_leaf in E. apply bind_inv in E as (x & E & E2). apply bind_inv in E as (h & _ & E).
    apply Ok_inj in E, E2. subst. cbn [snd trel]. unfold KB. cbn. auto 10.
  - cbn [tmerge] in E.
    apply bind_inv in E as (ra & Ea & E). apply bind_inv in E as (rb & Eb & E).
    apply bind_inv in E as (rc & Ec & E). apply bind_inv in E as (rd & Ed & E).
    apply IHa in Ea. apply IHb in Eb. apply IHc in Ec. apply IHd in Ed.
    apply bind_inv in E as (f & Ef & E). apply Ok_inj in E. subst r. cbn [snd trel].
    rewrite merge_form in Ef. apply bind_inv in Ef as (q & _ & Ef). apply Ok_inj in Ef. subst f. cbn [fst snd fa fb fc fd].
    split; [unfold KB; cbn; split; [reflexivity|]; auto 10; repeat (split; [reflexivity|]); discriminate|].
    assert (K : forall b p T k, KB b p (set_nc (set_T p T) k)) by (intros; unfold KB; cbn; auto 10).
    split; [|split; [|split]]; apply trel_set_r; auto; exact KB_trans.
Qed.

Lemma up_frame sv gesv load t r :
  tmerge (up_leaf sv load) (upwards4to1 gesv false) tt t = Ok r -> trel KU t (snd r).
Proof.
  revert r. induction t as [p|p a IHa b IHb c IHc d IHd]; intros r E.
  - cbn [tmerge] in E. unfold up_leaf in E. apply bind_inv in E as (x & E & E2). apply bind_inv in E as (h & _ & E).
    apply Ok_inj in E, E2. subst. cbn [snd trel]. unfold KU. cbn. repeat split; discriminate.
  - cbn [tmerge] in E.
    apply bind_inv in E as (ra & Ea & E). apply bind_inv in E as (rb & Eb & E).
    apply bind_inv in E as (rc & Ec & E). apply bind_inv in E as (rd & Ed & E).
    destruct ra as [[] ta], rb as [[] tb], rc as [[] tc], rd as [[] td]. cbn [fst snd] in *.
    apply IHa in Ea. apply IHb in Eb. apply IHc in Ec. apply IHd in Ed. cbn [snd] in *.
    apply bind_inv in E as (f & Ef & E). apply Ok_inj in E. subst r. cbn [snd trel].
    rewrite upwards4to1_rest, coarsenUpwards_form in Ef. cbn [fa fb fc fd] in Ef.
    apply bind_inv in Ef as (ch & Ech & Ef).
    apply bind_inv in Ech as (a1 & _ & Ech). apply bind_inv in Ech as (b1 & _ & Ech).
    apply bind_inv in Ech as (c1 & _ & Ech). apply bind_inv in Ech as (d1 & _ & Ech). apply Ok_inj in Ech. subst ch.
    apply bind_inv in Ef as (q & Eq & Ef). apply Ok_inj in Ef. subst f.
    rewrite up_rest_form in Eq. apply bind_inv in Eq as (q' & _ & Eq). apply Ok_inj in Eq. subst q. cbn [fst snd fa fb fc fd].
    split; [unfold KU; cbn; repeat split; discriminate|].
    assert (K : forall b p h, KU b p (set_h p h)) by (intros; unfold KU; cbn; auto 10).
    split; [|split; [|split]]; apply trel_set_r; auto; exact KU_trans.
Qed.

Lemma solve_frame sv t p r : KS (is_leaf t) (data t) p ->
  tsplit (leafSolve sv false) (split1to4 false) t p = Ok r -> trel KS t r.
Proof.
  revert p r. induction t as [p0|p0 a IHa b IHb c IHc d IHd]; intros p r HR E.
  - cbn [tsplit] in E. apply bind_inv in E as (p' & E & E2). apply Ok_inj in E2. subst r.
    unfold leafSolve in E. cbv zeta in E. apply bind_inv in E as (u & _ & E). apply Ok_inj in E. subst p'.
    cbn [trel is_leaf data] in *. unfold KS in *. cbn. intuition congruence.
  - cbn [tsplit] in E. apply bind_inv in E as (f & Ef & E).
    rewrite split_form in Ef. cbn [fa fb fc fd] in Ef.
    apply bind_inv in Ef as (g & _ & Ef). apply bind_inv in Ef as (x & _ & Ef). apply Ok_inj in Ef. subst f.
    cbn [fst snd fa fb fc fd] in E.
    apply bind_inv in E as (ta & Ea & E). apply bind_inv in E as (tb & Eb & E).
    apply bind_inv in E as (tc & Ec & E). apply bind_inv in E as (td & Ed & E). apply Ok_inj in E. subst r.
    assert (RR : forall b p x, KS b p (set_g p x)) by (intros; unfold KS; cbn; auto 10).
    apply IHa in Ea; [|apply RR]. apply IHb in Eb; [|apply RR]. apply IHc in Ec; [|apply RR]. apply IHd in Ed; [|apply RR].
    cbn [trel]. auto.
Qed.

(** ** The interface matrix *)
Lemma up_rest_X gesv tau ch n q : n <> 0 ->
  all4 (fun p => psize p = n) ch -> all4 (square (4 * n)) (four_T ch) ->
  all4 (fun h => length h = 4 * n) (four_h ch) ->
  up_rest gesv tau ch = Ok q -> nr (pX q) = 4 * n /\ nc (pX q) = 4 * n.
Proof.
  intros Hn Hs HT Hh E. unfold up_rest in E. destruct HT as (TA & TB & TC & TD).
  rewrite (createIndexSets_ok n) in E by (auto; apply TA). rewrite bind_Ok in E.
  destruct (createMatrixBlocks_ok n ch _ _ _ _ (square_B n _ TA) (square_B n _ TB)
              (square_B n _ TC) (square_B n _ TD)) as (b & Eb & Hb).
  rewrite Eb, bind_Ok in E.
  destruct (mergeX_ok n tau b _ _ _ _ Hb) as (X & EX & HX). rewrite EX, bind_Ok in E.
  apply bind_inv in E as (t2 & E2 & E). apply bind_inv in E as (t3 & E3 & E).
  assert (pX q = X) as ->.
  { unfold mergeW in E2. apply bind_inv in E2 as (? & _ & E2). apply bind_inv in E2 as (? & _ & E2). apply Ok_inj in E2. subst t2.
    unfold mergeH in E3. do 7 (apply bind_inv in E3 as (? & _ & E3)). apply Ok_inj in E3. subst t3.
    unfold reorderUpwards in E. destruct (negb _); [discriminate E|]. cbv zeta in E.
    apply bind_inv in E as (? & _ & E). apply Ok_inj in E. subst q. reflexivity. }
  split; [apply (isB_nr _ _ _ _ _ HX)|apply (isB_nc _ _ _ _ _ HX)].
Qed.

Fixpoint Xshape (m : nat) (s : qtree) (t : tree) : Prop :=
  match s, t with
  | QLeaf _ _, Leaf _ => True
  | QNode a b c d, Node p ta tb tc td =>
      let n := m * 2 ^ min_level a b c d in
      (nr (pX p) = 4 * n /\ nc (pX p) = 4 * n) /\ Xshape m a ta /\ Xshape m b tb /\ Xshape m c tc /\ Xshape m d td
  | _, _ => False
  end.

Lemma Xshape_set m s t h : Xshape m s t -> Xshape m s (set_data t (set_h (data t) h)).
Proof. destruct s, t; cbn; tauto. Qed.

Lemma up_Xshape m sv gesv load s k t t' :
  m <> 0 -> gesv_contract gesv -> has_loads load s -> good_leaves m sv s -> built m sv k s t ->
  tmerge (up_leaf sv load) (upwards4to1 gesv false) tt t = Ok (tt, t') -> Xshape m s t'.
Proof.
  intros Hm Hge. revert k t t'. induction s as [G f|a IHa b IHb c IHc d IHd]; intros k t t' HL Hg HB E.
  - destruct t as [p|]; [|destruct HB]. cbn [tmerge] in E. apply bind_inv in E as (x & _ & E). apply Ok_inj in E.
    injection E as _ <-. exact I.
  - destruct t as [|p ta tb tc td]; [destruct HB|]. destruct Hg as (Ga & Gb & Gc & Gd).
    destruct HB as (Ba & Bb & Bc & Bd & Hk & H3 & Ep & Ex & HU & T0 & HF & HR).
    destruct HL as (HLa & HLb & HLc & HLd).
    set (l := min_level a b c d) in *. set (n := m * 2 ^ l) in *.
    destruct (min_level_le a b c d) as (La & Lb & Lc & Ld). fold l in La, Lb, Lc, Ld.
    assert (Hn : n <> 0) by (pose proof (pow_pos l); unfold n; nia).
    cbn [tmerge] in E.
    destruct (up_ok m sv gesv load a _ _ Hm Hge HLa Ga Ba) as (ta' & Ea & Ba' & Pa & ETa).
    destruct (up_ok m sv gesv load b _ _ Hm Hge HLb Gb Bb) as (tb' & Eb & Bb' & Pb & ETb).
    destruct (up_ok m sv gesv load c _ _ Hm Hge HLc Gc Bc) as (tc' & Ec & Bc' & Pc & ETc).
    destruct (up_ok m sv gesv load d _ _ Hm Hge HLd Gd Bd) as (td' & Ed & Bd' & Pd & ETd).
    rewrite Ea, bind_Ok in E. cbn [fst snd] in E. rewrite Eb, bind_Ok in E. cbn [fst snd] in E.
    rewrite Ec, bind_Ok in E. cbn [fst snd] in E. rewrite Ed, bind_Ok in E. cbn [fst snd] in E.
    apply (IHa _ _ _ HLa Ga Ba) in Ea. apply (IHb _ _ _ HLb Gb Bb) in Eb.
    apply (IHc _ _ _ HLc Gc Bc) in Ec. apply (IHd _ _ _ HLd Gd Bd) in Ed.
    assert (CO : forall s' t', good_leaves m sv s' -> built m sv (level s' - l) s' t' -> upped m sv 0 s' t' ->
      l <= level s' -> (fun q => gnx (pgrid q) = n * 2 ^ pnc q /\ length (ph q) = 4 * (n * 2 ^ pnc q) /\
                                 square (4 * n) (pT q)) (data t')).
    { intros s' t0 G' B' P' Hl. destruct (built_root m sv _ s' t0 Hm G' B') as (N0 & X0 & S0 & _).
      destruct (upped_aff m sv _ _ s' t0 Hm G' B' P') as (T0' & h0' & (_ & Lh & _) & _ & Eh).
      replace (level s' - (level s' - l)) with l in S0 by lia. fold n in S0.
      cbn beta. rewrite N0. unfold n at 1 2. rewrite scale_level by auto. rewrite Eh. cbn [coarsen_by]. auto. }
    destruct (CO a ta' Ga Ba' Pa La) as (A1 & A2 & A3). destruct (CO b tb' Gb Bb' Pb Lb) as (B1 & B2 & B3).
    destruct (CO c tc' Gc Bc' Pc Lc) as (C1 & C2 & C3). destruct (CO d td' Gd Bd' Pd Ld) as (D1 & D2 & D3).
    apply bind_inv in E as (f & Ef & E). apply Ok_inj in E. injection E as <-.
    rewrite upwards4to1_rest in Ef. unfold coarsenUpwards, fmapM in Ef.
    rewrite !(coarsenUp_one_ok _ _ n) in Ef by (reflexivity || assumption || (right; assumption)).
    rewrite !bind_Ok in Ef. cbn [fa fb fc fd] in Ef.
    apply bind_inv in Ef as (q & Eq & Ef). apply Ok_inj in Ef. subst f. cbn [fst snd fa fb fc fd Xshape].
    apply (up_rest_X gesv p _ n) in Eq; auto.
    + split; [exact Eq|]. auto using Xshape_set.
    + unfold all4, psize. cbn [fa fb fc fd pgrid pnc set_h]. rewrite A1, B1, C1, D1.
      rewrite !Nat.div_mul by (apply Nat.pow_nonzero; lia). auto.
    + unfold all4, four_T, fmap. cbn [fa fb fc fd pT set_h]. auto.
    + unfold all4, four_h, fmap. cbn [fa fb fc fd ph set_h]. rewrite !coarsen_by_length by auto. auto.
Qed.

(** ** Boundary data and solution *)
Fixpoint gshape (m : nat) (s : qtree) (t : tree) : Prop :=
  match s, t with
  | QLeaf _ _, Leaf p => length (pg p) = 4 * m /\ length (pu p) = m * m
  | QNode a b c d, Node p ta tb tc td =>
      let n := m * 2 ^ min_level a b c d in
      length (pg p) = 8 * n /\ gshape m a ta /\ gshape m b tb /\ gshape m c tc /\ gshape m d td
  | _, _ => False
  end.

Lemma solve_gshape m sv s k t g t' :
  m <> 0 -> cell_values m sv s -> good_leaves m sv s -> built m sv k s t -> upped m sv k s t ->
  length g = 4 * (m * 2 ^ (level s - k)) ->
  tsplit (leafSolve sv false) (split1to4 false) t (set_g (data t) g) = Ok t' -> gshape m s t'.
Proof.
  intros Hm. revert k t g t'. induction s as [G f|a IHa b IHb c IHc d IHd]; intros k t g t' CV Hg HB HP Lg E.
  - destruct t as [p|]; [|destruct HB]. destruct HB as (-> & EG & E0 & EB). destruct HP as (_ & Ef & Eh).
    destruct Hg as (HA & Lf). cbn [level Nat.sub Nat.pow] in *. rewrite Nat.mul_1_r in *.
    cbn [tsplit data] in E. apply bind_inv in E as (p' & E & E2). apply Ok_inj in E2. subst t'.
    unfold leafSolve in E. cbv zeta in E. apply bind_inv in E as (u & Eu & E). apply Ok_inj in E. subst p'.
    cbn [pgrid pg pf set_g set_u gshape] in *. cbn [pu set_u]. split; [exact Lg|].
    rewrite Ef, EG in Eu. exact (CV _ _ _ Lg Lf Eu).
  - destruct t as [|p ta tb tc td]; [destruct HB|].
    destruct Hg as (Ga & Gb & Gc & Gd). destruct CV as (Va & Vb & Vc & Vd).
    destruct HB as (Ba & Bb & Bc & Bd & Hk & H3 & Ep & Ex & HU & T0 & HF & HR).
    destruct HP as (Pa & Pb & Pc & Pd & _ & Lw & Cw & Eh).
    set (l := min_level a b c d) in *. set (n := m * 2 ^ l) in *.
    change (level (QNode a b c d)) with (S l) in *.
    destruct (min_level_le a b c d) as (La & Lb & Lc & Ld). fold l in La, Lb, Lc, Ld.
    assert (Hn : n <> 0) by (pose proof (pow_pos l); unfold n; nia).
    set (cc := m * 2 ^ (S l - k)) in *.
    assert (Hcc : cc * 2 ^ k = 2 * n).
    { unfold cc. rewrite <- Nat.mul_assoc, <- Nat.pow_add_r. replace (S l - k + k) with (S l) by lia.
      rewrite Nat.pow_succ_r'. unfold n. lia. }
    destruct (built_root m sv _ a ta Hm Ga Ba) as (Na & Xa & _).
    cbn [tsplit data] in E.
    destruct HF as [(WS & NS & CS) FH FT FC FF].
    pose proof (family_split false (set_g p g) (Four (data ta) (data tb) (data tc) (data td)) n Hn) as F.
    cbn [fa fb fc fd pS pw pnc pgrid pg set_g] in F.
    assert (Ps : psize (data ta) = n).
    { unfold psize. rewrite Na, Xa. rewrite <- (scale_level m l (level a)) by auto.
      apply Nat.div_mul. apply Nat.pow_nonzero. lia. }
    specialize (F Ps WS NS CS (fun _ => Lw) k cc Ep).
    assert (Ex' : gnx (pgrid p) = cc * 2 ^ k) by (rewrite Ex, Hcc; lia).
    assert (H3c : k = 0 \/ 3 <= cc) by (destruct H3; [auto|right; unfold cc; pose proof (pow_pos (S l - k)); nia]).
    specialize (F Ex' Hcc H3c Lg). cbv zeta in F. rewrite F, bind_Ok in E. cbn [fst snd fa fb fc fd] in E. clear F.
    set (g' := refine_by k cc g) in *.
    assert (Lg' : length g' = 8 * n) by (unfold g'; rewrite refine_by_length by auto; lia).
    set (z := vplus (apply_op (pS p) g') (pw p)) in *.
    assert (Lz : length z = 4 * n) by (unfold z; rewrite vplus_length, apply_op_length; auto).
    destruct (children_data_length n g' z Lg' Lz) as (Ya & Yb & Yc & Yd).
    set (x := children_data n g' z) in *.
    assert (Hl : forall s', l <= level s' -> m * 2 ^ (level s' - (level s' - l)) = n).
    { intros s' Hl. unfold n. do 2 f_equal. lia. }
    apply bind_inv in E as (ta' & Ea & E). apply bind_inv in E as (tb' & Eb & E).
    apply bind_inv in E as (tc' & Ec & E). apply bind_inv in E as (td' & Ed & E). apply Ok_inj in E. subst t'.
    cbn [gshape]. fold l n. split; [exact Lg'|].
    split; [|split; [|split]].
    + apply (IHa (level a - l) ta (fa x) ta' Va Ga Ba Pa); [rewrite Hl; auto|exact Ea].
    + apply (IHb (level b - l) tb (fb x) tb' Vb Gb Bb Pb); [rewrite Hl; auto|exact Eb].
    + apply (IHc (level c - l) tc (fc x) tc' Vc Gc Bc Pc); [rewrite Hl; auto|exact Ec].
    + apply (IHd (level d - l) td (fd x) td' Vd Gd Bd Pd); [rewrite Hl; auto|exact Ed].
Qed.

(** ** Everything together *)
Definition hasshape (r c : nat) (A : matrix Qc) : Prop := nr A = r /\ nc A = c.

Fixpoint held (m k : nat) (s : qtree) (t : tree) : Prop :=
  match s, t with
  | QLeaf _ _, Leaf p =>
      nr (pX p) = 0 /\ nr (pH p) = 0 /\ nr (pS p) = 0 /\ hasshape (4 * m) (4 * m) (pT p) /\
      length (pu p) = m * m /\ length (pg p) = 4 * m /\ length (pf p) = m * m /\ length (ph p) = 4 * m /\ length (pw p) = 0
  | QNode a b c d, Node p ta tb tc td =>
      let l := min_level a b c d in
      let n := m * 2 ^ l in
      let c' := m * 2 ^ (S l - k) in
      (hasshape (4 * n) (4 * n) (pX p) /\ hasshape (8 * n) (4 * n) (pH p) /\ hasshape (4 * n) (8 * n) (pS p) /\
       hasshape (4 * c') (4 * c') (pT p) /\
       length (pu p) = 0 /\ length (pg p) = 8 * n /\ length (pf p) = 0 /\ length (ph p) = 4 * c' /\ length (pw p) = 4 * n) /\
      held m (level a - l) a ta /\ held m (level b - l) b tb /\ held m (level c - l) c tc /\ held m (level d - l) d td
  | _, _ => False
  end.

(** What the stages never touch: operators of an interior patch in a leaf, and
    solution and load in an interior patch. *)
Fixpoint quiet (t : tree) : Prop :=
  match t with
  | Leaf p => nr (pX p) = 0 /\ nr (pH p) = 0 /\ nr (pS p) = 0 /\ pw p = []
  | Node p a b c d => (pu p = [] /\ pf p = []) /\ quiet a /\ quiet b /\ quiet c /\ quiet d
  end.

Lemma blank_quiet t : blank_tree t -> quiet t.
Proof. induction t; cbn [blank_tree quiet]; unfold blank_patch; intuition. Qed.

Lemma quiet_KB t t' : trel KB t t' -> quiet t -> quiet t'.
Proof.
  revert t'. induction t as [p|p a IHa b IHb c IHc d IHd]; intros [p'|p' a' b' c' d']; cbn [trel quiet]; try tauto.
  - intros (_ & _ & _ & _ & W & K) (X & H & S & Z). destruct (K eq_refl) as (<- & <- & <-). rewrite <- W. auto.
  - intros ((U & _ & F & _) & A & B & C & D) ((Z1 & Z2) & Q). rewrite <- U, <- F. intuition.
Qed.
Lemma quiet_KU t t' : trel KU t t' -> quiet t -> quiet t'.
Proof.
  revert t'. induction t as [p|p a IHa b IHb c IHc d IHd]; intros [p'|p' a' b' c' d']; cbn [trel quiet]; try tauto.
  - intros (_ & _ & K & _) (X & H & S & Z). destruct (K eq_refl) as (<- & <- & <- & <-). auto.
  - intros ((U & _ & _ & F) & A & B & C & D) ((Z1 & Z2) & Q). rewrite <- U, <- (F eq_refl). intuition.
Qed.
Lemma quiet_KS t t' : trel KS t t' -> quiet t -> quiet t'.
Proof.
  revert t'. induction t as [p|p a IHa b IHb c IHc d IHd]; intros [p'|p' a' b' c' d']; cbn [trel quiet]; try tauto.
  - intros (<- & <- & <- & _ & _ & _ & <- & _). auto.
  - intros ((_ & _ & _ & _ & F & _ & _ & U) & A & B & C & D) ((Z1 & Z2) & Q). rewrite <- F, <- (U eq_refl). intuition.
Qed.

Lemma held_all m sv s k t2 t3 :
  m <> 0 -> good_leaves m sv s -> quiet t2 -> trel KS t2 t3 ->
  built m sv k s t2 -> upped m sv k s t2 -> Xshape m s t2 -> gshape m s t3 -> held m k s t3.
Proof.
  intros Hm. revert k t2 t3.
  induction s as [G f|a IHa b IHb c IHc d IHd]; intros k t2 t3 Hg BT R3 HB HP HX HG.
  - destruct t2 as [p2|]; [|destruct HB]. destruct t3 as [p3|]; [|destruct R3].
    destruct Hg as (HA & Lf). destruct HB as (-> & EG & E0 & EB). destruct HP as (_ & Ef & Eh).
    destruct (square_unique m sv G (pT p2) f HA EB Lf) as ((_ & Sr & Sc) & h & Eh' & Lh & _).
    assert (ph p2 = h) by congruence.
    cbn [trel quiet gshape held] in *. unfold KS, hasshape in *.
    destruct R3 as (S1 & S2 & S3 & S4 & S5 & S6 & S7 & _).
    destruct BT as (Z1 & Z2 & Z3 & Z9). destruct HG as (G1 & G2).
    rewrite <- S1, <- S2, <- S3, <- S4, <- S5, <- S6, <- S7, Z9. subst h. rewrite Ef. auto 20.
  - destruct t2 as [|p2 a2 b2 c2 d2]; [destruct HB|]. destruct t3 as [|p3 a3 b3 c3 d3]; [destruct R3|].
    pose proof (built_root m sv k _ _ Hm Hg HB) as (_ & _ & (_ & Tr & Tc) & _).
    destruct (upped_aff m sv k k _ _ Hm Hg HB HP) as (T00 & h00 & (_ & Lh & _) & _ & Eh).
    cbn [data] in Tr, Tc, Eh.
    destruct Hg as (Ga & Gb & Gc & Gd).
    destruct HB as (Ba & Bb & Bc & Bd & Hk & H3 & Ep & Ex & HU & T0 & HF & HR).
    destruct HP as (Pa & Pb & Pc & Pd & _ & Lw & Cw & _).
    destruct HF as [(_ & NS & CS) FH _ _ _].
    destruct R3 as (R30 & R3a & R3b & R3c & R3d). destruct BT as (BT0 & BTa & BTb & BTc & BTd).
    destruct HX as ((X1 & X2) & Xa & Xb & Xc & Xd). destruct HG as (G1 & Ya & Yb & Yc & Yd).
    cbn [held]. split; [|split; [|split; [|split]]].
    2:{ exact (IHa _ a2 a3 Ga BTa R3a Ba Pa Xa Ya). }
    2:{ exact (IHb _ b2 b3 Gb BTb R3b Bb Pb Xb Yb). }
    2:{ exact (IHc _ c2 c3 Gc BTc R3c Bc Pc Xc Yc). }
    2:{ exact (IHd _ d2 d3 Gd BTd R3d Bd Pd Xd Yd). }
    change (level (QNode a b c d)) with (S (min_level a b c d)) in *.
    set (l := min_level a b c d) in *. set (n := m * 2 ^ l) in *. set (cc := m * 2 ^ (S l - k)) in *.
    assert (Hcc : cc * 2 ^ k = m * 2 ^ S l).
    { unfold cc. rewrite <- Nat.mul_assoc, <- Nat.pow_add_r. do 2 f_equal. lia. }
    assert (Lc : length (ph p2) = 4 * cc) by (rewrite Eh; apply coarsen_by_length; rewrite Hcc; exact Lh).
    unfold KS, hasshape in *.
    destruct R30 as (S1 & S2 & S3 & S4 & S5 & S6 & S7 & S8). specialize (S8 eq_refl).
    destruct BT0 as (Z5 & Z7).
    rewrite <- S1, <- S2, <- S3, <- S4, <- S6, <- S7, <- S5, <- S8, Z5, Z7.
    rewrite (isB_nr _ _ _ _ _ FH), (isB_nc _ _ _ _ _ FH). cbn [length]. auto 20.
Qed.

(** ** The sum *)
Lemma nat_plus a b : Qc_of_nat (a + b) = (Qc_of_nat a + Qc_of_nat b)%Qc.
Proof. unfold Qc_of_nat. rewrite Nat2Z.inj_add. apply Qc_of_Z_add. Qed.

Lemma held_size m k s t acc : held m k s t ->
  size_MB acc t = (acc + Qc_of_nat (patch_header * patch_count s + 8 * stored m k s) / megabyte)%Qc.
Proof.
  unfold Qcdiv.
  revert k t acc. induction s as [G f|a IHa b IHb c IHc d IHd]; intros k t acc H.
  - destruct t as [p|]; [|destruct H]. destruct H as (X & H & S & (Tr & Tc) & U & G1 & F & H1 & W).
    cbn [size_MB patch_count stored]. unfold dataSize, matrix_bytes, vector_bytes, Qcdiv.
    rewrite X, H, S, Tr, Tc, U, G1, F, H1, W.
    replace (patch_header * 1 + 8 * _) with (patch_header + 4 * m * (4 * m) * 8 + 0 * nc (pH p) * 8 + 0 * nc (pS p) * 8 + 0 * nc (pX p) * 8
        + m * m * 8 + 4 * m * 8 + m * m * 8 + 4 * m * 8 + 0 * 8) by ring.
    rewrite !nat_plus. ring.
  - destruct t as [|p ta tb tc td]; [destruct H|]. cbn [held] in H.
    cbn [size_MB patch_count stored]. cbv zeta in *. set (l := min_level a b c d) in *. set (n := m * 2 ^ l) in *.
    set (cc := m * 2 ^ (S l - k)) in *.
    destruct H as (((X1 & X2) & (H1 & H2) & (S1 & S2) & (T1 & T2) & U & G & F & H & W) & Ha & Hb & Hc & Hd).
    rewrite (IHd _ td _ Hd), (IHc _ tc _ Hc), (IHb _ tb _ Hb), (IHa _ ta _ Ha).
    unfold dataSize, matrix_bytes, vector_bytes, Qcdiv. rewrite X1, X2, H1, H2, S1, S2, T1, T2, U, G, F, H, W.
    match goal with |- _ = (acc + Qc_of_nat ?x * _)%Qc =>
      replace x with (patch_header * patch_count a + 8 * stored m (level a - l) a +
        (patch_header * patch_count b + 8 * stored m (level b - l) b) +
        (patch_header * patch_count c + 8 * stored m (level c - l) c) +
        (patch_header * patch_count d + 8 * stored m (level d - l) d) +
        (patch_header + 4 * cc * (4 * cc) * 8 + 8 * n * (4 * n) * 8 + 4 * n * (8 * n) * 8 + 4 * n * (4 * n) * 8 + 0 * 8 + 8 * n * 8 + 0 * 8 + 4 * cc * 8 + 4 * n * 8)) by ring
    end.
    rewrite !(nat_plus _ (_ + _ * _ * _ + _ + _ + _ + _ + _ + _ + _ + _)).
    rewrite !(nat_plus (patch_header * _)). 
    repeat rewrite nat_plus. ring.
Qed.

(** ** One solve on a built tree *)
Fixpoint with_load (load : grid -> list Qc) (s : qtree) : qtree :=
  match s with
  | QLeaf G _ => QLeaf G (load G)
  | QNode a b c d => QNode (with_load load a) (with_load load b) (with_load load c) (with_load load d)
  end.
Lemma with_level load s : level (with_load load s) = level s.
Proof. induction s; cbn; congruence. Qed.
Lemma with_min load a b c d :
  min_level (with_load load a) (with_load load b) (with_load load c) (with_load load d) = min_level a b c d.
Proof. unfold min_level. rewrite !with_level. reflexivity. Qed.
Lemma with_patches load s : patch_count (with_load load s) = patch_count s.
Proof. induction s; cbn; congruence. Qed.
Lemma with_stored load m k s : stored m k (with_load load s) = stored m k s.
Proof.
  revert k. induction s as [G f|a IHa b IHb c IHc d IHd]; intros k; [reflexivity|].
  cbn [with_load stored]. rewrite with_min, !with_level, IHa, IHb, IHc, IHd. reflexivity.
Qed.
Lemma with_built load m sv k s t : built m sv k s t <-> built m sv k (with_load load s) t.
Proof.
  revert k t. induction s as [G f|a IHa b IHb c IHc d IHd]; intros k [p|p ta tb tc td]; cbn [with_load built]; try tauto.
  cbv zeta. rewrite with_min, !with_level, <- IHa, <- IHb, <- IHc, <- IHd. tauto.
Qed.
Lemma with_good load m sv s : good_leaves m sv s -> load_fits m load s -> good_leaves m sv (with_load load s).
Proof. induction s; cbn; intuition. Qed.
Lemma with_cells load m sv s : cell_values m sv s -> cell_values m sv (with_load load s).
Proof. induction s; cbn; intuition eauto. Qed.
Lemma with_loads load s : has_loads load (with_load load s).
Proof. induction s; cbn; auto. Qed.

Lemma built_ops m sv k s t t' : trel R1 t t' -> built m sv k s t -> built m sv k s t'.
Proof.
  revert k t t'. induction s as [G f|a IHa b IHb c IHc d IHd]; intros k [p|p ta tb tc td] [p'|p' ta' tb' tc' td']; cbn [trel built]; try tauto.
  - unfold R1. intros O. destruct (ops_inj _ _ O) as (<- & _ & _ & <- & <-). auto.
  - intros (O & Qa & Qb & Qc & Qd). cbv zeta. unfold R1 in O. destruct (ops_inj _ _ O) as (<- & <- & <- & <- & <-).
    destruct (trel_data _ _ _ Qa) as (Da & _), (trel_data _ _ _ Qb) as (Db & _),
             (trel_data _ _ _ Qc) as (Dc & _), (trel_data _ _ _ Qd) as (Dd & _).
    destruct (ops_inj _ _ Da) as (_ & _ & _ & <- & _). destruct (ops_inj _ _ Db) as (_ & _ & _ & <- & _).
    destruct (ops_inj _ _ Dc) as (_ & _ & _ & <- & _). destruct (ops_inj _ _ Dd) as (_ & _ & _ & <- & _).
    intros (A & B & C & D & R). split; [eapply IHa; eauto|]. split; [eapply IHb; eauto|].
    split; [eapply IHc; eauto|]. split; [eapply IHd; eauto|]. exact R.
Qed.

Lemma one_solve m sv gesv load s t1 g :
  m <> 0 -> gesv_contract gesv -> cell_values m sv s -> good_leaves m sv s -> load_fits m load s ->
  built m sv 0 s t1 -> quiet t1 -> length g = 4 * (m * 2 ^ level s) ->
  exists t2 t3, upwardsStage sv gesv false load t1 = Ok t2 /\ solveStage sv false g t2 = Ok t3 /\
    size_MB 0 t3 = (Qc_of_nat (17 * patch_count s + 8 * stored m 0 s) / megabyte)%Qc /\
    built m sv 0 s t3 /\ quiet t3.
Proof.
  intros Hm Hge CV Hg HL B1 Q1 Lg.
  apply (with_built load) in B1. apply (with_cells load) in CV. apply (with_good load m sv s Hg) in HL.
  destruct (up_ok m sv gesv load _ 0 t1 Hm Hge (with_loads load s) HL B1) as (t2 & E2 & B2 & P2 & _).
  destruct (solve_ok m sv _ 0 t2 g Hm HL B2 P2) as (t3 & U & h & E3 & _ & _); [rewrite with_level, Nat.sub_0_r; auto|].
  exists t2, t3. split; [unfold upwardsStage; rewrite E2; reflexivity|]. split; [exact E3|].
  pose proof (up_frame _ _ _ _ _ E2) as F2. cbn [snd] in F2.
  assert (F3 : trel KS t2 t3) by (eapply solve_frame; [|exact E3]; unfold KS; cbn; auto 10).
  pose proof (up_Xshape m sv gesv load _ 0 t1 t2 Hm Hge (with_loads load s) HL B1 E2) as HX.
  assert (HG : gshape m (with_load load s) t3).
  { eapply (solve_gshape m sv _ 0 t2 g t3); eauto. rewrite with_level, Nat.sub_0_r. exact Lg. }
  assert (Q2 : quiet t2) by (eapply quiet_KU; eauto).
  pose proof (held_all m sv _ 0 t2 t3 Hm HL Q2 F3 B2 P2 HX HG) as H.
  split; [|split].
  - rewrite (held_size m 0 _ t3 0 H). change patch_header with 17. rewrite with_patches, with_stored. ring.
  - apply (with_built load). eapply built_ops; [|exact B2].
    assert (RK : R2 false (is_leaf t2) (data t2) (set_g (data t2) g)) by (split; [reflexivity|split; [reflexivity|destruct (is_leaf t2); reflexivity]]).
    eapply trel_impl; [|exact (solve_keeps sv false t2 _ t3 RK E3)].
    intros b p q (O & _). exact O.
  - eapply quiet_KS; eauto.
Qed.

Lemma again_ok m sv gesv s l t :
  m <> 0 -> gesv_contract gesv -> cell_values m sv s -> good_leaves m sv s -> built m sv 0 s t -> quiet t ->
  (forall x, In x l -> load_fits m (fst x) s /\ length (snd x) = 4 * (m * 2 ^ level s)) ->
  exists t', solve_again sv gesv l t = Ok t' /\
    (l <> [] -> size_MB 0 t' = (Qc_of_nat (17 * patch_count s + 8 * stored m 0 s) / megabyte)%Qc).
Proof.
  intros Hm Hge CV Hg. revert t. induction l as [|[load g] l IH]; intros t B Q HL.
  - exists t. split; [reflexivity|]. intros N. destruct (N eq_refl).
  - destruct (HL _ (or_introl eq_refl)) as (Lf & Lg). cbn [fst snd] in Lf, Lg.
    destruct (one_solve m sv gesv load s t g Hm Hge CV Hg Lf B Q Lg) as (t2 & t3 & E2 & E3 & M & B3 & Q3).
    destruct (IH t3 B3 Q3) as (t' & E & M'); [intros x Hx; apply HL; right; exact Hx|].
    exists t'. cbn [solve_again]. rewrite E2, bind_Ok, E3, bind_Ok. split; [exact E|]. intros _.
    destruct l as [|x l]; [cbn [solve_again] in E; apply Ok_inj in E; subst t'; exact M|]. apply M'. discriminate.
Qed.

Lemma memory_ok m sv gesv load s t st l :
  m <> 0 -> gesv_contract gesv -> cell_values m sv s -> fresh load s t -> blank_tree t -> good_leaves m sv s -> well_posed m sv s ->
  3 <= m \/ equal_levels s ->
  (forall x, In x l -> load_fits m (fst x) s /\ length (snd x) = 4 * (m * 2 ^ level s)) ->
  exists st1 t1 t', buildStage sv gesv false st t = Ok (st1, t1) /\ solve_again sv gesv l t1 = Ok t' /\
    (l <> [] -> size_MB 0 t' = (Qc_of_nat (17 * patch_count s + 8 * stored m 0 s) / megabyte)%Qc).
Proof.
  intros Hm Hge CV HF BT Hg HW H3 HL.
  destruct (build_ok m sv gesv load s t (build_leaf sv false) st Hm Hge (build_leaf_off sv m) HF Hg HW H3)
    as (st1 & t1 & E1 & B1).
  pose proof (quiet_KB _ _ (build_frame _ _ _ _ _ E1) (blank_quiet _ BT)) as Q1. cbn [snd] in Q1.
  destruct (again_ok m sv gesv s l t1 Hm Hge CV Hg B1 Q1 HL) as (t' & E & M).
  exists st1, t1, t'. auto.
Qed.

(** ** Counting *)
Lemma patch_count_ok s : 3 * patch_count s + 1 = 4 * leaf_count s.
Proof. induction s; cbn [patch_count leaf_count]; lia. Qed.

Lemma leaves_level s : 4 ^ level s <= leaf_count s.
Proof.
  induction s as [G f|a IHa b IHb c IHc d IHd]; [cbn; lia|]. change (level (QNode a b c d)) with (S (min_level a b c d)).
  destruct (min_level_le a b c d) as (La & Lb & Lc & Ld). cbn [leaf_count]. rewrite Nat.pow_succ_r'.
  assert (H : forall x, min_level a b c d <= x -> 4 ^ min_level a b c d <= 4 ^ x) by (intros; apply Nat.pow_le_mono_r; lia).
  pose proof (H _ La). pose proof (H _ Lb). pose proof (H _ Lc). pose proof (H _ Ld). lia.
Qed.

Lemma pow4 l : 4 ^ l = 2 ^ l * 2 ^ l.
Proof. rewrite <- Nat.pow_mul_l. reflexivity. Qed.

(** At most 36 numbers per cell and level of the tree, and 18 per cell, up to terms of
    one power less in [m]. *)
Lemma stored_bound m k s :
  stored m k s <= (36 * (m * m) + 10 * m) * tree_height s * leaf_count s + (18 * (m * m) + 8 * m) * leaf_count s.
Proof.
  revert k. induction s as [G f|a IHa b IHb c IHc d IHd]; intros k; [cbn [stored tree_height leaf_count]; nia|].
  pose proof (leaves_level (QNode a b c d)) as HL. change (level (QNode a b c d)) with (S (min_level a b c d)) in HL.
  cbn [stored tree_height]. cbv zeta. set (l := min_level a b c d) in *.
  set (c' := m * 2 ^ (S l - k)). set (n := m * 2 ^ l).
  set (h := Nat.max _ _). set (Q := 36 * (m * m) + 10 * m). set (R := 18 * (m * m) + 8 * m).
  assert (Hc : c' <= 2 * n).
  { unfold c', n. assert (2 ^ (S l - k) <= 2 ^ S l) by (apply Nat.pow_le_mono_r; lia).
    rewrite Nat.pow_succ_r' in H. nia. }
  assert (HN : n * n = m * m * 4 ^ l) by (unfold n; rewrite pow4; ring).
  rewrite Nat.pow_succ_r' in HL.
  assert (Hn : n <= m * 4 ^ l) by (unfold n; rewrite pow4; pose proof (pow_pos l); nia).
  assert (HV : 4 * n * (4 * n) + 4 * n * (8 * n) + 8 * n * (4 * n) + 4 * c' * (4 * c') + 8 * n + 4 * n + 4 * c'
               <= Q * leaf_count (QNode a b c d)).
  { assert (c' * c' <= 4 * (n * n)) by nia.
    assert (n * n * 4 <= m * m * leaf_count (QNode a b c d)) by nia.
    assert (n * 4 <= m * leaf_count (QNode a b c d)) by nia.
    unfold Q. nia. }
  specialize (IHa (level a - l)). specialize (IHb (level b - l)). specialize (IHc (level c - l)). specialize (IHd (level d - l)).
  fold Q R in IHa, IHb, IHc, IHd.
  assert (HH : forall x y, tree_height x <= h -> y <= Q * tree_height x * leaf_count x + R * leaf_count x ->
                y <= Q * h * leaf_count x + R * leaf_count x).
  { intros x y Hx Hy. assert (Q * tree_height x * leaf_count x <= Q * h * leaf_count x).
    { apply Nat.mul_le_mono_r, Nat.mul_le_mono_l, Hx. } lia. }
  apply HH in IHa; [|unfold h; lia]. apply HH in IHb; [|unfold h; lia].
  apply HH in IHc; [|unfold h; lia]. apply HH in IHd; [|unfold h; lia].
  cbn [leaf_count] in *.
  replace (Q * (1 + h)) with (Q + Q * h) by ring.
  set (la := leaf_count a) in *. set (lb := leaf_count b) in *. set (lc := leaf_count c) in *. set (ld := leaf_count d) in *.
  rewrite (Nat.mul_add_distr_r Q (Q * h)). rewrite !(Nat.mul_add_distr_l (Q * h)), !(Nat.mul_add_distr_l R). lia.
Qed.
