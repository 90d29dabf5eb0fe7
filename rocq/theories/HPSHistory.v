(** What upwardsStage and solveStage read and write, and sequences of calls. *)
From Verif Require Import Base VectorModel MatrixModel LinSpec HPSModel HPSSpec StageSpec.
From Verif Require Import HPSProofs HPSProofs2.

Lemma same_bind {A B C D} (R : A -> B -> Prop) (S : C -> D -> Prop) x y f g :
  same R x y -> (forall a b, R a b -> same S (f a) (g b)) -> same S (bind x f) (bind y g).
Proof. destruct x, y; cbn; try tauto; auto. Qed.

Lemma same_refl {A} (R : A -> A -> Prop) x : (forall a, R a a) -> same R x x.
Proof. destruct x; cbn; auto. Qed.
Lemma same_impl {A B} (R S : A -> B -> Prop) x y : same R x y -> (forall a b, R a b -> S a b) -> same S x y.
Proof. destruct x, y; cbn; auto. Qed.

(** ** Functional forms *)
Definition cu (G : grid) (k : nat) (h : list Qc) : res (list Qc) :=
  foldM (fun h n =>
    let nfine := gnx G / 2 ^ n in
    L21_side <- Fine2Coarse (nfine / 2) ;;
    L21 <- four_diag L21_side ;;
    mulv L21 h) (seq 0 k) h.

Lemma cu_ok p : coarsenUp_one p = (h <- cu (pgrid p) (pnc p) (ph p) ;; Ok (set_h p h)).
Proof.
  unfold coarsenUp_one, cu. generalize (seq 0 (pnc p)). intros l.
  assert (forall h, foldM (fun p n =>
    let nfine := gnx (pgrid p) / 2 ^ n in
    let ncoarse := nfine / 2 in
    L21_side <- Fine2Coarse ncoarse ;;
    L21 <- four_diag L21_side ;;
    h <- mulv L21 (ph p) ;;
    Ok (set_h p h)) l (set_h p h) =
    (h' <- foldM (fun h n =>
    let nfine := gnx (pgrid p) / 2 ^ n in
    L21_side <- Fine2Coarse (nfine / 2) ;;
    L21 <- four_diag L21_side ;;
    mulv L21 h) l h ;; Ok (set_h p h'))) as H.
  { induction l as [|n l IH]; intros h; [reflexivity|]. cbn [foldM]. cbv zeta. cbn [pgrid ph set_h].
    rewrite !bind_assoc. destruct (Fine2Coarse _) as [L| |]; try reflexivity. rewrite !bind_Ok, !bind_assoc.
    destruct (four_diag L) as [M| |]; try reflexivity. rewrite !bind_Ok, !bind_assoc.
    destruct (mulv M h) as [h'| |]; try reflexivity. rewrite !bind_Ok. apply (IH h'). }
  specialize (H (ph p)). replace (set_h p (ph p)) with p in H by (destruct p; reflexivity). exact H.
Qed.

Definition un (G : grid) (k : nat) (g : list Qc) : res (list Qc) :=
  foldM (fun g n =>
    let nfine := gnx G / 2 ^ (k - (n + 1)) in
    L12_side <- Coarse2Fine nfine ;;
    L12 <- four_diag L12_side ;;
    mulv L12 g) (seq 0 k) g.

Lemma un_ok p : uncoarsen p = (g <- un (pgrid p) (pnc p) (pg p) ;; Ok (set_g p g)).
Proof.
  unfold uncoarsen, un. generalize (seq 0 (pnc p)). intros l.
  assert (forall g, foldM (fun p n =>
    let nfine := gnx (pgrid p) / 2 ^ (pnc p - (n + 1)) in
    L12_side <- Coarse2Fine nfine ;;
    L12 <- four_diag L12_side ;;
    g <- mulv L12 (pg p) ;;
    Ok (set_g p g)) l (set_g p g) =
    (g' <- foldM (fun g n =>
    let nfine := gnx (pgrid p) / 2 ^ (pnc p - (n + 1)) in
    L12_side <- Coarse2Fine nfine ;;
    L12 <- four_diag L12_side ;;
    mulv L12 g) l g ;; Ok (set_g p g'))) as H.
  { induction l as [|n l IH]; intros h; [reflexivity|]. cbn [foldM]. cbv zeta. cbn [pgrid pg pnc set_g].
    rewrite !bind_assoc. destruct (Coarse2Fine _) as [L| |]; try reflexivity. rewrite !bind_Ok, !bind_assoc.
    destruct (four_diag L) as [M| |]; try reflexivity. rewrite !bind_Ok, !bind_assoc.
    destruct (mulv M h) as [h'| |]; try reflexivity. rewrite !bind_Ok. apply (IH h'). }
  specialize (H (pg p)). replace (set_g p (pg p)) with p in H by (destruct p; reflexivity). exact H.
Qed.

(** Dummy patches carrying only what is read. *)
Definition m0 : matrix Qc := Mat 0 0 [].
Definition stripT (p : patch) : patch := Patch (pgrid p) m0 m0 m0 (pT p) [] [] [] (ph p) [] (pnc p).
Definition stripH (p : patch) : patch := Patch (Grid 0 0 0 0 0 0) m0 (pH p) m0 m0 [] [] [] [] [] 0.

Lemma stripT_idx ch : createIndexSets (fmap stripT ch) = createIndexSets ch.
Proof. reflexivity. Qed.
Lemma stripT_blocks s ch : createMatrixBlocks s (fmap stripT ch) = createMatrixBlocks s ch.
Proof. reflexivity. Qed.
Lemma stripT_hDiff s ch : hDiff s (fmap stripT ch) = hDiff s ch.
Proof. reflexivity. Qed.

Lemma mergeX_strip tau b : mergeX tau b = (q <- mergeX (stripH tau) b ;; Ok (set_X tau (pX q))).
Proof.
  unfold mergeX. 
  repeat match goal with |- bind ?m _ = _ => rewrite (bind_assoc m); destruct m as [?| |]; try reflexivity; rewrite !bind_Ok end.
Qed.

Lemma up_rest_form gesv tau ch :
  up_rest gesv tau ch =
  (r <- up_rest gesv (stripH tau) (fmap stripT ch) ;; Ok (set_h (set_w (set_X tau (pX r)) (pw r)) (ph r))).
Proof.
  unfold up_rest. rewrite stripT_idx. rewrite bind_assoc. destruct (createIndexSets ch) as [s| |]; try reflexivity.
  rewrite !bind_Ok, stripT_blocks, bind_assoc. destruct (createMatrixBlocks s ch) as [b| |]; try reflexivity.
  rewrite !bind_Ok, mergeX_strip, !bind_assoc. destruct (mergeX (stripH tau) b) as [q| |] eqn:EX; try reflexivity.
  rewrite !bind_Ok. 
  assert (Hq : pH q = pH tau).
  { rewrite mergeX_strip in EX. apply bind_inv in EX. destruct EX as (q' & _ & E). apply Ok_inj in E. subst q. reflexivity. }
  unfold mergeW. rewrite stripT_hDiff, !bind_assoc. destruct (hDiff s ch) as [d| |]; try reflexivity.
  rewrite !bind_Ok. cbn [pX set_X]. rewrite !bind_assoc. destruct (solvev gesv (pX q) d) as [w| |]; try reflexivity.
  rewrite !bind_Ok. unfold mergeH. cbn [pH pw set_w set_X]. rewrite Hq.
  rewrite !bind_assoc. destruct (mulv (pH tau) w) as [h0| |]; try reflexivity. rewrite !bind_Ok.
  change (ph (fa (fmap stripT ch))) with (ph (fa ch)). change (ph (fb (fmap stripT ch))) with (ph (fb ch)).
  change (ph (fc (fmap stripT ch))) with (ph (fc ch)). change (ph (fd (fmap stripT ch))) with (ph (fd ch)).
  repeat match goal with |- bind (bind ?m _) _ = _ => rewrite !(bind_assoc m); destruct m as [?| |]; try reflexivity; rewrite !bind_Ok end.
  unfold reorderUpwards.
  change (fmap psize (fmap stripT ch)) with (fmap psize ch).
  change (pT (fa (fmap stripT ch))) with (pT (fa ch)).
  destruct (negb _); [reflexivity|].
  cbv zeta. cbn [ph set_h].
  destruct (vblockPermute _ _ _) as [h| |]; reflexivity.
Qed.

Lemma coarsenUpwards_form ch :
  coarsenUpwards ch =
  (a <- cu (pgrid (fa ch)) (pnc (fa ch)) (ph (fa ch)) ;; b <- cu (pgrid (fb ch)) (pnc (fb ch)) (ph (fb ch)) ;;
   c <- cu (pgrid (fc ch)) (pnc (fc ch)) (ph (fc ch)) ;; d <- cu (pgrid (fd ch)) (pnc (fd ch)) (ph (fd ch)) ;;
   Ok (Four (set_h (fa ch) a) (set_h (fb ch) b) (set_h (fc ch) c) (set_h (fd ch) d))).
Proof.
  unfold coarsenUpwards, fmapM. rewrite !cu_ok.
  repeat match goal with |- bind (bind ?m _) _ = _ => rewrite !(bind_assoc m); destruct m as [?| |]; try reflexivity; rewrite !bind_Ok end.
Qed.

Definition aS (hom : bool) (S : matrix Qc) (g w : list Qc) (nside : nat) : res (four (list Qc)) :=
  u0 <- mulv S g ;;
  u <- (if hom then Ok u0 else vadd u0 w) ;;
  g_ag <- getSegment u (0 * nside) nside ;;
  g_bo <- getSegment u (1 * nside) nside ;;
  g_ab <- getSegment u (2 * nside) nside ;;
  g_go <- getSegment u (3 * nside) nside ;;
  g_aW <- getSegment g (0 * nside) nside ;;
  g_gW <- getSegment g (1 * nside) nside ;;
  g_bE <- getSegment g (2 * nside) nside ;;
  g_oE <- getSegment g (3 * nside) nside ;;
  g_aS <- getSegment g (4 * nside) nside ;;
  g_bS <- getSegment g (5 * nside) nside ;;
  g_gN <- getSegment g (6 * nside) nside ;;
  g_oN <- getSegment g (7 * nside) nside ;;
  ga <- concatenate 0%Qc [g_aW; g_ab; g_aS; g_ag] ;;
  gb <- concatenate 0%Qc [g_ab; g_bE; g_bS; g_bo] ;;
  gg <- concatenate 0%Qc [g_gW; g_go; g_ag; g_gN] ;;
  go <- concatenate 0%Qc [g_go; g_oE; g_bo; g_oN] ;;
  Ok (Four ga gb gg go).

Lemma applyS_form hom tau ch :
  applyS hom tau ch =
  (x <- aS hom (pS tau) (pg tau) (pw tau) (psize (fa ch)) ;;
   Ok (Four (set_g (fa ch) (fa x)) (set_g (fb ch) (fb x)) (set_g (fc ch) (fc x)) (set_g (fd ch) (fd x)))).
Proof.
  unfold applyS, aS. cbv zeta.
  repeat match goal with |- bind ?m _ = _ => rewrite (bind_assoc m); destruct m as [?| |]; try reflexivity; rewrite !bind_Ok end.
Qed.

Lemma split_form hom tau ch :
  split1to4 hom tau ch =
  (g <- un (pgrid tau) (pnc tau) (pg tau) ;;
   x <- aS hom (pS tau) g (pw tau) (psize (fa ch)) ;;
   Ok (set_g tau g, Four (set_g (fa ch) (fa x)) (set_g (fb ch) (fb x)) (set_g (fc ch) (fc x)) (set_g (fd ch) (fd x)))).
Proof.
  unfold split1to4. rewrite un_ok, bind_assoc. destruct (un _ _ _) as [g| |]; try reflexivity.
  rewrite !bind_Ok, applyS_form, bind_assoc. reflexivity.
Qed.

(** ** What stays and what is determined *)

(** Trees of the same shape with related patches; the flag tells leaves. *)
Fixpoint trel (R : bool -> patch -> patch -> Prop) (t t' : tree) : Prop :=
  match t, t' with
  | Leaf p, Leaf p' => R true p p'
  | Node p a b c d, Node p' a' b' c' d' =>
      R false p p' /\ trel R a a' /\ trel R b b' /\ trel R c c' /\ trel R d d'
  | _, _ => False
  end.
Definition is_leaf (t : tree) : bool := match t with Leaf _ => true | _ => false end.

(** The part written by buildStage. *)
Definition ops (p : patch) := (pgrid p, pH p, pS p, pT p, pnc p).
Definition R1 (b : bool) (p p' : patch) : Prop := ops p = ops p'.
(** ... and by upwardsStage, as far as it is read again. *)
Definition R2 (hom b : bool) (p p' : patch) : Prop :=
  ops p = ops p' /\ (hom = false -> ph p = ph p' /\ if b then pf p = pf p' else pw p = pw p').

Lemma trel_data R t t' : trel R t t' -> R (is_leaf t) (data t) (data t') /\ is_leaf t = is_leaf t'.
Proof. destruct t, t'; cbn; tauto. Qed.
Lemma trel_set (R : bool -> patch -> patch -> Prop) t t' p p' : trel R t t' -> R (is_leaf t) p p' ->
  trel R (set_data t p) (set_data t' p').
Proof. destruct t, t'; cbn; tauto. Qed.
Lemma trel_refl (R : bool -> patch -> patch -> Prop) t : (forall b p, R b p p) -> trel R t t.
Proof. intros H. induction t; cbn; auto. Qed.
Lemma trel_trans (R : bool -> patch -> patch -> Prop) t t' t'' :
  (forall b p q r, R b p q -> R b q r -> R b p r) -> trel R t t' -> trel R t' t'' -> trel R t t''.
Proof.
  intros H. revert t' t''. induction t as [p|p a IHa b IHb c IHc d IHd]; intros [p'|p' a' b' c' d'] [p''|p'' a'' b'' c'' d''];
    cbn; try tauto; [apply H|].
  intros (A0 & A1 & A2 & A3 & A4) (B0 & B1 & B2 & B3 & B4). split; [eapply H; eauto|].
  split; [eapply IHa; eauto|]. split; [eapply IHb; eauto|]. split; [eapply IHc; eauto|eapply IHd; eauto].
Qed.
Lemma trel_impl (R S : bool -> patch -> patch -> Prop) t t' : (forall b p q, R b p q -> S b p q) -> trel R t t' -> trel S t t'.
Proof.
  intros H. revert t'. induction t as [p|p a IHa b IHb c IHc d IHd]; intros [p'|p' a' b' c' d']; cbn; try tauto; [apply H|].
  intros (A0 & A1 & A2 & A3 & A4). auto 10.
Qed.

Lemma ops_inj p p' : ops p = ops p' ->
  pgrid p = pgrid p' /\ pH p = pH p' /\ pS p = pS p' /\ pT p = pT p' /\ pnc p = pnc p'.
Proof. unfold ops. intros H. injection H as -> -> -> -> ->. auto. Qed.

(** The family step upwards. *)
Lemma up_fam_rel gesv hom ba bb bc bd tau tau' ch ch' :
  ops tau = ops tau' -> R2 hom ba (fa ch) (fa ch') -> R2 hom bb (fb ch) (fb ch') ->
  R2 hom bc (fc ch) (fc ch') -> R2 hom bd (fd ch) (fd ch') ->
  same (fun r r' => R2 hom false (fst r) (fst r') /\
    R2 hom ba (fa (snd r)) (fa (snd r')) /\ R2 hom bb (fb (snd r)) (fb (snd r')) /\
    R2 hom bc (fc (snd r)) (fc (snd r')) /\ R2 hom bd (fd (snd r)) (fd (snd r')))
    (upwards4to1 gesv hom tau ch) (upwards4to1 gesv hom tau' ch').
Proof.
  intros Ht Ha Hb Hc Hd. destruct hom.
  - cbn. unfold R2 in *. split; [split; [exact Ht|discriminate]|]. tauto.
  - rewrite !upwards4to1_rest, !coarsenUpwards_form.
    destruct Ha as (Oa & Fa), Hb as (Ob & Fb), Hc as (Oc & Fc), Hd as (Od & Fd).
    destruct (Fa eq_refl) as (Ha & Fa'), (Fb eq_refl) as (Hb & Fb'), (Fc eq_refl) as (Hc & Fc'), (Fd eq_refl) as (Hd & Fd').
    destruct (ops_inj _ _ Oa) as (a1 & _ & _ & a4 & a5), (ops_inj _ _ Ob) as (b1 & _ & _ & b4 & b5),
      (ops_inj _ _ Oc) as (c1 & _ & _ & c4 & c5), (ops_inj _ _ Od) as (d1 & _ & _ & d4 & d5).
    destruct (ops_inj _ _ Ht) as (t1 & t2 & _ & t4 & t5).
    rewrite a1, a5, Ha, b1, b5, Hb, c1, c5, Hc, d1, d5, Hd.
    repeat match goal with |- same _ (bind (bind ?m _) _) _ =>
      rewrite !(bind_assoc m); destruct m as [?| |]; [|exact eq_refl|exact I]; rewrite !bind_Ok end.
    rewrite (up_rest_form gesv tau), (up_rest_form gesv tau').
    replace (stripH tau) with (stripH tau') by (unfold stripH; rewrite t2; reflexivity).
    set (x := fmap stripT _). set (y := fmap stripT _).
    assert (x = y) as ->.
    { unfold x, y, fmap, stripT. cbn [fa fb fc fd pgrid pT ph pnc set_h].
      rewrite a1, a4, a5, b1, b4, b5, c1, c4, c5, d1, d4, d5. reflexivity. }
    destruct (up_rest gesv (stripH tau') y) as [r| |]; [|exact eq_refl|exact I].
    rewrite !bind_Ok. cbn [same fst snd fa fb fc fd]. unfold R2.
    split; [split; [exact Ht|intros _; split; reflexivity]|].
    split; [split; [exact Oa|intros _; split; [reflexivity|exact Fa']]|].
    split; [split; [exact Ob|intros _; split; [reflexivity|exact Fb']]|].
    split; [split; [exact Oc|intros _; split; [reflexivity|exact Fc']]|].
    split; [exact Od|intros _; split; [reflexivity|exact Fd']].
Qed.

Lemma up_rel sv gesv hom load t t' : trel R1 t t' ->
  same (fun r r' => trel (R2 hom) (snd r) (snd r'))
    (tmerge (up_leaf sv load) (upwards4to1 gesv hom) tt t) (tmerge (up_leaf sv load) (upwards4to1 gesv hom) tt t').
Proof.
  revert t'. induction t as [p|p a IHa b IHb c IHc d IHd]; intros [p'|p' a' b' c' d'] HR; try (destruct HR; fail).
  - cbn [tmerge]. unfold up_leaf. cbn [pgrid pf set_f]. cbn [trel] in *.
    pose proof HR as O. unfold R1 in O.
    destruct (ops_inj _ _ O) as (E & _). rewrite E.
    destruct (sv_h sv (pgrid p') (load (pgrid p'))) as [h| |]; [|exact eq_refl|exact I].
    rewrite !bind_Ok. cbn [same snd trel]. split; [exact O|]. intros _. split; [reflexivity|]. reflexivity.
  - destruct HR as (HR0 & Ra & Rb & Rc & Rd). cbn [tmerge].
    eapply same_bind; [apply (IHa a' Ra)|]. intros ra ra' Qa. destruct ra as [[] ta], ra' as [[] ta']. cbn [fst snd] in *.
    eapply same_bind; [apply (IHb b' Rb)|]. intros rb rb' Qb. destruct rb as [[] tb], rb' as [[] tb']. cbn [fst snd] in *.
    eapply same_bind; [apply (IHc c' Rc)|]. intros rc rc' Qc. destruct rc as [[] tc], rc' as [[] tc']. cbn [fst snd] in *.
    eapply same_bind; [apply (IHd d' Rd)|]. intros rd rd' Qd. destruct rd as [[] td], rd' as [[] td']. cbn [fst snd] in *.
    destruct (trel_data _ _ _ Qa) as (Da & _), (trel_data _ _ _ Qb) as (Db & _),
             (trel_data _ _ _ Qc) as (Dc & _), (trel_data _ _ _ Qd) as (Dd & _).
    eapply same_bind; [apply (up_fam_rel gesv hom (is_leaf ta) (is_leaf tb) (is_leaf tc) (is_leaf td)); auto|].
    intros r r' (Q0 & Q1 & Q2 & Q3 & Q4). cbn [same snd trel]. split; [exact Q0|].
    split; [apply trel_set; auto|]. split; [apply trel_set; auto|]. split; apply trel_set; auto.
Qed.

(** upwardsStage keeps the operators. *)
Lemma up_keeps sv gesv hom load t r :
  tmerge (up_leaf sv load) (upwards4to1 gesv hom) tt t = Ok r -> trel R1 t (snd r).
Proof.
  revert r. induction t as [p|p a IHa b IHb c IHc d IHd]; intros r E.
  - cbn [tmerge] in E. unfold up_leaf in E. apply bind_inv in E as (x & E & E2). apply bind_inv in E as (h & _ & E).
    apply Ok_inj in E, E2. subst. reflexivity.
  - cbn [tmerge] in E.
    apply bind_inv in E as (ra & Ea & E). apply bind_inv in E as (rb & Eb & E).
    apply bind_inv in E as (rc & Ec & E). apply bind_inv in E as (rd & Ed & E).
    destruct ra as [[] ta], rb as [[] tb], rc as [[] tc], rd as [[] td]. cbn [fst snd] in *.
    apply IHa in Ea. apply IHb in Eb. apply IHc in Ec. apply IHd in Ed. cbn [snd] in *.
    apply bind_inv in E as (f & Ef & E). apply Ok_inj in E. subst r. cbn [snd trel].
    assert (H : R1 false p (fst f) /\ R1 false (data ta) (fa (snd f)) /\ R1 false (data tb) (fb (snd f)) /\
                R1 false (data tc) (fc (snd f)) /\ R1 false (data td) (fd (snd f))).
    { destruct hom.
      - cbn in Ef. apply Ok_inj in Ef. subst f. repeat split.
      - rewrite upwards4to1_rest, coarsenUpwards_form in Ef. cbn [fa fb fc fd] in Ef.
        apply bind_inv in Ef as (ch & Ech & Ef).
        apply bind_inv in Ech as (a1 & _ & Ech). apply bind_inv in Ech as (b1 & _ & Ech).
        apply bind_inv in Ech as (c1 & _ & Ech). apply bind_inv in Ech as (d1 & _ & Ech). apply Ok_inj in Ech. subst ch.
        apply bind_inv in Ef as (q & Eq & Ef). apply Ok_inj in Ef. subst f.
        rewrite up_rest_form in Eq. apply bind_inv in Eq as (q' & _ & Eq). apply Ok_inj in Eq. subst q.
        repeat split. }
    destruct H as (H0 & H1 & H2 & H3 & H4). split; [exact H0|].
    assert (S : forall x x' q, trel R1 x x' -> R1 false (data x') q -> trel R1 x (set_data x' q)).
    { intros [y|y ? ? ? ?] [y'|y' ? ? ? ?] q; cbn; unfold R1; try tauto; intros; intuition congruence. }
    split; [apply S; auto|]. split; [apply S; auto|]. split; apply S; auto.
Qed.

(** solveStage keeps operators and upward results; the leaves' loads are kept
    unless homogeneous-rhs is set. *)
Lemma solve_keeps sv hom t p r : R2 hom (is_leaf t) (data t) p ->
  tsplit (leafSolve sv hom) (split1to4 hom) t p = Ok r -> trel (R2 hom) t r.
Proof.
  revert p r. induction t as [p0|p0 a IHa b IHb c IHc d IHd]; intros p r HR E.
  - cbn [tsplit] in E. apply bind_inv in E as (p' & E & E2). apply Ok_inj in E2. subst r.
    unfold leafSolve in E. cbv zeta in E. apply bind_inv in E as (u & _ & E). apply Ok_inj in E. subst p'.
    cbn [trel is_leaf data] in *. destruct hom; [|exact HR]. split; [exact (proj1 HR)|discriminate].
  - cbn [tsplit] in E. apply bind_inv in E as (f & Ef & E).
    rewrite split_form in Ef. cbn [fa fb fc fd] in Ef.
    apply bind_inv in Ef as (g & _ & Ef). apply bind_inv in Ef as (x & _ & Ef). apply Ok_inj in Ef. subst f.
    cbn [fst snd fa fb fc fd] in E.
    apply bind_inv in E as (ta & Ea & E). apply bind_inv in E as (tb & Eb & E).
    apply bind_inv in E as (tc & Ec & E). apply bind_inv in E as (td & Ed & E). apply Ok_inj in E. subst r.
    assert (RR : forall b p x, R2 hom b p (set_g p x)) by (intros []; split; [reflexivity|split; reflexivity|reflexivity|split; reflexivity]).
    apply IHa in Ea; [|apply RR]. apply IHb in Eb; [|apply RR]. apply IHc in Ec; [|apply RR]. apply IHd in Ed; [|apply RR].
    cbn [trel]. auto.
Qed.

(** The values computed by solveStage depend on nothing else. *)
Lemma solve_rel sv hom t t' p p' : trel (R2 hom) t t' -> R2 hom (is_leaf t) p p' -> pg p = pg p' ->
  same (fun r r' => computed_values r = computed_values r')
    (tsplit (leafSolve sv hom) (split1to4 hom) t p) (tsplit (leafSolve sv hom) (split1to4 hom) t' p').
Proof.
  revert t' p p'. induction t as [p0|p0 a IHa b IHb c IHc d IHd]; intros [p0'|p0' a' b' c' d'] p p' HR Hp Hg; try (destruct HR; fail).
  - cbn [tsplit]. unfold leafSolve. destruct Hp as (O & F). destruct (ops_inj _ _ O) as (E & _).
    destruct hom; cbv zeta; cbn [pgrid pg pf set_f].
    + rewrite E, Hg. destruct (sv_solve sv _ _ _) as [u| |]; [|exact eq_refl|exact I].
      rewrite !bind_Ok. cbn. rewrite Hg. reflexivity.
    + destruct (F eq_refl) as (_ & F'). cbn [is_leaf] in F'. rewrite E, Hg, F'.
      destruct (sv_solve sv _ _ _) as [u| |]; [|exact eq_refl|exact I].
      rewrite !bind_Ok. cbn. rewrite Hg. reflexivity.
  - destruct HR as (_ & Ra & Rb & Rc & Rd). cbn [tsplit]. rewrite !split_form. cbn [fa fb fc fd].
    destruct (trel_data _ _ _ Ra) as (Da & La), (trel_data _ _ _ Rb) as (Db & Lb),
             (trel_data _ _ _ Rc) as (Dc & Lc), (trel_data _ _ _ Rd) as (Dd & Ld).
    destruct Hp as (O & F). destruct (ops_inj _ _ O) as (E1 & E2 & E3 & E4 & E5).
    rewrite E1, E5, Hg, !bind_assoc. destruct (un _ _ _) as [g| |]; [|exact eq_refl|exact I]. rewrite !bind_Ok, !bind_assoc.
    assert (EA : aS hom (pS p) g (pw p) (psize (data a)) = aS hom (pS p') g (pw p') (psize (data a'))).
    { destruct (ops_inj _ _ (proj1 Da)) as (G1 & _ & _ & _ & G5). unfold psize. rewrite G1, G5, E3.
      destruct hom; [reflexivity|]. destruct (F eq_refl) as (_ & F'). cbn [is_leaf] in F'. rewrite F'. reflexivity. }
    rewrite EA. clear EA. destruct (aS hom (pS p') g (pw p') (psize (data a'))) as [x| |]; [|exact eq_refl|exact I]. rewrite !bind_Ok. cbn [fst snd fa fb fc fd].
    assert (RR : forall bb q q' x, R2 hom bb q q' -> R2 hom bb (set_g q x) (set_g q' x)) by (intros bb q q' y HH; exact HH).
    eapply same_bind; [apply IHa; [exact Ra|apply RR; exact Da|reflexivity]|]. intros ra ra' Qa.
    eapply same_bind; [apply IHb; [exact Rb|apply RR; exact Db|reflexivity]|]. intros rb rb' Qb.
    eapply same_bind; [apply IHc; [exact Rc|apply RR; exact Dc|reflexivity]|]. intros rc rc' Qc.
    eapply same_bind; [apply IHd; [exact Rd|apply RR; exact Dd|reflexivity]|]. intros rd rd' Qd.
    cbn [same]. unfold computed_values in *. cbn [tree_leaves]. rewrite !map_app. congruence.
Qed.

Lemma R1_trans b p q r : R1 b p q -> R1 b q r -> R1 b p r.
Proof. unfold R1. congruence. Qed.
Lemma R2_trans hom b p q r : R2 hom b p q -> R2 hom b q r -> R2 hom b p r.
Proof.
  intros (O1 & F1) (O2 & F2). split; [congruence|]. intros Hh. destruct (F1 Hh) as (A1 & B1), (F2 Hh) as (A2 & B2).
  split; [congruence|]. destruct b; congruence.
Qed.
Lemma R2_R1 hom b p q : R2 hom b p q -> R1 b p q.
Proof. intros H. apply H. Qed.
Lemma R2_refl hom b p : R2 hom b p p.
Proof. split; [reflexivity|]. intros _. split; [reflexivity|]. destruct b; reflexivity. Qed.

Lemma solveStage_keeps sv hom g t r : solveStage sv hom g t = Ok r -> trel (R2 hom) t r.
Proof.
  intros E. eapply solve_keeps; [|exact E]. destruct (is_leaf t); (split; [reflexivity|]; intros _; split; reflexivity).
Qed.

Lemma run_keeps sv gesv cs t r : run sv gesv cs t = Ok r -> trel R1 t r.
Proof.
  revert t. induction cs as [|[hom c] cs IH]; intros t E; cbn [run foldM] in E.
  - apply Ok_inj in E. subst. apply trel_refl. reflexivity.
  - unfold run in E. cbn [foldM] in E. apply bind_inv in E as (t1 & E1 & E). apply IH in E.
    eapply trel_trans; [apply R1_trans| |exact E]. cbn [fst snd run_call] in E1. destruct c as [load|g].
    + unfold upwardsStage in E1. apply bind_inv in E1 as (q & E1 & E2). apply Ok_inj in E2. subst t1.
      eapply up_keeps; eauto.
    + eapply trel_impl; [apply R2_R1|]. eapply solveStage_keeps. exact E1.
Qed.

Lemma solves_keep sv gesv hom gs t r :
  run sv gesv (map (fun g => (hom, Solve g)) gs) t = Ok r -> trel (R2 hom) t r.
Proof.
  revert t. induction gs as [|g gs IH]; intros t E.
  - apply Ok_inj in E. subst. apply trel_refl. apply R2_refl.
  - unfold run in E. cbn [map foldM] in E. apply bind_inv in E as (t1 & E1 & E). apply IH in E.
    eapply trel_trans; [apply R2_trans| |exact E]. eapply solveStage_keeps. exact E1.
Qed.

Theorem history sv gesv hom pre load gs g t t1 t2 :
  run sv gesv pre t = Ok t1 ->
  run sv gesv ((hom, Up load) :: map (fun g => (hom, Solve g)) gs) t1 = Ok t2 ->
  same (fun r r' => computed_values r = computed_values r')
    (solveStage sv hom g t2) (run sv gesv [(hom, Up load); (hom, Solve g)] t).
Proof.
  intros E1 E2. pose proof (run_keeps _ _ _ _ _ E1) as K1.
  unfold run in E2. cbn [foldM fst snd run_call] in E2. apply bind_inv in E2 as (tu & Eu & Es).
  apply (solves_keep sv gesv hom gs) in Es.
  unfold run. cbn [foldM fst snd run_call].
  pose proof (up_rel sv gesv hom load t t1 K1) as HU.
  unfold upwardsStage in Eu |- *. apply bind_inv in Eu as (q & Eq & E). apply Ok_inj in E. subst tu.
  rewrite Eq in HU. destruct (tmerge _ _ _ t) as [q'| |]; try (destruct HU; fail). cbn [same] in HU. rewrite !bind_Ok.
  assert (HR : trel (R2 hom) t2 (snd q')).
  { clear - HU Es.
    assert (Sym : forall b p q, R2 hom b p q -> R2 hom b q p).
    { intros b p r (O & F). split; [auto|]. intros Hh. destruct (F Hh) as (A & B). split; [auto|]. destruct b; auto. }
    assert (TS : forall x y, trel (R2 hom) x y -> trel (R2 hom) y x).
    { induction x as [p|p a IHa b IHb c IHc d IHd]; intros [p'|p' a' b' c' d']; cbn [trel]; try tauto; [apply Sym|].
      intros (H0 & H1 & H2 & H3 & H4). auto 10. }
    apply TS. eapply trel_trans; [apply R2_trans|exact HU|exact Es]. }
  destruct (trel_data _ _ _ HR) as (D & L).
  pose proof (solve_rel sv hom t2 (snd q') (set_g (data t2) g) (set_g (data (snd q')) g) HR D eq_refl) as HS.
  unfold solveStage. destruct (tsplit _ _ _ (set_g (data (snd q')) g)) as [r| |] eqn:EE; exact HS.
Qed.
