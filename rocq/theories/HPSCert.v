(** A finished build certifies itself: when the interface matrix of every node is
    found nonsingular by elimination, the glued problem is well posed.  Used for
    the concrete cases. *)
From Coq Require Import Permutation.
From Verif Require Import Base VectorModel MatrixModel LinSpec MatProofs MatProofs2 MatProofs3 LinProofs Gauss.
From Verif Require Import BlockProofs HPSModel HPSSpec HPSProofs HPSProofs2 HPSProofs3 HPSProofs4 HPSTree HPSTree2.

Definition nonsing_b (X : matrix Qc) : bool :=
  match gauss (nr X) (gesv_rows (nr X) (dat (mat_of (nr X) (nr X) (fun j i => qent X i j))) (fun _ => 0%Qc)) with
  | Some _ => true
  | None => false
  end.

Lemma nonsing_b_ok X : well_formed X -> nr X = nc X -> nonsing_b X = true -> nonsingular X.
Proof.
  intros W E H. split; [auto|]. split; [auto|]. unfold nonsing_b in H.
  assert (C : col_nonsingular (nr X) (dat (mat_of (nr X) (nr X) (fun j i => qent X i j)))).
  { apply (gauss_col_nonsingular _ _ (fun _ => 0%Qc)). destruct (gauss _ _); [discriminate|discriminate H]. }
  intros z Hz. apply C. intros i Hi. refine (eq_trans _ (Hz i Hi)). apply sum_ext. intros j Hj.
  rewrite vval_dat_mat_of by auto. rewrite val_ent by (auto; lia). reflexivity.
Qed.

Lemma interface_from_X n T X : all4 (square (4 * n)) T -> isB 4 4 n X (XFT n T) ->
  nonsingular X -> interface_unique n T.
Proof.
  intros HT HX (WX & _ & HN) z Lz C.
  pose proof (isV_self 4 n z Lz) as VZ.
  pose proof (proj1 (continuous_system0 n T _ _ _ _ HT (zeros_B 8 n) VZ) C) as H. cbv beta in H.
  apply zeros_eq; [auto|]. rewrite (isB_nr _ _ _ _ _ HX) in HN. apply HN.
  intros i Hi.
  assert (n <> 0) by lia.
  assert (Hd : i = i / n * n + i mod n) by (rewrite Nat.mul_comm; apply Nat.div_mod; auto).
  assert (Hp : i / n < 4) by (apply Nat.div_lt_upper_bound; lia).
  assert (Hm : i mod n < n) by (apply Nat.mod_upper_bound; auto).
  specialize (H (i / n) (i mod n) Hp Hm).
  transitivity (sum 8 (fun q => sum n (fun j => RFT n T (i / n)%nat (nth q pi_WESN 0%nat) (i mod n) j * 0)%Qc)).
  2:{ apply sum_zero. intros. apply sum_zero. intros. ring. }
  rewrite <- H. rewrite sum_mul. apply sum_ext. intros l Hl. apply sum_ext. intros k Hk. f_equal.
  rewrite Hd at 1. rewrite val_ent; [|apply HX| |].
  - apply (isB_ent _ _ _ _ _ HX); auto.
  - rewrite (isB_nr _ _ _ _ _ HX). auto using blk_bound.
  - rewrite (isB_nc _ _ _ _ _ HX). auto using blk_bound.
Qed.

Lemma merge_X gesv tau ch' n tau' : n <> 0 -> all4 (fun p => psize p = n) ch' -> all4 (square (4 * n)) (four_T ch') ->
  merge_rest gesv tau ch' = Ok tau' -> isB 4 4 n (pX tau') (XFT n (four_T ch')).
Proof.
  intros Hn Hs (TA & TB & TC & TD) E. unfold merge_rest in E.
  rewrite (createIndexSets_ok n) in E by (auto; apply TA). rewrite bind_Ok in E.
  destruct (createMatrixBlocks_ok n ch' _ _ _ _ (square_B n _ TA) (square_B n _ TB)
              (square_B n _ TC) (square_B n _ TD)) as (b & Eb & Hb).
  rewrite Eb, bind_Ok in E.
  destruct (mergeX_ok n tau b _ _ _ _ Hb) as (X & EX & HX). rewrite EX, bind_Ok in E.
  apply bind_inv in E as (t2 & E2 & E). apply bind_inv in E as (t3 & E3 & E). apply bind_inv in E as (t4 & E4 & E).
  apply Ok_inj in E. subst tau'.
  assert (pX t2 = X).
  { unfold mergeS in E2. apply bind_inv in E2 as (? & _ & E2). apply bind_inv in E2 as (? & _ & E2).
    apply Ok_inj in E2. subst t2. reflexivity. }
  assert (pX t3 = X).
  { unfold mergeT in E3. apply bind_inv in E3 as (? & _ & E3). apply bind_inv in E3 as (? & _ & E3).
    cbv zeta in E3. apply bind_inv in E3 as (? & _ & E3). apply bind_inv in E3 as (? & _ & E3).
    apply Ok_inj in E3. subst t3. assumption. }
  assert (EE : pX t4 = X).
  { unfold reorderOperators in E4. cbv zeta in E4. apply bind_inv in E4 as (? & _ & E4). apply bind_inv in E4 as (? & _ & E4).
    apply Ok_inj in E4. subst t4. assumption. }
  change (pX (mergePatch t4 ch')) with (pX t4). rewrite EE. exact HX.
Qed.

Fixpoint cert (t : tree) : bool :=
  match t with
  | Leaf _ => true
  | Node p a b c d => nonsing_b (pX p) && cert a && cert b && cert c && cert d
  end.

Lemma cert_set t p : pX p = pX (data t) -> cert (set_data t p) = cert t.
Proof. destruct t; cbn [cert set_data data]; intros E; rewrite ?E; reflexivity. Qed.

Lemma glued_fluxes m sv a b c d T0 Tc h z Ua Ub Uc Ud :
  let l := min_level a b c d in let n := m * 2 ^ l in
  Aff m (linear_leaf sv) a (fa T0) (zeros (4 * (m * 2 ^ level a))) ->
  Aff m (linear_leaf sv) b (fb T0) (zeros (4 * (m * 2 ^ level b))) ->
  Aff m (linear_leaf sv) c (fc T0) (zeros (4 * (m * 2 ^ level c))) ->
  Aff m (linear_leaf sv) d (fd T0) (zeros (4 * (m * 2 ^ level d))) ->
  resolved (level a - l) n (fa T0) (fa Tc) -> resolved (level b - l) n (fb T0) (fb Tc) ->
  resolved (level c - l) n (fc T0) (fc Tc) -> resolved (level d - l) n (fd T0) (fd Tc) ->
  glued m (linear_leaf sv) (QNode a b c d) (zeros (8 * n)) h (SNode z Ua Ub Uc Ud) ->
  length z = 4 * n /\ continuous n (fluxes Tc (children_data n (zeros (8 * n)) z)).
Proof.
  intros l n Aa Ab Ac Ad Ra Rb Rc Rd G. cbn [glued] in G. fold l n in G.
  destruct G as (Lg & Lz & H & GA & GB & GC & GD & C & _). split; [exact Lz|].
  destruct (min_level_le a b c d) as (La & Lb & Lc & Ld). fold l in La, Lb, Lc, Ld.
  destruct (children_data_length n (zeros (8 * n)) z (zeros_length _) Lz) as (Xa & Xb & Xc & Xd).
  set (x := children_data n (zeros (8 * n)) z) in *.
  assert (one : forall s T0s Tcs y h U, l <= level s -> Aff m (linear_leaf sv) s T0s (zeros (4 * (m * 2 ^ level s))) ->
    resolved (level s - l) n T0s Tcs -> length y = 4 * n ->
    glued m (linear_leaf sv) s (refine_by (level s - l) n y) h U ->
    coarsen_by (level s - l) n h = apply_op Tcs y).
  { intros s T0s Tcs y hh U Hl (Sq & _ & _ & Hu) (_ & R) Ly GU. rewrite (Hu _ _ _ GU).
    rewrite vplus_zeros_n; [symmetry; auto|]. rewrite apply_op_length. apply Sq. }
  rewrite (one a _ _ _ _ _ La Aa Ra Xa GA), (one b _ _ _ _ _ Lb Ab Rb Xb GB),
          (one c _ _ _ _ _ Lc Ac Rc Xc GC), (one d _ _ _ _ _ Ld Ad Rd Xd GD) in C.
  exact C.
Qed.

Lemma wp_node m sv a b c d : well_posed m sv a -> well_posed m sv b -> well_posed m sv c -> well_posed m sv d ->
  (forall h z Ua Ub Uc Ud,
    glued m (linear_leaf sv) (QNode a b c d) (zeros (8 * (m * 2 ^ min_level a b c d))) h
          (SNode z Ua Ub Uc Ud) ->
    z = zeros (4 * (m * 2 ^ min_level a b c d))) -> well_posed m sv (QNode a b c d).
Proof.
  intros Wa Wb Wc Wd H a' b' c' d' Hs. cbn [subtree] in Hs.
  destruct Hs as [E|[Hs|[Hs|[Hs|Hs]]]].
  - injection E as -> -> -> ->. exact H.
  - exact (Wa _ _ _ _ Hs).
  - exact (Wb _ _ _ _ Hs).
  - exact (Wc _ _ _ _ Hs).
  - exact (Wd _ _ _ _ Hs).
Qed.

Lemma cert_ok m sv gesv load s t st st1 t1 :
  m <> 0 -> gesv_contract gesv -> fresh load s t -> good_leaves m sv s ->
  3 <= m \/ equal_levels s ->
  buildStage sv gesv false st t = Ok (st1, t1) -> cert t1 = true ->
  well_posed m sv s.
Proof.
  intros Hm Hge. revert t st st1 t1.
  unfold buildStage.
  induction s as [G f|a IHa b IHb c IHc d IHd]; intros t st st1 t1 HF Hg H3 E HC.
  - intros a b c d [Hs|[]]. discriminate Hs.
  - destruct t as [|p ta tb tc td]; [destruct HF|]. destruct HF as (E0 & Fa & Fb & Fc & Fd).
    pose proof (equal_levels_zero m a b c d H3) as Hk. cbv zeta in Hk.
    assert (H3' : (3 <= m \/ equal_levels a) /\ (3 <= m \/ equal_levels b) /\
                  (3 <= m \/ equal_levels c) /\ (3 <= m \/ equal_levels d)).
    { destruct H3 as [|(_ & _ & _ & Ha & Hb & Hc & Hd)]; [auto|]. repeat split; right; auto. }
    destruct H3' as (H3a & H3b & H3c & H3d). destruct Hg as (Ga & Gb & Gc & Gd).
    cbn [tmerge] in E.
    apply bind_inv in E as ((sa & ta') & Ea & E). cbn [fst snd] in E.
    apply bind_inv in E as ((sb & tb') & Eb & E). cbn [fst snd] in E.
    apply bind_inv in E as ((sc & tc') & Ec & E). cbn [fst snd] in E.
    apply bind_inv in E as ((sd & td') & Ed & E). cbn [fst snd] in E.
    apply bind_inv in E as ((tau & ch') & Ef & E). cbn [fst snd] in E.
    apply Ok_inj in E. injection E as <- <-.
    set (l := min_level a b c d) in *. set (n := m * 2 ^ l).
    destruct (min_level_le a b c d) as (La & Lb & Lc & Ld). fold l in La, Lb, Lc, Ld.
    assert (Hn : n <> 0) by (pose proof (pow_pos l); unfold n; nia).
    assert (H3n : 3 <= m -> 3 <= n) by (intros; pose proof (pow_pos l); unfold n; nia).
    (* the merge keeps the children's X *)
    rewrite merge4to1_rest in Ef. apply bind_inv in Ef as (ch1 & Eco & Ef).
    apply bind_inv in Ef as (tau1 & Erest & Ef). apply Ok_inj in Ef. injection Ef as -> ->.
    assert (CX : pX (fa ch') = pX (data ta') /\ pX (fb ch') = pX (data tb') /\
                 pX (fc ch') = pX (data tc') /\ pX (fd ch') = pX (data td')).
    { assert (one : forall tag q q', coarsen_one q tag = Ok q' -> pX q' = pX q).
      { intros tag. unfold coarsen_one. generalize (seq 0 tag). intros li. induction li as [|j li IH]; intros q q' Q; cbn [foldM] in Q.
        - apply Ok_inj in Q. subst. reflexivity.
        - apply bind_inv in Q as (q1 & Q1 & Q). rewrite (IH _ _ Q). unfold coarsen_step in Q1. cbv zeta in Q1.
          do 6 apply bind_inv in Q1 as (? & _ & Q1). apply Ok_inj in Q1. subst q1. reflexivity. }
      unfold coarsen in Eco. apply bind_inv in Eco as (tags & _ & Eco). cbn [fa fb fc fd] in Eco.
      apply bind_inv in Eco as (qa & Qa & Eco). apply bind_inv in Eco as (qb & Qb & Eco).
      apply bind_inv in Eco as (qc & Qc' & Eco). apply bind_inv in Eco as (qd & Qd & Eco).
      apply Ok_inj in Eco. subst ch'. cbn [fa fb fc fd]. split4; eapply one; eassumption. }
    destruct CX as (CXa & CXb & CXc & CXd).
    cbn [cert] in HC. rewrite !cert_set in HC by assumption.
    rewrite !andb_true_iff in HC. destruct HC as ((((HX & HCa) & HCb) & HCc) & HCd).
    pose proof (IHa _ _ _ _ Fa Ga H3a Ea HCa) as Wa. pose proof (IHb _ _ _ _ Fb Gb H3b Eb HCb) as Wb.
    pose proof (IHc _ _ _ _ Fc Gc H3c Ec HCc) as Wc. pose proof (IHd _ _ _ _ Fd Gd H3d Ed HCd) as Wd.
    clear IHa IHb IHc IHd.
    assert (BB : forall s' t' st' st'' tt, fresh load s' t' -> good_leaves m sv s' -> well_posed m sv s' ->
       3 <= m \/ equal_levels s' -> tmerge (build_leaf sv false) (merge4to1 gesv) st' t' = Ok (st'', tt) ->
       built m sv 0 s' tt).
    { intros s' t' st' st'' tt F' G' W' Q' R'.
      destruct (build_ok m sv gesv load s' t' (build_leaf sv false) st' Hm Hge (build_leaf_off sv m) F' G' W' Q')
        as (x & y & R & B). rewrite R' in R. apply Ok_inj in R. injection R as _ ->. exact B. }
    pose proof (BB _ _ _ _ _ Fa Ga Wa H3a Ea) as Ba. pose proof (BB _ _ _ _ _ Fb Gb Wb H3b Eb) as Bb.
    pose proof (BB _ _ _ _ _ Fc Gc Wc H3c Ec) as Bc. pose proof (BB _ _ _ _ _ Fd Gd Wd H3d Ed) as Bd.
    apply wp_node; auto. fold l n. intros h z Ua Ub Uc Ud GZ.
    assert (CO : forall s' t', good_leaves m sv s' -> built m sv 0 s' t' -> l <= level s' ->
              child_ok n (data t') (level s' - l)).
    { intros s' t' G' B' Hl. destruct (built_root m sv 0 s' t' Hm G' B') as (N0 & X0 & S0 & _).
      rewrite Nat.sub_0_r in S0. unfold child_ok, n. rewrite scale_level by auto. auto. }
    destruct (built_lin m sv 0 a ta' Hm Ga Ba) as (T0a & Aa & Ra). destruct (built_lin m sv 0 b tb' Hm Gb Bb) as (T0b & Ab & Rb).
    destruct (built_lin m sv 0 c tc' Hm Gc Bc) as (T0c & Ac & Rc). destruct (built_lin m sv 0 d td' Hm Gd Bd) as (T0d & Ad & Rd).
    rewrite Nat.sub_0_r in Ra, Rb, Rc, Rd.
    assert (RT : forall s' T0s T Tc, l <= level s' -> resolved 0 (m * 2 ^ level s') T0s T ->
      resolved (level s' - l) n T Tc -> resolved (level s' - l) n T0s Tc).
    { intros s' T0s T Tc Hl R1 R2. eapply resolved_trans0; [|exact R2].
      unfold n. rewrite scale_level by auto. exact R1. }
    destruct (coarsen_ok n (Four (data ta') (data tb') (data tc') (data td'))
                (Four (level a - l) (level b - l) (level c - l) (level d - l)) Hn)
      as (Tc & Eco' & RA & RB & RC & RD).
    { split; [exact (min_sub a b c d)|]. destruct Hk as [Hk|Hk]; [left; auto|right; exact Hk]. }
    { apply (CO a); auto. } { apply (CO b); auto. } { apply (CO c); auto. } { apply (CO d); auto. }
    rewrite Eco in Eco'. apply Ok_inj in Eco'. cbn [fa fb fc fd] in Eco', RA, RB, RC, RD.
    assert (HT : four_T ch' = Tc) by (rewrite Eco'; destruct Tc; reflexivity).
    assert (Sq : all4 (square (4 * n)) (four_T ch')).
    { rewrite HT. split4; [apply RA|apply RB|apply RC|apply RD]. }
    assert (Hs : all4 (fun p => psize p = n) ch').
    { rewrite Eco'. unfold all4. cbn [fa fb fc fd].
      destruct (CO a ta') as (_ & Xa & _); auto. destruct (CO b tb') as (_ & Xb & _); auto.
      destruct (CO c tc') as (_ & Xc & _); auto. destruct (CO d td') as (_ & Xd & _); auto.
      rewrite !(psize_coarse n) by auto. auto. }
    pose proof (merge_X gesv p ch' n tau Hn Hs Sq Erest) as BX.
    assert (HI : interface_unique n Tc).
    { rewrite <- HT. apply (interface_from_X n _ _ Sq BX). apply nonsing_b_ok; [apply BX| |exact HX].
      rewrite (isB_nr _ _ _ _ _ BX), (isB_nc _ _ _ _ _ BX). reflexivity. }
    destruct (glued_fluxes m sv a b c d (Four T0a T0b T0c T0d) Tc h z Ua Ub Uc Ud Aa Ab Ac Ad
      (RT a T0a _ _ La Ra RA) (RT b T0b _ _ Lb Rb RB) (RT c T0c _ _ Lc Rc RC) (RT d T0d _ _ Ld Rd RD) GZ) as (Lz & C).
    apply HI; assumption.
Qed.
