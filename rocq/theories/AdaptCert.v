(** Well-posedness of a node from the operators of its four children: only the
    interface matrix is formed.  Used for the concrete cases. *)
From Verif Require Import Base VectorModel MatrixModel LinSpec MatProofs MatProofs2 MatProofs3 LinProofs Gauss.
From Verif Require Import BlockProofs HPSModel HPSSpec HPSProofs HPSProofs2 HPSProofs3 HPSProofs4 HPSTree HPSTree2 HPSCert.
From Coq Require Import Lia.

Definition top_X (tau : patch) (ch : four patch) : res (matrix Qc) :=
  s <- createIndexSets ch ;; b <- createMatrixBlocks s ch ;; t <- mergeX tau b ;; Ok (pX t).

Lemma top_X_ok tau ch n X : n <> 0 -> all4 (fun p => psize p = n) ch -> all4 (square (4 * n)) (four_T ch) ->
  top_X tau ch = Ok X -> isB 4 4 n X (XFT n (four_T ch)).
Proof.
  intros Hn Hs (TA & TB & TC & TD) E. unfold top_X in E.
  rewrite (createIndexSets_ok n) in E by (auto; apply TA). rewrite bind_Ok in E.
  destruct (createMatrixBlocks_ok n ch _ _ _ _ (square_B n _ TA) (square_B n _ TB)
              (square_B n _ TC) (square_B n _ TD)) as (b & Eb & Hb).
  rewrite Eb, bind_Ok in E.
  destruct (mergeX_ok n tau b _ _ _ _ Hb) as (X' & EX & HX). rewrite EX, bind_Ok in E. apply Ok_inj in E. subst X. exact HX.
Qed.

Definition node_cert (sv : solver) (gesv : gesv_t) (ta tb tc td : tree) : bool :=
  let one t := rt <- buildStage sv gesv false None t ;; Ok (snd rt) in
  match (a <- one ta ;; b <- one tb ;; c <- one tc ;; d <- one td ;;
         ch <- coarsen (Four (data a) (data b) (data c) (data d)) ;;
         X <- top_X (data ta) ch ;; Ok (cert a && cert b && cert c && cert d && nonsing_b X)) with
  | Ok r => r | _ => false end.

Lemma node_cert_ok m sv gesv load a b c d ta tb tc td :
  m <> 0 -> gesv_contract gesv -> fresh load a ta -> fresh load b tb -> fresh load c tc -> fresh load d td ->
  good_leaves m sv (QNode a b c d) -> 3 <= m \/ equal_levels (QNode a b c d) ->
  node_cert sv gesv ta tb tc td = true -> well_posed m sv (QNode a b c d).
Proof.
  intros Hm Hge Fa Fb Fc Fd (Ga & Gb & Gc & Gd) H3 E. unfold node_cert in E. cbv zeta in E.
    pose proof (equal_levels_zero m a b c d H3) as Hk. cbv zeta in Hk.
    assert (H3' : (3 <= m \/ equal_levels a) /\ (3 <= m \/ equal_levels b) /\
                  (3 <= m \/ equal_levels c) /\ (3 <= m \/ equal_levels d)).
    { destruct H3 as [|(_ & _ & _ & Ha & Hb & Hc & Hd)]; [auto|]. repeat split; right; auto. }
    destruct H3' as (H3a & H3b & H3c & H3d).
    match type of E with match ?r with _ => _ end = true => destruct r as [v| |] eqn:E'; try discriminate E end. subst v.
    apply bind_inv in E' as (ta' & Ea & E'). apply bind_inv in E' as (tb' & Eb & E').
    apply bind_inv in E' as (tc' & Ec & E'). apply bind_inv in E' as (td' & Ed & E').
    apply bind_inv in E' as (ch' & Eco & E'). apply bind_inv in E' as (X & Erest & E'). apply Ok_inj in E'.
    rewrite !andb_true_iff in E'. destruct E' as ((((HCa & HCb) & HCc) & HCd) & HX).
    apply bind_inv in Ea as ((sa & ya) & Ea & Q). apply Ok_inj in Q. cbn [snd] in Q. subst ya.
    apply bind_inv in Eb as ((sb & yb) & Eb & Q). apply Ok_inj in Q. cbn [snd] in Q. subst yb.
    apply bind_inv in Ec as ((sc & yc) & Ec & Q). apply Ok_inj in Q. cbn [snd] in Q. subst yc.
    apply bind_inv in Ed as ((sd & yd) & Ed & Q). apply Ok_inj in Q. cbn [snd] in Q. subst yd.
    set (l := min_level a b c d) in *. set (n := m * 2 ^ l).
    destruct (min_level_le a b c d) as (La & Lb & Lc & Ld). fold l in La, Lb, Lc, Ld.
    assert (Hn : n <> 0) by (pose proof (pow_pos l); unfold n; nia).
    assert (H3n : 3 <= m -> 3 <= n) by (intros; pose proof (pow_pos l); unfold n; nia).
    pose proof (cert_ok m sv gesv load a ta _ _ _ Hm Hge Fa Ga H3a Ea HCa) as Wa.
    pose proof (cert_ok m sv gesv load b tb _ _ _ Hm Hge Fb Gb H3b Eb HCb) as Wb.
    pose proof (cert_ok m sv gesv load c tc _ _ _ Hm Hge Fc Gc H3c Ec HCc) as Wc.
    pose proof (cert_ok m sv gesv load d td _ _ _ Hm Hge Fd Gd H3d Ed HCd) as Wd.
    set (tau := data ta) in Erest.
    assert (BB : forall s' t' st' st'' tt, fresh load s' t' -> good_leaves m sv s' -> well_posed m sv s' ->
       3 <= m \/ equal_levels s' -> buildStage sv gesv false st' t' = Ok (st'', tt) ->
       built m sv 0 s' tt).
    { intros s' t' st' st'' tt F' G' W' Q' R'.
      destruct (build_ok m sv gesv load s' t' (build_leaf sv false) st' Hm Hge (build_leaf_off sv m) F' G' W' Q')
        as (x & y & R & B). unfold buildStage in R'. rewrite R' in R. apply Ok_inj in R. injection R as _ ->. exact B. }
    pose proof (BB _ _ _ _ _ Fa Ga Wa H3a Ea) as Ba. pose proof (BB _ _ _ _ _ Fb Gb Wb H3b Eb) as Bb.
    pose proof (BB _ _ _ _ _ Fc Gc Wc H3c Ec) as Bc. pose proof (BB _ _ _ _ _ Fd Gd Wd H3d Ed) as Bd.
    apply wp_node; auto. fold l n. intros h z Ua Ub Uc Ud GZ.
    assert (CO : forall s' t', good_leaves m sv s' -> built m sv 0 s' t' -> l <= level s' ->
              child_ok n (data t') (level s' - l)).
    { intros s' t' G' B' Hl. destruct (built_root m sv 0 s' t' Hm G' B') as (N0 & X0 & S0 & _).
      rewrite Nat.sub_0_r in S0. unfold child_ok, n. rewrite scale_level by auto. auto. }
    destruct (built_lin m sv 0 a ta' Hm Ga Ba) as (T0a & Aa & Ra). destruct (built_lin m sv 0 b tb' Hm Gb Bb) as (T0b & Ab & Rb).
    destruct (built_lin m sv 0 c tc' Hm Gc Bc) as (T0c & Ac & Rc). destruct (built_lin m sv 0 d td' Hm Gd Bd) as (T0d & Ad & Rd).
    rewrite Nat.sub_0_r in Ra, Rb, Rc, Rd.
    assert (RT : forall s' T0s T Tc, l <= level s' -> resolved 0 (m * 2 ^ level s') T0s T ->
      resolved (level s' - l) n T Tc -> resolved (level s' - l) n T0s Tc).
    { intros s' T0s T Tc Hl R1 R2. eapply resolved_trans0; [|exact R2].
      unfold n. rewrite scale_level by auto. exact R1. }
    destruct (coarsen_ok n (Four (data ta') (data tb') (data tc') (data td'))
                (Four (level a - l) (level b - l) (level c - l) (level d - l)) Hn)
      as (Tc & Eco' & RA & RB & RC & RD).
    { split; [exact (min_sub a b c d)|]. destruct Hk as [Hk|Hk]; [left; auto|right; exact Hk]. }
    { apply (CO a); auto. } { apply (CO b); auto. } { apply (CO c); auto. } { apply (CO d); auto. }
    rewrite Eco in Eco'. apply Ok_inj in Eco'. cbn [fa fb fc fd] in Eco', RA, RB, RC, RD.
    assert (HT : four_T ch' = Tc) by (rewrite Eco'; destruct Tc; reflexivity).
    assert (Sq : all4 (square (4 * n)) (four_T ch')).
    { rewrite HT. split4; [apply RA|apply RB|apply RC|apply RD]. }
    assert (Hs : all4 (fun p => psize p = n) ch').
    { rewrite Eco'. unfold all4. cbn [fa fb fc fd].
      destruct (CO a ta') as (_ & Xa & _); auto. destruct (CO b tb') as (_ & Xb & _); auto.
      destruct (CO c tc') as (_ & Xc & _); auto. destruct (CO d td') as (_ & Xd & _); auto.
      rewrite !(psize_coarse n) by auto. auto. }
    pose proof (top_X_ok tau ch' n X Hn Hs Sq Erest) as BX.
    assert (HI : interface_unique n Tc).
    { rewrite <- HT. apply (interface_from_X n _ _ Sq BX). apply nonsing_b_ok; [apply BX| |exact HX].
      rewrite (isB_nr _ _ _ _ _ BX), (isB_nc _ _ _ _ _ BX). reflexivity. }
    destruct (glued_fluxes m sv a b c d (Four T0a T0b T0c T0d) Tc h z Ua Ub Uc Ud Aa Ab Ac Ad
      (RT a T0a _ _ La Ra RA) (RT b T0b _ _ Lb Rb RB) (RT c T0c _ _ Lc Rc RC) (RT d T0d _ _ Ld Rd RD) GZ) as (Lz & C).
    apply HI; assumption.
Qed.
