(** The thermal boundary system of a node from the operators of its four children.  Used
    for the concrete cases. *)
From Verif Require Import Base VectorModel MatrixModel LinSpec MatProofs LinProofs BlockProofs HPSModel HPSSpec HPSProofs HPSProofs2 HPSProofs3 HPSProofs4 HPSTree HPSTree2 HPSCert AdaptCert ModCert.
From Coq Require Import Lia.

(** The unknowns are the four interfaces (0-3), two pieces of the south side (4, 5) and
    two of the north side (6, 7); west and east are zero (8).  Side [l] of child [c]
    carries unknown [sel c l]. *)
Definition sel (c l : nat) : nat :=
  nth l (nth c [[8; 2; 4; 0]; [2; 8; 5; 1]; [8; 3; 0; 6]; [3; 8; 1; 7]] []) 8.
Definition part (n : nat) (T : matrix Qc) (c p q i j : nat) : Qc :=
  sum 4 (fun l => if sel c l =? q then bfun_of n T p l i j else 0%Qc).
Definition KB (n : nat) (T : four (matrix Qc)) (r q i j : nat) : Qc :=
  match r with
  | 0 => part n (fa T) 0 3 q i j - part n (fc T) 2 2 q i j
  | 1 => part n (fb T) 1 3 q i j - part n (fd T) 3 2 q i j
  | 2 => part n (fa T) 0 1 q i j - part n (fb T) 1 0 q i j
  | 3 => part n (fc T) 2 1 q i j - part n (fd T) 3 0 q i j
  | 4 => part n (fa T) 0 2 q i j
  | 5 => part n (fb T) 1 2 q i j
  | 6 => part n (fc T) 2 3 q i j
  | _ => part n (fd T) 3 3 q i j
  end%Qc.
Definition KM (n : nat) (T : four (matrix Qc)) : matrix Qc :=
  mat_of (8 * n) (8 * n) (fun i j => KB n T (i / n) (j / n) (i mod n) (j mod n)).
Definition boundary_cert (sv : solver) (gesv : gesv_t) (n : nat) (ta tb tc td : tree) : bool :=
  let one t := rt <- buildStage sv gesv false None t ;; Ok (snd rt) in
  match (a <- one ta ;; b <- one tb ;; c <- one tc ;; d <- one td ;;
         ch <- coarsen (Four (data a) (data b) (data c) (data d)) ;; Ok (modular_b (KM n (four_T ch)))) with
  | Ok r => r | _ => false end.

Lemma sel_le c l : sel c l <= 8.
Proof.
  unfold sel. destruct (nth_in_or_default l (nth c [[8; 2; 4; 0]; [2; 8; 5; 1]; [8; 3; 0; 6]; [3; 8; 1; 7]] []) 8) as [H|H]; [|lia].
  destruct (nth_in_or_default c [[8; 2; 4; 0]; [2; 8; 5; 1]; [8; 3; 0; 6]; [3; 8; 1; 7]] []) as [E|E]; [|rewrite E in H; destruct H].
  cbn [In] in E. destruct E as [E|[E|[E|[E|[]]]]]; rewrite <- E in H; cbn [In] in H; rewrite <- E; lia.
Qed.

Lemma part_sum n T c p i (v : nat -> nat -> Qc) :
  sum 4 (fun l => sum n (fun j => bfun_of n T p l i j * (if sel c l =? 8 then 0 else v (sel c l) j)))%Qc =
  sum 8 (fun q => sum n (fun j => part n T c p q i j * v q j))%Qc.
Proof.
  symmetry. rewrite (sum_ext _ _ (fun q => sum 4 (fun l => sum n (fun j => (if sel c l =? q then bfun_of n T p l i j else 0) * v q j)))%Qc).
  2:{ intros q _. rewrite sum_swap. apply sum_ext. intros j _. unfold part. rewrite Qcmult_comm, <- sum_scal_l. apply sum_ext. intros l _. ring. }
  rewrite sum_swap. apply sum_ext. intros l _. rewrite sum_swap. apply sum_ext. intros j _. pose proof (sel_le c l) as HS.
  destruct (Nat.eqb_spec (sel c l) 8) as [E|E].
  - rewrite sum_zero; [ring|]. intros q Hq. rewrite E. destruct (Nat.eqb_spec 8 q); [lia|ring].
  - rewrite (sum_single 8 (sel c l)); [rewrite Nat.eqb_refl; reflexivity|lia|]. intros q Hq Hne. destruct (Nat.eqb_spec (sel c l) q); [congruence|ring].
Qed.

Lemma boundary_unique n T g z : n <> 0 -> all4 (square (4 * n)) T -> nonsingular (KM n T) -> length g = 8 * n -> length z = 4 * n ->
  (forall p i, p < 4 -> i < n -> vval g (p * n + i) = 0%Qc) ->
  continuous n (fluxes T (children_data n g z)) ->
  (forall p i, 4 <= p -> p < 8 -> i < n -> vval (outer_flux n (fluxes T (children_data n g z))) (p * n + i) = 0%Qc) ->
  g = zeros (8 * n).
Proof.
  intros Hn HT (_ & _ & HN) Lg Lz G0 C O. change (nr (KM n T)) with (8 * n) in HN.
  pose proof (isV_self 8 n g Lg) as VG. pose proof (isV_self 4 n z Lz) as VZ.
  destruct (fluxes_B n T g z _ _ HT VG VZ) as (FA & FB & FC & FD).
  pose proof (proj1 (continuous_B n _ _ _ _ _ FA FB FC FD) C) as C'. clear C.
  destruct (outer_flux_B n _ _ _ _ _ FA FB FC FD) as [_ OF].
  set (v := fun q j => if q <? 4 then vval z (q * n + j) else vval g (q * n + j)).
  assert (D : forall c l d, nth c [dA; dB; dC; dD] dA = d -> c < 4 -> l < 4 -> forall j, j < n ->
    d (fun p i => vval g (p * n + i)) (fun p i => vval z (p * n + i)) l j = (if sel c l =? 8 then 0 else v (sel c l) j)%Qc).
  { intros c l d <- Hc Hl j Hj. destruct c as [|[|[|[|c]]]]; try lia; destruct l as [|[|[|[|l]]]]; try lia; cbn [nth sel dA dB dC dD]; unfold sel; cbn [nth Nat.eqb]; unfold v; cbn [Nat.ltb Nat.leb]; auto. }
  assert (FL : forall c d T', nth c [dA; dB; dC; dD] dA = d -> c < 4 -> forall p i,
    fl n (bfun_of n T') (d (fun p i => vval g (p * n + i)) (fun p i => vval z (p * n + i))) p i = sum 8 (fun q => sum n (fun j => part n T' c p q i j * v q j))%Qc).
  { intros c d T' Ed Hc p i. rewrite <- part_sum. unfold fl. apply sum_ext. intros l Hl. apply sum_ext. intros j Hj. rewrite (D c l d Ed Hc Hl j Hj). reflexivity. }
  assert (FS : forall X Y : nat -> nat -> Qc, (sum 8 (fun q => sum n (fun j => X q j * v q j)) = sum 8 (fun q => sum n (fun j => Y q j * v q j)) ->
     sum 8 (fun q => sum n (fun j => (X q j - Y q j) * v q j)) = 0)%Qc).
  { intros X Y E. transitivity (sum 8 (fun q => sum n (fun j => X q j * v q j)) - sum 8 (fun q => sum n (fun j => Y q j * v q j)))%Qc; [|rewrite E; ring].
    rewrite <- sum_minus. apply sum_ext. intros q _. rewrite <- sum_minus. apply sum_ext. intros j _. ring. }
  assert (R : forall r i, r < 8 -> i < n -> sum 8 (fun q => sum n (fun j => KB n T r q i j * v q j))%Qc = 0%Qc).
  { intros r i Hr Hi. destruct (C' i Hi) as (C0 & C1 & C2 & C3).
    rewrite (FL 0 dA), (FL 2 dC) in C0 by (reflexivity || lia). rewrite (FL 1 dB), (FL 3 dD) in C1 by (reflexivity || lia).
    rewrite (FL 0 dA), (FL 1 dB) in C2 by (reflexivity || lia). rewrite (FL 2 dC), (FL 3 dD) in C3 by (reflexivity || lia).
    destruct r as [|[|[|[|r]]]]; cbn [KB].
    - apply FS. exact C0.
    - apply FS. exact C1.
    - apply FS. exact C2.
    - apply FS. exact C3.
    - pose proof (O (4 + r) i ltac:(lia) Hr Hi) as O'. rewrite OF in O' by (lia || exact Hi).
      destruct r as [|[|[|[|r]]]]; try lia; cbn [Nat.add outF] in O'.
      + rewrite (FL 0 dA) in O' by (reflexivity || lia). exact O'.
      + rewrite (FL 1 dB) in O' by (reflexivity || lia). exact O'.
      + rewrite (FL 2 dC) in O' by (reflexivity || lia). exact O'.
      + rewrite (FL 3 dD) in O' by (reflexivity || lia). exact O'. }
  assert (DM : forall q j, j < n -> (q * n + j) / n = q /\ (q * n + j) mod n = j).
  { intros q j Hj. split; [rewrite Nat.div_add_l, (Nat.div_small j) by lia; lia|]. rewrite Nat.add_comm, Nat.mod_add by lia. apply Nat.mod_small; lia. }
  assert (Z : forall k, k < 8 * n -> v (k / n) (k mod n) = 0%Qc).
  { apply HN. intros k Hk. assert (Hq : k / n < 8) by (apply Nat.div_lt_upper_bound; lia). assert (Hi : k mod n < n) by (apply Nat.mod_upper_bound; lia).
    rewrite <- (R (k / n) (k mod n) Hq Hi), sum_mul. apply sum_ext. intros q Hq'. apply sum_ext. intros j Hj. destruct (DM q j Hj) as (-> & ->). f_equal.
    unfold KM. rewrite val_mat_of by nia. destruct (DM q j Hj) as (-> & ->). reflexivity. }
  apply zeros_eq; [exact Lg|]. intros k Hk. assert (Hq : k / n < 8) by (apply Nat.div_lt_upper_bound; lia). assert (Hi : k mod n < n) by (apply Nat.mod_upper_bound; lia).
  assert (EK : k = k / n * n + k mod n) by (rewrite (Nat.div_mod k n) at 1 by lia; lia).
  destruct (Nat.ltb_spec (k / n) 4) as [L|L].
  - rewrite EK. apply G0; auto.
  - specialize (Z k Hk). unfold v in Z. destruct (Nat.ltb_spec (k / n) 4); [lia|]. rewrite <- EK in Z. exact Z.
Qed.

Lemma glued_root m sv a b c d T0 Tc g h z Ua Ub Uc Ud :
  let l := min_level a b c d in let n := m * 2 ^ l in
  Aff m (linear_leaf sv) a (fa T0) (zeros (4 * (m * 2 ^ level a))) ->
  Aff m (linear_leaf sv) b (fb T0) (zeros (4 * (m * 2 ^ level b))) ->
  Aff m (linear_leaf sv) c (fc T0) (zeros (4 * (m * 2 ^ level c))) ->
  Aff m (linear_leaf sv) d (fd T0) (zeros (4 * (m * 2 ^ level d))) ->
  resolved (level a - l) n (fa T0) (fa Tc) -> resolved (level b - l) n (fb T0) (fb Tc) ->
  resolved (level c - l) n (fc T0) (fc Tc) -> resolved (level d - l) n (fd T0) (fd Tc) ->
  glued m (linear_leaf sv) (QNode a b c d) g h (SNode z Ua Ub Uc Ud) ->
  length g = 8 * n /\ length z = 4 * n /\ continuous n (fluxes Tc (children_data n g z)) /\ h = outer_flux n (fluxes Tc (children_data n g z)).
Proof.
  intros l n Aa Ab Ac Ad Ra Rb Rc Rd G. cbn [glued] in G. fold l n in G.
  destruct G as (Lg & Lz & H & GA & GB & GC & GD & C & O). split; [exact Lg|]. split; [exact Lz|].
  destruct (min_level_le a b c d) as (La & Lb & Lc & Ld). fold l in La, Lb, Lc, Ld.
  destruct (children_data_length n g z Lg Lz) as (Xa & Xb & Xc & Xd).
  set (x := children_data n g z) in *.
  assert (one : forall s T0s Tcs y h U, l <= level s -> Aff m (linear_leaf sv) s T0s (zeros (4 * (m * 2 ^ level s))) ->
    resolved (level s - l) n T0s Tcs -> length y = 4 * n ->
    glued m (linear_leaf sv) s (refine_by (level s - l) n y) h U ->
    coarsen_by (level s - l) n h = apply_op Tcs y).
  { intros s T0s Tcs y hh U Hl (Sq & _ & _ & Hu) (_ & R) Ly GU. rewrite (Hu _ _ _ GU).
    rewrite vplus_zeros_n; [symmetry; auto|]. rewrite apply_op_length. apply Sq. }
  rewrite (one a _ _ _ _ _ La Aa Ra Xa GA), (one b _ _ _ _ _ Lb Ab Rb Xb GB),
          (one c _ _ _ _ _ Lc Ac Rc Xc GC), (one d _ _ _ _ _ Ld Ad Rd Xd GD) in C, O.
  split; [exact C|exact O].
Qed.

Lemma boundary_cert_ok m sv gesv load a b c d ta tb tc td : let n := m * 2 ^ min_level a b c d in
  m <> 0 -> gesv_contract gesv -> fresh load a ta -> fresh load b tb -> fresh load c tc -> fresh load d td ->
  good_leaves m sv (QNode a b c d) -> well_posed m sv (QNode a b c d) -> 3 <= m \/ equal_levels (QNode a b c d) ->
  boundary_cert sv gesv n ta tb tc td = true ->
  forall g h U, glued m (linear_leaf sv) (QNode a b c d) g h U ->
    (forall p i, p < 4 -> i < n -> vval g (p * n + i) = 0%Qc) -> (forall p i, 4 <= p -> p < 8 -> i < n -> vval h (p * n + i) = 0%Qc) ->
    g = zeros (8 * n).
Proof.
  intros n Hm Hge Fa Fb Fc Fd (Ga & Gb & Gc & Gd) W H3 E g h U GZ G0 H0. unfold boundary_cert in E. cbv zeta in E.
    pose proof (equal_levels_zero m a b c d H3) as Hk. cbv zeta in Hk.
    assert (H3' : (3 <= m \/ equal_levels a) /\ (3 <= m \/ equal_levels b) /\
                  (3 <= m \/ equal_levels c) /\ (3 <= m \/ equal_levels d)).
    { destruct H3 as [|(_ & _ & _ & Ha & Hb & Hc & Hd)]; [auto|]. repeat split; right; auto. }
    destruct H3' as (H3a & H3b & H3c & H3d).
    match type of E with match ?r with _ => _ end = true => destruct r as [v| |] eqn:E'; try discriminate E end. subst v.
    apply bind_inv in E' as (ta' & Ea & E'). apply bind_inv in E' as (tb' & Eb & E').
    apply bind_inv in E' as (tc' & Ec & E'). apply bind_inv in E' as (td' & Ed & E').
    apply bind_inv in E' as (ch' & Eco & E'). apply Ok_inj in E'. rename E' into HX.
    apply bind_inv in Ea as ((sa & ya) & Ea & Q). apply Ok_inj in Q. cbn [snd] in Q. subst ya.
    apply bind_inv in Eb as ((sb & yb) & Eb & Q). apply Ok_inj in Q. cbn [snd] in Q. subst yb.
    apply bind_inv in Ec as ((sc & yc) & Ec & Q). apply Ok_inj in Q. cbn [snd] in Q. subst yc.
    apply bind_inv in Ed as ((sd & yd) & Ed & Q). apply Ok_inj in Q. cbn [snd] in Q. subst yd.
    set (l := min_level a b c d) in *.
    destruct (min_level_le a b c d) as (La & Lb & Lc & Ld). fold l in La, Lb, Lc, Ld.
    assert (Hn : n <> 0) by (pose proof (pow_pos l); unfold n; nia).
    assert (H3n : 3 <= m -> 3 <= n) by (intros; pose proof (pow_pos l); unfold n; nia).
    assert (WC : well_posed m sv a /\ well_posed m sv b /\ well_posed m sv c /\ well_posed m sv d).
    { repeat split; intros a' b' c' d' Hs; apply W; cbn [subtree]; auto. }
    destruct WC as (Wa & Wb & Wc & Wd).
    assert (BB : forall s' t' st' st'' tt, fresh load s' t' -> good_leaves m sv s' -> well_posed m sv s' ->
       3 <= m \/ equal_levels s' -> buildStage sv gesv false st' t' = Ok (st'', tt) ->
       built m sv 0 s' tt).
    { intros s' t' st' st'' tt F' G' W' Q' R'.
      destruct (build_ok m sv gesv load s' t' (build_leaf sv false) st' Hm Hge (build_leaf_off sv m) F' G' W' Q')
        as (x & y & R & B). unfold buildStage in R'. rewrite R' in R. apply Ok_inj in R. injection R as _ ->. exact B. }
    pose proof (BB _ _ _ _ _ Fa Ga Wa H3a Ea) as Ba. pose proof (BB _ _ _ _ _ Fb Gb Wb H3b Eb) as Bb.
    pose proof (BB _ _ _ _ _ Fc Gc Wc H3c Ec) as Bc. pose proof (BB _ _ _ _ _ Fd Gd Wd H3d Ed) as Bd.
    assert (CO : forall s' t', good_leaves m sv s' -> built m sv 0 s' t' -> l <= level s' ->
              child_ok n (data t') (level s' - l)).
    { intros s' t' G' B' Hl. destruct (built_root m sv 0 s' t' Hm G' B') as (N0 & X0 & S0 & _).
      rewrite Nat.sub_0_r in S0. unfold child_ok, n. rewrite scale_level by auto. auto. }
    destruct (built_lin m sv 0 a ta' Hm Ga Ba) as (T0a & Aa & Ra). destruct (built_lin m sv 0 b tb' Hm Gb Bb) as (T0b & Ab & Rb).
    destruct (built_lin m sv 0 c tc' Hm Gc Bc) as (T0c & Ac & Rc). destruct (built_lin m sv 0 d td' Hm Gd Bd) as (T0d & Ad & Rd).
    rewrite Nat.sub_0_r in Ra, Rb, Rc, Rd.
    assert (RT : forall s' T0s T Tc, l <= level s' -> resolved 0 (m * 2 ^ level s') T0s T ->
      resolved (level s' - l) n T Tc -> resolved (level s' - l) n T0s Tc).
    { intros s' T0s T Tc Hl R1 R2. eapply resolved_trans0; [|exact R2].
      unfold n. rewrite scale_level by auto. exact R1. }
    destruct (coarsen_ok n (Four (data ta') (data tb') (data tc') (data td'))
                (Four (level a - l) (level b - l) (level c - l) (level d - l)) Hn)
      as (Tc & Eco' & RA & RB & RC & RD).
    { split; [exact (min_sub a b c d)|]. destruct Hk as [Hk|Hk]; [left; auto|right; exact Hk]. }
    { apply (CO a); auto. } { apply (CO b); auto. } { apply (CO c); auto. } { apply (CO d); auto. }
    rewrite Eco in Eco'. apply Ok_inj in Eco'. cbn [fa fb fc fd] in Eco', RA, RB, RC, RD.
    assert (HT : four_T ch' = Tc) by (rewrite Eco'; destruct Tc; reflexivity).
    assert (Sq : all4 (square (4 * n)) Tc) by (split4; [apply RA|apply RB|apply RC|apply RD]).
    rewrite HT in HX. destruct U as [|z Ua Ub Uc Ud]; [destruct GZ|].
    destruct (glued_root m sv a b c d (Four T0a T0b T0c T0d) Tc g h z Ua Ub Uc Ud Aa Ab Ac Ad
      (RT a T0a _ _ La Ra RA) (RT b T0b _ _ Lb Rb RB) (RT c T0c _ _ Lc Rc RC) (RT d T0d _ _ Ld Rd RD) GZ) as (Lg & Lz & C & EH).
    rewrite EH in H0. eapply boundary_unique; eauto. apply modular_b_ok; [apply mat_of_wf|reflexivity|exact HX].
Qed.
