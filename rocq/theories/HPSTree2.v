(** The three stages on a quadtree succeed and solve the glued problem. *)
From Coq Require Import Permutation.
From Verif Require Import Base VectorModel MatrixModel LinSpec MatProofs MatProofs2 MatProofs3 LinProofs.
From Verif Require Import BlockProofs HPSModel HPSSpec HPSProofs HPSProofs2 HPSProofs3 HPSProofs4 HPSTree.

Definition basis (n j : nat) : list Qc := vec_of n (fun i => if i =? j then 1%Qc else 0%Qc).

Lemma apply_basis T n j i : nc T = n -> i < nr T -> j < n -> vval (apply_op T (basis n j)) i = val T i j.
Proof.
  intros <- Hi Hj. rewrite apply_op_vec, vval_vec_of by auto.
  rewrite (sum_single (nc T) j); auto.
  - unfold basis. rewrite vval_vec_of, Nat.eqb_refl by auto. ring.
  - intros k Hk Hne. unfold basis. rewrite vval_vec_of by auto.
    destruct (Nat.eqb_spec k j); [lia|]. ring.
Qed.

Lemma apply_ext_eq n A B : square n A -> square n B ->
  (forall g, length g = n -> apply_op A g = apply_op B g) -> A = B.
Proof.
  intros (WA & NA & CA) (WB & NB & CB) H.
  apply (mat_ext 0%Qc); auto; try congruence.
  intros i j Hi Hj.
  change (qent A i j = qent B i j).
  rewrite <- !val_ent by (auto; congruence).
  rewrite <- (apply_basis A n), <- (apply_basis B n) by congruence.
  rewrite H by (unfold basis; apply vec_of_length). reflexivity.
Qed.

Lemma resolved_0_eq c T Tc : square (4 * c) T -> resolved 0 c T Tc -> Tc = T.
Proof. intros Sq (Sc & R). apply (apply_ext_eq (4 * c)); auto. Qed.

Lemma resolved_trans0 k c T0 T Tc : resolved 0 (c * 2 ^ k) T0 T -> resolved k c T Tc -> resolved k c T0 Tc.
Proof.
  intros (_ & R0) (Sq & R). split; [exact Sq|]. intros g Lg. rewrite R by auto.
  rewrite R0 by (apply refine_by_length; auto). reflexivity.
Qed.

Lemma built_coarsen m sv k s t Tc : m <> 0 -> good_leaves m sv s -> built m sv 0 s t -> k <= level s ->
  (k = 0 \/ 3 <= m) -> resolved k (m * 2 ^ (level s - k)) (pT (data t)) Tc ->
  built m sv k s (set_data t (set_nc (set_T (data t) Tc) k)).
Proof.
  intros Hm Hg HB Hk H3 R. pose proof (built_root m sv 0 s t Hm Hg HB) as (_ & _ & Sq & _).
  destruct s as [G f|a b c d], t as [p|p ta tb tc td]; cbn [built data set_data] in *; try tauto.
  - cbn [level] in *. assert (k = 0) as -> by lia. apply resolved_0_eq in R; [subst Tc|exact Sq].
    destruct HB as (_ & E1 & E2 & E3). auto.
  - destruct HB as (Ba & Bb & Bc & Bd & _ & _ & Ep & Ex & HU & T0 & HF & HR).
    change (level (QNode a b c d)) with (S (min_level a b c d)) in *.
    set (l := min_level a b c d) in *.
    repeat (split; [solve [auto]|]). exists T0. split; [exact HF|].
    cbn [pT set_nc set_T]. eapply resolved_trans0; [|exact R].
    rewrite Nat.sub_0_r in HR. rewrite <- Nat.mul_assoc, <- Nat.pow_add_r.
    replace (S l - k + k) with (S l) by lia. exact HR.
Qed.

Lemma wp_sub m sv s s' : well_posed m sv s -> (forall x, subtree x s' -> subtree x s) -> well_posed m sv s'.
Proof. intros H Hs a b c d Hab. apply H. auto. Qed.

Lemma sub_refl s : subtree s s.
Proof. destruct s; simpl; auto. Qed.

Lemma node_interface m sv a b c d T0 Tc :
  well_posed m sv (QNode a b c d) ->
  let l := min_level a b c d in let n := m * 2 ^ l in
  Aff m (linear_leaf sv) a (fa T0) (zeros (4 * (m * 2 ^ level a))) ->
  Aff m (linear_leaf sv) b (fb T0) (zeros (4 * (m * 2 ^ level b))) ->
  Aff m (linear_leaf sv) c (fc T0) (zeros (4 * (m * 2 ^ level c))) ->
  Aff m (linear_leaf sv) d (fd T0) (zeros (4 * (m * 2 ^ level d))) ->
  resolved (level a - l) n (fa T0) (fa Tc) -> resolved (level b - l) n (fb T0) (fb Tc) ->
  resolved (level c - l) n (fc T0) (fc Tc) -> resolved (level d - l) n (fd T0) (fd Tc) ->
  interface_unique n Tc.
Proof.
  intros HW l n Aa Ab Ac Ad Ra Rb Rc Rd z Lz C.
  destruct (min_level_le a b c d) as (La & Lb & Lc & Ld). fold l in La, Lb, Lc, Ld.
  destruct (children_data_length n (zeros (8 * n)) z (zeros_length _) Lz) as (Xa & Xb & Xc & Xd).
  set (x := children_data n (zeros (8 * n)) z) in *.
  assert (one : forall s T0s Tcs y, l <= level s -> Aff m (linear_leaf sv) s T0s (zeros (4 * (m * 2 ^ level s))) ->
    resolved (level s - l) n T0s Tcs -> length y = 4 * n ->
    exists U, glued m (linear_leaf sv) s (refine_by (level s - l) n y) (apply_op T0s (refine_by (level s - l) n y)) U /\
      coarsen_by (level s - l) n (apply_op T0s (refine_by (level s - l) n y)) = apply_op Tcs y).
  { intros s T0s Tcs y Hl (Sq & _ & Ex & _) (_ & R) Ly.
    destruct (Ex (refine_by (level s - l) n y)) as (U & GU).
    { rewrite refine_by_length by auto. unfold n. rewrite scale_level by auto. reflexivity. }
    exists U. rewrite vplus_zeros_n in GU; [|rewrite apply_op_length; apply Sq].
    split; [exact GU|]. symmetry. apply R. auto. }
  destruct (one a _ _ _ La Aa Ra Xa) as (Ua & GA & EA). destruct (one b _ _ _ Lb Ab Rb Xb) as (Ub & GB & EB).
  destruct (one c _ _ _ Lc Ac Rc Xc) as (Uc & GC & EC). destruct (one d _ _ _ Ld Ad Rd Xd) as (Ud & GD & ED).
  eapply (HW a b c d (sub_refl _) _ z Ua Ub Uc Ud).
  cbn [glued]. fold l n. split; [apply zeros_length|]. split; [exact Lz|].
  exists (Four (apply_op (fa T0) (refine_by (level a - l) n (fa x))) (apply_op (fb T0) (refine_by (level b - l) n (fb x)))
               (apply_op (fc T0) (refine_by (level c - l) n (fc x))) (apply_op (fd T0) (refine_by (level d - l) n (fd x)))).
  cbn [fa fb fc fd]. fold x. split; [exact GA|]. split; [exact GB|]. split; [exact GC|]. split; [exact GD|].
  rewrite EA, EB, EC, ED. split; [exact C|reflexivity].
Qed.

Lemma equal_levels_zero m a b c d : 3 <= m \/ equal_levels (QNode a b c d) ->
  let l := min_level a b c d in
  3 <= m \/ (level a - l = 0 /\ level b - l = 0 /\ level c - l = 0 /\ level d - l = 0).
Proof.
  intros [H|H] l; [auto|]. right. destruct H as (E1 & E2 & E3 & _). unfold l, min_level. lia.
Qed.

Lemma min_sub a b c d :
  Nat.min (Nat.min (level a - min_level a b c d) (level b - min_level a b c d))
          (Nat.min (level c - min_level a b c d) (level d - min_level a b c d)) = 0.
Proof. unfold min_level. lia. Qed.

Lemma build_ok m sv gesv load s t {St} (lf : St -> patch -> res (St * patch)) st :
  m <> 0 -> gesv_contract gesv ->
  (forall st p, affine_solver m sv (pgrid p) -> exists T st',
     lf st p = Ok (st', set_T p T) /\ sv_build sv (pgrid p) = Ok T) ->
  fresh load s t -> good_leaves m sv s -> well_posed m sv s ->
  3 <= m \/ equal_levels s ->
  exists st' t', tmerge lf (merge4to1 gesv) st t = Ok (st', t') /\ built m sv 0 s t'.
Proof.
  intros Hm Hge Hlf. revert st t. induction s as [G f|a IHa b IHb c IHc d IHd]; intros st t HF Hg HW H3.
  - destruct t as [p|]; [|destruct HF]. destruct HF as (EG & E0 & _). destruct Hg as (HA & _). subst G.
    destruct (Hlf st p HA) as (T & st' & E & EB). cbn [tmerge]. rewrite E, bind_Ok. cbn [fst snd].
    exists st', (Leaf (set_T p T)). split; [reflexivity|]. cbn [built pgrid pnc pT set_T]. auto.
  - destruct t as [|p ta tb tc td]; [destruct HF|]. destruct HF as (E0 & Fa & Fb & Fc & Fd).
    pose proof (equal_levels_zero m a b c d H3) as Hk. cbv zeta in Hk.
    assert (H3' : (3 <= m \/ equal_levels a) /\ (3 <= m \/ equal_levels b) /\
                  (3 <= m \/ equal_levels c) /\ (3 <= m \/ equal_levels d)).
    { destruct H3 as [|(_ & _ & _ & Ha & Hb & Hc & Hd)]; [auto|]. repeat split; right; auto. }
    destruct H3' as (H3a & H3b & H3c & H3d). destruct Hg as (Ga & Gb & Gc & Gd).
    assert (Wa : well_posed m sv a) by (eapply wp_sub; [exact HW|intros; simpl; auto]).
    assert (Wb : well_posed m sv b) by (eapply wp_sub; [exact HW|intros; simpl; auto]).
    assert (Wc : well_posed m sv c) by (eapply wp_sub; [exact HW|intros; simpl; auto]).
    assert (Wd : well_posed m sv d) by (eapply wp_sub; [exact HW|intros; simpl; auto]).
    cbn [tmerge].
    destruct (IHa st ta Fa Ga Wa H3a) as (sa & ta' & Ea & Ba). rewrite Ea, bind_Ok. cbn [fst snd]. clear Ea IHa.
    destruct (IHb sa tb Fb Gb Wb H3b) as (sb & tb' & Eb & Bb). rewrite Eb, bind_Ok. cbn [fst snd]. clear Eb IHb.
    destruct (IHc sb tc Fc Gc Wc H3c) as (sc & tc' & Ec & Bc). rewrite Ec, bind_Ok. cbn [fst snd]. clear Ec IHc.
    destruct (IHd sc td Fd Gd Wd H3d) as (sd & td' & Ed & Bd). rewrite Ed, bind_Ok. cbn [fst snd]. clear Ed IHd.
    set (l := min_level a b c d) in *. set (n := m * 2 ^ l).
    destruct (min_level_le a b c d) as (La & Lb & Lc & Ld). fold l in La, Lb, Lc, Ld.
    assert (Hn : n <> 0) by (pose proof (pow_pos l); unfold n; nia).
    assert (H3n : 3 <= m -> 3 <= n) by (intros; pose proof (pow_pos l); unfold n; nia).
    assert (CO : forall s' t', good_leaves m sv s' -> built m sv 0 s' t' -> l <= level s' ->
              child_ok n (data t') (level s' - l)).
    { intros s' t' G' B' Hl. destruct (built_root m sv 0 s' t' Hm G' B') as (N0 & X0 & S0 & _).
      rewrite Nat.sub_0_r in S0. unfold child_ok, n. rewrite scale_level by auto. auto. }
    destruct (built_lin m sv 0 a ta' Hm Ga Ba) as (T0a & Aa & Ra). destruct (built_lin m sv 0 b tb' Hm Gb Bb) as (T0b & Ab & Rb).
    destruct (built_lin m sv 0 c tc' Hm Gc Bc) as (T0c & Ac & Rc). destruct (built_lin m sv 0 d td' Hm Gd Bd) as (T0d & Ad & Rd).
    rewrite Nat.sub_0_r in Ra, Rb, Rc, Rd.
    assert (RT : forall s' T0s T Tc, l <= level s' -> resolved 0 (m * 2 ^ level s') T0s T ->
      resolved (level s' - l) n T Tc -> resolved (level s' - l) n T0s Tc).
    { intros s' T0s T Tc Hl R1 R2. eapply resolved_trans0; [|exact R2].
      unfold n. rewrite scale_level by auto. exact R1. }
    set (k := Four (level a - l) (level b - l) (level c - l) (level d - l)).
    destruct (family_build gesv p (Four (data ta') (data tb') (data tc') (data td')) n k)
      as (Tc & X & S & H & T & E & RA & RB & RC & RD & HFam & HUn); auto.
    { split; [exact (min_sub a b c d)|]. destruct Hk as [Hk|Hk]; [left; auto|right; exact Hk]. }
    { apply (CO a); auto. } { apply (CO b); auto. } { apply (CO c); auto. } { apply (CO d); auto. }
    { intros Tc RA RB RC RD.
      refine (node_interface m sv a b c d (Four T0a T0b T0c T0d) Tc HW Aa Ab Ac Ad _ _ _ _).
      - exact (RT a T0a _ _ La Ra RA).
      - exact (RT b T0b _ _ Lb Rb RB).
      - exact (RT c T0c _ _ Lc Rc RC).
      - exact (RT d T0d _ _ Ld Rd RD). }
    cbv zeta in E. cbn [fa fb fc fd k] in *. rewrite E, bind_Ok. cbn [fst snd fa fb fc fd].
    eexists; eexists. split; [reflexivity|]. cbn [built]. fold l n.
    assert (BC : forall s' t' Tcs, good_leaves m sv s' -> built m sv 0 s' t' -> l <= level s' ->
      (level s' - l = 0 \/ 3 <= m) -> resolved (level s' - l) n (pT (data t')) Tcs ->
      built m sv (level s' - l) s' (set_data t' (set_nc (set_T (data t') Tcs) (level s' - l)))).
    { intros s' t' Tcs G' B' Hl Hk' R. apply built_coarsen; auto; [lia|].
      replace (level s' - (level s' - l)) with l by lia. exact R. }
    assert (DT : forall t' q, data (set_data t' q) = q) by (intros []; reflexivity).
    split; [apply BC; auto; tauto|]. split; [apply BC; auto; tauto|].
    split; [apply BC; auto; tauto|]. split; [apply BC; auto; tauto|].
    split; [lia|]. split; [auto|]. split; [exact E0|]. split; [reflexivity|].
    rewrite !DT. cbn [pT pS pH set_T set_nc set_grid set_S set_H].
    replace (Four (fa Tc) (fb Tc) (fc Tc) (fd Tc)) with Tc by (destruct Tc; reflexivity).
    split; [exact HUn|]. exists T. split; [exact HFam|]. rewrite Nat.sub_0_r. apply resolved_0.
    replace (4 * (m * 2 ^ Datatypes.S l)) with (8 * n) by (unfold n; rewrite Nat.pow_succ_r'; lia).
    apply HFam.
Qed.

(** * Upwards *)

(** Every leaf's load is what the callback returns. *)
Fixpoint has_loads (load : grid -> list Qc) (s : qtree) : Prop :=
  match s with
  | QLeaf G f => load G = f
  | QNode a b c d => has_loads load a /\ has_loads load b /\ has_loads load c /\ has_loads load d
  end.

Lemma fresh_loads load s t : fresh load s t -> has_loads load s.
Proof.
  revert t. induction s as [G f|a IHa b IHb c IHc d IHd]; intros [p|p ta tb tc td]; cbn [fresh has_loads]; try tauto.
  intros (_ & Fa & Fb & Fc & Fd). split4; eauto.
Qed.

Lemma data_set t q : data (set_data t q) = q.
Proof. destruct t; reflexivity. Qed.

Lemma built_set_h m sv k s t h : built m sv k s t -> built m sv k s (set_data t (set_h (data t) h)).
Proof. destruct s, t; cbn [built data set_data]; auto. Qed.

Lemma upped_coarsen m sv k s t : k <= level s -> upped m sv 0 s t ->
  upped m sv k s (set_data t (set_h (data t) (coarsen_by k (m * 2 ^ (level s - k)) (ph (data t))))).
Proof.
  destruct s as [G f|a b c d], t as [p|p ta tb tc td]; cbn [upped data set_data]; try tauto.
  - cbn [level]. intros Hk (_ & E1 & E2). assert (k = 0) as -> by lia. auto.
  - change (level (QNode a b c d)) with (S (min_level a b c d)).
    set (l := min_level a b c d). intros Hk (Pa & Pb & Pc & Pd & _ & Lw & Cw & Eh).
    repeat (split; [solve [auto]|]). cbn [ph pw set_h]. rewrite Eh. reflexivity.
Qed.

Lemma up_ok m sv gesv load s k t :
  m <> 0 -> gesv_contract gesv -> has_loads load s -> good_leaves m sv s -> built m sv k s t ->
  exists t', tmerge (up_leaf sv load) (upwards4to1 gesv false) tt t = Ok (tt, t') /\
    built m sv k s t' /\ upped m sv 0 s t' /\ pT (data t') = pT (data t).
Proof.
  intros Hm Hge. revert k t. induction s as [G f|a IHa b IHb c IHc d IHd]; intros k t HL Hg HB.
  - destruct t as [p|]; [|destruct HB]. destruct HB as (-> & EG & E0 & EB).
    destruct Hg as (HA & Lf). cbn [has_loads] in HL.
    destruct (square_unique m sv G (pT p) f HA EB Lf) as (Sq & h & Eh & Lh & HM).
    cbn [tmerge]. unfold up_leaf. cbn [pgrid pf set_f]. rewrite EG, HL, Eh, bind_Ok, bind_Ok. cbn [fst snd].
    eexists. split; [reflexivity|]. cbn [built upped data pgrid pnc pT pf ph set_h set_f]. auto 10.
  - destruct t as [|p ta tb tc td]; [destruct HB|]. destruct Hg as (Ga & Gb & Gc & Gd).
    destruct HB as (Ba & Bb & Bc & Bd & Hk & H3 & Ep & Ex & HU & T0 & HF & HR).
    destruct HL as (HLa & HLb & HLc & HLd).
    set (l := min_level a b c d) in *. set (n := m * 2 ^ l) in *.
    destruct (min_level_le a b c d) as (La & Lb & Lc & Ld). fold l in La, Lb, Lc, Ld.
    assert (Hn : n <> 0) by (pose proof (pow_pos l); unfold n; nia).
    cbn [tmerge].
    destruct (IHa _ _ HLa Ga Ba) as (ta' & Ea & Ba' & Pa & ETa). rewrite Ea, bind_Ok. cbn [fst snd]. clear Ea IHa.
    destruct (IHb _ _ HLb Gb Bb) as (tb' & Eb & Bb' & Pb & ETb). rewrite Eb, bind_Ok. cbn [fst snd]. clear Eb IHb.
    destruct (IHc _ _ HLc Gc Bc) as (tc' & Ec & Bc' & Pc & ETc). rewrite Ec, bind_Ok. cbn [fst snd]. clear Ec IHc.
    destruct (IHd _ _ HLd Gd Bd) as (td' & Ed & Bd' & Pd & ETd). rewrite Ed, bind_Ok. cbn [fst snd]. clear Ed IHd.
    set (ch := Four (data ta') (data tb') (data tc') (data td')).
    assert (HT : four_T ch = Four (pT (data ta)) (pT (data tb)) (pT (data tc)) (pT (data td))).
    { unfold four_T, fmap, ch. cbn [fa fb fc fd]. rewrite ETa, ETb, ETc, ETd. reflexivity. }
    assert (CO : forall s' t', good_leaves m sv s' -> built m sv (level s' - l) s' t' -> upped m sv 0 s' t' ->
      l <= level s' -> (fun q => gnx (pgrid q) = n * 2 ^ pnc q /\ length (ph q) = 4 * (n * 2 ^ pnc q) /\
                                 square (4 * n) (pT q)) (data t') /\ pnc (data t') = level s' - l).
    { intros s' t' G' B' P' Hl. destruct (built_root m sv _ s' t' Hm G' B') as (N0 & X0 & S0 & _).
      destruct (upped_aff m sv _ _ s' t' Hm G' B' P') as (T0' & h0' & (_ & Lh & _) & _ & Eh).
      replace (level s' - (level s' - l)) with l in S0 by lia. fold n in S0.
      cbn beta. rewrite N0. unfold n at 1 2. rewrite scale_level by auto. rewrite Eh. cbn [coarsen_by]. auto. }
    destruct (CO a ta' Ga Ba' Pa La) as (COa & Na). destruct (CO b tb' Gb Bb' Pb Lb) as (COb & Nb).
    destruct (CO c tc' Gc Bc' Pc Lc) as (COc & Nc). destruct (CO d td' Gd Bd' Pd Ld) as (COd & Nd).
    destruct (family_up gesv p ch n) as (X & w & h & E & Lw & Lh & Cw & Eh); auto.
    { split4; assumption. }
    { rewrite HT. exact HU. }
    { rewrite HT. apply HF. }
    rewrite HT in Cw, Eh. rewrite E, bind_Ok. unfold ch. unfold fmap in *. cbn [fst snd fa fb fc fd ch] in *.
    rewrite Na, Nb, Nc, Nd in *.
    eexists. split; [reflexivity|].
    assert (BC : forall s' t' q, built m sv (level s' - l) s' t' ->
      built m sv (level s' - l) s' (set_data t' (set_h (data t') q))) by (intros; apply built_set_h; auto).
    assert (PC : forall s' t', l <= level s' -> upped m sv 0 s' t' ->
      upped m sv (level s' - l) s' (set_data t' (set_h (data t') (coarsen_by (level s' - l) n (ph (data t')))))).
    { intros s' t' Hl P'. pose proof (upped_coarsen m sv (level s' - l) s' t' ltac:(lia) P') as Q.
      replace (level s' - (level s' - l)) with l in Q by lia. exact Q. }
    split; [|split].
    + cbn [built]. fold l n. rewrite !data_set. cbn [pT set_h]. rewrite ETa, ETb, ETc, ETd.
      repeat (split; [solve [auto]|]). exists T0. split; [exact HF|exact HR].
    + cbn [upped]. fold l n. rewrite !data_set. cbn [pT ph pw set_h set_w set_X]. rewrite ETa, ETb, ETc, ETd.
      repeat (split; [solve [auto]|]). split; [lia|]. split; [auto|]. split; [exact Cw|]. exact Eh.
    + reflexivity.
Qed.

(** * Solve *)
Lemma solve_ok m sv s k t g :
  m <> 0 -> good_leaves m sv s -> built m sv k s t -> upped m sv k s t ->
  length g = 4 * (m * 2 ^ (level s - k)) ->
  exists t' U h, tsplit (leafSolve sv false) (split1to4 false) t (set_g (data t) g) = Ok t' /\
    glued m (solver_leaf sv) s (refine_by k (m * 2 ^ (level s - k)) g) h U /\
    computed_values t' = leaf_values U.
Proof.
  intros Hm. revert k t g. induction s as [G f|a IHa b IHb c IHc d IHd]; intros k t g Hg HB HP Lg.
  - destruct t as [p|]; [|destruct HB]. destruct HB as (-> & EG & E0 & EB). destruct HP as (_ & Ef & Eh).
    destruct Hg as (HA & Lf). cbn [level Nat.sub Nat.pow] in *. rewrite Nat.mul_1_r in *.
    destruct (square_unique m sv G (pT p) f HA EB Lf) as (Sq & h & Eh' & Lh & HM).
    destruct (HM g Lg) as ((u & Eu) & Em).
    cbn [tsplit data]. unfold leafSolve. cbn [pgrid pg pf set_g]. rewrite EG, Ef, Eu, bind_Ok, bind_Ok.
    eexists. exists (SLeaf g u). eexists. split; [reflexivity|]. split.
    + cbn [glued refine_by]. split; [auto|]. split; [auto|]. split; [exact Eu|exact Em].
    + reflexivity.
  - destruct t as [|p ta tb tc td]; [destruct HB|].
    destruct (upped_aff m sv k k _ _ Hm Hg HB HP) as (T00 & h00 & _).
    destruct Hg as (Ga & Gb & Gc & Gd).
    pose proof HB as HB0. pose proof HP as HP0.
    destruct HB as (Ba & Bb & Bc & Bd & Hk & H3 & Ep & Ex & HU & T0 & HF & HR).
    destruct HP as (Pa & Pb & Pc & Pd & _ & Lw & Cw & Eh).
    set (l := min_level a b c d) in *. set (n := m * 2 ^ l) in *.
    change (level (QNode a b c d)) with (S l) in *.
    destruct (min_level_le a b c d) as (La & Lb & Lc & Ld). fold l in La, Lb, Lc, Ld.
    assert (Hn : n <> 0) by (pose proof (pow_pos l); unfold n; nia).
    set (cc := m * 2 ^ (S l - k)) in *.
    assert (Hcc : cc * 2 ^ k = 2 * n).
    { unfold cc. rewrite <- Nat.mul_assoc, <- Nat.pow_add_r. replace (S l - k + k) with (S l) by lia.
      rewrite Nat.pow_succ_r'. unfold n. lia. }
    destruct (built_root m sv _ a ta Hm Ga Ba) as (Na & Xa & Sa & _).
    destruct (built_root m sv _ b tb Hm Gb Bb) as (Nb & Xb & Sb & _).
    destruct (built_root m sv _ c tc Hm Gc Bc) as (Nc & Xc & Sc & _).
    destruct (built_root m sv _ d td Hm Gd Bd) as (Nd & Xd & Sd & _).
    cbn [tsplit data].
    destruct HF as [(WS & NS & CS) FH FT FC FF].
    pose proof (family_split false (set_g p g) (Four (data ta) (data tb) (data tc) (data td)) n Hn) as E.
    cbn [fa fb fc fd pS pw pnc pgrid pg set_g] in E.
    assert (Ps : psize (data ta) = n).
    { unfold psize. rewrite Na, Xa. rewrite <- (scale_level m l (level a)) by auto.
      apply Nat.div_mul. apply Nat.pow_nonzero. lia. }
    specialize (E Ps WS NS CS (fun _ => Lw) k cc Ep).
    assert (Ex' : gnx (pgrid p) = cc * 2 ^ k) by (rewrite Ex, Hcc; lia).
    assert (H3c : k = 0 \/ 3 <= cc) by (destruct H3; [auto|right; unfold cc; pose proof (pow_pos (S l - k)); nia]).
    specialize (E Ex' Hcc H3c Lg). cbv zeta in E. rewrite E, bind_Ok. cbn [fst snd fa fb fc fd]. clear E.
    set (g' := refine_by k cc g).
    assert (Lg' : length g' = 8 * n) by (unfold g'; rewrite refine_by_length by auto; lia).
    set (z := vplus (apply_op (pS p) g') (pw p)).
    assert (Lz : length z = 4 * n) by (unfold z; rewrite vplus_length, apply_op_length; auto).
    destruct (children_data_length n g' z Lg' Lz) as (Ya & Yb & Yc & Yd).
    set (x := children_data n g' z) in *.
    assert (Hl : forall s', l <= level s' -> m * 2 ^ (level s' - (level s' - l)) = n).
    { intros s' Hl. unfold n. do 2 f_equal. lia. }
    destruct (IHa (level a - l) ta (fa x) Ga Ba Pa) as (ta' & Ua & ha & EA & GA & VA); [rewrite Hl; auto|].
    destruct (IHb (level b - l) tb (fb x) Gb Bb Pb) as (tb' & Ub & hb & EB & GB & VB); [rewrite Hl; auto|].
    destruct (IHc (level c - l) tc (fc x) Gc Bc Pc) as (tc' & Uc & hc & EC & GC & VC); [rewrite Hl; auto|].
    destruct (IHd (level d - l) td (fd x) Gd Bd Pd) as (td' & Ud & hd & ED & GD & VD); [rewrite Hl; auto|].
    rewrite Hl in GA, GB, GC, GD by auto.
    rewrite EA, bind_Ok, EB, bind_Ok, EC, bind_Ok, ED, bind_Ok.
    destruct (upped_aff m sv _ _ a ta Hm Ga Ba Pa) as (T0a & h0a & Aa & Ra & Eha).
    destruct (upped_aff m sv _ _ b tb Hm Gb Bb Pb) as (T0b & h0b & Ab & Rb & Ehb).
    destruct (upped_aff m sv _ _ c tc Hm Gc Bc Pc) as (T0c & h0c & Ac & Rc & Ehc).
    destruct (upped_aff m sv _ _ d td Hm Gd Bd Pd) as (T0d & h0d & Ad & Rd & Ehd).
    rewrite Hl in Ra, Eha, Rb, Ehb, Rc, Ehc, Rd, Ehd by auto.
    eexists. exists (SNode z Ua Ub Uc Ud). eexists. split; [reflexivity|]. split.
    + apply (node_exists m (solver_leaf sv) a b c d (Four T0a T0b T0c T0d)
        (Four (pT (data ta)) (pT (data tb)) (pT (data tc)) (pT (data td))) (Four h0a h0b h0c h0d)
        (Four (ph (data ta)) (ph (data tb)) (ph (data tc)) (ph (data td))) (pS p) (pH p) T0 (pw p)
        Aa Ab Ac Ad Ra Rb Rc Rd Eha Ehb Ehc Ehd (Build_family_ops _ _ _ _ _ (conj WS (conj NS CS)) FH FT FC FF) Lw Cw g'
        Ua Ub Uc Ud ha hb hc hd Lg' GA GB GC GD).
    + unfold computed_values in *. cbn [tree_leaves leaf_values]. rewrite !map_app, VA, VB, VC, VD. reflexivity.
Qed.

(** * Uniqueness *)
Lemma glued_unique m sv s k kh t g h h' U U' :
  m <> 0 -> good_leaves m sv s -> built m sv k s t -> upped m sv kh s t ->
  glued m (solver_leaf sv) s g h U -> glued m (solver_leaf sv) s g h' U' -> U = U' /\ h = h'.
Proof.
  intros Hm Hg HB HP G1 G2. split.
  2:{ destruct (upped_aff m sv k kh s t Hm Hg HB HP) as (T0 & h0 & (_ & _ & _ & Hu) & _).
      apply Hu in G1. apply Hu in G2. congruence. }
  revert k kh t g h h' U U' Hg HB HP G1 G2.
  induction s as [G f|a IHa b IHb c IHc d IHd]; intros k kh t g h h' U U' Hg HB HP G1 G2.
  - destruct U as [g1 u1|]; [|destruct G1]. destruct U' as [g2 u2|]; [|destruct G2].
    destruct G1 as (-> & _ & E1 & _). destruct G2 as (-> & _ & E2 & _). congruence.
  - destruct t as [|p ta tb tc td]; [destruct HB|].
    destruct Hg as (Ga & Gb & Gc & Gd).
    destruct HB as (Ba & Bb & Bc & Bd & Hk & H3 & Ep & Ex & HU & T0 & HF & HR).
    destruct HP as (Pa & Pb & Pc & Pd & _ & Lw & Cw & Eh).
    set (l := min_level a b c d) in *. set (n := m * 2 ^ l) in *.
    destruct (min_level_le a b c d) as (La & Lb & Lc & Ld). fold l in La, Lb, Lc, Ld.
    destruct U as [|z1 Ua1 Ub1 Uc1 Ud1]; [destruct G1|]. destruct U' as [|z2 Ua2 Ub2 Uc2 Ud2]; [destruct G2|].
    assert (Hl : forall s', l <= level s' -> m * 2 ^ (level s' - (level s' - l)) = n).
    { intros s' Hl. unfold n. do 2 f_equal. lia. }
    destruct (upped_aff m sv _ _ a ta Hm Ga Ba Pa) as (T0a & h0a & Aa & Ra & Eha).
    destruct (upped_aff m sv _ _ b tb Hm Gb Bb Pb) as (T0b & h0b & Ab & Rb & Ehb).
    destruct (upped_aff m sv _ _ c tc Hm Gc Bc Pc) as (T0c & h0c & Ac & Rc & Ehc).
    destruct (upped_aff m sv _ _ d td Hm Gd Bd Pd) as (T0d & h0d & Ad & Rd & Ehd).
    rewrite Hl in Ra, Eha, Rb, Ehb, Rc, Ehc, Rd, Ehd by auto.
    pose proof (node_unique m (solver_leaf sv) a b c d (Four T0a T0b T0c T0d)
        (Four (pT (data ta)) (pT (data tb)) (pT (data tc)) (pT (data td))) (Four h0a h0b h0c h0d)
        (Four (ph (data ta)) (ph (data tb)) (ph (data tc)) (ph (data td))) (pS p) (pH p) T0 (pw p)
        Aa Ab Ac Ad Ra Rb Rc Rd Eha Ehb Ehc Ehd HU HF Lw Cw) as NU.
    destruct (NU _ _ _ _ _ _ _ G1) as (Z1 & _). destruct (NU _ _ _ _ _ _ _ G2) as (Z2 & _).
    assert (z1 = z2) as <- by congruence. clear Z1 Z2 NU.
    cbn [glued] in G1, G2. fold l n in G1, G2.
    destruct G1 as (_ & _ & H1 & A1 & B1 & C1 & D1 & _). destruct G2 as (_ & _ & H2 & A2 & B2 & C2 & D2 & _).
    f_equal.
    + eapply IHa; eauto.
    + eapply IHb; eauto.
    + eapply IHc; eauto.
    + eapply IHd; eauto.
Qed.

Lemma build_leaf_off sv m : forall st p, affine_solver m sv (pgrid p) -> exists T st',
     build_leaf sv false st p = Ok (st', set_T p T) /\ sv_build sv (pgrid p) = Ok T.
Proof.
  intros st p [_ _ (T & E & _)]. exists T, st. unfold build_leaf. rewrite E, bind_Ok. auto.
Qed.

(** The whole solver. *)
Theorem solver_ok m sv gesv load s t st g :
  m <> 0 -> gesv_contract gesv -> fresh load s t -> good_leaves m sv s -> well_posed m sv s ->
  3 <= m \/ equal_levels s -> length g = 4 * (m * 2 ^ level s) ->
  exists st1 t1 t2 t3 U h,
    buildStage sv gesv false st t = Ok (st1, t1) /\
    upwardsStage sv gesv false load t1 = Ok t2 /\
    solveStage sv false g t2 = Ok t3 /\
    glued m (solver_leaf sv) s g h U /\ computed_values t3 = leaf_values U /\
    h = vplus (apply_op (pT (data t2)) g) (ph (data t2)) /\
    forall h' U', glued m (solver_leaf sv) s g h' U' -> U' = U /\ h' = h.
Proof.
  intros Hm Hge HF Hg HW H3 Lg.
  destruct (build_ok m sv gesv load s t (build_leaf sv false) st Hm Hge (build_leaf_off sv m) HF Hg HW H3)
    as (st1 & t1 & E1 & B1).
  destruct (up_ok m sv gesv load s 0 t1 Hm Hge (fresh_loads _ _ _ HF) Hg B1) as (t2 & E2 & B2 & P2 & _).
  destruct (solve_ok m sv s 0 t2 g Hm Hg B2 P2) as (t3 & U & h & E3 & G & V); [rewrite Nat.sub_0_r; auto|].
  cbn [refine_by] in G.
  exists st1, t1, t2, t3, U, h. split; [exact E1|].
  split; [unfold upwardsStage; rewrite E2; reflexivity|].
  split; [exact E3|]. split; [exact G|]. split; [exact V|]. split.
  - destruct (upped_aff m sv _ _ s t2 Hm Hg B2 P2) as (T0 & h0 & (_ & _ & _ & Hu) & R & Eh).
    rewrite (Hu _ _ _ G), Eh. rewrite Nat.sub_0_r in R. cbn [coarsen_by]. destruct R as (_ & R).
    rewrite R by auto. reflexivity.
  - intros h' U' G'. destruct (glued_unique m sv s 0 0 t2 g h h' U U' Hm Hg B2 P2 G G') as (-> & ->). auto.
Qed.
