(** Sizes of operators and vectors in the three stages, whatever the values. *)
From Coq Require Import Permutation.
From Verif Require Import Base VectorModel MatrixModel LinSpec HPSModel HPSSpec.
From Verif Require Import MatProofs MatProofs2 LinProofs BlockProofs HPSProofs HPSProofs2 HPSProofs3 HPSProofs4 HPSTree HPSTree2.

(** A patch solver on m x m leaves that returns vectors and matrices of the right
    sizes. *)
Record sized_solver (m : nat) (sv : solver) (G : grid) : Prop := {
  sz_nx : gnx G = m;
  sz_ny : gny G = m;
  sz_T : exists T, sv_build sv G = Ok T /\ square (4 * m) T;
  sz_h : forall f, length f = m * m -> exists h, sv_h sv G f = Ok h /\ length h = 4 * m;
  sz_u : forall g f, length g = 4 * m -> length f = m * m -> is_ok (sv_solve sv G g f) }.
Fixpoint sized_leaves (m : nat) (sv : solver) (s : qtree) : Prop :=
  match s with
  | QLeaf G f => sized_solver m sv G /\ length f = m * m
  | QNode a b c d =>
      sized_leaves m sv a /\ sized_leaves m sv b /\ sized_leaves m sv c /\ sized_leaves m sv d
  end.

(** Four siblings meet at the smallest of their four sides; leaves are not
    coarsened. *)
Fixpoint siblings_meet (t : tree) : Prop :=
  match t with
  | Leaf p => pnc p = 0
  | Node _ a b c d =>
      let side x := gnx (pgrid (data x)) in
      let n := Nat.min (Nat.min (side a) (side b)) (Nat.min (side c) (side d)) in
      all4 (fun x => psize (data x) = n /\ square (4 * n) (pT (data x))) (Four a b c d) /\
      siblings_meet a /\ siblings_meet b /\ siblings_meet c /\ siblings_meet d
  end.

Lemma gesv_length gesv n k a b : gesv_contract gesv -> n <> 0 -> length a = n * n -> length b = n * k ->
  length (fst (gesv n k a b)) = n * k.
Proof.
  intros Hg Hn La Lb. pose proof (gesv_solves _ Hg n k a b Hn La Lb) as H1.
  pose proof (gesv_singular _ Hg n k a b Hn La Lb) as H2.
  destruct (gesv n k a b) as [x info]. cbn [fst].
  destruct (Nat.eq_dec (length x) (n * k)) as [E|E]; [exact E|exfalso].
  assert (N : ~ col_nonsingular n a) by (intros C; destruct (H1 C) as (_ & L & _); auto).
  destruct (H2 N) as (_ & ->). auto.
Qed.

Lemma solvem_sized gesv a b n : gesv_contract gesv -> n <> 0 -> square n a -> well_formed b -> nr b = n ->
  exists x, solvem gesv a b = Ok x /\ well_formed x /\ nr x = n /\ nc x = nc b.
Proof.
  intros Hg Hn (Wa & Ra & Ca) Wb Rb. unfold solvem. rewrite Ra, Ca, Rb, Nat.eqb_refl. cbn [negb].
  rewrite (mT_ok 0%Qc b) by auto. rewrite bind_Ok. rewrite (mT_ok 0%Qc a) by auto. rewrite bind_Ok.
  cbn [nr mat_of]. rewrite Ca. destruct (Nat.ltb_spec n 1); [lia|].
  set (x := fst _).
  assert (L : length x = n * nc b).
  { unfold x. apply gesv_length; auto.
    - pose proof (mat_of_wf n (nr a) (fun j i => ent 0%Qc a i j)) as W. unfold well_formed in W. cbn [nr nc mat_of] in W.
      rewrite Ra in W. rewrite Ra. exact W.
    - pose proof (mat_of_wf (nc b) (nr b) (fun j i => ent 0%Qc b i j)) as W. unfold well_formed in W. cbn [nr nc mat_of] in W.
      rewrite Rb in W. rewrite Rb. rewrite W. lia. }
  rewrite (mT_ok 0%Qc). 2:{ unfold well_formed. cbn [nr nc dat mat_of]. rewrite Rb. lia. }
  eexists. split; [reflexivity|]. split; [apply mat_of_wf|]. cbn [nr nc mat_of]. auto.
Qed.

Lemma solvev_sized gesv a b n : gesv_contract gesv -> n <> 0 -> square n a -> length b = n ->
  exists x, solvev gesv a b = Ok x /\ length x = n.
Proof.
  intros Hg Hn (Wa & Ra & Ca) Lb. unfold solvev. rewrite Ra, Ca, Lb, Nat.eqb_refl. cbn [negb].
  rewrite (mT_ok 0%Qc a) by auto. rewrite bind_Ok.
  cbn [nr mat_of]. rewrite Ca. destruct (Nat.ltb_spec n 1); [lia|].
  eexists. split; [reflexivity|]. rewrite gesv_length; auto; [lia| |lia].
  pose proof (mat_of_wf n (nr a) (fun j i => ent 0%Qc a i j)) as W. unfold well_formed in W. cbn [nr nc mat_of] in W.
  rewrite Ra in W. rewrite Ra. exact W.
Qed.

Lemma isB_square n X F : isB 4 4 n X F -> square (4 * n) X.
Proof. intros H. split; [apply H|]. split; [apply (isB_nr _ _ _ _ _ H)|apply (isB_nc _ _ _ _ _ H)]. Qed.

Lemma merge_rest_sized gesv tau ch n : gesv_contract gesv -> n <> 0 ->
  all4 (fun p => psize p = n) ch -> all4 (square (4 * n)) (four_T ch) ->
  exists X S H T,
    merge_rest gesv tau ch = Ok (mergePatch (set_T (set_S (set_H (set_X tau X) H) S) T) ch) /\
    (well_formed S /\ nr S = 4 * n /\ nc S = 8 * n) /\
    (well_formed H /\ nr H = 8 * n /\ nc H = 4 * n) /\ square (8 * n) T.
Proof.
  intros Hg Hn Hs HT. unfold merge_rest.
  destruct HT as (TA & TB & TC & TD).
  rewrite (createIndexSets_ok n) by (auto; apply TA). rewrite bind_Ok.
  destruct (createMatrixBlocks_ok n ch _ _ _ _ (square_B n _ TA) (square_B n _ TB)
              (square_B n _ TC) (square_B n _ TD)) as (b & E & Hb).
  rewrite E, bind_Ok. clear E.
  destruct (mergeX_ok n tau b _ _ _ _ Hb) as (X & E & HX). rewrite E, bind_Ok. clear E.
  unfold mergeS. destruct (S_RHS_ok n b _ _ _ _ Hb) as (R & E & HR). rewrite E, bind_Ok. clear E.
  change (pX (set_X tau X)) with X.
  destruct (solvem_sized gesv X R (4 * n) Hg ltac:(lia) (isB_square n X _ HX)) as (S & E & WS & NS & CS).
  { apply HR. } { apply (isB_nr _ _ _ _ _ HR). }
  rewrite E, bind_Ok. clear E. rewrite (isB_nc _ _ _ _ _ HR) in CS.
  pose proof (isB_self 4 8 n S WS NS CS) as BS. rewrite bind_Ok.
  unfold mergeT.
  destruct (T_LHS_ok n b _ _ _ _ Hb) as (L & E & HL). rewrite E, bind_Ok. clear E.
  destruct (buildH_ok n b _ _ _ _ Hb) as (H & E & HH). rewrite E, bind_Ok. clear E.
  cbv zeta.
  change (pH (set_H (set_S (set_X tau X) S) H)) with H.
  change (pS (set_H (set_S (set_X tau X) S) H)) with S.
  destruct (mulm_B 8 4 8 n H S _ _ HH BS) as (HS' & E & HHS); try lia. rewrite E, bind_Ok. clear E.
  unfold madd, maddeq.
  destruct (mzipeq_B Qcplus 8 8 n _ _ _ _ HL HHS) as (T1 & E & HT1). rewrite E, bind_Ok. clear E.
  rewrite bind_Ok. unfold reorderOperators. cbv zeta.
  replace (nr (pT (fa ch)) / 4) with n.
  2:{ pose proof (proj1 (proj2 TA)) as E. change (nr (pT (fa ch)) = 4 * n) in E. rewrite E.
      rewrite Nat.mul_comm, Nat.div_mul; auto. }
  match goal with |- context [pS (set_T ?a ?b)] => change (pS (set_T a b)) with S end.
  destruct (mblockPermute_B 4 8 n S _ [0; 1; 2; 3] pi_WESN BS) as (S2 & E & HS2).
  { apply Permutation_refl. }
  { apply pi_perm. }
  rewrite E, bind_Ok. clear E.
  match goal with |- context [mblockPermute (pT ?a) _ _ _ _] => change (pT a) with T1 end.
  destruct (mblockPermute_B 8 8 n T1 _ pi_WESN pi_WESN HT1 pi_perm pi_perm) as (T2 & E & HT2).
  rewrite E, bind_Ok. clear E. rewrite bind_Ok.
  exists X, S2, H, T2. split; [reflexivity|].
  split; [split; [apply HS2|split; [apply (isB_nr _ _ _ _ _ HS2)|apply (isB_nc _ _ _ _ _ HS2)]]|].
  split; [split; [apply HH|split; [apply (isB_nr _ _ _ _ _ HH)|apply (isB_nc _ _ _ _ _ HH)]]|].
  split; [apply HT2|]. split; [apply (isB_nr _ _ _ _ _ HT2)|apply (isB_nc _ _ _ _ _ HT2)].
Qed.

Lemma up_rest_sized gesv tau ch n : gesv_contract gesv -> n <> 0 ->
  all4 (fun p => psize p = n) ch -> all4 (square (4 * n)) (four_T ch) ->
  all4 (fun h => length h = 4 * n) (four_h ch) ->
  well_formed (pH tau) -> nr (pH tau) = 8 * n -> nc (pH tau) = 4 * n ->
  exists X w h, up_rest gesv tau ch = Ok (set_h (set_w (set_X tau X) w) h) /\
    length w = 4 * n /\ length h = 8 * n.
Proof.
  intros Hg Hn Hs HT Hh WH NH CH. unfold up_rest.
  pose proof (isB_self 8 4 n (pH tau) WH NH CH) as HH.
  destruct HT as (TA & TB & TC & TD).
  rewrite (createIndexSets_ok n) by (auto; apply TA). rewrite bind_Ok.
  destruct (createMatrixBlocks_ok n ch _ _ _ _ (square_B n _ TA) (square_B n _ TB)
              (square_B n _ TC) (square_B n _ TD)) as (b & E & Hb).
  rewrite E, bind_Ok. clear E.
  destruct (mergeX_ok n tau b _ _ _ _ Hb) as (X & E & HX). rewrite E, bind_Ok. clear E.
  unfold mergeW. destruct (hDiff_ok n ch Hh) as (d & E & Hd). rewrite E, bind_Ok. clear E.
  change (pX (set_X tau X)) with X.
  destruct (solvev_sized gesv X d (4 * n) Hg ltac:(lia) (isB_square n X _ HX)) as (w & E & Lw).
  { apply (isV_len _ _ _ _ Hd). }
  rewrite E, bind_Ok. clear E. rewrite bind_Ok.
  pose proof (isV_self 4 n w Lw) as Vw.
  unfold mergeH.
  change (pH (set_w (set_X tau X) w)) with (pH tau). change (pw (set_w (set_X tau X) w)) with w.
  destruct (mulv_B 8 4 n (pH tau) w _ _ HH Vw) as (h0 & E & Hh0); try lia. rewrite E, bind_Ok. clear E.
  destruct (up_update_ok n ch Hh (fun up => h <- vaddeq h0 up ;; Ok (set_h (set_w (set_X tau X) w) h)))
    as (up & Hup & E). rewrite E. clear E. cbv beta.
  destruct (vzip_B vaddeq Qcplus 8 n h0 up _ _ vaddeq_ok Hh0 Hup) as (h1 & E & Hh1).
  rewrite E, bind_Ok. clear E. rewrite bind_Ok.
  unfold reorderUpwards. cbn [fmap fa fb fc fd].
  destruct Hs as (Sa & Sb & Sc & Sd). rewrite Sa, Sb, Sc, Sd, !Nat.eqb_refl. cbn [andb negb].
  replace (nr (pT (fa ch)) / 4) with n.
  2:{ pose proof (proj1 (proj2 TA)) as E. change (nr (pT (fa ch)) = 4 * n) in E. rewrite E.
      rewrite Nat.mul_comm, Nat.div_mul; auto. }
  match goal with |- context [vblockPermute (ph ?a) _ _] => change (ph a) with h1 end.
  destruct (vblockPermute_B 8 n h1 _ pi_WESN Hh1 pi_perm) as (h2 & E & Hh2).
  cbv zeta. rewrite E, bind_Ok. clear E.
  exists X, w, h2. split; [reflexivity|]. split; [exact Lw|]. apply (isV_len _ _ _ _ Hh2).
Qed.

(** * Trees *)

(** Sizes after buildStage. *)
Fixpoint szd (m : nat) (k : nat) (s : qtree) (t : tree) : Prop :=
  match s, t with
  | QLeaf G f, Leaf p => k = 0 /\ pgrid p = G /\ pnc p = 0 /\ square (4 * m) (pT p)
  | QNode a b c d, Node p ta tb tc td =>
      let l := min_level a b c d in
      let n := m * 2 ^ l in
      szd m (level a - l) a ta /\ szd m (level b - l) b tb /\
      szd m (level c - l) c tc /\ szd m (level d - l) d td /\
      k <= S l /\ pnc p = k /\ gnx (pgrid p) = n + n /\
      (well_formed (pS p) /\ nr (pS p) = 4 * n /\ nc (pS p) = 8 * n) /\
      (well_formed (pH p) /\ nr (pH p) = 8 * n /\ nc (pH p) = 4 * n) /\
      square (4 * (m * 2 ^ (S l - k))) (pT p)
  | _, _ => False
  end.

(** Sizes after upwardsStage. *)
Fixpoint szu (m : nat) (s : qtree) (t : tree) : Prop :=
  match s, t with
  | QLeaf G f, Leaf p => length (pf p) = m * m /\ length (ph p) = 4 * m
  | QNode a b c d, Node p ta tb tc td =>
      szu m a ta /\ szu m b tb /\ szu m c tc /\ szu m d td /\
      length (pw p) = 4 * (m * 2 ^ min_level a b c d)
  | _, _ => False
  end.

Lemma szd_root m sv k s t : m <> 0 -> sized_leaves m sv s -> szd m k s t ->
  pnc (data t) = k /\ gnx (pgrid (data t)) = m * 2 ^ level s /\
  square (4 * (m * 2 ^ (level s - k))) (pT (data t)) /\ k <= level s.
Proof.
  intros Hm Hg. destruct s as [G f|a b c d], t as [p|p ta tb tc td]; cbn [szd data]; try tauto.
  - intros (-> & EG & E0 & Sq). destruct Hg as ([Ex Ey _ _ _] & _). subst G.
    cbn [level]. simpl. rewrite Nat.mul_1_r, Ex. split; [auto|]. split; [auto|]. split; [exact Sq|lia].
  - intros (_ & _ & _ & _ & Hk & Hc & Hx & _ & _ & R).
    change (level (QNode a b c d)) with (S (min_level a b c d)).
    split; [auto|]. split; [rewrite Hx, Nat.pow_succ_r'; lia|]. split; [apply R|]. auto.
Qed.

Lemma szd_coarsen m k s t Tc : szd m 0 s t -> k <= level s ->
  resolved k (m * 2 ^ (level s - k)) (pT (data t)) Tc ->
  szd m k s (set_data t (set_nc (set_T (data t) Tc) k)).
Proof.
  destruct s as [G f|a b c d], t as [p|p ta tb tc td]; cbn [szd data set_data]; try tauto.
  - cbn [level]. intros (_ & EG & E0 & Sq) Hk R. assert (k = 0) as -> by lia.
    cbn [Nat.sub Nat.pow] in R. rewrite Nat.mul_1_r in R. cbn [pgrid pnc pT set_nc set_T]. split; auto. split; auto.
    split; [auto|apply R].
  - change (level (QNode a b c d)) with (S (min_level a b c d)).
    intros (Pa & Pb & Pc & Pd & _ & _ & Hx & HS & HH & _) Hk R. cbn [pgrid pnc pT pS pH set_nc set_T].
    repeat (split; [solve [auto]|]). apply R.
Qed.

Lemma build_sized m sv gesv load s t {St} (P : St -> Prop) (lf : St -> patch -> res (St * patch)) st :
  3 <= m -> gesv_contract gesv ->
  (forall st p, P st -> sized_solver m sv (pgrid p) -> exists T st',
     lf st p = Ok (st', set_T p T) /\ square (4 * m) T /\ P st') ->
  P st -> fresh load s t -> sized_leaves m sv s ->
  exists st' t', tmerge lf (merge4to1 gesv) st t = Ok (st', t') /\ szd m 0 s t' /\ P st'.
Proof.
  intros Hm Hge Hlf. revert st t. induction s as [G f|a IHa b IHb c IHc d IHd]; intros st t HP HF Hg.
  - destruct t as [p|]; [|destruct HF]. destruct HF as (EG & E0 & _). destruct Hg as (HA & _). subst G.
    destruct (Hlf st p HP HA) as (T & st' & E & Sq & HP'). cbn [tmerge]. rewrite E, bind_Ok. cbn [fst snd].
    exists st', (Leaf (set_T p T)). split; [reflexivity|]. cbn [szd pgrid pnc pT set_T]. auto.
  - destruct t as [|p ta tb tc td]; [destruct HF|]. destruct HF as (E0 & Fa & Fb & Fc & Fd).
    destruct Hg as (Ga & Gb & Gc & Gd).
    cbn [tmerge].
    destruct (IHa st ta HP Fa Ga) as (sa & ta' & Ea & Ba & HPa). rewrite Ea, bind_Ok. cbn [fst snd]. clear Ea IHa.
    destruct (IHb sa tb HPa Fb Gb) as (sb & tb' & Eb & Bb & HPb). rewrite Eb, bind_Ok. cbn [fst snd]. clear Eb IHb.
    destruct (IHc sb tc HPb Fc Gc) as (sc & tc' & Ec & Bc & HPc). rewrite Ec, bind_Ok. cbn [fst snd]. clear Ec IHc.
    destruct (IHd sc td HPc Fd Gd) as (sd & td' & Ed & Bd & HPd). rewrite Ed, bind_Ok. cbn [fst snd]. clear Ed IHd.
    set (l := min_level a b c d) in *. set (n := m * 2 ^ l).
    destruct (min_level_le a b c d) as (La & Lb & Lc & Ld). fold l in La, Lb, Lc, Ld.
    assert (H3n : 3 <= n) by (pose proof (pow_pos l); unfold n; nia).
    assert (CO : forall s' t', sized_leaves m sv s' -> szd m 0 s' t' -> l <= level s' ->
              child_ok n (data t') (level s' - l)).
    { intros s' t' G' B' Hl. destruct (szd_root m sv 0 s' t' ltac:(lia) G' B') as (N0 & X0 & S0 & _).
      rewrite Nat.sub_0_r in S0. unfold child_ok, n. rewrite scale_level by auto. auto. }
    set (k := Four (level a - l) (level b - l) (level c - l) (level d - l)).
    set (ch := Four (data ta') (data tb') (data tc') (data td')).
    rewrite merge4to1_rest.
    destruct (coarsen_ok n ch k) as (Tc & E & RA & RB & RC & RD).
    { lia. } { split; [exact (min_sub a b c d)|left; exact H3n]. }
    { apply (CO a); auto. } { apply (CO b); auto. } { apply (CO c); auto. } { apply (CO d); auto. }
    rewrite E, !bind_Ok. clear E. cbn [fa fb fc fd k ch] in *. unfold ch. cbn [fa fb fc fd].
    set (ch' := Four (set_nc _ _) (set_nc _ _) (set_nc _ _) (set_nc _ _)).
    assert (Hs : all4 (fun p => psize p = n) ch').
    { unfold all4, ch'. cbn [fa fb fc fd].
      split4; apply psize_coarse; [apply (CO a ta')|apply (CO b tb')|apply (CO c tc')|apply (CO d td')]; auto. }
    destruct (merge_rest_sized gesv p ch' n Hge ltac:(lia) Hs) as (X & S & H & T & E & HS & HH & HT).
    { unfold all4, four_T, fmap, ch'. cbn [fa fb fc fd pT set_nc set_T].
      split4; [apply RA|apply RB|apply RC|apply RD]. }
    rewrite E, !bind_Ok. cbn [fst snd]. unfold ch'. cbn [fa fb fc fd].
    eexists; eexists. split; [reflexivity|]. split; [|exact HPd]. cbn [szd]. fold l n.
    assert (BC : forall s' t' Tcs, szd m 0 s' t' -> l <= level s' ->
      resolved (level s' - l) n (pT (data t')) Tcs ->
      szd m (level s' - l) s' (set_data t' (set_nc (set_T (data t') Tcs) (level s' - l)))).
    { intros s' t' Tcs B' Hl R. apply szd_coarsen; auto; [lia|].
      replace (level s' - (level s' - l)) with l by lia. exact R. }
    split; [apply BC; auto|]. split; [apply BC; auto|].
    split; [apply BC; auto|]. split; [apply BC; auto|].
    split; [lia|]. unfold mergePatch. cbn [pT pS pH pnc pgrid gnx set_T set_nc set_grid set_S set_H set_X].
    split; [exact E0|]. destruct Hs as (P1 & P2 & _). 
    split; [transitivity (psize (fa ch') + psize (fb ch')); [reflexivity|rewrite P1, P2; reflexivity]|]. split; [exact HS|]. split; [exact HH|].
    replace (4 * (m * 2 ^ (Datatypes.S l - 0))) with (8 * n) by (rewrite Nat.sub_0_r; unfold n; rewrite Nat.pow_succ_r'; lia).
    exact HT.
Qed.

Lemma szd_meet m sv k s t : m <> 0 -> sized_leaves m sv s -> szd m k s t -> siblings_meet t.
Proof.
  intros Hm. revert k t. induction s as [G f|a IHa b IHb c IHc d IHd]; intros k t Hg HB.
  - destruct t as [p|]; [|destruct HB]. apply HB.
  - destruct t as [|p ta tb tc td]; [destruct HB|]. destruct Hg as (Ga & Gb & Gc & Gd).
    destruct HB as (Ba & Bb & Bc & Bd & _). cbn [siblings_meet].
    destruct (min_level_le a b c d) as (La & Lb & Lc & Ld). 
    destruct (szd_root m sv _ a ta Hm Ga Ba) as (Na & Xa & Sa & _).
    destruct (szd_root m sv _ b tb Hm Gb Bb) as (Nb & Xb & Sb & _).
    destruct (szd_root m sv _ c tc Hm Gc Bc) as (Nc & Xc & Sc & _).
    destruct (szd_root m sv _ d td Hm Gd Bd) as (Nd & Xd & Sd & _).
    split; [|split4; eauto]. rewrite Xa, Xb, Xc, Xd, !min_pow.
    fold (min_level a b c d). set (l := min_level a b c d) in *.
    assert (C : forall s' t', l <= level s' -> pnc (data t') = level s' - l -> gnx (pgrid (data t')) = m * 2 ^ level s' ->
      square (4 * (m * 2 ^ (level s' - (level s' - l)))) (pT (data t')) ->
      psize (data t') = m * 2 ^ l /\ square (4 * (m * 2 ^ l)) (pT (data t'))).
    { intros s' t' Hl N X Sq. replace (level s' - (level s' - l)) with l in Sq by lia. split; [|exact Sq].
      unfold psize. rewrite N, X, <- (scale_level m l (level s')) by auto. apply Nat.div_mul.
      apply Nat.pow_nonzero. lia. }
    split4; eauto.
Qed.

Lemma szd_ops m k s t t' : szd m k s t -> pgrid (data t') = pgrid (data t) -> pnc (data t') = pnc (data t) ->
  pT (data t') = pT (data t) -> pS (data t') = pS (data t) -> pH (data t') = pH (data t) ->
  szd m k s (set_data t (data t')).
Proof.
  destruct s as [G f|a b c d], t as [p|p ta tb tc td]; cbn [szd data set_data]; try tauto.
  - intros (A & B & C & D) -> -> -> _ _. auto.
  - intros (A & B & C & D & E & F & H & I & J & K) -> -> -> -> ->. auto 10.
Qed.

Lemma szu_set m s t p : szu m s t -> pf p = pf (data t) -> pw p = pw (data t) -> length (ph p) = length (ph (data t)) ->
  szu m s (set_data t p).
Proof.
  destruct s as [G f|a b c d], t as [q|q ta tb tc td]; cbn [szu data set_data]; try tauto.
  - intros (A & B) -> _ ->. auto.
  - intros (A & B & C & D & E) _ -> _. auto.
Qed.

Lemma up_sized m sv gesv load s k t : 3 <= m -> gesv_contract gesv -> has_loads load s -> sized_leaves m sv s ->
  szd m k s t ->
  exists t', tmerge (up_leaf sv load) (upwards4to1 gesv false) tt t = Ok (tt, t') /\
    szd m k s t' /\ szu m s t' /\ length (ph (data t')) = 4 * (m * 2 ^ level s).
Proof.
  intros Hm Hge. revert k t. induction s as [G f|a IHa b IHb c IHc d IHd]; intros k t HL Hg HB.
  - destruct t as [p|]; [|destruct HB]. destruct HB as (-> & EG & E0 & Sq).
    destruct Hg as (HA & Lf). cbn [has_loads] in HL. destruct (sz_h _ _ _ HA f Lf) as (h & Eh & Lh).
    cbn [tmerge]. unfold up_leaf. cbn [pgrid pf set_f]. rewrite EG, HL, Eh, bind_Ok, bind_Ok. cbn [fst snd].
    eexists. split; [reflexivity|]. cbn [szd szu data pgrid pnc pT pf ph set_h set_f level Nat.pow].
    rewrite Nat.mul_1_r. auto 10.
  - destruct t as [|p ta tb tc td]; [destruct HB|]. destruct Hg as (Ga & Gb & Gc & Gd).
    destruct HB as (Ba & Bb & Bc & Bd & Hk & Ep & Ex & HS & HH & HT).
    destruct HL as (HLa & HLb & HLc & HLd).
    set (l := min_level a b c d) in *. set (n := m * 2 ^ l) in *.
    destruct (min_level_le a b c d) as (La & Lb & Lc & Ld). fold l in La, Lb, Lc, Ld.
    assert (Hn : n <> 0) by (pose proof (pow_pos l); unfold n; nia).
    cbn [tmerge].
    destruct (IHa _ _ HLa Ga Ba) as (ta' & Ea & Ba' & Pa & ETa). rewrite Ea, bind_Ok. cbn [fst snd]. clear Ea IHa.
    destruct (IHb _ _ HLb Gb Bb) as (tb' & Eb & Bb' & Pb & ETb). rewrite Eb, bind_Ok. cbn [fst snd]. clear Eb IHb.
    destruct (IHc _ _ HLc Gc Bc) as (tc' & Ec & Bc' & Pc & ETc). rewrite Ec, bind_Ok. cbn [fst snd]. clear Ec IHc.
    destruct (IHd _ _ HLd Gd Bd) as (td' & Ed & Bd' & Pd & ETd). rewrite Ed, bind_Ok. cbn [fst snd]. clear Ed IHd.
    set (ch := Four (data ta') (data tb') (data tc') (data td')).
    assert (Hm0 : m <> 0) by lia.
    destruct (szd_root m sv _ a ta' Hm0 Ga Ba') as (Na & Xa & Sa & _).
    destruct (szd_root m sv _ b tb' Hm0 Gb Bb') as (Nb & Xb & Sb & _).
    destruct (szd_root m sv _ c tc' Hm0 Gc Bc') as (Nc & Xc & Sc & _).
    destruct (szd_root m sv _ d td' Hm0 Gd Bd') as (Nd & Xd & Sd & _).
    replace (level a - (level a - l)) with l in Sa by lia. replace (level b - (level b - l)) with l in Sb by lia.
    replace (level c - (level c - l)) with l in Sc by lia. replace (level d - (level d - l)) with l in Sd by lia.
    fold n in Sa, Sb, Sc, Sd.
    rewrite <- (scale_level m l) in Xa, ETa, Xb, ETb, Xc, ETc, Xd, ETd by auto. fold n in Xa, ETa, Xb, ETb, Xc, ETc, Xd, ETd.
    rewrite <- Na in Xa, ETa. rewrite <- Nb in Xb, ETb. rewrite <- Nc in Xc, ETc. rewrite <- Nd in Xd, ETd.
    rewrite upwards4to1_rest. unfold coarsenUpwards, fmapM, ch. cbn [fa fb fc fd].
    rewrite (coarsenUp_one_ok (data ta') (pnc (data ta')) n) by (reflexivity || assumption || (right; assumption)).
    rewrite (coarsenUp_one_ok (data tb') (pnc (data tb')) n) by (reflexivity || assumption || (right; assumption)).
    rewrite (coarsenUp_one_ok (data tc') (pnc (data tc')) n) by (reflexivity || assumption || (right; assumption)).
    rewrite (coarsenUp_one_ok (data td') (pnc (data td')) n) by (reflexivity || assumption || (right; assumption)).
    rewrite !bind_Ok.
    set (ch' := Four (set_h _ _) (set_h _ _) (set_h _ _) (set_h _ _)).
    destruct HH as (WH & NH & CH).
    destruct (up_rest_sized gesv p ch' n Hge Hn) as (X & w & h & E & Lw & Lh); auto.
    { unfold all4, ch', psize. cbn [fa fb fc fd pgrid pnc set_h]. rewrite Xa, Xb, Xc, Xd.
      rewrite !Nat.div_mul by (apply Nat.pow_nonzero; lia). auto. }
    { unfold all4, four_T, fmap, ch'. cbn [fa fb fc fd pT set_h]. auto. }
    { unfold all4, four_h, fmap, ch'. cbn [fa fb fc fd ph set_h]. rewrite !coarsen_by_length by auto. auto. }
    rewrite E, !bind_Ok. cbn [fst snd]. unfold ch'. cbn [fa fb fc fd].
    eexists. split; [reflexivity|].
    assert (BC : forall s' t' q k', szd m k' s' t' -> szd m k' s' (set_data t' (set_h (data t') q))).
    { intros [G f|] [q'|] q k'; cbn [szd set_data data]; auto. }
    assert (PC : forall s' t' q, length q = 4 * n -> l <= level s' -> szd m (level s' - l) s' t' -> szu m s' t' ->
       szu m s' (set_data t' (set_h (data t') q))).
    { intros [G f|] [q'|] q Lq Hl' B' ; cbn [szu set_data data]; auto. cbn [level] in Hl'.
      intros (L1 & L2). cbn [pf ph set_h]. split; [auto|]. assert (l = 0) by lia.
      rewrite Lq. unfold n. rewrite H. simpl. lia. }
    split; [|split].
    + cbn [szd]. fold l n. cbn [pT pS pH pnc pgrid set_h set_w set_X].
      split; [apply BC; auto|]. split; [apply BC; auto|]. split; [apply BC; auto|]. split; [apply BC; auto|].
      auto 10.
    + cbn [szu]. fold l n. cbn [pw set_h set_w].
      split; [apply PC; auto; apply coarsen_by_length; auto|]. split; [apply PC; auto; apply coarsen_by_length; auto|].
      split; [apply PC; auto; apply coarsen_by_length; auto|]. split; [apply PC; auto; apply coarsen_by_length; auto|].
      exact Lw.
    + cbn [data ph set_h]. change (level (QNode a b c d)) with (S l). rewrite Nat.pow_succ_r'. unfold n in Lh. lia.
Qed.

(** With homogeneous-rhs the leaves get loads and fluxes but nothing is merged. *)
Lemma up_hom_sized m sv gesv load s k t : m <> 0 -> has_loads load s -> sized_leaves m sv s -> szd m k s t ->
  exists t', tmerge (up_leaf sv load) (upwards4to1 gesv true) tt t = Ok (tt, t') /\ szd m k s t'.
Proof.
  intros Hm. revert k t. induction s as [G f|a IHa b IHb c IHc d IHd]; intros k t HL Hg HB.
  - destruct t as [p|]; [|destruct HB]. destruct HB as (-> & EG & E0 & Sq).
    destruct Hg as (HA & Lf). cbn [has_loads] in HL. destruct (sz_h _ _ _ HA f Lf) as (h & Eh & Lh).
    cbn [tmerge]. unfold up_leaf. cbn [pgrid pf set_f]. rewrite EG, HL, Eh, bind_Ok, bind_Ok. cbn [fst snd].
    eexists. split; [reflexivity|]. cbn [szd data pgrid pnc pT pf ph set_h set_f]. auto 10.
  - destruct t as [|p ta tb tc td]; [destruct HB|]. destruct Hg as (Ga & Gb & Gc & Gd).
    destruct HB as (Ba & Bb & Bc & Bd & HB). destruct HL as (HLa & HLb & HLc & HLd).
    cbn [tmerge].
    destruct (IHa _ _ HLa Ga Ba) as (ta' & Ea & Ba'). rewrite Ea, bind_Ok. cbn [fst snd]. clear Ea IHa.
    destruct (IHb _ _ HLb Gb Bb) as (tb' & Eb & Bb'). rewrite Eb, bind_Ok. cbn [fst snd]. clear Eb IHb.
    destruct (IHc _ _ HLc Gc Bc) as (tc' & Ec & Bc'). rewrite Ec, bind_Ok. cbn [fst snd]. clear Ec IHc.
    destruct (IHd _ _ HLd Gd Bd) as (td' & Ed & Bd'). rewrite Ed, bind_Ok. cbn [fst snd]. clear Ed IHd.
    cbn [upwards4to1]. rewrite bind_Ok. cbn [fst snd fa fb fc fd].
    assert (ID : forall t, set_data t (data t) = t) by (intros []; reflexivity). rewrite !ID.
    eexists. split; [reflexivity|]. cbn [szd]. auto 10.
Qed.

Lemma solve_sized m sv hom s k t g : 3 <= m -> sized_leaves m sv s -> szd m k s t -> (hom = false -> szu m s t) ->
  length g = 4 * (m * 2 ^ (level s - k)) ->
  exists t', tsplit (leafSolve sv hom) (split1to4 hom) t (set_g (data t) g) = Ok t'.
Proof.
  intros Hm. revert k t g. induction s as [G f|a IHa b IHb c IHc d IHd]; intros k t g Hg HB HP Lg.
  - destruct t as [p|]; [|destruct HB]. destruct HB as (-> & EG & E0 & Sq). destruct Hg as (HA & Lf).
    cbn [level Nat.sub Nat.pow] in *. rewrite Nat.mul_1_r in *. cbn [tsplit data]. unfold leafSolve.
    destruct hom; cbn [pgrid pg pf set_g set_f].
    + rewrite EG. destruct (sz_u _ _ _ HA g (repeat 0%Qc (gnx G * gny G)) Lg) as (u & Eu).
      { rewrite repeat_length, (sz_nx _ _ _ HA), (sz_ny _ _ _ HA). reflexivity. }
      rewrite Eu, !bind_Ok. eexists. reflexivity.
    + destruct (HP eq_refl) as (Lp & _). rewrite EG. destruct (sz_u _ _ _ HA g (pf p) Lg Lp) as (u & Eu).
      rewrite Eu, !bind_Ok. eexists. reflexivity.
  - destruct t as [|p ta tb tc td]; [destruct HB|]. destruct Hg as (Ga & Gb & Gc & Gd).
    destruct HB as (Ba & Bb & Bc & Bd & Hk & Ep & Ex & (WS & NS & CS) & _).
    set (l := min_level a b c d) in *. set (n := m * 2 ^ l) in *.
    change (level (QNode a b c d)) with (S l) in *.
    destruct (min_level_le a b c d) as (La & Lb & Lc & Ld). fold l in La, Lb, Lc, Ld.
    assert (Hn : n <> 0) by (pose proof (pow_pos l); unfold n; nia).
    set (cc := m * 2 ^ (S l - k)) in *.
    assert (Hcc : cc * 2 ^ k = 2 * n).
    { unfold cc. rewrite <- Nat.mul_assoc, <- Nat.pow_add_r. replace (S l - k + k) with (S l) by lia.
      rewrite Nat.pow_succ_r'. unfold n. lia. }
    assert (Hm0 : m <> 0) by lia.
    destruct (szd_root m sv _ a ta Hm0 Ga Ba) as (Na & Xa & Sa & _).
    cbn [tsplit data].
    assert (Lw : hom = false -> length (pw p) = 4 * n) by (intros Hh; apply (HP Hh)).
    pose proof (family_split hom (set_g p g) (Four (data ta) (data tb) (data tc) (data td)) n Hn) as E.
    cbn [fa fb fc fd pS pw pnc pgrid pg set_g] in E.
    assert (Ps : psize (data ta) = n).
    { unfold psize. rewrite Na, Xa. rewrite <- (scale_level m l (level a)) by auto.
      apply Nat.div_mul. apply Nat.pow_nonzero. lia. }
    specialize (E Ps WS NS CS Lw k cc Ep).
    assert (Ex' : gnx (pgrid p) = cc * 2 ^ k) by (rewrite Ex, Hcc; lia).
    assert (H3c : k = 0 \/ 3 <= cc) by (right; unfold cc; pose proof (pow_pos (S l - k)); nia).
    specialize (E Ex' Hcc H3c Lg). cbv zeta in E. rewrite E, bind_Ok. cbn [fst snd fa fb fc fd]. clear E.
    set (g' := refine_by k cc g).
    assert (Lg' : length g' = 8 * n) by (unfold g'; rewrite refine_by_length by auto; lia).
    set (z := if hom then _ else _).
    assert (Lz : length z = 4 * n) by (unfold z; destruct hom; rewrite ?vplus_length, apply_op_length; auto).
    destruct (children_data_length n g' z Lg' Lz) as (Ya & Yb & Yc & Yd).
    assert (Hl : forall s', l <= level s' -> m * 2 ^ (level s' - (level s' - l)) = n).
    { intros s' Hl. unfold n. do 2 f_equal. lia. }
    destruct (IHa (level a - l) ta (fa (children_data n g' z)) Ga Ba (fun Hh => proj1 (HP Hh))) as (ta' & EA); [rewrite Hl by auto; exact Ya|].
    destruct (IHb (level b - l) tb (fb (children_data n g' z)) Gb Bb (fun Hh => proj1 (proj2 (HP Hh)))) as (tb' & EB); [rewrite Hl by auto; exact Yb|].
    destruct (IHc (level c - l) tc (fc (children_data n g' z)) Gc Bc (fun Hh => proj1 (proj2 (proj2 (HP Hh))))) as (tc' & EC); [rewrite Hl by auto; exact Yc|].
    destruct (IHd (level d - l) td (fd (children_data n g' z)) Gd Bd (fun Hh => proj1 (proj2 (proj2 (proj2 (HP Hh)))))) as (td' & ED); [rewrite Hl by auto; exact Yd|].
    rewrite EA, bind_Ok, EB, bind_Ok, EC, bind_Ok, ED, bind_Ok. eexists. reflexivity.
Qed.

Theorem sizes_ok m sv gesv load s t cache hom g : 3 <= m -> gesv_contract gesv -> fresh load s t ->
  sized_leaves m sv s -> length g = 4 * (m * 2 ^ level s) ->
  exists st1 t1 t2 t3,
    buildStage sv gesv cache None t = Ok (st1, t1) /\ siblings_meet t1 /\
    gnx (pgrid (data t1)) = m * 2 ^ level s /\
    upwardsStage sv gesv hom load t1 = Ok t2 /\ solveStage sv hom g t2 = Ok t3.
Proof.
  intros Hm Hge HF HS Lg.
  destruct (build_sized m sv gesv load s t (fun st => match st with Some T => square (4 * m) T | None => True end)
              (build_leaf sv cache) None) as (st1 & t1 & E1 & B1 & _); auto.
  { intros st p Hst HA. destruct (sz_T _ _ _ HA) as (T & ET & Sq). unfold build_leaf.
    destruct cache; [destruct st as [T'|]|].
    - exists T', (Some T'). auto.
    - exists T, (Some T). rewrite ET, bind_Ok. auto.
    - exists T, st. rewrite ET, bind_Ok. auto. }
  destruct (szd_root m sv 0 s t1 ltac:(lia) HS B1) as (_ & X1 & _).
  assert (U : exists t2, upwardsStage sv gesv hom load t1 = Ok t2 /\ szd m 0 s t2 /\ (hom = false -> szu m s t2)).
  { unfold upwardsStage. destruct hom.
    - destruct (up_hom_sized m sv gesv load s 0 t1 ltac:(lia) (fresh_loads _ _ _ HF) HS B1) as (t2 & E2 & B2).
      rewrite E2, bind_Ok. exists t2. split; [reflexivity|]. split; [exact B2|discriminate].
    - destruct (up_sized m sv gesv load s 0 t1 Hm Hge (fresh_loads _ _ _ HF) HS B1) as (t2 & E2 & B2 & P2 & _).
      rewrite E2, bind_Ok. exists t2. auto. }
  destruct U as (t2 & E2 & B2 & P2).
  destruct (solve_sized m sv hom s 0 t2 g Hm HS B2 P2) as (t3 & E3); [rewrite Nat.sub_0_r; auto|].
  exists st1, t1, t2, t3. split; [exact E1|]. split; [exact (szd_meet m sv 0 s t1 ltac:(lia) HS B1)|].
  split; [exact X1|]. split; [exact E2|exact E3].
Qed.

Lemma sized_of_good m sv s : good_leaves m sv s -> sized_leaves m sv s.
Proof.
  induction s as [G f|a IHa b IHb c IHc d IHd]; cbn [good_leaves sized_leaves]; [|tauto].
  intros ([Ex Ey (T & ET & Sq & H)] & Lf). split; [|exact Lf]. split; auto.
  - exists T. auto.
  - intros f' Lf'. destruct (H f' Lf') as (h & E & L & _). exists h. auto.
  - intros g f' Lg Lf'. destruct (H f' Lf') as (h & _ & _ & K). apply K. auto.
Qed.
