(** The three stages on a quadtree against the glued problem. *)
From Coq Require Import Permutation.
From Verif Require Import Base VectorModel MatrixModel LinSpec MatProofs MatProofs2 MatProofs3 LinProofs.
From Verif Require Import BlockProofs HPSModel HPSSpec HPSProofs HPSProofs2 HPSProofs3 HPSProofs4.

(** The glued problem on [s] has exactly the flux T0 g + h0. *)
Definition Aff (m : nat) (L : leaf_relation) (s : qtree) (T0 : matrix Qc) (h0 : list Qc) : Prop :=
  square (4 * (m * 2 ^ level s)) T0 /\ length h0 = 4 * (m * 2 ^ level s) /\
  (forall g, length g = 4 * (m * 2 ^ level s) -> exists U, glued m L s g (vplus (apply_op T0 g) h0) U) /\
  (forall g h U, glued m L s g h U -> h = vplus (apply_op T0 g) h0).

Lemma min_level_le a b c d :
  min_level a b c d <= level a /\ min_level a b c d <= level b /\
  min_level a b c d <= level c /\ min_level a b c d <= level d.
Proof. unfold min_level. lia. Qed.

Lemma scale_level m l k : l <= k -> m * 2 ^ l * 2 ^ (k - l) = m * 2 ^ k.
Proof. intros H. rewrite <- Nat.mul_assoc, <- Nat.pow_add_r. do 2 f_equal. lia. Qed.

Lemma glued_length m L s g h U : glued m L s g h U -> length g = 4 * (m * 2 ^ level s).
Proof.
  destruct s as [G f|a b c d], U as [g' u|z Ua Ub Uc Ud]; cbn [glued level]; try tauto.
  - intros (_ & E & _). simpl. lia.
  - intros (E & _). rewrite E. fold (min_level a b c d).
    change (1 + min_level a b c d) with (S (min_level a b c d)). rewrite Nat.pow_succ_r'. lia.
Qed.

Section Node.
Variables (m : nat) (L : leaf_relation) (a b c d : qtree).
Let l := min_level a b c d.
Let n := m * 2 ^ l.
Variables (T0 Tc : four (matrix Qc)) (h0 hc : four (list Qc)) (S H T : matrix Qc) (w : list Qc).
Hypothesis Aa : Aff m L a (fa T0) (fa h0).
Hypothesis Ab : Aff m L b (fb T0) (fb h0).
Hypothesis Ac : Aff m L c (fc T0) (fc h0).
Hypothesis Ad : Aff m L d (fd T0) (fd h0).
Hypothesis Ra : resolved (level a - l) n (fa T0) (fa Tc).
Hypothesis Rb : resolved (level b - l) n (fb T0) (fb Tc).
Hypothesis Rc : resolved (level c - l) n (fc T0) (fc Tc).
Hypothesis Rd : resolved (level d - l) n (fd T0) (fd Tc).
Hypothesis Ea : fa hc = coarsen_by (level a - l) n (fa h0).
Hypothesis Eb : fb hc = coarsen_by (level b - l) n (fb h0).
Hypothesis Ec : fc hc = coarsen_by (level c - l) n (fc h0).
Hypothesis Ed : fd hc = coarsen_by (level d - l) n (fd h0).
Hypothesis HU : interface_unique n Tc.
Hypothesis HF : family_ops n Tc S H T.
Hypothesis Lw : length w = 4 * n.
Hypothesis Hw : continuous n (total_fluxes Tc hc (children_data n (zeros (8 * n)) w)).

Lemma one_child s T0s h0s Tcs x : l <= level s -> Aff m L s T0s h0s -> resolved (level s - l) n T0s Tcs ->
  length x = 4 * n ->
  length (refine_by (level s - l) n x) = 4 * (m * 2 ^ level s) /\
  coarsen_by (level s - l) n (vplus (apply_op T0s (refine_by (level s - l) n x)) h0s) =
  vplus (apply_op Tcs x) (coarsen_by (level s - l) n h0s) /\
  length (coarsen_by (level s - l) n h0s) = 4 * n.
Proof.
  intros Hl (Sq & Lh & _) (_ & R) Lx.
  assert (E : n * 2 ^ (level s - l) = m * 2 ^ level s) by (apply scale_level; auto).
  split; [rewrite refine_by_length by auto; rewrite E; reflexivity|].
  destruct Sq as (_ & N & _).
  split.
  - rewrite coarsen_by_vplus by (rewrite ?apply_op_length, E; auto). rewrite <- R by auto. reflexivity.
  - apply coarsen_by_length. rewrite E. auto.
Qed.

Lemma sq4 : all4 (square (4 * n)) Tc.
Proof. split4; [apply Ra|apply Rb|apply Rc|apply Rd]. Qed.

Lemma hc4 : all4 (fun h => length h = 4 * n) hc.
Proof.
  destruct (min_level_le a b c d) as (La & Lb & Lc & Ld). fold l in La, Lb, Lc, Ld.
  split4.
  - rewrite Ea. apply (one_child a (fa T0) (fa h0) (fa Tc) (zeros (4 * n))); auto using zeros_length.
  - rewrite Eb. apply (one_child b (fb T0) (fb h0) (fb Tc) (zeros (4 * n))); auto using zeros_length.
  - rewrite Ec. apply (one_child c (fc T0) (fc h0) (fc Tc) (zeros (4 * n))); auto using zeros_length.
  - rewrite Ed. apply (one_child d (fd T0) (fd h0) (fd Tc) (zeros (4 * n))); auto using zeros_length.
Qed.

Lemma lenS g : length (apply_op S g) = 4 * n.
Proof. rewrite apply_op_length. apply HF. Qed.

Lemma level_node : 4 * (m * 2 ^ level (QNode a b c d)) = 8 * n.
Proof. change (level (QNode a b c d)) with (Datatypes.S l). rewrite Nat.pow_succ_r'. unfold n. lia. Qed.

Lemma node_exists g Ua Ub Uc Ud Ha Hb Hc Hd : length g = 8 * n ->
  let z := vplus (apply_op S g) w in
  let x := children_data n g z in
  glued m L a (refine_by (level a - l) n (fa x)) Ha Ua ->
  glued m L b (refine_by (level b - l) n (fb x)) Hb Ub ->
  glued m L c (refine_by (level c - l) n (fc x)) Hc Uc ->
  glued m L d (refine_by (level d - l) n (fd x)) Hd Ud ->
  glued m L (QNode a b c d) g
    (vplus (apply_op T g) (outer_flux n (total_fluxes Tc hc (children_data n (zeros (8 * n)) w))))
    (SNode z Ua Ub Uc Ud).
Proof.
  intros Lg z x GA GB GC GD.
  destruct (min_level_le a b c d) as (La & Lb & Lc & Ld). fold l in La, Lb, Lc, Ld.
  assert (Lz : length z = 4 * n) by (unfold z; rewrite vplus_length; apply lenS).
  destruct (children_data_length n g z Lg Lz) as (Xa & Xb & Xc & Xd).
  cbn [glued]. fold l n. split; [auto|]. split; [auto|].
  exists (Four Ha Hb Hc Hd). cbn [fa fb fc fd].
  split; [exact GA|]. split; [exact GB|]. split; [exact GC|]. split; [exact GD|].
  apply Aa in GA. apply Ab in GB. apply Ac in GC. apply Ad in GD.
  rewrite GA, GB, GC, GD.
  destruct (one_child a _ _ _ (fa x) La Aa Ra Xa) as (_ & -> & _).
  destruct (one_child b _ _ _ (fb x) Lb Ab Rb Xb) as (_ & -> & _).
  destruct (one_child c _ _ _ (fc x) Lc Ac Rc Xc) as (_ & -> & _).
  destruct (one_child d _ _ _ (fd x) Ld Ad Rd Xd) as (_ & -> & _).
  rewrite <- Ea, <- Eb, <- Ec, <- Ed.
  change (Four _ _ _ _) with (total_fluxes Tc hc x).
  destruct (superpose n Tc hc S g w) as (C & F); auto using sq4, hc4, lenS, (fo_cont _ _ _ _ _ HF).
  split; [exact C|]. unfold x, z. rewrite F. rewrite <- (fo_flux _ _ _ _ _ HF) by auto. reflexivity.
Qed.

Lemma node_unique g h z Ua Ub Uc Ud : glued m L (QNode a b c d) g h (SNode z Ua Ub Uc Ud) ->
  z = vplus (apply_op S g) w /\
  h = vplus (apply_op T g) (outer_flux n (total_fluxes Tc hc (children_data n (zeros (8 * n)) w))).
Proof.
  cbn [glued]. fold l n. intros (Lg & Lz & HH & GA & GB & GC & GD & C & F).
  destruct (min_level_le a b c d) as (La & Lb & Lc & Ld). fold l in La, Lb, Lc, Ld.
  destruct (children_data_length n g z Lg Lz) as (Xa & Xb & Xc & Xd).
  apply Aa in GA. apply Ab in GB. apply Ac in GC. apply Ad in GD.
  rewrite GA, GB, GC, GD in C, F.
  set (x := children_data n g z) in *.
  destruct (one_child a _ _ _ (fa x) La Aa Ra Xa) as (_ & Za & _). rewrite Za in C, F. clear Za.
  destruct (one_child b _ _ _ (fb x) Lb Ab Rb Xb) as (_ & Zb & _). rewrite Zb in C, F. clear Zb.
  destruct (one_child c _ _ _ (fc x) Lc Ac Rc Xc) as (_ & Zc & _). rewrite Zc in C, F. clear Zc.
  destruct (one_child d _ _ _ (fd x) Ld Ad Rd Xd) as (_ & Zd & _). rewrite Zd in C, F. clear Zd.
  rewrite <- Ea, <- Eb, <- Ec, <- Ed in C, F.
  change (Four _ _ _ _) with (total_fluxes Tc hc x) in C, F.
  destruct (superpose n Tc hc S g w) as (C' & F'); auto using sq4, hc4, lenS, (fo_cont _ _ _ _ _ HF).
  assert (Ez : z = vplus (apply_op S g) w).
  { apply (interface_solution_unique n Tc hc g); auto using sq4, hc4. rewrite vplus_length. apply lenS. }
  split; [exact Ez|]. rewrite F. unfold x. rewrite Ez, F'. rewrite <- (fo_flux _ _ _ _ _ HF) by auto. reflexivity.
Qed.

Lemma node_aff : Aff m L (QNode a b c d) T
  (outer_flux n (total_fluxes Tc hc (children_data n (zeros (8 * n)) w))).
Proof.
  unfold Aff. rewrite level_node.
  destruct (min_level_le a b c d) as (La & Lb & Lc & Ld). fold l in La, Lb, Lc, Ld.
  split; [apply HF|]. split.
  { apply outer_flux_length. destruct sq4 as ((_ & S1 & _) & (_ & S2 & _) & (_ & S3 & _) & (_ & S4 & _)).
    unfold total_fluxes, all4. cbn [fa fb fc fd]. rewrite !vplus_length, !apply_op_length. auto. }
  split.
  - intros g Lg. set (z := vplus (apply_op S g) w).
    assert (Lz : length z = 4 * n) by (unfold z; rewrite vplus_length; apply lenS).
    destruct (children_data_length n g z Lg Lz) as (Xa & Xb & Xc & Xd).
    set (x := children_data n g z) in *.
    destruct (one_child a _ _ _ (fa x) La Aa Ra Xa) as (Ya & _).
    destruct (one_child b _ _ _ (fb x) Lb Ab Rb Xb) as (Yb & _).
    destruct (one_child c _ _ _ (fc x) Lc Ac Rc Xc) as (Yc & _).
    destruct (one_child d _ _ _ (fd x) Ld Ad Rd Xd) as (Yd & _).
    destruct Aa as (_ & _ & Xs & _). destruct (Xs _ Ya) as (Ua & GA). clear Xs.
    destruct Ab as (_ & _ & Xs & _). destruct (Xs _ Yb) as (Ub & GB). clear Xs.
    destruct Ac as (_ & _ & Xs & _). destruct (Xs _ Yc) as (Uc & GC). clear Xs.
    destruct Ad as (_ & _ & Xs & _). destruct (Xs _ Yd) as (Ud & GD). clear Xs.
    exists (SNode z Ua Ub Uc Ud). eapply node_exists; eauto.
  - intros g h U G. destruct U as [g' u|z Ua Ub Uc Ud]; [destruct G|].
    apply node_unique in G. apply G.
Qed.
End Node.

(** * State of the tree *)

(** After buildStage; the patch at the root has been coarsened [k] times. *)
Fixpoint built (m : nat) (sv : solver) (k : nat) (s : qtree) (t : tree) : Prop :=
  match s, t with
  | QLeaf G f, Leaf p => k = 0 /\ pgrid p = G /\ pnc p = 0 /\ sv_build sv G = Ok (pT p)
  | QNode a b c d, Node p ta tb tc td =>
      let l := min_level a b c d in
      let n := m * 2 ^ l in
      built m sv (level a - l) a ta /\ built m sv (level b - l) b tb /\
      built m sv (level c - l) c tc /\ built m sv (level d - l) d td /\
      k <= S l /\ (k = 0 \/ 3 <= m) /\ pnc p = k /\ gnx (pgrid p) = n + n /\
      let Tc := Four (pT (data ta)) (pT (data tb)) (pT (data tc)) (pT (data td)) in
      interface_unique n Tc /\
      exists T0, family_ops n Tc (pS p) (pH p) T0 /\ resolved k (m * 2 ^ (S l - k)) T0 (pT p)
  | _, _ => False
  end.

(** After upwardsStage; the flux at the root has been coarsened [k] times. *)
Fixpoint upped (m : nat) (sv : solver) (k : nat) (s : qtree) (t : tree) : Prop :=
  match s, t with
  | QLeaf G f, Leaf p => k = 0 /\ pf p = f /\ sv_h sv G f = Ok (ph p)
  | QNode a b c d, Node p ta tb tc td =>
      let l := min_level a b c d in
      let n := m * 2 ^ l in
      upped m sv (level a - l) a ta /\ upped m sv (level b - l) b tb /\
      upped m sv (level c - l) c tc /\ upped m sv (level d - l) d td /\
      k <= S l /\
      let Tc := Four (pT (data ta)) (pT (data tb)) (pT (data tc)) (pT (data td)) in
      let hc := Four (ph (data ta)) (ph (data tb)) (ph (data tc)) (ph (data td)) in
      let x := total_fluxes Tc hc (children_data n (zeros (8 * n)) (pw p)) in
      length (pw p) = 4 * n /\ continuous n x /\
      ph p = coarsen_by k (m * 2 ^ (S l - k)) (outer_flux n x)
  | _, _ => False
  end.

Lemma resolved_0 c T : square (4 * c) T -> resolved 0 c T T.
Proof. intros H. split; [auto|]. reflexivity. Qed.

Lemma built_root m sv k s t : m <> 0 -> good_leaves m sv s -> built m sv k s t ->
  pnc (data t) = k /\ gnx (pgrid (data t)) = m * 2 ^ level s /\
  square (4 * (m * 2 ^ (level s - k))) (pT (data t)) /\ k <= level s /\ (k = 0 \/ 3 <= m).
Proof.
  intros Hm Hg. destruct s as [G f|a b c d], t as [p|p ta tb tc td]; cbn [built data]; try tauto.
  - intros (-> & EG & E0 & EB). destruct Hg as ([Ex Ey (T & ET & Sq & _)] & _).
    rewrite EB in ET. injection ET as ->. subst G. cbn [level]. simpl. rewrite Nat.mul_1_r. rewrite Ex.
    split; [auto|]. split; [auto|]. split; [exact Sq|]. split; [lia|auto].
  - intros (_ & _ & _ & _ & Hk & H3 & Hc & Hx & _ & T0 & _ & R).
    change (level (QNode a b c d)) with (S (min_level a b c d)).
    split; [auto|]. split; [rewrite Hx, Nat.pow_succ_r'; lia|]. split; [apply R|]. split; auto.
Qed.

Lemma square_unique m sv G T f : affine_solver m sv G -> sv_build sv G = Ok T ->
  length f = m * m ->
  square (4 * m) T /\ exists h, sv_h sv G f = Ok h /\ length h = 4 * m /\
  forall g, length g = 4 * m ->
    is_ok (sv_solve sv G g f) /\ sv_map sv G g f = Ok (vplus (apply_op T g) h).
Proof.
  intros [_ _ (T' & E & Sq & HA)] E' Lf. rewrite E in E'. injection E' as <-. auto.
Qed.

Lemma total_zero n Tc : all4 (square (4 * n)) Tc ->
  total_fluxes Tc (zero4 (4 * n)) (children_data n (zeros (8 * n)) (zeros (4 * n))) = zero4 (4 * n).
Proof.
  intros ((_ & A & _) & (_ & B & _) & (_ & C & _) & (_ & D & _)). rewrite children_data_zeros.
  unfold total_fluxes, zero4. cbn [fa fb fc fd]. rewrite !apply_op_zeros, A, B, C, D.
  rewrite vplus_zeros_n by apply zeros_length. reflexivity.
Qed.

Lemma continuous_zero n : continuous n (zero4 (4 * n)).
Proof. unfold continuous, zero4. cbn [fa fb fc fd]. rewrite !(piece_zeros n _ 4) by lia. auto. Qed.

Lemma outer_flux_zero n : outer_flux n (zero4 (4 * n)) = zeros (8 * n).
Proof.
  unfold outer_flux, zero4. cbn [fa fb fc fd]. rewrite !(piece_zeros n _ 4) by lia.
  rewrite !zeros_app. f_equal. lia.
Qed.

Lemma built_lin m sv k s t : m <> 0 -> good_leaves m sv s -> built m sv k s t ->
  exists T0, Aff m (linear_leaf sv) s T0 (zeros (4 * (m * 2 ^ level s))) /\
             resolved k (m * 2 ^ (level s - k)) T0 (pT (data t)).
Proof.
  intros Hm. revert k t. induction s as [G f|a IHa b IHb c IHc d IHd]; intros k t Hg HB.
  - destruct t as [p|]; [|destruct HB]. destruct HB as (-> & EG & E0 & EB).
    destruct Hg as (HA & Lf). destruct (square_unique m sv G (pT p) f HA EB Lf) as (Sq & _).
    exists (pT p). cbn [level data Nat.sub Nat.pow]. rewrite Nat.mul_1_r. split; [|apply resolved_0; auto].
    split; [cbn [level Nat.pow]; rewrite Nat.mul_1_r; auto|].
    cbn [level Nat.pow]. rewrite Nat.mul_1_r. split; [apply zeros_length|].
    destruct Sq as (_ & N & _). split.
    + intros g Lg. exists (SLeaf g []). cbn [glued]. split; [auto|]. split; [auto|].
      exists (pT p). split; [auto|]. apply vplus_zeros_n. rewrite apply_op_length. auto.
    + intros g h U. destruct U as [g' u|]; [|intros []]. cbn [glued].
      intros (-> & Lg & T & ET & ->). rewrite EB in ET. injection ET as <-.
      rewrite vplus_zeros_n; [auto|]. rewrite apply_op_length. auto.
  - destruct t as [|p ta tb tc td]; [destruct HB|]. destruct Hg as (Ga & Gb & Gc & Gd).
    destruct HB as (Ba & Bb & Bc & Bd & Hk & H3 & Ep & Ex & HU & T0 & HF & HR).
    set (l := min_level a b c d) in *. set (n := m * 2 ^ l) in *.
    destruct (min_level_le a b c d) as (La & Lb & Lc & Ld). fold l in La, Lb, Lc, Ld.
    destruct (IHa _ _ Ga Ba) as (T0a & Aa & Ra). destruct (IHb _ _ Gb Bb) as (T0b & Ab & Rb).
    destruct (IHc _ _ Gc Bc) as (T0c & Ac & Rc). destruct (IHd _ _ Gd Bd) as (T0d & Ad & Rd).
    clear IHa IHb IHc IHd.
    replace (level a - (level a - l)) with l in Ra by lia.
    replace (level b - (level b - l)) with l in Rb by lia.
    replace (level c - (level c - l)) with l in Rc by lia.
    replace (level d - (level d - l)) with l in Rd by lia.
    fold n in Ra, Rb, Rc, Rd.
    set (Tc := Four _ _ _ _) in HU, HF.
    assert (Sq : all4 (square (4 * n)) Tc) by (split4; [apply Ra|apply Rb|apply Rc|apply Rd]).
    exists T0. change (level (QNode a b c d)) with (S l). split; [|exact HR].
    pose proof (node_aff m (linear_leaf sv) a b c d (Four T0a T0b T0c T0d) Tc
      (Four (zeros (4 * (m * 2 ^ level a))) (zeros (4 * (m * 2 ^ level b)))
            (zeros (4 * (m * 2 ^ level c))) (zeros (4 * (m * 2 ^ level d))))
      (zero4 (4 * n)) (pS p) (pH p) T0 (zeros (4 * n))) as P.
    fold l n in P. cbn [fa fb fc fd zero4] in P.
    rewrite (total_zero n Tc Sq), outer_flux_zero in P.
    replace (4 * (m * 2 ^ S l)) with (8 * n) by (unfold n; rewrite Nat.pow_succ_r'; lia).
    apply P; auto using zeros_length, continuous_zero.
    + rewrite <- (scale_level m l (level a)) by auto. fold n. rewrite coarsen_by_zeros. reflexivity.
    + rewrite <- (scale_level m l (level b)) by auto. fold n. rewrite coarsen_by_zeros. reflexivity.
    + rewrite <- (scale_level m l (level c)) by auto. fold n. rewrite coarsen_by_zeros. reflexivity.
    + rewrite <- (scale_level m l (level d)) by auto. fold n. rewrite coarsen_by_zeros. reflexivity.
Qed.

Lemma upped_aff m sv k kh s t : m <> 0 -> good_leaves m sv s -> built m sv k s t -> upped m sv kh s t ->
  exists T0 h0, Aff m (solver_leaf sv) s T0 h0 /\
     resolved k (m * 2 ^ (level s - k)) T0 (pT (data t)) /\
     ph (data t) = coarsen_by kh (m * 2 ^ (level s - kh)) h0.
Proof.
  intros Hm. revert k kh t. induction s as [G f|a IHa b IHb c IHc d IHd]; intros k kh t Hg HB HP.
  - destruct t as [p|]; [|destruct HB]. destruct HB as (-> & EG & E0 & EB).
    destruct HP as (-> & Ef & Eh).
    destruct Hg as (HA & Lf). destruct (square_unique m sv G (pT p) f HA EB Lf) as (Sq & h & Eh' & Lh & HM).
    rewrite Eh in Eh'. injection Eh' as Eh'.
    exists (pT p), h. cbn [level data Nat.sub Nat.pow]. rewrite Nat.mul_1_r.
    split; [|split; [apply resolved_0; auto|exact Eh']].
    split; [cbn [level Nat.pow]; rewrite Nat.mul_1_r; auto|].
    cbn [level Nat.pow]. rewrite Nat.mul_1_r. split; [auto|].
    destruct Sq as (_ & N & _). split.
    + intros g Lg. destruct (HM g Lg) as (Hs & Hh).
      destruct (sv_solve sv G g f) as [u| |] eqn:Es; [|destruct Hs; discriminate..].
      exists (SLeaf g u). cbn [glued]. split; [auto|]. split; [auto|]. split; [auto|exact Hh].
    + intros g h' U. destruct U as [g' u|]; [|intros []]. cbn [glued].
      intros (-> & Lg & Es & Ehh). destruct (HM g Lg) as (_ & Hh). rewrite Hh in Ehh. injection Ehh as <-. reflexivity.
  - destruct t as [|p ta tb tc td]; [destruct HB|]. destruct Hg as (Ga & Gb & Gc & Gd).
    destruct HB as (Ba & Bb & Bc & Bd & Hk & H3 & Ep & Ex & HU & T0 & HF & HR).
    destruct HP as (Pa & Pb & Pc & Pd & Hkh & Lw & Cw & Eh).
    set (l := min_level a b c d) in *. set (n := m * 2 ^ l) in *.
    destruct (min_level_le a b c d) as (La & Lb & Lc & Ld). fold l in La, Lb, Lc, Ld.
    destruct (IHa _ _ _ Ga Ba Pa) as (T0a & h0a & Aa & Ra & Ea).
    destruct (IHb _ _ _ Gb Bb Pb) as (T0b & h0b & Ab & Rb & Eb).
    destruct (IHc _ _ _ Gc Bc Pc) as (T0c & h0c & Ac & Rc & Ec).
    destruct (IHd _ _ _ Gd Bd Pd) as (T0d & h0d & Ad & Rd & Ed).
    clear IHa IHb IHc IHd.
    replace (level a - (level a - l)) with l in Ra, Ea by lia.
    replace (level b - (level b - l)) with l in Rb, Eb by lia.
    replace (level c - (level c - l)) with l in Rc, Ec by lia.
    replace (level d - (level d - l)) with l in Rd, Ed by lia.
    fold n in Ra, Rb, Rc, Rd, Ea, Eb, Ec, Ed.
    set (Tc := Four (pT _) _ _ _) in *. set (hc := Four (ph _) _ _ _) in *.
    exists T0. eexists. change (level (QNode a b c d)) with (S l).
    split; [|split; [exact HR|exact Eh]].
    exact (node_aff m (solver_leaf sv) a b c d (Four T0a T0b T0c T0d) Tc
      (Four h0a h0b h0c h0d) hc (pS p) (pH p) T0 (pw p) Aa Ab Ac Ad Ra Rb Rc Rd Ea Eb Ec Ed HU HF Lw Cw).
Qed.
