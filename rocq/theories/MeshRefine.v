(** Proofs about refineByFunction. *)
From Verif Require Import Base VectorModel MatrixModel HPSModel TreeModel TreeSpec TreeProofs TreeTile TreeCtor MeshModel MeshSpec.

(** ** Geometry of quadrants *)
Lemma two_nz : ((1 + 1)%Qc <> 0%Qc).
Proof. intros H. apply (f_equal this) in H. vm_compute in H. discriminate. Qed.

Lemma Qc_of_Z_2 z : Qc_of_Z (2 * z) = (q2 * Qc_of_Z z)%Qc.
Proof. rewrite Qc_of_Z_mul. reflexivity. Qed.

Lemma qlen_half l : l < maxlevel -> Qc_of_Z (qlen (S l)) = (Qc_of_Z (qlen l) / q2)%Qc.
Proof. intros H. rewrite (qlen_S l H), Qc_of_Z_2, two. field. apply two_nz. Qed.

Lemma quad_corner q ds : valid_quadrant q -> Forall (fun i => i < 4) ds -> qlevel q + length ds <= qmaxlevel ->
  Qc_of_Z (qx (quad_at q ds)) = (Qc_of_Z (qx q) + Qc_of_Z (qlen (qlevel q)) * left_of ds)%Qc /\
  Qc_of_Z (qy (quad_at q ds)) = (Qc_of_Z (qy q) + Qc_of_Z (qlen (qlevel q)) * bottom_of ds)%Qc /\
  Qc_of_Z (qlen (qlevel (quad_at q ds))) = (Qc_of_Z (qlen (qlevel q)) * side_of ds)%Qc.
Proof.
  unfold quad_at. revert q; induction ds as [|i ds IH]; intros q V Fd HL; cbn [fold_left left_of bottom_of side_of].
  - repeat split; ring.
  - inversion Fd as [|? ? Hi Fd']; subst. cbn [length] in HL.
    assert (Hq : qlevel q < qmaxlevel) by lia.
    assert (Hm : qlevel q < maxlevel) by (unfold maxlevel, qmaxlevel in *; lia).
    destruct (IH (qchild q i)) as (E1 & E2 & E3); [apply valid_child; auto|auto|cbn [qchild qlevel]; lia|].
    rewrite E1, E2, E3.
    destruct V as (_ & _ & _ & Dx & Dy).
    assert (Ex : Qc_of_Z (qx (qchild q i)) = (Qc_of_Z (qx q) + bit_x i * (Qc_of_Z (qlen (qlevel q)) / q2))%Qc).
    { unfold qchild, bit_x. cbn [qx]. destruct (Nat.odd i).
      - rewrite lor_add by auto. rewrite Qc_of_Z_add, qlen_half by auto. ring.
      - ring. }
    assert (Ey : Qc_of_Z (qy (qchild q i)) = (Qc_of_Z (qy q) + bit_y i * (Qc_of_Z (qlen (qlevel q)) / q2))%Qc).
    { unfold qchild, bit_y. cbn [qy]. destruct (Nat.odd (i / 2)).
      - rewrite lor_add by auto. rewrite Qc_of_Z_add, qlen_half by auto. ring.
      - ring. }
    rewrite Ex, Ey. cbn [qchild qlevel]. rewrite qlen_half by auto.
    rewrite two. pose proof two_nz. repeat split; field; auto.
Qed.

Lemma root_len_nz : root_len <> 0%Qc.
Proof. intros H. apply (f_equal this) in H. vm_compute in H. discriminate. Qed.

Lemma vertex G x y a b : Qc_of_Z x = (root_len * a)%Qc -> Qc_of_Z y = (root_len * b)%Qc ->
  qcoord_to_vertex G x y = ((gxl G + (gxu G - gxl G) * a)%Qc, (gyl G + (gyu G - gyl G) * b)%Qc).
Proof.
  intros Ex Ey. unfold qcoord_to_vertex. rewrite Ex, Ey. pose proof root_len_nz.
  f_equal; field; auto.
Qed.

Lemma callback_iff fn max G ds : Forall (fun i => i < 4) ds -> length ds <= qmaxlevel ->
  refine_callback fn max G (quad_at root_quadrant ds) = true <->
  (Z.of_nat (length ds) < max)%Z /\ holds_at_centre fn G ds.
Proof.
  intros Fd HL. unfold refine_callback.
  destruct (quad_corner root_quadrant ds root_valid Fd) as (Ex & Ey & El); [exact HL|].
  cbn [root_quadrant qx qy qlevel] in Ex, Ey, El.
  change (Qc_of_Z 0) with 0%Qc in *. change (Qc_of_Z (qlen 0)) with root_len in *.
  rewrite quad_at_level in *. cbn [root_quadrant qlevel Nat.add] in *.
  destruct (max <=? Z.of_nat (length ds))%Z eqn:Em.
  { apply Z.leb_le in Em. split; [discriminate|]. intros [H _]. lia. }
  apply Z.leb_gt in Em.
  rewrite (vertex G _ _ (left_of ds) (bottom_of ds)) by (rewrite ?Ex, ?Ey; ring).
  rewrite (vertex G _ _ (left_of ds + side_of ds) (bottom_of ds + side_of ds)) by (rewrite Qc_of_Z_add, ?Ex, ?Ey, El; ring).
  rewrite existsb_exists. unfold holds_at_centre, centre_x, centre_y.
  assert (K : forall n i, n <> 0 -> (Qc_of_nat (2 * i + 1) / Qc_of_nat (2 * n) = (Qc_of_nat i + Q2Qc (1 # 2)) / Qc_of_nat n)%Qc).
  { intros n i Hn. rewrite Qc_of_nat_add, !Qc_of_nat_mul. change (Qc_of_nat 2) with q2. change (Qc_of_nat 1) with 1%Qc.
    replace (Q2Qc (1 # 2)) with (1 / q2)%Qc by (apply Qc_is_canon; reflexivity).
    rewrite two. pose proof two_nz. pose proof (Qc_of_nat_nz n Hn). field. auto. }
  split.
  - intros (i & Hi & H). apply existsb_exists in H as (j & Hj & H). apply in_seq in Hi, Hj.
    split; [exact Em|]. exists i, j. split; [lia|]. split; [lia|].
    rewrite !K by lia. rewrite <- H. f_equal.
    + assert (N := Qc_of_nat_nz (gnx G) ltac:(lia)). field. exact N.
    + assert (N := Qc_of_nat_nz (gny G) ltac:(lia)). field. exact N.
  - intros (_ & i & j & Hi & Hj & H). exists i. split; [apply in_seq; lia|]. apply existsb_exists. exists j.
    split; [apply in_seq; lia|]. rewrite <- H. rewrite !K by lia. f_equal.
    + assert (N := Qc_of_nat_nz (gnx G) ltac:(lia)). field. exact N.
    + assert (N := Qc_of_nat_nz (gny G) ltac:(lia)). field. exact N.
Qed.

(** ** Refinement ends and has one result *)
Lemma refine_quadrant_ex cb o : forall n q, n = qmaxlevel - qlevel q -> exists f, refine_quadrant cb o q f.
Proof.
  induction n as [|n IH]; intros q Hn.
  - exists (FLeaf o). constructor. apply andb_false_iff. right. apply Nat.ltb_ge. lia.
  - destruct (cb q && (qlevel q <? qmaxlevel)) eqn:E; [|exists (FLeaf o); constructor; exact E].
    assert (K : forall i, exists f, refine_quadrant cb o (qchild q i) f).
    { intros i. apply IH. cbn [qchild qlevel]. lia. }
    destruct (K 0) as (a & Ha), (K 1) as (b & Hb), (K 2) as (c & Hc), (K 3) as (d & Hd).
    exists (FNode a b c d). constructor; auto.
Qed.

Lemma refine_quadrant_unique cb o q f : refine_quadrant cb o q f -> forall f', refine_quadrant cb o q f' -> f = f'.
Proof.
  induction 1 as [q E|q a b c d E Ha IHa Hb IHb Hc IHc Hd IHd]; intros f' H'; inversion H'; subst; try congruence.
  f_equal; auto.
Qed.

Lemma refine_forest_ex cb : forall f q, exists f', refine_forest cb q f f'.
Proof.
  induction f as [o|a IHa b IHb c IHc d IHd]; intros q; cbn [refine_forest].
  - exact (refine_quadrant_ex cb o _ q eq_refl).
  - destruct (IHa (qchild q 0)) as (a' & Ha), (IHb (qchild q 1)) as (b' & Hb),
      (IHc (qchild q 2)) as (c' & Hc), (IHd (qchild q 3)) as (d' & Hd).
    exists (FNode a' b' c' d'). auto.
Qed.

Lemma refine_forest_unique cb : forall f q f1 f2, refine_forest cb q f f1 -> refine_forest cb q f f2 -> f1 = f2.
Proof.
  induction f as [o|a IHa b IHb c IHc d IHd]; intros q f1 f2; cbn [refine_forest].
  - intros H1 H2. exact (refine_quadrant_unique _ _ _ _ H1 _ H2).
  - destruct f1 as [|a1 b1 c1 d1]; [contradiction|]. destruct f2 as [|a2 b2 c2 d2]; [contradiction|].
    intros (A1 & B1 & C1 & D1) (A2 & B2 & C2 & D2). f_equal; eauto.
Qed.

Lemma snoc_case (ds : list nat) : ds = [] \/ exists i ds', ds = ds' ++ [i].
Proof. destruct ds as [|i ds' _] using rev_ind; eauto. Qed.

(** ** Which quadrants are refined *)
Definition cbx (cb : quadrant -> bool) (q : quadrant) : bool := cb q && (qlevel q <? qmaxlevel).

Lemma refine_quadrant_node cb o q f : refine_quadrant cb o q f -> forall ds g, sub f ds = Some g ->
  (exists a b c d, g = FNode a b c d) <-> cbx cb (quad_at q ds) = true.
Proof.
  induction 1 as [q E|q a b c d E Ha IHa Hb IHb Hc IHc Hd IHd]; intros ds g Es.
  - destruct ds as [|i ds]; [|cbn in Es; discriminate]. cbn in Es. injection Es as <-. unfold cbx. cbn [quad_at fold_left].
    rewrite E. split; [intros (? & ? & ? & ? & ?); discriminate|discriminate].
  - destruct ds as [|i ds].
    + cbn in Es. injection Es as <-. cbn. unfold cbx. rewrite E. split; [auto|]. intros _. eauto.
    + unfold quad_at. cbn [fold_left]. cbn [sub] in Es.
      destruct i as [|[|[|[|i]]]]; cbn [fchild] in Es; try discriminate; [apply IHa|apply IHb|apply IHc|apply IHd]; exact Es.
Qed.

(** The quadrant is a leaf of the uniform tree or outside of it. *)
Lemma refine_forest_node cb n : forall F0 q F1, uniform n F0 -> refine_forest cb q F0 F1 ->
  forall ds g, sub F1 ds = Some g ->
  (exists a b c d, g = FNode a b c d) <-> length ds < n \/ cbx cb (quad_at q ds) = true /\ n <= length ds.
Proof.
  induction n as [|n IH]; intros F0 q F1 U H ds g Es; destruct F0 as [o|a b c d]; try contradiction.
  - cbn [refine_forest] in H. rewrite (refine_quadrant_node _ _ _ _ H ds g Es). split; [|intros [|[]]; [lia|auto]].
    intros; right; split; auto; lia.
  - cbn [refine_forest] in H. destruct F1 as [|a' b' c' d']; [contradiction|].
    destruct H as (Ha & Hb & Hc & Hd), U as (Ua & Ub & Uc & Ud).
    destruct ds as [|i ds].
    + cbn in Es. injection Es as <-. split; [intros _; left; cbn; lia|]. intros _. eauto.
    + cbn [sub] in Es. unfold quad_at. cbn [fold_left length].
      assert (K : (exists a b c d, g = FNode a b c d) <-> length ds < n \/ cbx cb (quad_at (qchild q i) ds) = true /\ n <= length ds).
      { destruct i as [|[|[|[|i]]]]; cbn [fchild] in Es; try discriminate;
          [apply (IH a _ a')|apply (IH b _ b')|apply (IH c _ c')|apply (IH d _ d')]; auto. }
      rewrite K. unfold quad_at. intuition lia.
Qed.

Lemma sub_digits f ds g : sub f ds = Some g -> Forall (fun i => i < 4) ds.
Proof.
  revert f; induction ds as [|i ds IH]; intros f H; [constructor|]. cbn [sub] in H.
  destruct f as [o|a b c d]; [discriminate|].
  destruct i as [|[|[|[|i]]]]; cbn [fchild] in H; try discriminate; constructor; try lia; eauto.
Qed.

Lemma sub_depth f ds g : sub f ds = Some g -> length ds + depth g <= depth f.
Proof.
  revert f; induction ds as [|i ds IH]; intros f H; [cbn in H; injection H as <-; cbn; lia|]. cbn [sub] in H.
  destruct f as [o|a b c d]; [discriminate|].
  destruct i as [|[|[|[|i]]]]; cbn [fchild] in H; try discriminate; apply IH in H; cbn [length depth]; lia.
Qed.

Lemma sub_prefix f ds1 ds2 : sub f (ds1 ++ ds2) <> None -> sub f ds1 <> None.
Proof.
  revert f; induction ds1 as [|i ds1 IH]; intros f H; [cbn; discriminate|]. cbn [app sub] in *.
  destruct (fchild f i) as [g|]; [apply IH; exact H|exact H].
Qed.

(** A quadrant of the tree below which the tree goes on is a node. *)
Lemma sub_node f ds i g : sub f ds = Some g -> sub f (ds ++ [i]) <> None -> exists a b c d, g = FNode a b c d.
Proof.
  intros E H. rewrite (sub_app f ds [i] g E) in H. cbn in H. destruct g as [o|a b c d]; [cbn in H; congruence|eauto].
Qed.

Lemma depth_witness f n : n <= depth f -> exists ds g, sub f ds = Some g /\ length ds = n.
Proof.
  revert n; induction f as [o|a IHa b IHb c IHc d IHd]; intros n H.
  - cbn in H. exists [], (FLeaf o). split; [reflexivity|cbn; lia].
  - destruct n as [|n]; [exists [], (FNode a b c d); auto|]. cbn [depth] in H.
    assert (K : n <= depth a \/ n <= depth b \/ n <= depth c \/ n <= depth d) by lia.
    destruct K as [K|[K|[K|K]]].
    + destruct (IHa n K) as (ds & g & E & L). exists (0 :: ds), g. cbn. auto.
    + destruct (IHb n K) as (ds & g & E & L). exists (1 :: ds), g. cbn. auto.
    + destruct (IHc n K) as (ds & g & E & L). exists (2 :: ds), g. cbn. auto.
    + destruct (IHd n K) as (ds & g & E & L). exists (3 :: ds), g. cbn. auto.
Qed.

(** ** refineByFunction *)
Section refine.
Variables (fn : Qc -> Qc -> bool) (G : grid) (min : nat) (max : Z) (F0 F1 : forest).
Hypothesis Hmin : min <= qmaxlevel.
Hypothesis U : uniform min F0.
Hypothesis H1 : refine_forest (refine_callback fn max G) root_quadrant F0 F1.

Lemma uniform_depth n F : uniform n F -> depth F = n.
Proof.
  revert F; induction n as [|n IH]; intros [o|a b c d] H; try contradiction; [reflexivity|].
  destruct H as (Ha & Hb & Hc & Hd). cbn [depth]. rewrite (IH a), (IH b), (IH c), (IH d) by assumption. lia.
Qed.

Lemma node_level ds a b c d : sub F1 ds = Some (FNode a b c d) -> length ds < qmaxlevel.
Proof.
  intros E. destruct (proj1 (refine_forest_node _ min F0 _ F1 U H1 ds _ E)) as [H|[H _]]; [eauto|lia|].
  unfold cbx in H. apply andb_true_iff in H as [_ H]. apply Nat.ltb_lt in H. rewrite quad_at_level in H. exact H.
Qed.

Lemma sub_level ds g : sub F1 ds = Some g -> length ds <= qmaxlevel.
Proof.
  intros E. destruct (snoc_case ds) as [->|(i & ds' & ->)]; [cbn; unfold qmaxlevel; lia|].
  destruct (sub F1 ds') as [g'|] eqn:E'.
  - destruct (sub_node F1 ds' i g' E') as (a & b & c & d & ->); [congruence|].
    pose proof (node_level _ _ _ _ _ E'). rewrite app_length. cbn [length]. lia.
  - exfalso. apply (sub_prefix F1 ds' [i]); [congruence|exact E'].
Qed.

Lemma refined_iff ds : sub F1 ds <> None ->
  is_node F1 ds <-> length ds < min \/
    (Z.of_nat (length ds) < max)%Z /\ length ds < qmaxlevel /\ holds_at_centre fn G ds.
Proof.
  intros Hs. destruct (sub F1 ds) as [g|] eqn:E; [|congruence].
  pose proof (sub_level _ _ E) as HL. pose proof (sub_digits _ _ _ E) as Fd.
  assert (K : is_node F1 ds <-> exists a b c d, g = FNode a b c d).
  { unfold is_node. rewrite E. split; intros (a & b & c & d & X); exists a, b, c, d; congruence. }
  rewrite K, (refine_forest_node _ min F0 _ F1 U H1 ds g E). unfold cbx.
  rewrite andb_true_iff, (callback_iff fn max G ds Fd HL), Nat.ltb_lt, quad_at_level. cbn [root_quadrant qlevel Nat.add].
  destruct (Nat.lt_ge_cases (length ds) min); intuition lia.
Qed.

Lemma refined_depth : (Z.of_nat min <= max)%Z -> (Z.of_nat (depth F1) <= max)%Z.
Proof.
  intros Hmm. destruct (depth_witness F1 (depth F1) (le_n _)) as (ds & g & E & L).
  destruct (snoc_case ds) as [->|(i & ds' & ->)]; [cbn in L; lia|].
  destruct (sub F1 ds') as [g'|] eqn:E'.
  2:{ exfalso. apply (sub_prefix F1 ds' [i]); [congruence|exact E']. }
  destruct (sub_node F1 ds' i g' E') as (a & b & c & d & ->); [congruence|].
  assert (N : is_node F1 ds') by (exists a, b, c, d; exact E').
  apply refined_iff in N; [|congruence]. rewrite app_length in L. cbn [length] in L. lia.
Qed.
End refine.
