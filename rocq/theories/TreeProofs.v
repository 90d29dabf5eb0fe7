(** Quadrants, paths and the node factory. *)
From Verif Require Import Base VectorModel MatrixModel HPSModel TreeModel TreeSpec.

(** ** Bits of coordinates *)
Lemma land_pow2 x k : (0 <= k)%Z -> Z.eqb (Z.land x (2 ^ k)) 0 = negb (Z.testbit x k).
Proof.
  intros Hk. destruct (Z.testbit x k) eqn:E; simpl.
  - apply Z.eqb_neq. intros H.
    assert (Z.testbit (Z.land x (2 ^ k)) k = false) by (rewrite H; apply Z.bits_0).
    rewrite Z.land_spec, E, Z.pow2_bits_true in H0 by lia. discriminate.
  - apply Z.eqb_eq. apply Z.bits_inj'. intros n Hn.
    rewrite Z.land_spec, Z.bits_0. destruct (Z.eq_dec n k) as [->|Hne].
    + rewrite E. reflexivity.
    + rewrite Z.pow2_bits_false by lia. apply andb_false_r.
Qed.

Definition bit (x : Z) (l : nat) : bool := Z.testbit x (Z.of_nat (maxlevel - l)).

Lemma ancestor_id_bits q l : l <> 0 ->
  ancestor_id q l = Nat.b2n (bit (qx q) l) + 2 * Nat.b2n (bit (qy q) l).
Proof.
  intros Hl. unfold ancestor_id, qlen, bit.
  destruct (Nat.eqb_spec l 0); [lia|].
  rewrite !land_pow2 by lia.
  destruct (Z.testbit (qx q) _), (Z.testbit (qy q) _); reflexivity.
Qed.

Lemma ancestor_id_lt q l : ancestor_id q l < 4.
Proof.
  destruct (Nat.eq_dec l 0) as [->|H]; [cbn; lia|].
  rewrite ancestor_id_bits by auto.
  destruct (bit (qx q) l), (bit (qy q) l); cbn; lia.
Qed.

(** ** Paths *)
Lemma path_loop_eq q l s : path_loop q l s = s ++ rev (map (ancestor_id q) (seq 1 l)).
Proof.
  revert s; induction l as [|l IH]; intros s; [simpl; rewrite app_nil_r; reflexivity|].
  cbn [path_loop]. rewrite IH. rewrite seq_S, map_app, rev_app_distr. cbn [map rev app].
  rewrite <- app_assoc. reflexivity.
Qed.

Lemma quadrant_path_eq q : quadrant_path q = 0 :: map (ancestor_id q) (seq 1 (qlevel q)).
Proof.
  unfold quadrant_path. rewrite path_loop_eq. cbn [app]. rewrite rev_involutive. reflexivity.
Qed.

Lemma path_length q : length (quadrant_path q) = qlevel q + 1.
Proof. rewrite quadrant_path_eq. simpl. rewrite map_length, seq_length. lia. Qed.

(** Zero bits of coordinates of a valid quadrant. *)
Lemma low_bits x l n : l <= maxlevel -> (qlen l | x)%Z -> (0 <= n < Z.of_nat (maxlevel - l))%Z ->
  Z.testbit x n = false.
Proof.
  intros Hl [c ->] Hn. unfold qlen. rewrite Z.mul_pow2_bits_low by lia. reflexivity.
Qed.

Lemma bit_low x l l' : (qlen l | x)%Z -> l < l' -> l' <= maxlevel -> bit x l' = false.
Proof. intros H Hl Hl'. unfold bit. apply (low_bits x l); auto; lia. Qed.

Lemma high_bits x n : (0 <= x < 2 ^ 30)%Z -> (30 <= n)%Z -> Z.testbit x n = false.
Proof.
  intros Hx Hn. destruct (Z.eq_dec x 0) as [->|H0]; [apply Z.bits_0|].
  apply Z.bits_above_log2; [lia|].
  assert (Z.log2 x < 30)%Z by (apply Z.log2_lt_pow2; lia). lia.
Qed.

Lemma lor_bit x l l' (b : bool) : l' <> 0 -> l <= maxlevel -> l' <= maxlevel ->
  bit (if b then Z.lor x (qlen l) else x) l' = bit x l' || (b && Nat.eqb l l').
Proof.
  intros H0 Hl Hl'. unfold bit, qlen. destruct b; cbn [andb]; [|rewrite orb_false_r; reflexivity].
  rewrite Z.lor_spec. f_equal.
  destruct (Nat.eqb_spec l l') as [->|H].
  - apply Z.pow2_bits_true. lia.
  - apply Z.pow2_bits_false. lia.
Qed.

Lemma i_bits i : i < 4 -> Nat.b2n (Nat.odd i) + 2 * Nat.b2n (Nat.odd (i / 2)) = i.
Proof. intros. do 4 (destruct i as [|i]; [reflexivity|]). lia. Qed.

Lemma b2n_inj a b : Nat.b2n a = Nat.b2n b -> a = b.
Proof. destruct a, b; cbn; auto; discriminate. Qed.

Lemma path_child q i : valid_quadrant q -> qlevel q < qmaxlevel -> i < 4 ->
  quadrant_path (qchild q i) = quadrant_path q ++ [i].
Proof.
  intros (HL & _ & _ & Dx & Dy) Hlt Hi. rewrite !quadrant_path_eq. cbn [app]. f_equal.
  unfold qmaxlevel, maxlevel in *.
  change (qlevel (qchild q i)) with (S (qlevel q)).
  rewrite seq_S, map_app. cbn [map]. f_equal.
  - apply map_ext_in. intros l Hl. apply in_seq in Hl.
    rewrite !ancestor_id_bits by lia. unfold qchild; cbn [qx qy qlevel].
    rewrite !lor_bit by (unfold maxlevel; lia).
    replace (Nat.eqb (S (qlevel q)) l) with false by (symmetry; apply Nat.eqb_neq; lia).
    rewrite !andb_false_r, !orb_false_r. reflexivity.
  - f_equal. rewrite !ancestor_id_bits by lia. unfold qchild; cbn [qx qy qlevel].
    rewrite !lor_bit by (unfold maxlevel; lia).
    rewrite (bit_low (qx q) (qlevel q)) by (auto; unfold maxlevel; lia).
    rewrite (bit_low (qy q) (qlevel q)) by (auto; unfold maxlevel; lia).
    rewrite Nat.eqb_refl, !andb_true_r, !orb_false_l. apply i_bits. lia.
Qed.

Lemma coord_eq x y l : l <= maxlevel ->
  (0 <= x < 2 ^ 30)%Z -> (0 <= y < 2 ^ 30)%Z -> (qlen l | x)%Z -> (qlen l | y)%Z ->
  (forall k, 1 <= k <= l -> bit x k = bit y k) -> x = y.
Proof.
  intros Hl Hx Hy Dx Dy H. apply Z.bits_inj'. intros n Hn.
  destruct (Z_lt_le_dec n 30) as [H30|H30].
  - destruct (Z_lt_le_dec n (Z.of_nat (maxlevel - l))) as [Hlow|Hhi].
    + rewrite (low_bits x l), (low_bits y l) by (auto; lia). reflexivity.
    + unfold maxlevel in *. specialize (H (30 - Z.to_nat n)). unfold bit, maxlevel in H.
      replace (Z.of_nat (30 - (30 - Z.to_nat n))) with n in H by lia.
      apply H. lia.
  - rewrite !high_bits by lia. reflexivity.
Qed.

Lemma path_inj q q' : valid_quadrant q -> valid_quadrant q' ->
  quadrant_path q = quadrant_path q' -> q = q'.
Proof.
  intros (HL & Hx & Hy & Dx & Dy) (HL' & Hx' & Hy' & Dx' & Dy') E.
  assert (EL : qlevel q = qlevel q').
  { apply (f_equal (@length nat)) in E. rewrite !path_length in E. lia. }
  rewrite !quadrant_path_eq in E. injection E as E.
  destruct q as [x y l], q' as [x' y' l']. cbn [qx qy qlevel] in *. subst l'.
  assert (HA : forall k, 1 <= k <= l -> bit x k = bit x' k /\ bit y k = bit y' k).
  { intros k Hk. pose proof (ext_in_map E k) as Ek.
    assert (Hin : In k (seq 1 l)) by (apply in_seq; lia). specialize (Ek Hin).
    rewrite !ancestor_id_bits in Ek by lia. cbn [qx qy] in Ek.
    destruct (bit x k), (bit x' k), (bit y k), (bit y' k); cbn in Ek; try lia; auto. }
  f_equal.
  - apply (coord_eq x x' l); auto; [unfold maxlevel, qmaxlevel in *; lia|]. intros k Hk. apply HA; auto.
  - apply (coord_eq y y' l); auto; [unfold maxlevel, qmaxlevel in *; lia|]. intros k Hk. apply HA; auto.
Qed.

(** ** Children are quadrants *)
Lemma qlen_S l : l < maxlevel -> qlen l = (2 * qlen (S l))%Z.
Proof.
  intros H. unfold qlen. replace (maxlevel - l) with (S (maxlevel - S l)) by lia.
  rewrite Nat2Z.inj_succ, Z.pow_succ_r by lia. reflexivity.
Qed.

Lemma qlen_pos l : (0 < qlen l)%Z.
Proof. unfold qlen. apply Z.pow_pos_nonneg; lia. Qed.

Lemma lor_add x l : l < maxlevel -> (qlen l | x)%Z -> Z.lor x (qlen (S l)) = (x + qlen (S l))%Z.
Proof.
  intros Hl D.
  assert (N : Z.land x (qlen (S l)) = 0%Z).
  { apply Z.bits_inj'. intros n Hn. rewrite Z.land_spec, Z.bits_0. unfold qlen.
    destruct (Z.eq_dec n (Z.of_nat (maxlevel - S l))) as [->|Hne].
    + rewrite (low_bits x l) by (auto; lia). reflexivity.
    + rewrite Z.pow2_bits_false by lia. apply andb_false_r. }
  rewrite <- Z.lxor_lor by exact N. symmetry. apply Z.add_nocarry_lxor. exact N.
Qed.

Lemma child_is_child q i : valid_quadrant q -> qlevel q < qmaxlevel -> i < 4 ->
  is_child q i (qchild q i).
Proof.
  intros (HL & Hx & Hy & Dx & Dy) Hlt Hi. unfold is_child, qchild. cbn [qx qy qlevel].
  assert (qlevel q < maxlevel) by (unfold maxlevel, qmaxlevel in *; lia).
  split; [reflexivity|].
  rewrite !lor_add by auto.
  assert (E1 : Z.of_nat (i mod 2) = if Nat.odd i then 1%Z else 0%Z)
    by (do 4 (destruct i as [|i]; [reflexivity|]); lia).
  assert (E2 : Z.of_nat (i / 2) = if Nat.odd (i / 2) then 1%Z else 0%Z)
    by (do 4 (destruct i as [|i]; [reflexivity|]); lia).
  rewrite E1, E2. destruct (Nat.odd i), (Nat.odd (i / 2)); split; lia.
Qed.

Lemma coord_child x l (b : bool) : l < qmaxlevel ->
  (0 <= x < 2 ^ 30)%Z -> (qlen l | x)%Z ->
  (0 <= (if b then x + qlen (S l) else x) < 2 ^ 30)%Z /\
  (qlen (S l) | (if b then x + qlen (S l) else x))%Z.
Proof.
  intros Hl Hx [c Hc]. assert (Hl' : l < maxlevel) by (unfold maxlevel, qmaxlevel in *; lia).
  pose proof (qlen_S l Hl') as E. pose proof (qlen_pos (S l)) as P.
  assert (R : (2 ^ 30 = 2 ^ Z.of_nat l * qlen l)%Z).
  { unfold qlen. rewrite <- Z.pow_add_r by lia. f_equal. unfold maxlevel in *. lia. }
  split.
  - destruct b; [|auto]. split; [lia|].
    assert (c < 2 ^ Z.of_nat l)%Z by nia. nia.
  - destruct b.
    + exists (2 * c + 1)%Z. rewrite Hc, E. ring.
    + exists (2 * c)%Z. rewrite Hc, E. ring.
Qed.

Lemma valid_child q i : valid_quadrant q -> qlevel q < qmaxlevel -> i < 4 ->
  valid_quadrant (qchild q i).
Proof.
  intros V Hlt Hi. pose proof V as (HL & Hx & Hy & Dx & Dy).
  unfold valid_quadrant, qchild. cbn [qx qy qlevel].
  assert (Hm : qlevel q < maxlevel) by (unfold maxlevel, qmaxlevel in *; lia).
  rewrite !lor_add by auto.
  destruct (coord_child (qx q) (qlevel q) (Nat.odd i)) as [A1 A2]; auto.
  destruct (coord_child (qy q) (qlevel q) (Nat.odd (i / 2))) as [B1 B2]; auto.
Qed.

Lemma root_valid : valid_quadrant root_quadrant.
Proof.
  unfold valid_quadrant, root_quadrant; cbn [qx qy qlevel].
  split; [unfold qmaxlevel; lia|]. split; [lia|]. split; [lia|].
  split; apply Z.divide_0_r.
Qed.

(** ** The quadrant at a list of child numbers *)
Definition quad_at (q : quadrant) (ds : list nat) : quadrant := fold_left qchild ds q.

Lemma quad_at_level q ds : qlevel (quad_at q ds) = qlevel q + length ds.
Proof.
  unfold quad_at. revert q; induction ds as [|i ds IH]; intros q; cbn [fold_left length]; [lia|].
  rewrite IH. cbn. lia.
Qed.

Lemma quad_at_ok q ds : valid_quadrant q -> Forall (fun i => i < 4) ds ->
  qlevel q + length ds <= qmaxlevel ->
  valid_quadrant (quad_at q ds) /\ quadrant_path (quad_at q ds) = quadrant_path q ++ ds.
Proof.
  unfold quad_at. revert q; induction ds as [|i ds IH]; intros q V F HL; cbn [fold_left].
  - rewrite app_nil_r. auto.
  - inversion F; subst. simpl in HL.
    destruct (IH (qchild q i)) as [V' P'].
    + apply valid_child; auto; lia.
    + auto.
    + simpl. lia.
    + split; [exact V'|]. rewrite P', path_child by (auto; lia).
      rewrite <- app_assoc. reflexivity.
Qed.

(** Every valid quadrant is reached from the root by its digits. *)
Lemma path_digits q : exists ds, quadrant_path q = 0 :: ds /\ length ds = qlevel q /\ Forall (fun i => i < 4) ds.
Proof.
  exists (map (ancestor_id q) (seq 1 (qlevel q))). split; [apply quadrant_path_eq|].
  split; [rewrite map_length, seq_length; reflexivity|].
  apply Forall_forall. intros x Hx. apply in_map_iff in Hx as (l & <- & _). apply ancestor_id_lt.
Qed.

Lemma quad_from_root q : valid_quadrant q -> quad_at root_quadrant (tl (quadrant_path q)) = q.
Proof.
  intros V. destruct (path_digits q) as (ds & E & L & F). rewrite E. cbn [tl].
  assert (HL : qlevel q <= qmaxlevel) by apply V.
  destruct (quad_at_ok root_quadrant ds root_valid F) as [V' P'].
  { cbn. lia. }
  apply path_inj; auto. rewrite P', E. reflexivity.
Qed.

(** ** Creating a parent from children *)
Lemma parent_of_children n pf pl :
  let ch := Four (createChildNode n 0 pf pl) (createChildNode n 1 pf pl)
                 (createChildNode n 2 pf pl) (createChildNode n 3 pf pl) in
  createParentNode ch (n_pfirst n) (n_plast n)
  = QNode (new_patch (pgrid (n_data n))) (n_path n) (n_level n) (n_pfirst n) (n_plast n) false.
Proof.
  cbn. unfold createParentNode, createChildNode. cbn.
  rewrite removelast_last. destruct (n_data n) as [G ? ? ? ? ? ? ? ? ? ?]; cbn.
  destruct G; cbn. f_equal. lia.
Qed.
