(** Comparison of discrete solutions, and bounds by the data. *)
From Coq Require Import Lqa.
From Verif Require Import Base VectorModel MatrixModel LinSpec HPSModel HPSSpec FVModel FVSpec StageSpec GlobalSpec AdaptSpec CompareSpec.
From Verif Require Import MatProofs MatProofs2 LinProofs HPSProofs HPSProofs3 HPSProofs4 HPSStage2 FVProofs FVProofs2 FVProofs3 FVMax FVJoin FVGlobal FVFish.

Section Compare.
Context (c : coefs) (G : grid) (HP : proper G) (HS : right_signs c).
Notation nx := (gnx G).
Notation ny := (gny G).

Lemma subsolution_nonpos g f u : fv_solution c G g f u -> (forall k, k < 2 * ny + 2 * nx -> (vval g k <= 0)%Qc) ->
  (forall i j, i < nx -> j < ny -> (0 <= c_alpha c (mid_x G i) (mid_y G j) * cell G f i j)%Qc) ->
  forall I, I < nx * ny -> (vval u I <= 0)%Qc.
Proof.
  intros (Lu & H) Hg Hf. pose proof (proper_widths G HP) as (Wx & Wy). destruct HP as (_ & _ & Nx & Ny).
  destruct (first_max (vval u) (nx * ny)) as (I & HI & Hle & Hlt); [nia|].
  destruct (Qclt_le_dec 0 (vval u I)) as [Pos|NP].
  2:{ intros J HJ. eapply Qcle_trans; [apply Hle; auto|exact NP]. }
  exfalso. pose proof (ghost_of_ok G g u Nx Ny) as HG.
  set (E := ghost_of G g u) in *. set (M := vval u I) in *.
  set (i := I / ny). set (j := I mod ny).
  assert (Hj : j < ny) by (apply Nat.mod_upper_bound; auto).
  assert (Hi : i < nx) by (apply Nat.div_lt_upper_bound; auto; lia).
  assert (EI : I = j + i * ny) by (unfold i, j; rewrite (Nat.div_mod I ny Ny) at 1; lia).
  specialize (H E HG i j Hi Hj). destruct HG as (Hc & Hwe & Hsn).
  assert (HM : E (Z.of_nat i) (Z.of_nat j) = M) by (rewrite Hc by auto; unfold cell; rewrite <- EI; reflexivity).
  assert (below : forall a b w, ((a + b) / (1 + 1) = w)%Qc -> (w <= 0)%Qc -> b = M -> (a < M)%Qc).
  { intros a b w Q Hw ->. apply half_eq in Q. rewrite Q. unfold Qclt, Qcle in *. rewrite this_minus, this_plus.
    change (this 0%Qc) with 0%Q in *. lra. }
  assert (HW : (E (Z.of_nat i - 1)%Z (Z.of_nat j) < M)%Qc).
  { destruct i as [|i'] eqn:Ei.
    - destruct (Hwe j Hj) as (Q & _). change (Z.of_nat 0 - 1)%Z with (-1)%Z.
      apply (below _ _ _ Q); [apply Hg; lia|]. exact HM.
    - replace (Z.of_nat (S i') - 1)%Z with (Z.of_nat i') by lia. rewrite Hc by lia. apply Hlt. rewrite EI. cbn [Nat.mul]. lia. }
  assert (HE : (E (Z.of_nat i + 1)%Z (Z.of_nat j) <= M)%Qc).
  { destruct (Nat.eq_dec (S i) nx) as [Q1|Q1].
    - destruct (Hwe j Hj) as (_ & Q). replace (Z.of_nat i + 1)%Z with (Z.of_nat nx) by lia.
      apply Qclt_le_weak, (below _ _ _ Q); [apply Hg; lia|]. replace (Z.of_nat nx - 1)%Z with (Z.of_nat i) by lia. exact HM.
    - replace (Z.of_nat i + 1)%Z with (Z.of_nat (S i)) by lia. rewrite Hc by lia. apply Hle. nia. }
  assert (HSo : (E (Z.of_nat i) (Z.of_nat j - 1)%Z <= M)%Qc).
  { destruct j as [|j'] eqn:Ej.
    - destruct (Hsn i Hi) as (Q & _). change (Z.of_nat 0 - 1)%Z with (-1)%Z.
      apply Qclt_le_weak, (below _ _ _ Q); [apply Hg; lia|]. exact HM.
    - replace (Z.of_nat (S j') - 1)%Z with (Z.of_nat j') by lia. rewrite Hc by lia. apply Hle. nia. }
  assert (HN : (E (Z.of_nat i) (Z.of_nat j + 1)%Z <= M)%Qc).
  { destruct (Nat.eq_dec (S j) ny) as [Q1|Q1].
    - destruct (Hsn i Hi) as (_ & Q). replace (Z.of_nat j + 1)%Z with (Z.of_nat ny) by lia.
      apply Qclt_le_weak, (below _ _ _ Q); [apply Hg; lia|]. replace (Z.of_nat ny - 1)%Z with (Z.of_nat j) by lia. exact HM.
    - replace (Z.of_nat j + 1)%Z with (Z.of_nat (S j)) by lia. rewrite Hc by lia. apply Hle. nia. }
  specialize (Hf i j Hi Hj). set (F := cell G f i j) in *. unfold elliptic in H. rewrite HM in H. clear HM Hc Hwe Hsn.
  set (Ew := E (Z.of_nat i - 1)%Z (Z.of_nat j)) in *. set (Ee := E (Z.of_nat i + 1)%Z (Z.of_nat j)) in *.
  set (Es := E (Z.of_nat i) (Z.of_nat j - 1)%Z) in *. set (En := E (Z.of_nat i) (Z.of_nat j + 1)%Z) in *.
  destruct (HS (mid_x G i) (mid_y G j)) as (Ha & _ & Hl).
  destruct (HS (face_x G (S i)) (mid_y G j)) as (_ & Be & _).
  destruct (HS (face_x G i) (mid_y G j)) as (_ & Bw & _).
  destruct (HS (mid_x G i) (face_y G (S j))) as (_ & Bn & _).
  destruct (HS (mid_x G i) (face_y G j)) as (_ & Bs & _).
  set (al := c_alpha c (mid_x G i) (mid_y G j)) in *. set (la := c_lambda c (mid_x G i) (mid_y G j)) in *.
  set (be := c_beta c (face_x G (S i)) (mid_y G j)) in *. set (bw := c_beta c (face_x G i) (mid_y G j)) in *.
  set (bn := c_beta c (mid_x G i) (face_y G (S j))) in *. set (bs := c_beta c (mid_x G i) (face_y G j)) in *.
  pose proof (inv_pos _ (sq_pos _ Wx)) as Px. pose proof (inv_pos _ (sq_pos _ Wy)) as Py.
  set (px := (/ (width_x G * width_x G))%Qc) in *. set (py := (/ (width_y G * width_y G))%Qc) in *.
  assert (EQ : (al * (be * px * (Ee - M) + bw * px * (Ew - M) + bn * py * (En - M) + bs * py * (Es - M)) + la * M = F)%Qc).
  { refine (eq_trans _ H). unfold px, py. clearbody F al la be bw bn bs Ee Ew En Es M.
    clear - Wx Wy. revert Wx Wy. generalize (width_x G) (width_y G). intros wx wy Wx Wy. field. split; auto. }
  clear H.
  assert (D0 : forall x, (x <= M)%Qc -> (x - M <= 0)%Qc).
  { intros x Hx. unfold Qcle in *. rewrite this_minus. change (this 0%Qc) with 0%Q. lra. }
  assert (D1 : (Ew - M < 0)%Qc).
  { unfold Qclt in *. rewrite this_minus. change (this 0%Qc) with 0%Q. lra. }
  pose proof (mul_nonpos _ _ (pos_mul _ _ Be Px) (D0 _ HE)) as T1.
  pose proof (mul_neg _ _ (pos_mul _ _ Bw Px) D1) as T2.
  pose proof (mul_nonpos _ _ (pos_mul _ _ Bn Py) (D0 _ HN)) as T3.
  pose proof (mul_nonpos _ _ (pos_mul _ _ Bs Py) (D0 _ HSo)) as T4.
  set (S := (be * px * (Ee - M) + bw * px * (Ew - M) + bn * py * (En - M) + bs * py * (Es - M))%Qc) in *.
  assert (HSneg : (S < 0)%Qc).
  { unfold S. unfold Qclt, Qcle in *. rewrite !this_plus. change (this 0%Qc) with 0%Q in *. lra. }
  assert (Q1 : (al * al * S + al * la * M = al * F)%Qc) by (replace (al * al * S + al * la * M)%Qc with (al * (al * S + la * M))%Qc by ring; rewrite EQ; ring).
  pose proof (mul_neg _ _ (sq_pos al Ha) HSneg) as T5.
  assert (T6 : (M * (al * la) <= 0)%Qc) by (apply mul_nonpos; auto).
  apply (f_equal this) in Q1. pose proof (this_plus (al * al * S) (al * la * M)) as Q2. rewrite Q1 in Q2.
  replace (al * la * M)%Qc with (M * (al * la))%Qc in Q2 by ring.
  unfold Qclt, Qcle in *. change (this 0%Qc) with 0%Q in *. lra.
Qed.


Theorem comparison g1 g2 f1 f2 u1 u2 : length g1 = length g2 -> length f1 = length f2 ->
  fv_solution c G g1 f1 u1 -> fv_solution c G g2 f2 u2 -> data_le G g1 g2 -> load_ge c G f1 f2 ->
  forall I, I < nx * ny -> (vval u1 I <= vval u2 I)%Qc.
Proof.
  intros Lg Lf H1 H2 Hg Hf I HI. pose proof H1 as (L1 & _). pose proof H2 as (L2 & _).
  pose proof (solution_lin c G HP (- (1))%Qc g1 g2 f1 f2 u1 u2 Lg Lf H1 H2) as D.
  assert (Q : (vval (lin (- (1)) u1 u2) I <= 0)%Qc).
  { apply (subsolution_nonpos _ _ _ D); auto.
    - intros k Hk. specialize (Hg k Hk). rewrite vval_lin by auto. unfold Qcle in *. rewrite this_plus, this_mult.
      change (this (- (1))%Qc) with (- (1))%Q. change (this 0%Qc) with 0%Q. lra.
    - intros i j Hi Hj. specialize (Hf i j Hi Hj). unfold cell in *. rewrite vval_lin by auto.
      replace (c_alpha c (mid_x G i) (mid_y G j) * (vval f1 (j + i * ny)%nat + - (1) * vval f2 (j + i * ny)%nat))%Qc with
        (c_alpha c (mid_x G i) (mid_y G j) * vval f1 (j + i * ny)%nat - c_alpha c (mid_x G i) (mid_y G j) * vval f2 (j + i * ny)%nat)%Qc by ring.
      unfold Qcle in *. rewrite this_minus. change (this 0%Qc) with 0%Q. lra. }
  rewrite vval_lin in Q by congruence. unfold Qcle in *. rewrite this_plus, this_mult in Q.
  change (this (- (1))%Qc) with (- (1))%Q in Q. change (this 0%Qc) with 0%Q in Q. lra.
Qed.

Lemma const_data K k : k < 2 * ny + 2 * nx -> vval (repeat K (2 * ny + 2 * nx)) k = K.
Proof. intros Hk. unfold vval. rewrite (nth_indep _ 0%Qc K) by (rewrite repeat_length; exact Hk). apply nth_repeat. Qed.

Theorem bounded_above K g f u : length g = 2 * ny + 2 * nx -> length f = nx * ny -> (0 <= K)%Qc ->
  fv_solution c G g f u -> (forall k, k < 2 * ny + 2 * nx -> (vval g k <= K)%Qc) ->
  (forall i j, i < nx -> j < ny -> (0 <= c_alpha c (mid_x G i) (mid_y G j) * cell G f i j)%Qc) ->
  forall I, I < nx * ny -> (vval u I <= K)%Qc.
Proof.
  intros Lg Lf HK Hu Hg Hf I HI. pose proof HP as (_ & _ & Nx & Ny).
  set (F := sampled (fun x y => c_lambda c x y * K)%Qc G).
  assert (CF : forall i j, i < nx -> j < ny -> cell G F i j = (c_lambda c (mid_x G i) (mid_y G j) * K)%Qc).
  { intros i j Hi Hj. unfold F, cell, sampled. rewrite map_seq_vec, vval_vec_of by nia.
    rewrite Nat.div_add, Nat.mod_add, Nat.div_small, Nat.mod_small by auto. reflexivity. }
  assert (SK : fv_solution c G (repeat K (2 * ny + 2 * nx)) F (plane_cells G K 0 0)).
  { apply plane_solution; auto.
    - unfold plane_data, west, east, south, north. split; intros k Hk; rewrite !const_data by lia; unfold plane; split; ring.
    - intros i j Hi Hj. rewrite CF by auto. unfold plane, Qcdiv. ring. }
  assert (EK : vval (plane_cells G K 0 0) I = K).
  { unfold plane_cells. rewrite vval_vec_of by auto. unfold plane. ring. }
  rewrite <- EK. apply (comparison g (repeat K (2 * ny + 2 * nx)) f F u); auto.
  - rewrite repeat_length. auto.
  - unfold F, sampled. rewrite map_length, seq_length. auto.
  - intros k Hk. rewrite const_data by auto. auto.
  - intros i j Hi Hj. rewrite CF by auto. eapply Qcle_trans; [|apply Hf; auto].
    destruct (HS (mid_x G i) (mid_y G j)) as (_ & _ & Hl).
    replace (c_alpha c (mid_x G i) (mid_y G j) * (c_lambda c (mid_x G i) (mid_y G j) * K))%Qc with
      (K * (c_alpha c (mid_x G i) (mid_y G j) * c_lambda c (mid_x G i) (mid_y G j)))%Qc by ring.
    unfold Qcle in *. rewrite this_mult. change (this 0%Qc) with 0%Q in *. nra.
Qed.

Theorem bounded_below K g f u : length g = 2 * ny + 2 * nx -> length f = nx * ny -> (K <= 0)%Qc ->
  fv_solution c G g f u -> (forall k, k < 2 * ny + 2 * nx -> (K <= vval g k)%Qc) ->
  (forall i j, i < nx -> j < ny -> (c_alpha c (mid_x G i) (mid_y G j) * cell G f i j <= 0)%Qc) ->
  forall I, I < nx * ny -> (K <= vval u I)%Qc.
Proof.
  intros Lg Lf HK Hu Hg Hf I HI. pose proof Hu as (Lu & _).
  pose proof (solution_lin c G HP (- (1) - 1)%Qc g g f f u u eq_refl eq_refl Hu Hu) as D.
  assert (N : forall v k, vval (lin (- (1) - 1) v v) k = (- vval v k)%Qc) by (intros; rewrite vval_lin by auto; ring).
  assert (Q : (vval (lin (- (1) - 1) u u) I <= - K)%Qc).
  { apply (bounded_above (- K)%Qc (lin (- (1) - 1) g g) (lin (- (1) - 1) f f)); auto.
    - rewrite lin_length. auto.
    - rewrite lin_length. auto.
    - unfold Qcle in *. rewrite this_opp. change (this 0%Qc) with 0%Q in *. lra.
    - intros k Hk. rewrite N. apply Qcopp_le_compat. auto.
    - intros i j Hi Hj. unfold cell in *. rewrite N. specialize (Hf i j Hi Hj).
      replace (c_alpha c (mid_x G i) (mid_y G j) * - vval f (j + i * ny)%nat)%Qc with
        (- (c_alpha c (mid_x G i) (mid_y G j) * vval f (j + i * ny)%nat))%Qc by ring.
      unfold Qcle in *. rewrite this_opp. change (this 0%Qc) with 0%Q in *. lra. }
  rewrite N in Q. unfold Qcle in *. rewrite !this_opp in Q. lra.
Qed.
End Compare.

(** Values in all cells of the rectangle are values in all cells of the leaves. *)
Lemma scatter_cells P m l : m <> 0 -> forall G s u, gnx G = m * 2 ^ l -> gny G = m * 2 ^ l -> uniform m l G s ->
  each_cell P G u -> each_leaf_cell P s (scatter m l u).
Proof.
  intros Hm. unfold each_leaf_cell. induction l as [|l IH]; intros G [G' f|a b c' d] u Ex Ey HU HC; try contradiction.
  - cbn [uniform] in HU. subst G'. cbn [leaves scatter]. constructor; auto.
  - assert (En : m * 2 ^ S l = 2 * (m * 2 ^ l)) by (cbn [Nat.pow]; lia). rewrite En in Ex, Ey.
    pose proof (pow_nz m Hm l) as Nn. destruct HU as (A & B & C & D). cbn [leaves scatter].
    assert (HQ : forall e t, each_cell P (quarter (m * 2 ^ l) G e t) (block (m * 2 ^ l) u e t)).
    { intros e t i j Hi Hj. cbn [quarter gnx gny] in Hi, Hj.
      rewrite (quarter_mx _ G Nn Ex), (quarter_my _ G Nn Ey).
      replace (cell (quarter (m * 2 ^ l) G e t) (block (m * 2 ^ l) u e t) i j) with
        (cell G u (i + off (m * 2 ^ l) e) (j + off (m * 2 ^ l) t)).
      - apply HC; unfold off; destruct e, t; lia.
      - unfold cell at 2. cbn [quarter gny]. unfold block. rewrite map_seq_vec, vval_vec_of by nia.
        rewrite Nat.div_add, Nat.mod_add, Nat.div_small, Nat.mod_small by auto. unfold cell. rewrite Ey. reflexivity. }
    repeat apply Forall2_app; eapply IH; eauto; reflexivity.
Qed.
