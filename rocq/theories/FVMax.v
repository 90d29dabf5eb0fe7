(** The maximum principle: when every coefficient has the right sign, the discrete
    problem is uniquely solvable. *)
From Coq Require Import Lqa.
From Verif Require Import Base VectorModel MatrixModel LinSpec HPSModel HPSSpec FVModel FVSpec StageSpec.
From Verif Require Import MatProofs MatProofs2 LinProofs HPSProofs HPSProofs3 HPSProofs4 HPSStage2 FVProofs FVProofs2 FVProofs3.

(** Order of rationals, through Q. *)
Lemma this_plus a b : (this (a + b)%Qc == this a + this b)%Q.
Proof. apply Qred_correct. Qed.
Lemma this_mult a b : (this (a * b)%Qc == this a * this b)%Q.
Proof. apply Qred_correct. Qed.
Lemma this_opp a : (this (- a)%Qc == - this a)%Q.
Proof. apply Qred_correct. Qed.
Lemma this_minus a b : (this (a - b)%Qc == this a - this b)%Q.
Proof. unfold Qcminus. rewrite this_plus, this_opp. reflexivity. Qed.

Lemma pos_mul a b : (0 < a)%Qc -> (0 < b)%Qc -> (0 < a * b)%Qc.
Proof. unfold Qclt. rewrite this_mult. change (this 0%Qc) with 0%Q. nra. Qed.
Lemma sq_pos a : a <> 0%Qc -> (0 < a * a)%Qc.
Proof.
  intros H. unfold Qclt. rewrite this_mult. change (this 0%Qc) with 0%Q.
  assert (~ this a == 0)%Q by (intros E; apply H, Qc_is_canon; exact E). nra.
Qed.
Lemma inv_pos a : (0 < a)%Qc -> (0 < / a)%Qc.
Proof.
  intros H. destruct (Qclt_le_dec 0 (/ a)) as [|L]; auto. exfalso.
  assert (E : (a * / a = 1)%Qc) by (apply Qcmult_inv_r; intros ->; exact (Qlt_irrefl _ H)).
  apply (f_equal this) in E. pose proof (this_mult a (/ a)) as Q. rewrite E in Q.
  unfold Qclt, Qcle in *. change (this 0%Qc) with 0%Q in *. change (this 1%Qc) with 1%Q in Q. nra.
Qed.
Lemma mul_nonpos a b : (0 < a)%Qc -> (b <= 0)%Qc -> (a * b <= 0)%Qc.
Proof. unfold Qclt, Qcle. rewrite this_mult. change (this 0%Qc) with 0%Q. nra. Qed.
Lemma mul_neg a b : (0 < a)%Qc -> (b < 0)%Qc -> (a * b < 0)%Qc.
Proof. unfold Qclt. rewrite this_mult. change (this 0%Qc) with 0%Q. nra. Qed.

(** The first index with the largest value. *)
Lemma first_max (u : nat -> Qc) N : N <> 0 ->
  exists I, I < N /\ (forall J, J < N -> (u J <= u I)%Qc) /\ (forall J, J < I -> (u J < u I)%Qc).
Proof.
  intros HN. destruct N as [|N]; [contradiction|]. clear HN. induction N as [|N IH].
  - exists 0. split; [lia|]. split; [|lia]. intros J HJ. replace J with 0 by lia. apply Qcle_refl.
  - destruct IH as (I & HI & Hle & Hlt). destruct (Qclt_le_dec (u I) (u (S N))) as [L|L].
    + exists (S N). split; [lia|]. split.
      * intros J HJ. destruct (Nat.eq_dec J (S N)) as [->|]; [apply Qcle_refl|].
        apply Qclt_le_weak. eapply Qcle_lt_trans; [apply Hle; lia|exact L].
      * intros J HJ. eapply Qcle_lt_trans; [apply Hle; lia|exact L].
    + exists I. split; [lia|]. split; [|exact Hlt]. intros J HJ.
      destruct (Nat.eq_dec J (S N)) as [->|]; [exact L|apply Hle; lia].
Qed.

Section Max.
Context (c : coefs) (G : grid) (HP : proper G) (HS : right_signs c).
Notation nx := (gnx G).
Notation ny := (gny G).

Lemma not_positive u : fv_solution c G (zeros (2 * ny + 2 * nx)) (zeros (nx * ny)) u ->
  forall I, I < nx * ny -> (vval u I <= 0)%Qc.
Proof.
  intros (Lu & H). pose proof (proper_widths G HP) as (Wx & Wy). destruct HP as (_ & _ & Nx & Ny).
  destruct (first_max (vval u) (nx * ny)) as (I & HI & Hle & Hlt); [nia|].
  destruct (Qclt_le_dec 0 (vval u I)) as [Pos|NP].
  2:{ intros J HJ. eapply Qcle_trans; [apply Hle; auto|exact NP]. }
  exfalso. set (g := zeros (2 * ny + 2 * nx)) in *. pose proof (ghost_of_ok G g u Nx Ny) as HG.
  set (E := ghost_of G g u) in *. set (M := vval u I) in *.
  set (i := I / ny). set (j := I mod ny).
  assert (Hj : j < ny) by (apply Nat.mod_upper_bound; auto).
  assert (Hi : i < nx) by (apply Nat.div_lt_upper_bound; auto; lia).
  assert (EI : I = j + i * ny) by (unfold i, j; rewrite (Nat.div_mod I ny Ny) at 1; lia).
  specialize (H E HG i j Hi Hj). destruct HG as (Hc & Hwe & Hsn).
  assert (Zv : forall k, vval g k = 0%Qc) by (intros; apply vval_zeros).
  assert (HM : E (Z.of_nat i) (Z.of_nat j) = M) by (rewrite Hc by auto; unfold cell; rewrite <- EI; reflexivity).
  assert (half0 : forall a b, ((a + b) / (1 + 1) = 0)%Qc -> a = (- b)%Qc).
  { intros a b Q. apply half_eq in Q. rewrite Q. ring. }
  assert (NegM : forall x, (x <= M)%Qc -> x = M -> (- x < M)%Qc).
  { intros x _ ->. unfold Qclt in *. rewrite this_opp. change (this 0%Qc) with 0%Q in *. lra. }
  assert (HW : (E (Z.of_nat i - 1)%Z (Z.of_nat j) < M)%Qc).
  { destruct i as [|i'] eqn:Ei.
    - destruct (Hwe j Hj) as (Q & _). unfold west in Q. rewrite Zv in Q. apply half0 in Q.
      change (Z.of_nat 0 - 1)%Z with (-1)%Z. rewrite Q. apply NegM; [|exact HM].
      change 0%Z with (Z.of_nat 0). rewrite HM. apply Qcle_refl.
    - replace (Z.of_nat (S i') - 1)%Z with (Z.of_nat i') by lia. rewrite Hc by lia. apply Hlt. rewrite EI. cbn [Nat.mul]. lia. }
  assert (HE : (E (Z.of_nat i + 1)%Z (Z.of_nat j) <= M)%Qc).
  { destruct (Nat.eq_dec (S i) nx) as [Q1|Q1].
    - destruct (Hwe j Hj) as (_ & Q). unfold east in Q. rewrite Zv in Q. apply half0 in Q.
      replace (Z.of_nat i + 1)%Z with (Z.of_nat nx) by lia. rewrite Q. apply Qclt_le_weak, NegM;
      replace (Z.of_nat nx - 1)%Z with (Z.of_nat i) by lia; rewrite HM; [apply Qcle_refl|reflexivity].
    - replace (Z.of_nat i + 1)%Z with (Z.of_nat (S i)) by lia. rewrite Hc by lia. apply Hle. nia. }
  assert (HSo : (E (Z.of_nat i) (Z.of_nat j - 1)%Z <= M)%Qc).
  { destruct j as [|j'] eqn:Ej.
    - destruct (Hsn i Hi) as (Q & _). unfold south in Q. rewrite Zv in Q. apply half0 in Q.
      change (Z.of_nat 0 - 1)%Z with (-1)%Z. rewrite Q. apply Qclt_le_weak, NegM;
      change 0%Z with (Z.of_nat 0); rewrite HM; [apply Qcle_refl|reflexivity].
    - replace (Z.of_nat (S j') - 1)%Z with (Z.of_nat j') by lia. rewrite Hc by lia. apply Hle. nia. }
  assert (HN : (E (Z.of_nat i) (Z.of_nat j + 1)%Z <= M)%Qc).
  { destruct (Nat.eq_dec (S j) ny) as [Q1|Q1].
    - destruct (Hsn i Hi) as (_ & Q). unfold north in Q. rewrite Zv in Q. apply half0 in Q.
      replace (Z.of_nat j + 1)%Z with (Z.of_nat ny) by lia. rewrite Q. apply Qclt_le_weak, NegM;
      replace (Z.of_nat ny - 1)%Z with (Z.of_nat j) by lia; rewrite HM; [apply Qcle_refl|reflexivity].
    - replace (Z.of_nat j + 1)%Z with (Z.of_nat (S j)) by lia. rewrite Hc by lia. apply Hle. nia. }
  unfold cell in H. rewrite vval_zeros in H. unfold elliptic in H. rewrite HM in H. clear HM Hc Hwe Hsn.
  set (Ew := E (Z.of_nat i - 1)%Z (Z.of_nat j)) in *. set (Ee := E (Z.of_nat i + 1)%Z (Z.of_nat j)) in *.
  set (Es := E (Z.of_nat i) (Z.of_nat j - 1)%Z) in *. set (En := E (Z.of_nat i) (Z.of_nat j + 1)%Z) in *.
  destruct (HS (mid_x G i) (mid_y G j)) as (Ha & _ & Hl).
  destruct (HS (face_x G (S i)) (mid_y G j)) as (_ & Be & _).
  destruct (HS (face_x G i) (mid_y G j)) as (_ & Bw & _).
  destruct (HS (mid_x G i) (face_y G (S j))) as (_ & Bn & _).
  destruct (HS (mid_x G i) (face_y G j)) as (_ & Bs & _).
  set (al := c_alpha c (mid_x G i) (mid_y G j)) in *. set (la := c_lambda c (mid_x G i) (mid_y G j)) in *.
  set (be := c_beta c (face_x G (S i)) (mid_y G j)) in *. set (bw := c_beta c (face_x G i) (mid_y G j)) in *.
  set (bn := c_beta c (mid_x G i) (face_y G (S j))) in *. set (bs := c_beta c (mid_x G i) (face_y G j)) in *.
  pose proof (inv_pos _ (sq_pos _ Wx)) as Px. pose proof (inv_pos _ (sq_pos _ Wy)) as Py.
  set (px := (/ (width_x G * width_x G))%Qc) in *. set (py := (/ (width_y G * width_y G))%Qc) in *.
  assert (EQ : (al * (be * px * (Ee - M) + bw * px * (Ew - M) + bn * py * (En - M) + bs * py * (Es - M)) + la * M = 0)%Qc).
  { refine (eq_trans _ H). unfold px, py. clearbody al la be bw bn bs Ee Ew En Es M.
    clear - Wx Wy. revert Wx Wy. generalize (width_x G) (width_y G). intros wx wy Wx Wy. field. split; auto. }
  clear H.
  assert (D0 : forall x, (x <= M)%Qc -> (x - M <= 0)%Qc).
  { intros x Hx. unfold Qcle in *. rewrite this_minus. change (this 0%Qc) with 0%Q. lra. }
  assert (D1 : (Ew - M < 0)%Qc).
  { unfold Qclt in *. rewrite this_minus. change (this 0%Qc) with 0%Q. lra. }
  pose proof (mul_nonpos _ _ (pos_mul _ _ Be Px) (D0 _ HE)) as T1.
  pose proof (mul_neg _ _ (pos_mul _ _ Bw Px) D1) as T2.
  pose proof (mul_nonpos _ _ (pos_mul _ _ Bn Py) (D0 _ HN)) as T3.
  pose proof (mul_nonpos _ _ (pos_mul _ _ Bs Py) (D0 _ HSo)) as T4.
  set (S := (be * px * (Ee - M) + bw * px * (Ew - M) + bn * py * (En - M) + bs * py * (Es - M))%Qc) in *.
  assert (HSneg : (S < 0)%Qc).
  { unfold S. unfold Qclt, Qcle in *. rewrite !this_plus. change (this 0%Qc) with 0%Q in *. lra. }
  assert (Q1 : (al * al * S + al * la * M = 0)%Qc) by (replace (al * al * S + al * la * M)%Qc with (al * (al * S + la * M))%Qc by ring; rewrite EQ; ring).
  pose proof (mul_neg _ _ (sq_pos al Ha) HSneg) as T5.
  assert (T6 : (M * (al * la) <= 0)%Qc) by (apply mul_nonpos; auto).
  apply (f_equal this) in Q1. pose proof (this_plus (al * al * S) (al * la * M)) as Q2. rewrite Q1 in Q2.
  replace (al * la * M)%Qc with (M * (al * la))%Qc in Q2 by ring.
  unfold Qclt, Qcle in *. change (this 0%Qc) with 0%Q in *. lra.
Qed.

Theorem maximum_principle : fv_unique c G.
Proof.
  intros u Hu. pose proof Hu as (Lu & _). apply zeros_eq; [exact Lu|]. intros I HI.
  pose proof (not_positive u Hu I HI) as H1.
  assert (Z0 : forall k n, lin k (zeros n) (zeros n) = zeros n).
  { intros k n. apply zeros_eq; [rewrite lin_length; apply zeros_length|]. intros t Ht.
    rewrite vval_lin by reflexivity. rewrite vval_zeros. ring. }
  pose proof (solution_lin c G HP (- (1) - 1)%Qc _ _ _ _ u u eq_refl eq_refl Hu Hu) as H2.
  rewrite !Z0 in H2. pose proof (not_positive _ H2 I HI) as H3. rewrite vval_lin in H3 by reflexivity.
  replace (vval u I + (- (1) - 1) * vval u I)%Qc with (- vval u I)%Qc in H3 by ring.
  apply Qcle_antisym; [exact H1|]. unfold Qcle in *. rewrite this_opp in H3. change (this 0%Qc) with 0%Q in *. lra.
Qed.
End Max.
