(** The strong maximum principle, and uniqueness for mixed boundary conditions. *)
From Coq Require Import Lqa.
From Verif Require Import Base VectorModel MatrixModel LinSpec HPSModel HPSSpec FVModel FVSpec StageSpec GlobalSpec AdaptSpec CompareSpec.
From Verif Require Import MatProofs MatProofs2 LinProofs HPSProofs HPSProofs3 HPSProofs4 HPSStage2 FVProofs FVProofs2 FVProofs3 FVMax FVJoin FVGlobal FVFish FVCompare ConvSpec ConvProofs.
From Coq Require Import Lia.

Section Mixed.
Context (c : coefs) (G : grid) (HO : oriented G) (HS : right_signs c).
Notation nx := (gnx G).
Notation ny := (gny G).

(** Nonpositive terms whose sum is zero vanish. *)
Lemma zero_sum a b d e : (a <= 0)%Qc -> (b <= 0)%Qc -> (d <= 0)%Qc -> (e <= 0)%Qc -> (a + b + d + e = 0)%Qc ->
  a = 0%Qc /\ b = 0%Qc /\ d = 0%Qc /\ e = 0%Qc.
Proof.
  intros Ha Hb Hd He Q. assert (Q' : (this a + this b + this d + this e == 0)%Q) by (rewrite <- !this_plus, Q; reflexivity).
  unfold Qcle in *. change (this 0%Qc) with 0%Q in *. repeat split; apply Qcle_antisym; unfold Qcle; change (this 0%Qc) with 0%Q; lra.
Qed.
Lemma zero_two a b : (a <= 0)%Qc -> (b <= 0)%Qc -> (a + b = 0)%Qc -> a = 0%Qc /\ b = 0%Qc.
Proof.
  intros Ha Hb Q. destruct (zero_sum a b 0 0 Ha Hb (Qcle_refl _) (Qcle_refl _)) as (A & B & _); auto. rewrite Q. reflexivity.
Qed.
Lemma zero_factor a x : (0 < a)%Qc -> (a * x = 0)%Qc -> x = 0%Qc.
Proof. intros Ha Q. apply Qcmult_integral in Q as [Q|Q]; auto. subst a. now apply Qclt_not_eq in Ha. Qed.

Section Spread.
Context (M : Qc) (g u : list Qc) (HM : (0 < M)%Qc).
Context (Hu : fv_solution c G g (zeros (nx * ny)) u).
Context (Hgle : forall k, k < 2 * ny + 2 * nx -> (vval g k <= M)%Qc).
Context (Hule : forall i j, i < nx -> j < ny -> (cell G u i j <= M)%Qc).

(** Where the largest value is taken in a cell it is taken all around it. *)
Lemma around i j : i < nx -> j < ny -> cell G u i j = M ->
  (i = 0 -> west G g j = M) /\ (0 < i -> cell G u (i - 1) j = M) /\
  (S i = nx -> east G g j = M) /\ (S i < nx -> cell G u (S i) j = M) /\
  (j = 0 -> south G g i = M) /\ (0 < j -> cell G u i (j - 1) = M) /\
  (S j = ny -> north G g i = M) /\ (S j < ny -> cell G u i (S j) = M) /\
  c_lambda c (mid_x G i) (mid_y G j) = 0%Qc.
Proof.
  intros Hi Hj HC. pose proof (proper_widths G (orp _ HO)) as (Wx & Wy). pose proof HO as (_ & _ & Nx & Ny).
  destruct Hu as (Lu & H). pose proof (ghost_of_ok G g u Nx Ny) as HG. set (E := ghost_of G g u) in *.
  specialize (H E HG i j Hi Hj). destruct HG as (Hc & Hwe & Hsn).
  assert (HEM : E (Z.of_nat i) (Z.of_nat j) = M) by (rewrite Hc by auto; exact HC).
  assert (below : forall a b w, ((a + b) / (1 + 1) = w)%Qc -> (w <= M)%Qc -> b = M -> (a <= M)%Qc).
  { intros a b w Q Hw ->. apply half_eq in Q. rewrite Q. unfold Qcle in *. rewrite this_minus, this_plus. lra. }
  assert (same : forall a b w, ((a + b) / (1 + 1) = w)%Qc -> a = M -> b = M -> w = M).
  { intros a b w Q -> ->. rewrite <- Q. field. discriminate. }
  assert (HW : (E (Z.of_nat i - 1)%Z (Z.of_nat j) <= M)%Qc).
  { destruct i as [|i'] eqn:Ei.
    - destruct (Hwe j Hj) as (Q & _). change (Z.of_nat 0 - 1)%Z with (-1)%Z. apply (below _ _ _ Q); [apply Hgle; lia|exact HEM].
    - replace (Z.of_nat (S i') - 1)%Z with (Z.of_nat i') by lia. rewrite Hc by lia. apply Hule; lia. }
  assert (HE : (E (Z.of_nat i + 1)%Z (Z.of_nat j) <= M)%Qc).
  { destruct (Nat.eq_dec (S i) nx) as [Q1|Q1].
    - destruct (Hwe j Hj) as (_ & Q). replace (Z.of_nat i + 1)%Z with (Z.of_nat nx) by lia.
      apply (below _ _ _ Q); [apply Hgle; lia|]. replace (Z.of_nat nx - 1)%Z with (Z.of_nat i) by lia. exact HEM.
    - replace (Z.of_nat i + 1)%Z with (Z.of_nat (S i)) by lia. rewrite Hc by lia. apply Hule; lia. }
  assert (HSo : (E (Z.of_nat i) (Z.of_nat j - 1)%Z <= M)%Qc).
  { destruct j as [|j'] eqn:Ej.
    - destruct (Hsn i Hi) as (Q & _). change (Z.of_nat 0 - 1)%Z with (-1)%Z. apply (below _ _ _ Q); [apply Hgle; lia|exact HEM].
    - replace (Z.of_nat (S j') - 1)%Z with (Z.of_nat j') by lia. rewrite Hc by lia. apply Hule; lia. }
  assert (HN : (E (Z.of_nat i) (Z.of_nat j + 1)%Z <= M)%Qc).
  { destruct (Nat.eq_dec (S j) ny) as [Q1|Q1].
    - destruct (Hsn i Hi) as (_ & Q). replace (Z.of_nat j + 1)%Z with (Z.of_nat ny) by lia.
      apply (below _ _ _ Q); [apply Hgle; lia|]. replace (Z.of_nat ny - 1)%Z with (Z.of_nat j) by lia. exact HEM.
    - replace (Z.of_nat j + 1)%Z with (Z.of_nat (S j)) by lia. rewrite Hc by lia. apply Hule; lia. }
  assert (KEY : E (Z.of_nat i - 1)%Z (Z.of_nat j) = M /\ E (Z.of_nat i + 1)%Z (Z.of_nat j) = M /\
                E (Z.of_nat i) (Z.of_nat j - 1)%Z = M /\ E (Z.of_nat i) (Z.of_nat j + 1)%Z = M /\
                c_lambda c (mid_x G i) (mid_y G j) = 0%Qc).
  { unfold cell in H at 1. rewrite vval_zeros in H. unfold elliptic in H. rewrite HEM in H.
    set (Ew := E (Z.of_nat i - 1)%Z (Z.of_nat j)) in *. set (Ee := E (Z.of_nat i + 1)%Z (Z.of_nat j)) in *.
    set (Es := E (Z.of_nat i) (Z.of_nat j - 1)%Z) in *. set (En := E (Z.of_nat i) (Z.of_nat j + 1)%Z) in *.
    destruct (HS (mid_x G i) (mid_y G j)) as (Ha & _ & Hl).
    destruct (HS (face_x G (S i)) (mid_y G j)) as (_ & Be & _).
    destruct (HS (face_x G i) (mid_y G j)) as (_ & Bw & _).
    destruct (HS (mid_x G i) (face_y G (S j))) as (_ & Bn & _).
    destruct (HS (mid_x G i) (face_y G j)) as (_ & Bs & _).
    set (al := c_alpha c (mid_x G i) (mid_y G j)) in *. set (la := c_lambda c (mid_x G i) (mid_y G j)) in *.
    set (be := c_beta c (face_x G (S i)) (mid_y G j)) in *. set (bw := c_beta c (face_x G i) (mid_y G j)) in *.
    set (bn := c_beta c (mid_x G i) (face_y G (S j))) in *. set (bs := c_beta c (mid_x G i) (face_y G j)) in *.
    pose proof (inv_pos _ (sq_pos _ Wx)) as Px. pose proof (inv_pos _ (sq_pos _ Wy)) as Py.
    set (px := (/ (width_x G * width_x G))%Qc) in *. set (py := (/ (width_y G * width_y G))%Qc) in *.
    assert (EQ : (al * (be * px * (Ee - M) + bw * px * (Ew - M) + bn * py * (En - M) + bs * py * (Es - M)) + la * M = 0)%Qc).
    { refine (eq_trans _ H). unfold px, py. clearbody al la be bw bn bs Ee Ew En Es.
      clear - Wx Wy. revert Wx Wy. generalize (width_x G) (width_y G). intros wx wy Wx Wy. field. split; auto. }
    assert (D0 : forall x, (x <= M)%Qc -> (x - M <= 0)%Qc).
    { intros x Hx. unfold Qcle in *. rewrite this_minus. change (this 0%Qc) with 0%Q. lra. }
    pose proof (mul_nonpos _ _ (pos_mul _ _ Be Px) (D0 _ HE)) as T1.
    pose proof (mul_nonpos _ _ (pos_mul _ _ Bw Px) (D0 _ HW)) as T2.
    pose proof (mul_nonpos _ _ (pos_mul _ _ Bn Py) (D0 _ HN)) as T3.
    pose proof (mul_nonpos _ _ (pos_mul _ _ Bs Py) (D0 _ HSo)) as T4.
    set (S := (be * px * (Ee - M) + bw * px * (Ew - M) + bn * py * (En - M) + bs * py * (Es - M))%Qc) in *.
    assert (HS0 : (S <= 0)%Qc).
    { unfold S. unfold Qcle in *. rewrite !this_plus. change (this 0%Qc) with 0%Q in *. lra. }
    destruct (zero_two (al * al * S) (M * (al * la))) as (Z1 & Z2).
    { apply mul_nonpos; auto using sq_pos. } { apply mul_nonpos; auto. }
    { replace (al * al * S + M * (al * la))%Qc with (al * (al * S + la * M))%Qc by ring. rewrite EQ. ring. }
    apply (zero_factor _ _ (sq_pos _ Ha)) in Z1. apply (zero_factor _ _ HM) in Z2.
    apply Qcmult_integral in Z2 as [Z2|Z2]; [contradiction|].
    destruct (zero_sum _ _ _ _ T1 T2 T3 T4 Z1) as (Y1 & Y2 & Y3 & Y4).
    assert (D : forall x, (x - M = 0)%Qc -> x = M) by (intros x Q; replace x with (x - M + M)%Qc by ring; rewrite Q; ring).
    apply (zero_factor _ _ (pos_mul _ _ Be Px)), D in Y1. apply (zero_factor _ _ (pos_mul _ _ Bw Px)), D in Y2.
    apply (zero_factor _ _ (pos_mul _ _ Bn Py)), D in Y3. apply (zero_factor _ _ (pos_mul _ _ Bs Py)), D in Y4. auto. }
  clear H HW HE HSo HN below. destruct KEY as (KW & KE & KS & KN & KL). destruct (Hwe j Hj) as (Gw & Ge). destruct (Hsn i Hi) as (Gs & Gn).
  split; [intros ->; apply (same _ _ _ Gw); [exact KW|exact HEM]|].
  split; [intros P; rewrite <- KW, <- Hc by lia; f_equal; lia|].
  split; [intros Q; apply (same _ _ _ Ge); [rewrite <- KE|rewrite <- HEM]; f_equal; lia|].
  split; [intros P; rewrite <- KE, <- Hc by lia; f_equal; lia|].
  split; [intros ->; apply (same _ _ _ Gs); [exact KS|exact HEM]|].
  split; [intros P; rewrite <- KS, <- Hc by lia; f_equal; lia|].
  split; [intros Q; apply (same _ _ _ Gn); [rewrite <- KN|rewrite <- HEM]; f_equal; lia|].
  split; [intros P; rewrite <- KN, <- Hc by lia; f_equal; lia|exact KL].
Qed.

Lemma row_all i0 j : i0 < nx -> j < ny -> cell G u i0 j = M -> forall i, i < nx -> cell G u i j = M.
Proof.
  intros H0 Hj E0.
  assert (Z : cell G u 0 j = M).
  { revert H0 E0. induction i0 as [|k IH]; auto. intros Hk E. apply IH; [lia|].
    destruct (around (S k) j Hk Hj E) as (_ & A & _). replace (S k - 1) with k in A by lia. apply A. lia. }
  intros i. induction i as [|k IH]; auto. intros Hk. destruct (around k j ltac:(lia) Hj (IH ltac:(lia))) as (_ & _ & _ & A & _). auto.
Qed.
Lemma col_all i j0 : i < nx -> j0 < ny -> cell G u i j0 = M -> forall j, j < ny -> cell G u i j = M.
Proof.
  intros Hi H0 E0.
  assert (Z : cell G u i 0 = M).
  { revert H0 E0. induction j0 as [|k IH]; auto. intros Hk E. apply IH; [lia|].
    destruct (around i (S k) Hi Hk E) as (_ & _ & _ & _ & _ & A & _). replace (S k - 1) with k in A by lia. apply A. lia. }
  intros j. induction j as [|k IH]; auto. intros Hk. destruct (around i k Hi ltac:(lia) (IH ltac:(lia))) as (_ & _ & _ & _ & _ & _ & _ & A & _). auto.
Qed.

Lemma everywhere i0 j0 : i0 < nx -> j0 < ny -> cell G u i0 j0 = M ->
  (forall i j, i < nx -> j < ny -> cell G u i j = M /\ c_lambda c (mid_x G i) (mid_y G j) = 0%Qc) /\
  forall k, k < 2 * ny + 2 * nx -> vval g k = M.
Proof.
  intros Hi0 Hj0 E0. pose proof HO as (_ & _ & Nx & Ny).
  assert (A : forall i j, i < nx -> j < ny -> cell G u i j = M).
  { intros i j Hi Hj. apply (row_all i0 j); auto. apply (col_all i0 j0); auto. }
  split; [intros i j Hi Hj; split; auto; destruct (around i j Hi Hj (A i j Hi Hj)) as (_ & _ & _ & _ & _ & _ & _ & _ & L); exact L|].
  intros k Hk. destruct (lt_dec k ny) as [B|B].
  { destruct (around 0 k ltac:(lia) B (A 0 k ltac:(lia) B)) as (Q & _). apply Q. auto. }
  destruct (lt_dec k (2 * ny)) as [C|C].
  { replace k with (ny + (k - ny)) by lia. assert (I1 : nx - 1 < nx) by lia. assert (I2 : k - ny < ny) by lia.
    destruct (around (nx - 1) (k - ny) I1 I2 (A _ _ I1 I2)) as (_ & _ & Q & _). apply Q. lia. }
  destruct (lt_dec k (2 * ny + nx)) as [D|D].
  { replace k with (2 * ny + (k - 2 * ny)) by lia. assert (I1 : k - 2 * ny < nx) by lia. assert (I2 : 0 < ny) by lia.
    destruct (around (k - 2 * ny) 0 I1 I2 (A _ _ I1 I2)) as (_ & _ & _ & _ & Q & _). apply Q. auto. }
  replace k with (2 * ny + nx + (k - 2 * ny - nx)) by lia. assert (I1 : k - 2 * ny - nx < nx) by lia. assert (I2 : ny - 1 < ny) by lia.
  destruct (around (k - 2 * ny - nx) (ny - 1) I1 I2 (A _ _ I1 I2)) as (_ & _ & _ & _ & _ & _ & Q & _). apply Q. lia.
Qed.
End Spread.

(** The cell next to a boundary face, and the direction out of the rectangle. *)
Definition next_to (k : nat) : nat * nat :=
  if k <? ny then (0, k) else if k <? 2 * ny then (nx - 1, k - ny) else
  if k <? 2 * ny + nx then (k - 2 * ny, 0) else (k - 2 * ny - nx, ny - 1).
Definition out (k : nat) : Qc :=
  if k <? ny then (- (1))%Qc else if k <? 2 * ny then 1%Qc else if k <? 2 * ny + nx then (- (1))%Qc else 1%Qc.

Lemma next_in k : k < 2 * ny + 2 * nx -> fst (next_to k) < nx /\ snd (next_to k) < ny.
Proof. pose proof HO as (_ & _ & Nx & Ny). intros Hk. unfold next_to. bsolve; cbn; lia. Qed.

Definition per (k : nat) : Qc := ((1 + 1) / (if (k <? 2 * ny)%nat then width_x G else width_y G))%Qc.

Lemma flux_form g u k : k < 2 * ny + 2 * nx ->
  let q := per k in (0 < q)%Qc /\ vval (boundary_flux G g u) k = (out k * (q * (vval g k - cell G u (fst (next_to k)) (snd (next_to k)))))%Qc.
Proof.
  intros Hk. destruct (widths_pos G HO) as (Px & Py).
  assert (P2 : forall w, (0 < w)%Qc -> (0 < (1 + 1) / w)%Qc) by (intros w Hw; apply pos_mul; [reflexivity|apply inv_pos; auto]).
  assert (NZ : forall w, (0 < w)%Qc -> w <> 0%Qc) by (intros w Hw E; rewrite E in Hw; now apply Qclt_not_eq in Hw).
  unfold boundary_flux. cbv zeta. rewrite !map_seq_vec. unfold next_to, out, per.
  destruct (Nat.ltb_spec k ny) as [B|B].
  { destruct (Nat.ltb_spec k (2 * ny)); [|lia]. cbv zeta. split; [auto|]. rewrite vval_app, vec_of_length. destruct (Nat.ltb_spec k ny); [|lia].
    rewrite vval_vec_of by auto. unfold west. cbn [fst snd]. field. split; [auto|discriminate]. }
  rewrite vval_app, vec_of_length. destruct (Nat.ltb_spec k ny); [lia|].
  destruct (Nat.ltb_spec k (2 * ny)) as [C|C].
  { cbv zeta. split; [destruct (k <? 2 * ny); auto|]. rewrite vval_app, vec_of_length. destruct (Nat.ltb_spec (k - ny) ny); [|lia].
    rewrite vval_vec_of by auto. unfold east. replace (ny + (k - ny)) with k by lia. cbn [fst snd]. field. split; [auto|discriminate]. }
  rewrite vval_app, vec_of_length. destruct (Nat.ltb_spec (k - ny) ny); [lia|].
  destruct (Nat.ltb_spec k (2 * ny + nx)) as [D|D].
  { cbv zeta. split; [destruct (k <? 2 * ny); auto|]. rewrite vval_app, vec_of_length. destruct (Nat.ltb_spec (k - ny - ny) nx); [|lia].
    rewrite vval_vec_of by auto. unfold south. replace (2 * ny + (k - ny - ny)) with k by lia. replace (k - ny - ny) with (k - 2 * ny) by lia. cbn [fst snd]. field. split; [auto|discriminate]. }
  rewrite vval_app, vec_of_length. destruct (Nat.ltb_spec (k - ny - ny) nx); [lia|].
  cbv zeta. split; [destruct (k <? 2 * ny); auto|]. rewrite vval_vec_of by lia. unfold north. replace (2 * ny + nx + (k - ny - ny - nx)) with k by lia.
  replace (k - ny - ny - nx) with (k - 2 * ny - nx) by lia. cbn [fst snd]. field. split; [auto|discriminate].
Qed.

(** Coefficients of a mixed condition a g + b du/dn = r that fixes the solution. *)
Context (A B : nat -> Qc).
Context (HA : forall k, k < 2 * ny + 2 * nx -> (0 <= A k)%Qc /\ (0 <= out k * B k)%Qc /\ (A k <> 0 \/ B k <> 0)%Qc).
Context (HF : (exists k, k < 2 * ny + 2 * nx /\ A k <> 0%Qc) \/
              (exists i j, i < nx /\ j < ny /\ c_lambda c (mid_x G i) (mid_y G j) <> 0%Qc)).

Lemma data_nonpos g u : length g = 2 * ny + 2 * nx -> fv_solution c G g (zeros (nx * ny)) u ->
  (forall k, k < 2 * ny + 2 * nx -> (A k * vval g k + B k * vval (boundary_flux G g u) k = 0)%Qc) ->
  forall k, k < 2 * ny + 2 * nx -> (vval g k <= 0)%Qc.
Proof.
  intros Lg Hu H. pose proof HO as (_ & _ & Nx & Ny).
  destruct (first_max (vval g) (2 * ny + 2 * nx)) as (K & HK & Hle & _); [lia|].
  destruct (Qclt_le_dec 0 (vval g K)) as [Pos|NP].
  2:{ intros J HJ. eapply Qcle_trans; [apply Hle; auto|exact NP]. }
  exfalso. set (M := vval g K) in *.
  assert (Ule : forall i j, i < nx -> j < ny -> (cell G u i j <= M)%Qc).
  { intros i j Hi Hj. apply (bounded_above c G (orp _ HO) HS M g (zeros (nx * ny))); auto using Qclt_le_weak.
    - apply zeros_length.
    - intros. unfold cell. rewrite vval_zeros, Qcmult_0_r. apply Qcle_refl.
    - nia. }
  assert (face : forall k, k < 2 * ny + 2 * nx -> vval g k = M -> A k = 0%Qc /\ cell G u (fst (next_to k)) (snd (next_to k)) = M).
  { intros k Hk Eg. destruct (flux_form g u k Hk) as (Hq & Ef). set (q := per k) in *. specialize (H k Hk). rewrite Ef, Eg in H. clear Ef.
    destruct (next_in k Hk) as (Hi & Hj). destruct (HA k Hk) as (A0 & B0 & AB). specialize (Ule _ _ Hi Hj).
    set (C := cell G u (fst (next_to k)) (snd (next_to k))) in *.
    assert (OO : (out k * out k = 1)%Qc) by (unfold out; bsolve; ring).
    destruct (zero_two (- (A k * M)) (- (out k * B k * (q * (M - C))))) as (Z1 & Z2).
    - unfold Qcle, Qclt in *. rewrite this_opp, this_mult. change (this 0%Qc) with 0%Q in *. nra.
    - assert (N : (0 <= q * (M - C))%Qc) by (apply mul_nonneg; [apply Qclt_le_weak; auto|apply le_minus in Ule; exact Ule]).
      unfold Qcle in *. rewrite this_opp, this_mult. change (this 0%Qc) with 0%Q in *. nra.
    - replace (- (A k * M) + - (out k * B k * (q * (M - C))))%Qc with (- (A k * M + B k * (out k * (q * (M - C)))))%Qc by ring. rewrite H. ring.
    - assert (AK : A k = 0%Qc). { apply (zero_factor M); auto. replace (M * A k)%Qc with (- (- (A k * M)))%Qc by ring. rewrite Z1. ring. }
      split; auto. destruct AB as [AB|AB]; [contradiction|].
      assert (Z3 : (B k * (M - C) = 0)%Qc).
      { apply (zero_factor q); auto. replace (q * (B k * (M - C)))%Qc with (- (out k * (- (out k * B k * (q * (M - C))))))%Qc; [rewrite Z2; ring|].
        transitivity ((out k * out k) * (B k * (q * (M - C))))%Qc; [ring|]. rewrite OO. ring. }
      apply Qcmult_integral in Z3 as [Z3|Z3]; [contradiction|]. replace C with (M - (M - C))%Qc by ring. rewrite Z3. ring. }
  destruct (face K HK eq_refl) as (_ & EC). destruct (next_in K HK) as (Hi & Hj).
  destruct (everywhere M g u Pos Hu Hle Ule _ _ Hi Hj EC) as (E1 & E2).
  destruct HF as [(k & Hk & NA)|(i & j & Hi' & Hj' & NL)].
  - apply NA, (face k Hk). auto.
  - apply NL, E1; auto.
Qed.

Theorem mixed_zero g u : length g = 2 * ny + 2 * nx -> fv_solution c G g (zeros (nx * ny)) u ->
  (forall k, k < 2 * ny + 2 * nx -> (A k * vval g k + B k * vval (boundary_flux G g u) k = 0)%Qc) ->
  g = zeros (2 * ny + 2 * nx).
Proof.
  intros Lg Hu H. apply zeros_eq; auto. intros k Hk. pose proof (data_nonpos g u Lg Hu H k Hk) as H1.
  set (m2 := (- (1) - 1)%Qc).
  assert (Z0 : lin m2 (zeros (nx * ny)) (zeros (nx * ny)) = zeros (nx * ny)).
  { apply zeros_eq; [rewrite lin_length; apply zeros_length|]. intros t Ht. rewrite vval_lin by reflexivity. rewrite vval_zeros. ring. }
  pose proof (solution_lin c G (orp _ HO) m2 g g _ _ u u eq_refl eq_refl Hu Hu) as H2. rewrite Z0 in H2.
  assert (H3 : (vval (lin m2 g g) k <= 0)%Qc).
  { apply (data_nonpos _ _ ltac:(rewrite lin_length; exact Lg) H2); auto. intros t Ht. destruct (flux_form g u t Ht) as (_ & Ef).
    specialize (H t Ht). rewrite Ef in H.
    destruct (flux_form (lin m2 g g) (lin m2 u u) t Ht) as (_ & Ef'). cbv zeta in Ef, Ef'.
    assert (FL : vval (boundary_flux G (lin m2 g g) (lin m2 u u)) t = (- vval (boundary_flux G g u) t)%Qc).
    { rewrite Ef, Ef'. unfold cell. rewrite !vval_lin by reflexivity. unfold m2. ring. }
    rewrite FL, Ef, vval_lin by reflexivity.
    transitivity (- (A t * vval g t + B t * (out t * (per t * (vval g t - cell G u (fst (next_to t)) (snd (next_to t)))))))%Qc; [unfold m2; ring|]. rewrite H. ring. }
  rewrite vval_lin in H3 by reflexivity. replace (vval g k + m2 * vval g k)%Qc with (- vval g k)%Qc in H3 by (unfold m2; ring).
  apply Qcle_antisym; [exact H1|]. unfold Qcle in *. rewrite this_opp in H3. change (this 0%Qc) with 0%Q in *. lra.
Qed.
End Mixed.
