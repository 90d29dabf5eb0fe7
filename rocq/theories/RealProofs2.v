(** The discrete solution and a smooth function of two real variables. *)
From Coq Require Import Reals Qreals Lra Lia.
From Verif Require Import Base VectorModel MatrixModel LinSpec HPSModel HPSSpec FVModel FVSpec GlobalSpec AdaptSpec CompareSpec ConvSpec FloatSpec RealSpec.
From Verif Require Import FVProofs FVProofs2 FVProofs3 FVMax FVJoin FVGlobal FVFish FVCompare ConvProofs FloatProofs2 RealProofs.
Local Open Scope R_scope.

Lemma qval_le a b : (a <= b)%Qc <-> qval a <= qval b.
Proof. unfold Qcle, qval. split; [apply Qle_Rle|apply Rle_Qle]. Qed.
Lemma qval_lt a b : (a < b)%Qc <-> qval a < qval b.
Proof. unfold Qclt, qval. split; [apply Qlt_Rlt|apply Rlt_Qlt]. Qed.
Lemma qval_opp a : qval (- a)%Qc = - qval a.
Proof. replace (- a)%Qc with (0 - a)%Qc by ring. rewrite qval_minus, qval_0. ring. Qed.
Lemma qval_inj a b : qval a = qval b -> a = b.
Proof. intros H. apply Qcle_antisym; apply qval_le; lra. Qed.
Lemma qval_nz a : a <> 0%Qc -> qval a <> 0.
Proof. intros H E. apply H. apply qval_inj. rewrite E, qval_0. reflexivity. Qed.
Lemma qval_inv a : a <> 0%Qc -> qval (/ a)%Qc = / qval a.
Proof.
  intros H. pose proof (f_equal qval (Qcmult_inv_r a H)) as E. rewrite qval_mult, qval_1 in E. pose proof (qval_nz a H).
  apply (Rmult_eq_reg_l (qval a)); auto. rewrite E. field. auto.
Qed.
Lemma qval_div a b : b <> 0%Qc -> qval (a / b)%Qc = qval a / qval b.
Proof. intros H. unfold Qcdiv. rewrite qval_mult, qval_inv by auto. reflexivity. Qed.
Lemma qval_INR n : qval (Qc_of_nat n) = INR n.
Proof. rewrite qval_nat. symmetry. apply INR_IZR_INZ. Qed.
Lemma within_real b x : within b x <-> Rabs (qval x) <= qval b.
Proof.
  unfold within. rewrite !qval_le, qval_opp. split; [intros; apply Rabs_le; auto|intros H; apply abs_between in H; auto].
Qed.
Lemma two_nz : (1 + 1)%Qc <> 0%Qc. Proof. discriminate. Qed.
Lemma qval_two : qval (1 + 1)%Qc = 2.
Proof. rewrite qval_plus, qval_1. ring. Qed.
Lemma qval_half a : qval (a / (1 + 1))%Qc = qval a / 2.
Proof. rewrite qval_div by apply two_nz. rewrite qval_two. reflexivity. Qed.

Section Rect.
Context (c : coefs) (G : grid) (HO : oriented G) (HS : right_signs c) (Hb : forall x y, c_beta c x y = 1%Qc).
Notation nx := (gnx G).
Notation ny := (gny G).
Notation xl := (qval (gxl G)).
Notation xu := (qval (gxu G)).
Notation yl := (qval (gyl G)).
Notation yu := (qval (gyu G)).
Notation hx := (qval (width_x G)).
Notation hy := (qval (width_y G)).

Lemma hx_eq : hx = (xu - xl) / INR nx.
Proof. unfold width_x. rewrite qval_div, qval_minus, qval_INR; auto. apply Qc_of_nat_nz. apply HO. Qed.
Lemma hy_eq : hy = (yu - yl) / INR ny.
Proof. unfold width_y. rewrite qval_div, qval_minus, qval_INR; auto. apply Qc_of_nat_nz. apply HO. Qed.
Lemma h_pos : 0 < hx /\ 0 < hy.
Proof. destruct (widths_pos G HO) as (A & B). apply qval_lt in A, B. rewrite qval_0 in A, B. auto. Qed.

Lemma mid_x_real i : (i < nx)%nat -> xl + hx / 2 <= qval (mid_x G i) <= xu - hx / 2.
Proof.
  intros Hi. assert (E : qval (mid_x G i) = xl + (INR i + 1 / 2) * hx).
  { unfold mid_x, FVSpec.face_x. rewrite qval_half, !qval_plus, !qval_mult, !qval_INR, S_INR. field. }
  assert (W : INR nx * hx = xu - xl). { rewrite hx_eq. field. apply not_0_INR. apply HO. }
  assert (I0 : 0 <= INR i) by apply pos_INR. assert (I1 : INR i + 1 <= INR nx) by (rewrite <- S_INR; apply le_INR; lia).
  destruct h_pos as (P & _). rewrite E. split; nra.
Qed.
Lemma mid_y_real j : (j < ny)%nat -> yl + hy / 2 <= qval (mid_y G j) <= yu - hy / 2.
Proof.
  intros Hi. assert (E : qval (mid_y G j) = yl + (INR j + 1 / 2) * hy).
  { unfold mid_y, FVSpec.face_y. rewrite qval_half, !qval_plus, !qval_mult, !qval_INR, S_INR. field. }
  assert (W : INR ny * hy = yu - yl). { rewrite hy_eq. field. apply not_0_INR. apply HO. }
  assert (I0 : 0 <= INR j) by apply pos_INR. assert (I1 : INR j + 1 <= INR ny) by (rewrite <- S_INR; apply le_INR; lia).
  destruct h_pos as (_ & P). rewrite E. split; nra.
Qed.
Lemma sides_real : xl < xu /\ yl < yu.
Proof. destruct HO as (A & B & _). apply qval_lt in A, B. auto. Qed.

Context (U Uxx Uyy : R -> R -> R) (M2 M4 eg ef : R) (HT : smooth U Uxx Uyy M2 M4 xl xu yl yu (hx / 2) (hy / 2)).
Notation u_at := (fun x y : Qc => U (qval x) (qval y)).

(** Rational values of U: within e, and within e also after multiplication by lambda / alpha. *)
Definition ratio (x y : Qc) : R := Rabs (qval (c_lambda c x y) / qval (c_alpha c x y)).
Definition close_to (e : R) (x y : Qc) : Qc := rational (e / (1 + ratio x y)) (U (qval x) (qval y)).
Lemma close_near e x y : 0 < e -> Rabs (qval (close_to e x y) - U (qval x) (qval y)) <= e /\
  Rabs (qval (c_lambda c x y) / qval (c_alpha c x y) * (qval (close_to e x y) - U (qval x) (qval y))) <= e.
Proof.
  intros He. assert (P : 0 <= ratio x y) by apply Rabs_pos. assert (Q : 0 < e / (1 + ratio x y)) by (apply Rdiv_lt_0_compat; lra).
  pose proof (rational_near _ (U (qval x) (qval y)) Q) as N. fold (close_to e x y) in N. set (d := qval (close_to e x y) - U (qval x) (qval y)) in *.
  rewrite Rabs_mult. fold (ratio x y). clearbody d. set (r := ratio x y) in *. clearbody r.
  assert (E : e / (1 + r) * (1 + r) = e) by (field; lra). pose proof (Rabs_pos d). set (q := e / (1 + r)) in *. clearbody q. split; nra.
Qed.

Lemma diff_x x y d : 0 <= d -> xl - hx / 2 <= x - d -> x + d <= xu + hx / 2 -> yl <= y <= yu ->
  Rabs (U (x + d) y + U (x - d) y - 2 * U x y) <= M2 * (d * d) /\ Rabs (U (x + d) y + U (x - d) y - 2 * U x y - d * d * Uxx x y) <= M4 / 12 * (d * d * (d * d)).
Proof.
  intros Hd A B Hy. destruct HT as (TX & _). destruct (TX y Hy) as (f1 & f3 & f4 & D & B24).
  assert (D' : four_times (fun t => U t y) f1 (fun t => Uxx t y) f3 f4 (x - d) (x + d)) by (intros t Ht; apply D; lra).
  split; [eapply (second_small (fun t => U t y) f1 (fun t => Uxx t y) f3 f4 x d M2 Hd D')|eapply (second_close (fun t => U t y) f1 (fun t => Uxx t y) f3 f4 x d M4 Hd D')];
    intros t Ht; apply B24; lra.
Qed.
Lemma diff_y x y d : 0 <= d -> yl - hy / 2 <= y - d -> y + d <= yu + hy / 2 -> xl <= x <= xu ->
  Rabs (U x (y + d) + U x (y - d) - 2 * U x y) <= M2 * (d * d) /\ Rabs (U x (y + d) + U x (y - d) - 2 * U x y - d * d * Uyy x y) <= M4 / 12 * (d * d * (d * d)).
Proof.
  intros Hd A B Hy. destruct HT as (_ & TY). destruct (TY x Hy) as (f1 & f3 & f4 & D & B24).
  assert (D' : four_times (fun t => U x t) f1 (fun t => Uyy x t) f3 f4 (y - d) (y + d)) by (intros t Ht; apply D; lra).
  split; [eapply (second_small (fun t => U x t) f1 (fun t => Uyy x t) f3 f4 y d M2 Hd D')|eapply (second_close (fun t => U x t) f1 (fun t => Uyy x t) f3 f4 y d M4 Hd D')];
    intros t Ht; apply B24; lra.
Qed.

Lemma M2_nonneg : 0 <= M2.
Proof.
  destruct HT as (TX & _). destruct sides_real as (Hx & Hy). destruct h_pos as (P & _). destruct (TX yl ltac:(lra)) as (f1 & f3 & f4 & _ & B).
  destruct (B xl ltac:(lra)) as (B2 & _). eapply Rle_trans; [apply Rabs_pos|exact B2].
Qed.
Lemma M4_nonneg : 0 <= M4.
Proof.
  destruct HT as (TX & _). destruct sides_real as (Hx & Hy). destruct h_pos as (P & _). destruct (TX yl ltac:(lra)) as (f1 & f3 & f4 & _ & B).
  destruct (B xl ltac:(lra)) as (_ & B4). eapply Rle_trans; [apply Rabs_pos|exact B4].
Qed.

Context (He : 0 <= eg) (Hf : 0 <= ef).

(** The mean over the two sides of a face. *)
Lemma west_east e v x y : 0 < e -> x = gxl G \/ x = gxu G -> yl <= qval y <= yu -> near_fun eg U v x y ->
  Rabs (qval (v - across_x (close_to e) G x y)%Qc) <= eg + M2 * ((hx * hx + hy * hy) / 8) + e.
Proof.
  intros Pe Hx Hy Hv. unfold near_fun in Hv. destruct h_pos as (Px & Py). destruct sides_real as (Sx & Sy). unfold across_x. cbv zeta.
  rewrite qval_minus, qval_half, qval_plus. set (d := (width_x G / (1 + 1))%Qc).
  assert (Ed : qval d = hx / 2) by (unfold d; apply qval_half).
  destruct (close_near e (x - d)%Qc y Pe) as (N1 & _). destruct (close_near e (x + d)%Qc y Pe) as (N2 & _).
  rewrite qval_minus in N1. rewrite qval_plus in N2. rewrite Ed in N1, N2.
  assert (Bx : xl <= qval x <= xu) by (destruct Hx as [-> | ->]; lra).
  destruct (diff_x (qval x) (qval y) (hx / 2)) as (D & _); try lra.
  pose proof M2_nonneg as P2. pose proof (Rmult_le_pos _ _ P2 (Rle_0_sqr hy)) as Q2. unfold Rsqr in Q2.
  apply abs_between in N1, N2, D, Hv. apply Rabs_le.
  replace (M2 * (hx / 2 * (hx / 2))) with (M2 * (hx * hx) / 4) in D by field.
  replace (M2 * ((hx * hx + hy * hy) / 8)) with (M2 * (hx * hx) / 8 + M2 * (hy * hy) / 8) by field.
  lra.
Qed.
Lemma south_north e v x y : 0 < e -> y = gyl G \/ y = gyu G -> xl <= qval x <= xu -> near_fun eg U v x y ->
  Rabs (qval (v - across_y (close_to e) G x y)%Qc) <= eg + M2 * ((hx * hx + hy * hy) / 8) + e.
Proof.
  intros Pe Hx Hy Hv. unfold near_fun in Hv. destruct h_pos as (Px & Py). destruct sides_real as (Sx & Sy). unfold across_y. cbv zeta.
  rewrite qval_minus, qval_half, qval_plus. set (d := (width_y G / (1 + 1))%Qc).
  assert (Ed : qval d = hy / 2) by (unfold d; apply qval_half).
  destruct (close_near e x (y - d)%Qc Pe) as (N1 & _). destruct (close_near e x (y + d)%Qc Pe) as (N2 & _).
  rewrite qval_minus in N1. rewrite qval_plus in N2. rewrite Ed in N1, N2.
  assert (Bx : yl <= qval y <= yu) by (destruct Hx as [-> | ->]; lra).
  destruct (diff_y (qval x) (qval y) (hy / 2)) as (D & _); try lra.
  pose proof M2_nonneg as P2. pose proof (Rmult_le_pos _ _ P2 (Rle_0_sqr hx)) as Q2. unfold Rsqr in Q2.
  apply abs_between in N1, N2, D, Hv. apply Rabs_le.
  replace (M2 * (hy / 2 * (hy / 2))) with (M2 * (hy * hy) / 4) in D by field.
  replace (M2 * ((hx * hx + hy * hy) / 8)) with (M2 * (hx * hx) / 8 + M2 * (hy * hy) / 8) by field.
  lra.
Qed.

(** The residual of the rational values. *)
Lemma over_square s M h : 0 < h -> Rabs s <= M -> Rabs (s / (h * h)) <= M / (h * h).
Proof.
  intros Hh H. assert (P : 0 < h * h) by nra. unfold Rdiv. rewrite Rabs_mult, (Rabs_pos_eq (/ (h * h))) by (left; apply Rinv_0_lt_compat; exact P).
  apply Rmult_le_compat_r; [left; apply Rinv_0_lt_compat; exact P|exact H].
Qed.
Lemma cell_residual e v i j : 0 < e -> (i < nx)%nat -> (j < ny)%nat -> let x := mid_x G i in let y := mid_y G j in
  Rabs ((qval v - qval (c_lambda c x y) * U (qval x) (qval y)) / qval (c_alpha c x y) - (Uxx (qval x) (qval y) + Uyy (qval x) (qval y))) <= ef ->
  Rabs (qval (residual c (close_to e) G x y v)) <= ef + M4 / 12 * (hx * hx + hy * hy) + e * (1 + 4 / (hx * hx) + 4 / (hy * hy)).
Proof.
  intros Pe Hi Hj x y Hv. destruct h_pos as (Px & Py). destruct sides_real as (Sx & Sy).
  pose proof (mid_x_real i Hi) as Bx. pose proof (mid_y_real j Hj) as By. fold x in Bx. fold y in By.
  pose proof (proper_widths G (orp _ HO)) as (Wx & Wy).
  assert (Sqx : (width_x G * width_x G)%Qc <> 0%Qc) by (intros E; apply Qcmult_integral in E; destruct E; auto).
  assert (Sqy : (width_y G * width_y G)%Qc <> 0%Qc) by (intros E; apply Qcmult_integral in E; destruct E; auto).
  destruct (HS x y) as (Ha & _).
  unfold residual. rewrite qval_minus, qval_plus, !qval_div, !qval_minus, !qval_mult by auto.
  unfold second_x, second_y. rewrite !qval_minus, !qval_plus.
  destruct (close_near e x y Pe) as (N0 & NL).
  destruct (close_near e (x - width_x G)%Qc y Pe) as (N1 & _). destruct (close_near e (x + width_x G)%Qc y Pe) as (N2 & _).
  destruct (close_near e x (y - width_y G)%Qc Pe) as (N3 & _). destruct (close_near e x (y + width_y G)%Qc Pe) as (N4 & _).
  rewrite qval_minus in N1, N3. rewrite qval_plus in N2, N4.
  destruct (diff_x (qval x) (qval y) hx) as (_ & DX); try lra. destruct (diff_y (qval x) (qval y) hy) as (_ & DY); try lra.
  set (a0 := qval (close_to e x y)) in *. set (a1 := qval (close_to e (x - width_x G)%Qc y)) in *. set (a2 := qval (close_to e (x + width_x G)%Qc y)) in *.
  set (a3 := qval (close_to e x (y - width_y G)%Qc)) in *. set (a4 := qval (close_to e x (y + width_y G)%Qc)) in *.
  set (b0 := U (qval x) (qval y)) in *. set (b1 := U (qval x - hx) (qval y)) in *. set (b2 := U (qval x + hx) (qval y)) in *.
  set (b3 := U (qval x) (qval y - hy)) in *. set (b4 := U (qval x) (qval y + hy)) in *.
  set (la := qval (c_lambda c x y)) in *. set (al := qval (c_alpha c x y)) in *. assert (Nal : al <> 0) by (apply qval_nz; exact Ha).
  set (vx := Uxx (qval x) (qval y)) in *. set (vy := Uyy (qval x) (qval y)) in *. set (w := qval v) in *.
  clearbody a0 a1 a2 a3 a4 b0 b1 b2 b3 b4 la al vx vy w.
  assert (TX : Rabs ((a2 + a1 - (a0 + a0)) / (hx * hx) - vx) <= M4 / 12 * (hx * hx) + e * (4 / (hx * hx))).
  { replace ((a2 + a1 - (a0 + a0)) / (hx * hx) - vx) with ((a2 + a1 - (a0 + a0) - hx * hx * vx) / (hx * hx)) by (field; lra).
    replace (M4 / 12 * (hx * hx) + e * (4 / (hx * hx))) with ((M4 / 12 * (hx * hx * (hx * hx)) + 4 * e) / (hx * hx)) by (field; lra).
    apply over_square; [exact Px|]. apply abs_between in N0, N1, N2, DX. apply Rabs_le. lra. }
  assert (TY : Rabs ((a4 + a3 - (a0 + a0)) / (hy * hy) - vy) <= M4 / 12 * (hy * hy) + e * (4 / (hy * hy))).
  { replace ((a4 + a3 - (a0 + a0)) / (hy * hy) - vy) with ((a4 + a3 - (a0 + a0) - hy * hy * vy) / (hy * hy)) by (field; lra).
    replace (M4 / 12 * (hy * hy) + e * (4 / (hy * hy))) with ((M4 / 12 * (hy * hy * (hy * hy)) + 4 * e) / (hy * hy)) by (field; lra).
    apply over_square; [exact Py|]. apply abs_between in N0, N3, N4, DY. apply Rabs_le. lra. }
  replace ((w - la * a0) / al) with ((w - la * b0) / al - la / al * (a0 - b0)) by (field; exact Nal).
  apply abs_between in TX, TY, NL, Hv. apply Rabs_le.
  replace (M4 / 12 * (hx * hx + hy * hy)) with (M4 / 12 * (hx * hx) + M4 / 12 * (hy * hy)) by ring.
  replace (e * (1 + 4 / (hx * hx) + 4 / (hy * hy))) with (e + e * (4 / (hx * hx)) + e * (4 / (hy * hy))) by ring. lra.
Qed.

Notation rr := (((xu - xl) * (xu - xl) + hx * hx) / 8).
Lemma reach_real : qval (reach G) = rr.
Proof.
  unfold reach. rewrite qval_div by (unfold eight; discriminate).
  rewrite qval_plus, !qval_mult, qval_minus. unfold eight. rewrite !qval_mult, qval_two. replace (2 * 2 * 2) with 8 by ring. reflexivity.
Qed.

Lemma limit a b K : 0 <= K -> (forall e, 0 < e -> a <= b + K * e) -> a <= b.
Proof.
  intros HK H. destruct (Rle_dec a b) as [L|L]; [exact L|]. assert (P : 0 < (a - b) / (2 * (K + 1))) by (apply Rdiv_lt_0_compat; lra).
  specialize (H _ P). exfalso. assert (K * ((a - b) / (2 * (K + 1))) < a - b); [|lra].
  replace (a - b) with ((a - b) / (2 * (K + 1)) * (2 * (K + 1))) at 2 by (field; lra). set (q := (a - b) / (2 * (K + 1))) in *. nra.
Qed.

Theorem real_error g f u : length g = (2 * ny + 2 * nx)%nat -> length f = (nx * ny)%nat -> fv_solution c G g f u ->
  each_face (near_fun eg U) (near_fun eg U) G g ->
  each_cell (fun x y v => Rabs ((qval v - qval (c_lambda c x y) * U (qval x) (qval y)) / qval (c_alpha c x y) - (Uxx (qval x) (qval y) + Uyy (qval x) (qval y))) <= ef) G f ->
  each_cell (fun x y v => near_fun (eg + M2 * ((hx * hx + hy * hy) / 8) + (ef + M4 / 12 * (hx * hx + hy * hy)) * rr) U v x y) G u.
Proof.
  intros Lg Lf Hu (Gw & Gs) Hc i j Hi Hj. destruct h_pos as (Px & Py). destruct sides_real as (Sx & Sy).
  assert (RP : 0 <= rr) by nra. pose proof M2_nonneg as P2. pose proof M4_nonneg as P4.
  set (C1 := 1 + 4 / (hx * hx) + 4 / (hy * hy)).
  assert (CP : 0 <= C1). { unfold C1. assert (0 < 4 / (hx * hx)) by (apply Rdiv_lt_0_compat; nra). assert (0 < 4 / (hy * hy)) by (apply Rdiv_lt_0_compat; nra). lra. }
  unfold near_fun. apply (limit _ _ (3 + (C1 + 1) * rr)); [nra|]. intros e Pe.
  set (K := eg + M2 * ((hx * hx + hy * hy) / 8)). set (F := ef + M4 / 12 * (hx * hx + hy * hy)).
  assert (K0 : 0 <= K) by (unfold K; nra). assert (F0 : 0 <= F) by (unfold F; nra).
  destruct (rational_above e (K + e) Pe) as (Kq & K1 & K2). destruct (rational_above e (F + e * C1) Pe) as (Fq & F1 & F2).
  pose proof (error_by_residual c G HO HS Hb (close_to e) Kq Fq g f u Lg Lf Hu) as Q.
  assert (W : within (Kq + Fq * reach G)%Qc (cell G u i j - close_to e (mid_x G i) (mid_y G j))%Qc).
  { apply Q; auto.
    - apply qval_le. rewrite qval_0. nra.
    - apply qval_le. rewrite qval_0. lra.
    - split; intros k Hk.
      + pose proof (mid_y_real k Hk). destruct (Gw k Hk) as (A & B).
        split; apply within_real; (eapply Rle_trans; [|exact K1]); apply west_east; auto; lra.
      + pose proof (mid_x_real k Hk). destruct (Gs k Hk) as (A & B).
        split; apply within_real; (eapply Rle_trans; [|exact K1]); apply south_north; auto; lra.
    - intros i' j' Hi' Hj'. apply within_real. eapply Rle_trans; [|exact F1]. apply cell_residual; auto. }
  apply within_real in W. rewrite qval_minus, qval_plus, qval_mult, reach_real in W.
  destruct (close_near e (mid_x G i) (mid_y G j) Pe) as (N & _).
  set (a := qval (close_to e (mid_x G i) (mid_y G j))) in *. set (b := U _ _) in *. set (v := qval (cell G u i j)) in *. clearbody a b v C1.
  set (r := rr) in *. clearbody r K F. apply abs_between in W, N. apply Rabs_le.
  assert (FR : qval Fq * r <= (F + e * C1 + e) * r) by (apply Rmult_le_compat_r; lra).
  replace ((3 + (C1 + 1) * r) * e) with (3 * e + e * C1 * r + e * r) by ring.
  replace ((F + e * C1 + e) * r) with (F * r + e * C1 * r + e * r) in FR by ring. lra.
Qed.
End Rect.
