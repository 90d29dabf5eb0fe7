(** Proofs about numbers in option values. *)
From Coq Require Import Ascii String Qpower.
From Verif Require Import Base XmlModel OptModel OptSpec OptProofs.

Lemma is_digit_spec c d : is_digit c d -> digitb c = true /\ digit_value c = d /\ negative_char c = false /\ spaceb c = false.
Proof.
  intros (H & ->). assert (D : (d = 0 \/ d = 1 \/ d = 2 \/ d = 3 \/ d = 4 \/ d = 5 \/ d = 6 \/ d = 7 \/ d = 8 \/ d = 9)%Z) by lia.
  destruct D as [-> | [-> | [-> | [-> | [-> | [-> | [-> | [-> | [-> | ->] ] ] ] ] ] ] ] ]; vm_compute; auto.
Qed.
Lemma numeral_spec s n : numeral s n -> s <> [] /\ forallb digitb s = true /\ digits_value s = n /\ (0 <= n)%Z /\
  Forall (fun c => negative_char c = false) s.
Proof.
  induction 1 as [c d H|s n c d H (IH1 & IH2 & IH3 & IH4 & IH5) Hd].
  - pose proof H as (Hr & _). apply is_digit_spec in H as (H1 & H2 & H3 & _).
    split; [discriminate|]. split; [cbn; rewrite H1; reflexivity|]. split; [unfold digits_value; cbn [fold_left]; lia|]. split; [lia|]. auto.
  - pose proof Hd as (Hr & _). apply is_digit_spec in Hd as (H1 & H2 & H3 & _).
    split; [destruct s; discriminate|]. split; [rewrite forallb_app, IH2; cbn; rewrite H1; reflexivity|].
    split; [unfold digits_value in *; rewrite fold_left_app; cbn [fold_left]; rewrite IH3, H2; reflexivity|]. split; [lia|].
    apply Forall_app. auto.
Qed.
Lemma numeral0_spec s n : numeral0 s n -> forallb digitb s = true /\ digits_value s = n /\ (0 <= n)%Z.
Proof. intros [ [-> ->] | H]; [repeat split; lia|]. apply numeral_spec in H. tauto. Qed.

Lemma isInt_digits s : forallb digitb s = true -> Forall (fun c => negative_char c = false) s -> isInt s = Ok true.
Proof.
  induction s as [|c s IH]; cbn; [reflexivity|]. rewrite andb_true_iff. intros [H1 H2] F. inversion F; subst.
  unfold c_isdigit. rewrite H3, bind_Ok, H1. auto.
Qed.
Lemma digit_not c x : digitb c = true -> digitb x = false -> Ascii.eqb x c = false.
Proof. intros H1 H2. destruct (Ascii.eqb_spec x c); congruence. Qed.
Lemma digits_no_dot s : forallb digitb s = true -> isDouble s = false.
Proof.
  unfold isDouble. induction s as [|c s IH]; cbn [existsb forallb]; [reflexivity|]. rewrite andb_true_iff. intros [H1 H2].
  rewrite (digit_not c "."%char H1) by reflexivity. auto.
Qed.
Lemma digit_not_space c : digitb c = true -> spaceb c = false /\ Ascii.eqb c "-" = false /\ Ascii.eqb c "+" = false.
Proof.
  intros H. split; [|split; rewrite Ascii.eqb_sym; apply digit_not; auto].
  unfold digitb, spaceb in *. apply andb_true_iff in H as [H1 H2]. apply Nat.leb_le in H1, H2.
  destruct (Nat.eqb_spec (ccode c) 32); [lia|]. destruct (Nat.leb_spec 9 (ccode c)), (Nat.leb_spec (ccode c) 13); cbn; try reflexivity; lia.
Qed.
Lemma digits_not_bool s : forallb digitb s = true -> text_eqb s (txt "true") = false /\ text_eqb s (txt "false") = false.
Proof. intros H. split; apply text_eqb_neq; intros ->; vm_compute in H; discriminate. Qed.

Lemma check_numeral s n : numeral s n -> (n <= 2147483647)%Z -> checkValue s = Ok (OInt n).
Proof.
  intros H Hn. apply numeral_spec in H as (Hne & Hd & Hv & H0 & Ha). unfold checkValue.
  destruct (digits_not_bool s Hd) as [-> ->]. rewrite digits_no_dot, isInt_digits, bind_Ok by assumption.
  unfold stoi. destruct s as [|c s]; [congruence|]. 
  assert (Hc : digitb c = true) by (cbn in Hd; apply andb_true_iff in Hd; tauto).
  destruct (digit_not_space c Hc) as (Q1 & Q2 & Q3).
  unfold drop. cbn [span]. rewrite Q1. cbn [snd take_sign]. rewrite Q2, Q3.
  rewrite <- (app_nil_r (c :: s)) at 1. rewrite span_all by (try exact Hd; exact I). rewrite Hv.
  destruct (Z.ltb_spec n (-2147483648)); [lia|]. destruct (Z.ltb_spec 2147483647 n); [lia|]. reflexivity.
Qed.

(** ** Decimal numbers *)
Lemma digits_value_acc s a : fold_left (fun a c => (10 * a + digit_value c)%Z) s a = (a * 10 ^ Z.of_nat (List.length s) + digits_value s)%Z.
Proof.
  unfold digits_value. revert a. induction s as [|c s IH]; intros a; cbn [fold_left List.length].
  - cbn. lia.
  - rewrite IH, (IH (10 * 0 + digit_value c)%Z). rewrite Nat2Z.inj_succ, Z.pow_succ_r by lia. ring.
Qed.
Lemma digits_value_app i f : digits_value (i ++ f) = (digits_value i * 10 ^ Z.of_nat (List.length f) + digits_value f)%Z.
Proof. unfold digits_value at 1. rewrite fold_left_app. apply digits_value_acc. Qed.

Lemma Qc_of_Z_pos a : (0 < a)%Z -> (0 < Qc_of_Z a)%Qc.
Proof. intros H. unfold Qclt, Qc_of_Z. cbn [this Q2Qc]. rewrite (Qred_correct (inject_Z a)). unfold Qlt. cbn. lia. Qed.
Lemma Qc_of_Z_nz a : (0 < a)%Z -> Qc_of_Z a <> 0%Qc.
Proof. intros H E. apply Qc_of_Z_pos in H. rewrite E in H. exact (Qclt_not_eq _ _ H eq_refl). Qed.

Lemma Qpower_Z b n : (0 < b)%Z -> (inject_Z b ^ Z.of_nat n == inject_Z (b ^ Z.of_nat n))%Q.
Proof.
  intros Hb. induction n as [|n IH]; [reflexivity|]. rewrite Nat2Z.inj_succ. rewrite Z.pow_succ_r by lia.
  unfold Z.succ. rewrite Qpower_plus by (unfold Qeq; cbn; lia). rewrite IH. unfold inject_Z, Qeq, Qmult. cbn [Qnum Qden Qpower].
  cbn. lia.
Qed.
Lemma Qpower_neg b n : (0 < b)%Z -> (inject_Z b ^ (- Z.of_nat n) == / inject_Z (b ^ Z.of_nat n))%Q.
Proof. intros H. rewrite Qpower_opp, Qpower_Z by exact H. reflexivity. Qed.

Lemma ten_power_neg n : ten_power (0 - Z.of_nat n) = (/ Qc_of_Z (10 ^ Z.of_nat n))%Qc.
Proof.
  unfold ten_power, Qc_of_Z. apply Qc_is_canon. cbn [this Q2Qc Qcinv]. rewrite !Qred_correct. rewrite Z.sub_0_l.
  change (10 # 1) with (inject_Z 10). rewrite Qpower_neg by lia. reflexivity.
Qed.
Lemma double_tiny_eq : double_tiny = (1 / Qc_of_Z (2 ^ 1022))%Qc.
Proof.
  unfold double_tiny, Qc_of_Z. apply Qc_is_canon. unfold Qcdiv. cbn [this Q2Qc Qcinv Qcmult]. rewrite !Qred_correct.
  change (-1022)%Z with (- Z.of_nat 1022)%Z. change (2 # 1) with (inject_Z 2). rewrite Qpower_neg by lia.
  change (Z.of_nat 1022) with 1022%Z. rewrite Qmult_1_l. reflexivity.
Qed.
Lemma dval_nz m n f : (0 <= m)%Z -> (0 <= n)%Z -> (m * 10 ^ Z.of_nat f + n)%Z <> 0%Z -> (Qc_of_Z m + Qc_of_Z n / Qc_of_Z (10 ^ Z.of_nat f) <> 0)%Qc.
Proof.
  intros Hm Hn H E. apply H. set (t := (10 ^ Z.of_nat f)%Z) in *. assert (Ht : (0 < t)%Z) by (unfold t; lia).
  pose proof (Qc_of_Z_nz t Ht) as Hz.
  assert (E2 : (Qc_of_Z (m * t + n) = 0)%Qc).
  { rewrite Qc_of_Z_add, Qc_of_Z_mul. replace (Qc_of_Z m * Qc_of_Z t + Qc_of_Z n)%Qc with (Qc_of_Z t * (Qc_of_Z m + Qc_of_Z n / Qc_of_Z t))%Qc by (field; exact Hz).
    rewrite E. ring. }
  destruct (Z.eq_dec (m * t + n) 0) as [|Q]; [assumption|]. exfalso. apply (Qc_of_Z_nz (m * t + n)); [nia|exact E2].
Qed.

Lemma Qclt_b_true a b : (a < b)%Qc -> Qclt_b a b = true.
Proof. unfold Qclt_b. intros H. destruct (Qclt_le_dec a b) as [|Q]; [reflexivity|]. exfalso. exact (Qclt_not_le _ _ H Q). Qed.
Lemma Qclt_b_false a b : (b <= a)%Qc -> Qclt_b a b = false.
Proof. unfold Qclt_b. intros H. destruct (Qclt_le_dec a b) as [Q|]; [|reflexivity]. exfalso. exact (Qclt_not_le _ _ Q H). Qed.

Lemma lower_digit c : digitb c = true -> lower c = c.
Proof.
  unfold digitb, lower. rewrite andb_true_iff, !Nat.leb_le. intros [H1 H2].
  destruct (Nat.leb_spec 65 (ccode c)); [lia|]. reflexivity.
Qed.
Lemma not_special i f : forallb digitb i = true -> special_form (i ++ txt "." ++ f) = false.
Proof.
  intros Hi. assert (A : forall p, p <> [] -> (forall c r, p = c :: r -> digitb c = false /\ c <> "."%char) -> starts_with p (i ++ txt "." ++ f) = false).
  { intros p Hp H. destruct p as [|c r]; [congruence|]. destruct (H c r eq_refl) as [H1 H2]. unfold starts_with. apply text_eqb_neq.
    destruct i as [|d i]; cbn [app List.length firstn map txt list_ascii_of_string].
    - intros Q. injection Q as Q _. apply H2. rewrite <- Q. reflexivity.
    - intros Q. injection Q as Q _. cbn in Hi. apply andb_true_iff in Hi as [Hd _]. rewrite lower_digit in Q by exact Hd. congruence. }
  unfold special_form. rewrite (A (txt "inf")), (A (txt "nan")); try discriminate.
  2,3: intros c r Q; injection Q as <- _; split; [reflexivity|discriminate].
  cbn [orb]. replace (starts_with (txt "0x") (i ++ txt "." ++ f)) with false; [reflexivity|]. symmetry.
  unfold starts_with. apply text_eqb_neq. intros Q. destruct i as [|d [|e i]]; cbn in Q.
  - injection Q as Q _. discriminate.
  - injection Q as _ Q. discriminate.
  - injection Q as _ Q. cbn in Hi. rewrite !andb_true_iff in Hi. destruct Hi as (_ & He & _). rewrite lower_digit in Q by exact He.
    subst e. discriminate.
Qed.

Lemma ten_power_add a b : ten_power (a + b) = (ten_power a * ten_power b)%Qc.
Proof.
  unfold ten_power. apply Qc_is_canon. cbn [this Q2Qc Qcmult]. rewrite !Qred_correct. apply Qpower_plus. unfold Qeq. cbn. lia.
Qed.
Lemma ten_power_spec e : ten_power e = power_of_ten e.
Proof.
  unfold power_of_ten. destruct (Z.leb_spec 0 e) as [H|H].
  - unfold ten_power, Qc_of_Z. apply Qc_is_canon. cbn [this Q2Qc]. rewrite !Qred_correct.
    rewrite <- (Z2Nat.id e) by exact H. change (10 # 1) with (inject_Z 10). apply Qpower_Z. lia.
  - replace e with (0 - Z.of_nat (Z.to_nat (- e)))%Z at 1 by lia. rewrite ten_power_neg. rewrite Z2Nat.id by lia. reflexivity.
Qed.
Lemma power_of_ten_nz e : power_of_ten e <> 0%Qc.
Proof.
  unfold power_of_ten. destruct (Z.leb_spec 0 e) as [H|H].
  - apply Qc_of_Z_nz. apply Z.pow_pos_nonneg; lia.
  - intros E. assert (P : Qc_of_Z (10 ^ (- e)) <> 0%Qc) by (apply Qc_of_Z_nz, Z.pow_pos_nonneg; lia).
    pose proof (Qcmult_inv_r _ P) as Q. rewrite E, Qcmult_0_r in Q. apply (f_equal this) in Q. discriminate.
Qed.
Lemma exponent_spec x e : exponent x e ->
  take_exponent x = e /\ match x with c :: _ => digitb c = false | [] => True end.
Proof.
  intros [|c a sg b n Hc Ha Hb]; [split; [reflexivity|exact I]|].
  assert (L : lower c = "e"%char /\ digitb c = false) by (destruct Hc; subst c; split; reflexivity).
  destruct L as [L D]. split; [|exact D]. cbn [take_exponent]. rewrite L. change (Ascii.eqb "e" "e") with true. cbv iota.
  apply numeral_spec in Hb as (Hne & Hd & Hv & _).
  assert (S : take_sign (a ++ b) = ((sg =? -1)%Z, b)).
  { destruct Ha; [|reflexivity|reflexivity]. cbn [app]. destruct b as [|d b]; [congruence|].
    cbn in Hd. apply andb_true_iff in Hd as [Hd _]. destruct (digit_not_space d Hd) as (_ & Q2 & Q3).
    cbn [take_sign]. rewrite Q2, Q3. reflexivity. }
  rewrite S. rewrite <- (app_nil_r b). rewrite span_all by (try exact Hd; exact I). rewrite Hv.
  destruct Ha; [change (1 =? -1)%Z with false; cbv iota; lia..|change (-1 =? -1)%Z with true; cbv iota; lia].
Qed.

Lemma check_decimal s q : decimal_number s q -> checkValue s = Ok (ODbl (Fin q)).
Proof.
  intros (a & sg & i & m & f & n & x & e & Hs & Hi & Hf & Hne & Hx & -> & Hq & Hlim & Htiny).
  apply exponent_spec in Hx as (Ex & Dx).
  apply numeral0_spec in Hi as (Di & Vi & Pi). apply numeral0_spec in Hf as (Df & Vf & Pf).
  assert (HD : isDouble (a ++ i ++ txt "." ++ f ++ x) = true).
  { unfold isDouble. rewrite !existsb_app. cbn. rewrite !orb_true_r. reflexivity. }
  unfold checkValue.
  rewrite !text_eqb_neq by (intros Q; rewrite Q in HD; vm_compute in HD; discriminate). rewrite HD.
  assert (E : take_sign (drop spaceb (a ++ i ++ txt "." ++ f ++ x)) = ((sg =? -1)%Z, i ++ txt "." ++ f ++ x)).
  { assert (B : drop spaceb (i ++ txt "." ++ f ++ x) = i ++ txt "." ++ f ++ x /\ take_sign (i ++ txt "." ++ f ++ x) = (false, i ++ txt "." ++ f ++ x)).
    { unfold drop. destruct i as [|c i]; [split; reflexivity|]. cbn in Di. apply andb_true_iff in Di as [Dc _].
      destruct (digit_not_space c Dc) as (Q1 & Q2 & Q3). cbn. rewrite Q1, Q2, Q3. auto. }
    destruct B as [B1 B2]. destruct Hs.
    - cbn [app]. rewrite B1, B2. reflexivity.
    - reflexivity.
    - reflexivity. }
  unfold stod. rewrite E, not_special by assumption. unfold take_decimal.
  rewrite (span_all digitb i) by (try exact Di; reflexivity). cbn [app txt list_ascii_of_string].
  change (Ascii.eqb "."%char "."%char) with true. cbv iota. rewrite span_all by assumption.
  destruct (i ++ f) as [|c r] eqn:Eif; [congruence|]. rewrite <- Eif.
  rewrite digits_value_app, Vi, Vf. rewrite Ex. replace (e - Z.of_nat (List.length f))%Z with (e + (0 - Z.of_nat (List.length f)))%Z by lia.
  rewrite ten_power_add, ten_power_neg, ten_power_spec. cbv zeta.
  set (t := Qc_of_Z (10 ^ Z.of_nat (List.length f))) in *.
  assert (Ht : t <> 0%Qc) by (apply Qc_of_Z_nz; lia).
  assert (Ea : (Qc_of_Z (m * 10 ^ Z.of_nat (List.length f) + n) * (power_of_ten e * / t))%Qc = ((Qc_of_Z m + Qc_of_Z n / t) * power_of_ten e)%Qc).
  { rewrite Qc_of_Z_add, Qc_of_Z_mul. fold t. field. exact Ht. }
  rewrite Ea.
  rewrite (Qclt_b_true _ double_limit) by exact Hlim.
  assert (Z : negb (m * 10 ^ Z.of_nat (List.length f) + n =? 0)%Z && Qclt_b ((Qc_of_Z m + Qc_of_Z n / t) * power_of_ten e) double_tiny = false).
  { destruct (Z.eqb_spec (m * 10 ^ Z.of_nat (List.length f) + n) 0) as [|Q]; [reflexivity|]. cbn [negb andb].
    destruct Htiny as [Q0|Q1]; [exfalso; apply Qcmult_integral in Q0 as [Q0|Q0]; [exact (dval_nz m n _ Pi Pf Q Q0)|exact (power_of_ten_nz e Q0)]|]. apply Qclt_b_false. rewrite double_tiny_eq. exact Q1. }
  rewrite Z, bind_Ok. rewrite Hq. destruct Hs.
  1,2: change (1 =? -1)%Z with false; cbv iota; change (Qc_of_Z 1) with 1%Qc; rewrite Qcmult_1_l; reflexivity.
  change (-1 =? -1)%Z with true. cbv iota. change (Qc_of_Z (-1)) with (-(1))%Qc. do 3 f_equal; try ring.
Qed.
