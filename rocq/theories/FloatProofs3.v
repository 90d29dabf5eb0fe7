(** Bounds that are multiples of a power of two, and the cell centres. *)
From Coq Require Import Reals Lra Qreals.
From Flocq Require Import Core Binary Bits Relative.
From Verif Require Import Base VectorModel MatrixModel HPSModel TreeModel TreeSpec FVMax TreeTile FloatModel FloatSpec FloatProofs FloatProofs2.

Local Open Scope R_scope.

(** A real number that is a multiple of 2^E, at most 2^(E+B) in size. *)
Definition multiple (E B : Z) (x : R) : Prop := exists m, x = IZR m * bpow radix2 E /\ (Z.abs m <= 2 ^ B)%Z.

Lemma multiple_abs E B x : (0 <= B)%Z -> multiple E B x -> Rabs x <= bpow radix2 (E + B).
Proof.
  intros HB (m & -> & H). rewrite Rabs_mult, (Rabs_pos_eq (bpow radix2 E)) by apply bpow_ge_0.
  rewrite bpow_plus, Rmult_comm. apply Rmult_le_compat_l; [apply bpow_ge_0|].
  rewrite <- abs_IZR. apply IZR_le in H. rewrite (IZR_Zpower radix2) in H by exact HB. exact H.
Qed.
Lemma multiple_exact E B x : (0 <= B <= 52)%Z -> (-1074 <= E)%Z -> (E + B <= 1022)%Z -> multiple E B x ->
  rnd x = x /\ Rabs x < bpow radix2 1023.
Proof.
  intros HB HE HS H. split.
  - destruct H as (m & -> & H). apply rnd_repr, repr_scaled; [|exact HE].
    apply Z.le_lt_trans with (1 := H). apply Z.pow_lt_mono_r; lia.
  - apply Rle_lt_trans with (1 := multiple_abs E B x (proj1 HB) H). apply bpow_lt. lia.
Qed.
(** A finer unit, and a bound from the size. *)
Lemma multiple_refine E B E' B' x : (E' <= E)%Z -> (0 <= B)%Z -> (0 <= B')%Z -> multiple E B x ->
  Rabs x <= bpow radix2 (E' + B') -> multiple E' B' x.
Proof.
  intros HE HB HB' (m & -> & H) S.
  assert (X : IZR m * bpow radix2 E = IZR (m * 2 ^ (E - E')) * bpow radix2 E').
  { rewrite mult_IZR, (IZR_Zpower radix2) by lia. rewrite Rmult_assoc, <- bpow_plus. do 2 f_equal. lia. }
  exists (m * 2 ^ (E - E'))%Z. split; [exact X|]. rewrite X in S.
  rewrite Rabs_mult, (Rabs_pos_eq (bpow radix2 E')), bpow_plus, Rmult_comm in S by apply bpow_ge_0.
  apply Rmult_le_reg_l in S; [|apply bpow_gt_0]. rewrite <- abs_IZR in S. apply le_IZR.
  rewrite (IZR_Zpower radix2) by exact HB'. exact S.
Qed.
Lemma multiple_add E B x y B' : (0 <= B)%Z -> (0 <= B')%Z -> multiple E B x -> multiple E B y ->
  Rabs (x + y) <= bpow radix2 (E + B') -> multiple E B' (x + y).
Proof.
  intros HB HB' (m & -> & H) (k & -> & H') S. exists (m + k)%Z.
  assert (X : IZR m * bpow radix2 E + IZR k * bpow radix2 E = IZR (m + k) * bpow radix2 E) by (rewrite plus_IZR; ring).
  split; [exact X|]. rewrite X in S.
  rewrite Rabs_mult, (Rabs_pos_eq (bpow radix2 E)), bpow_plus, Rmult_comm in S by apply bpow_ge_0.
  apply Rmult_le_reg_l in S; [|apply bpow_gt_0]. rewrite <- abs_IZR in S. apply le_IZR.
  rewrite (IZR_Zpower radix2) by exact HB'. exact S.
Qed.
Lemma multiple_opp E B x : multiple E B x -> multiple E B (- x).
Proof. intros (m & -> & H). exists (- m)%Z. rewrite opp_IZR, Z.abs_opp. split; [ring|exact H]. Qed.
Lemma multiple_shift E B k x : multiple E B x -> multiple (E - k) B (x * bpow radix2 (- k)).
Proof.
  intros (m & -> & H). exists m. split; [|exact H]. rewrite Rmult_assoc, <- bpow_plus. do 2 f_equal.
Qed.
Lemma half_bpow x : x / 2 = x * bpow radix2 (- 1).
Proof. reflexivity. Qed.

(** ** The bounds *)
Lemma mid_exact E B a b : finite a -> finite b -> multiple E B (val a) -> multiple E B (val b) ->
  (0 <= B <= 51)%Z -> (-1073 <= E)%Z -> (E + B <= 1021)%Z ->
  finite (dmid a b) /\ val (dmid a b) = (val a + val b) / 2 /\ multiple (E - 1) (B + 1) (val (dmid a b)).
Proof.
  intros Fa Fb A C HB HE HS. unfold dmid.
  pose proof (multiple_abs E B _ (proj1 HB) A) as SA. pose proof (multiple_abs E B _ (proj1 HB) C) as SC.
  assert (P : multiple E (B + 1) (val a + val b)).
  { apply (multiple_add E B); auto; try lia. replace (E + (B + 1))%Z with (1 + (E + B))%Z by lia. rewrite bpow_plus.
    change (bpow radix2 1) with 2. apply Rle_trans with (1 := Rabs_triang _ _). lra. }
  destruct (multiple_exact E (B + 1) _ ltac:(lia) ltac:(lia) ltac:(lia) P) as [R1 S1].
  destruct (dadd_ok a b Fa Fb) as [F1 V1].
  { rewrite R1. apply Rlt_trans with (1 := S1). apply bpow_lt. lia. }
  rewrite R1 in V1. destruct dint2 as [F2 V2].
  assert (Q : multiple (E - 1) (B + 1) ((val a + val b) / 2)) by (rewrite half_bpow; apply multiple_shift; exact P).
  destruct (multiple_exact (E - 1) (B + 1) _ ltac:(lia) ltac:(lia) ltac:(lia) Q) as [R2 S2].
  destruct (ddiv_ok (dadd a b) (dint 2) F1) as [F3 V3].
  { rewrite V2. lra. }
  { rewrite V1, V2, R2. apply Rlt_trans with (1 := S2). apply bpow_lt. lia. }
  rewrite V1, V2, R2 in V3. split; [exact F3|]. split; [exact V3|]. rewrite V3. exact Q.
Qed.

Lemma part_exact bs : forall l u l' u' E B, finite l -> finite u -> multiple E B (val l) -> multiple E B (val u) ->
  val l = qval l' -> val u = qval u' -> (0 <= B)%Z -> (B + Z.of_nat (length bs) <= 52)%Z ->
  (-1074 + Z.of_nat (length bs) <= E)%Z -> (E + B <= 1021)%Z ->
  let a := fst (part l u bs) in let b := snd (part l u bs) in
  finite a /\ finite b /\ val a = qval (fst (iv l' u' bs)) /\ val b = qval (snd (iv l' u' bs)) /\
  multiple (E - Z.of_nat (length bs)) (B + Z.of_nat (length bs)) (val a) /\
  multiple (E - Z.of_nat (length bs)) (B + Z.of_nat (length bs)) (val b).
Proof.
  induction bs as [|c bs IH]; intros l u l' u' E B Fl Fu ML MU El Eu H0 HB HE HS; cbn zeta.
  - cbn [part iv fst snd length Z.of_nat]. rewrite Z.sub_0_r, Z.add_0_r. auto 10.
  - cbn [part iv]. cbn [length] in HB, HE. rewrite Nat2Z.inj_succ in HB, HE.
    destruct (mid_exact E B l u Fl Fu ML MU) as (Fm & Vm & Mm); [lia..|].
    assert (Em : val (dmid l u) = qval ((l' + u') / q2)%Qc) by (rewrite qval_mid, Vm, El, Eu; reflexivity).
    assert (Re : forall x, multiple E B x -> multiple (E - 1) (B + 1) x).
    { intros x Hx. apply (multiple_refine E B); auto; try lia. replace (E - 1 + (B + 1))%Z with (E + B)%Z by lia.
      apply multiple_abs; auto. }
    cbn [length]. rewrite Nat2Z.inj_succ.
    replace (E - Z.succ (Z.of_nat (length bs)))%Z with (E - 1 - Z.of_nat (length bs))%Z by lia.
    replace (B + Z.succ (Z.of_nat (length bs)))%Z with (B + 1 + Z.of_nat (length bs))%Z by lia.
    destruct c; apply IH; auto; lia.
Qed.

(** ** Spacing and cell centres *)
Section cells.
Variables (l u : double) (l' u' : Qc) (E B : Z) (k n : nat).
Hypothesis Fl : finite l.
Hypothesis Fu : finite u.
Hypothesis ML : multiple E B (val l).
Hypothesis MU : multiple E B (val u).
Hypothesis El : val l = qval l'.
Hypothesis Eu : val u = qval u'.
Hypothesis LU : val l <= val u.
Hypothesis HB : (0 <= B)%Z.
Hypothesis HK : (B + Z.of_nat k + 2 <= 52)%Z.
Hypothesis HE : (-1073 + Z.of_nat k <= E)%Z.
Hypothesis HS : (E + B <= 1020)%Z.
Hypothesis Hn : n = (2 ^ k)%nat.

Let w := (val u - val l) * bpow radix2 (- Z.of_nat k).
Let step := ddiv (dsub u l) (dint (Z.of_nat n)).

Lemma n_pow : IZR (Z.of_nat n) = bpow radix2 (Z.of_nat k).
Proof. rewrite Hn, Nat2Z.inj_pow, <- (IZR_Zpower radix2) by lia. reflexivity. Qed.
Lemma w_n : (val u - val l) / IZR (Z.of_nat n) = w.
Proof. unfold w, Rdiv. rewrite n_pow, bpow_opp. reflexivity. Qed.

Lemma n_small : (Z.of_nat n < 2 ^ 53)%Z.
Proof. rewrite Hn, Nat2Z.inj_pow. apply Z.pow_lt_mono_r; lia. Qed.

Lemma bpow_2 z : 2 * bpow radix2 z = bpow radix2 (z + 1).
Proof. rewrite bpow_plus. change (bpow radix2 1) with 2. ring. Qed.

Lemma sizes : Rabs (val l) <= bpow radix2 (E + B) /\ Rabs (val u) <= bpow radix2 (E + B).
Proof. split; apply multiple_abs; auto. Qed.

Lemma step_exact : finite step /\ val step = w /\ multiple (E - Z.of_nat k) (B + 1) w /\ 0 <= w.
Proof.
  destruct sizes as [S1 S2]. unfold step.
  assert (P : multiple E (B + 1) (val u - val l)).
  { apply (multiple_add E B); auto using multiple_opp; try lia.
    replace (E + (B + 1))%Z with (E + B + 1)%Z by lia. rewrite <- bpow_2.
    apply abs_le_inv in S1, S2. apply Rabs_le. lra. }
  destruct (multiple_exact E (B + 1) _ ltac:(lia) ltac:(lia) ltac:(lia) P) as [R1 T1].
  destruct (dsub_ok u l Fu Fl) as [F1 V1]; [rewrite R1; apply Rlt_trans with (1 := T1); apply bpow_lt; lia|].
  rewrite R1 in V1.
  assert (Q : multiple (E - Z.of_nat k) (B + 1) w) by (apply multiple_shift; exact P).
  destruct (multiple_exact (E - Z.of_nat k) (B + 1) _ ltac:(lia) ltac:(lia) ltac:(lia) Q) as [R2 T2].
  destruct (dint_ok (Z.of_nat n)) as [F2 V2]; [pose proof n_small; lia|].
  destruct (ddiv_ok (dsub u l) (dint (Z.of_nat n)) F1) as [F3 V3].
  { rewrite V2, n_pow. apply Rgt_not_eq, bpow_gt_0. }
  { rewrite V1, V2, w_n, R2. apply Rlt_trans with (1 := T2). apply bpow_lt. lia. }
  rewrite V1, V2, w_n, R2 in V3. split; [exact F3|]. split; [exact V3|]. split; [exact Q|].
  unfold w. apply Rmult_le_pos; [lra|apply bpow_ge_0].
Qed.

Lemma w_times : IZR (Z.of_nat n) * w = val u - val l.
Proof. rewrite n_pow. unfold w. rewrite bpow_opp. field. apply Rgt_not_eq, bpow_gt_0. Qed.

Lemma centre_exact i : (i < n)%nat ->
  let c := dadd (dadd l (ddiv step (dint 2))) (dmul (dint (Z.of_nat i)) step) in
  finite c /\ val c = val l + w / 2 + IZR (Z.of_nat i) * w.
Proof.
  intros Hi c. unfold c. clear c. destruct step_exact as (Fs & Vs & Ms & W0). destruct sizes as [S1 S2].
  destruct dint2 as [F2 V2].
  pose proof w_times as WT. pose proof n_small as NS.
  assert (I0 : 0 <= IZR (Z.of_nat i)) by (apply IZR_le; lia).
  assert (I1 : IZR (Z.of_nat i) + 1 <= IZR (Z.of_nat n)) by (rewrite <- plus_IZR; apply IZR_le; lia).
  assert (I2 : IZR (Z.of_nat i) * w + w <= val u - val l).
  { rewrite <- WT. replace (IZR (Z.of_nat i) * w + w) with ((IZR (Z.of_nat i) + 1) * w) by ring.
    apply Rmult_le_compat_r; assumption. }
  assert (I3 : 0 <= IZR (Z.of_nat i) * w) by (apply Rmult_le_pos; assumption).
  set (e := (E - Z.of_nat k - 1)%Z). set (b := (B + Z.of_nat k + 1)%Z).
  assert (EB : (e + b = E + B)%Z) by (unfold e, b; lia).
  assert (BB : (0 <= b <= 51)%Z) by (unfold b; lia). assert (Be : (-1074 <= e)%Z) by (unfold e; lia).
  (* half of the spacing *)
  assert (H1 : multiple e (B + 1) (w / 2)) by (rewrite half_bpow; apply multiple_shift; exact Ms).
  assert (H1' : multiple e b (w / 2)).
  { apply (multiple_refine e (B + 1)); auto; try lia. rewrite EB. apply abs_le_inv in S1, S2. apply Rabs_le. lra. }
  destruct (multiple_exact e b _ ltac:(lia) Be ltac:(lia) H1') as [R1 T1].
  destruct (ddiv_ok step (dint 2) Fs) as [F3 V3]; [rewrite V2; lra|rewrite Vs, V2, R1; apply Rlt_trans with (1 := T1); apply bpow_lt; lia|].
  rewrite Vs, V2, R1 in V3.
  (* the first centre *)
  assert (L' : multiple e b (val l)).
  { apply (multiple_refine E B); auto; try lia. rewrite EB. exact S1. }
  assert (H2 : multiple e b (val l + w / 2)).
  { apply (multiple_add e b); auto; try lia. rewrite EB. apply abs_le_inv in S1, S2. apply Rabs_le. lra. }
  destruct (multiple_exact e b _ ltac:(lia) Be ltac:(lia) H2) as [R2 T2].
  destruct (dadd_ok l (ddiv step (dint 2)) Fl F3) as [F4 V4]; [rewrite V3, R2; apply Rlt_trans with (1 := T2); apply bpow_lt; lia|].
  rewrite V3, R2 in V4.
  (* the offset *)
  destruct (dint_ok (Z.of_nat i)) as [Fi Vi]; [lia|].
  assert (H3 : multiple e (b + 1) (IZR (Z.of_nat i) * w)).
  { destruct Ms as (m & Em & Hm). exists (Z.of_nat i * (m * 2))%Z.
    assert (X : IZR (Z.of_nat i) * w = IZR (Z.of_nat i * (m * 2)) * bpow radix2 e).
    { rewrite Em, !mult_IZR. unfold e. replace (bpow radix2 (E - Z.of_nat k)) with (2 * bpow radix2 (E - Z.of_nat k - 1)).
      - ring.
      - rewrite bpow_2. f_equal. lia. }
    split; [exact X|]. apply le_IZR. rewrite abs_IZR, (IZR_Zpower radix2) by lia.
    apply Rmult_le_reg_l with (bpow radix2 e); [apply bpow_gt_0|]. rewrite <- bpow_plus.
    replace (e + (b + 1))%Z with (E + B + 1)%Z by lia. rewrite <- bpow_2.
    rewrite <- (Rabs_pos_eq (bpow radix2 e)), <- Rabs_mult, (Rmult_comm (bpow radix2 e)), <- X by apply bpow_ge_0.
    rewrite Rabs_pos_eq by exact I3. apply abs_le_inv in S1, S2. lra. }
  destruct (multiple_exact e (b + 1) _ ltac:(lia) Be ltac:(lia) H3) as [R3 T3].
  destruct (dmul_ok (dint (Z.of_nat i)) step Fi Fs) as [F5 V5]; [rewrite Vi, Vs, R3; apply Rlt_trans with (1 := T3); apply bpow_lt; lia|].
  rewrite Vi, Vs, R3 in V5.
  (* the sum *)
  assert (H4 : multiple e (b + 1) (val l + w / 2 + IZR (Z.of_nat i) * w)).
  { apply (multiple_add e (b + 1)); auto; try lia.
    - apply (multiple_refine e b); auto; try lia.
      apply Rle_trans with (1 := multiple_abs e b _ (proj1 BB) H2). apply bpow_le. lia.
    - replace (e + (b + 1))%Z with (E + B + 1)%Z by lia. rewrite <- bpow_2. apply abs_le_inv in S1, S2. apply Rabs_le. lra. }
  destruct (multiple_exact e (b + 1) _ ltac:(lia) Be ltac:(lia) H4) as [R4 T4].
  destruct (dadd_ok _ _ F4 F5) as [F6 V6]; [rewrite V4, V5, R4; apply Rlt_trans with (1 := T4); apply bpow_lt; lia|].
  rewrite V4, V5, R4 in V6. split; assumption.
Qed.

Lemma rational_step : qval ((u' - l') / Qc_of_nat n)%Qc = w.
Proof.
  assert (N : Qc_of_nat n <> 0%Qc).
  { intros H. apply (f_equal qval) in H. rewrite qval_nat, qval_0, n_pow in H. pose proof (bpow_gt_0 radix2 (Z.of_nat k)). lra. }
  assert (X : (Qc_of_nat n * ((u' - l') / Qc_of_nat n) = u' - l')%Qc) by (field; exact N).
  apply (f_equal qval) in X. rewrite qval_mult, qval_minus, qval_nat, <- El, <- Eu, <- w_times in X.
  apply Rmult_eq_reg_l in X; [exact X|]. rewrite n_pow. apply Rgt_not_eq, bpow_gt_0.
Qed.
End cells.
