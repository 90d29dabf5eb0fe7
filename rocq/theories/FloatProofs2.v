(** Accuracy and exactness of the bounds and the cell centres. *)
From Coq Require Import Reals Lra Qreals.
From Flocq Require Import Core Binary Bits Relative.
From Verif Require Import Base VectorModel MatrixModel HPSModel TreeModel TreeSpec FVMax TreeTile FloatModel FloatSpec FloatProofs.

Local Open Scope R_scope.

(** ** Rounding errors *)
Definition u53 : R := bpow radix2 (-53).
Definition tiny : R := bpow radix2 (-1075).
Lemma u53_pos : 0 < u53. Proof. apply bpow_gt_0. Qed.
Lemma tiny_pos : 0 < tiny. Proof. apply bpow_gt_0. Qed.

Lemma rnd_err x : Rabs (rnd x - x) <= u53 * Rabs x + tiny.
Proof.
  destruct (error_N_FLT radix2 (-1074) 53 eq_refl (fun t => negb (Z.even t)) x) as (eps & eta & He & Ht & _ & E).
  unfold rnd. rewrite fe_flt, E.
  replace (/ 2 * bpow radix2 (- (53) + 1)) with u53 in He
    by (unfold u53; change (- (53) + 1)%Z with (1 + -53)%Z; rewrite bpow_plus; change (bpow radix2 1) with 2; lra).
  replace (/ 2 * bpow radix2 (-1074)) with tiny in Ht
    by (unfold tiny; change (-1074)%Z with (1 + -1075)%Z; rewrite bpow_plus; change (bpow radix2 1) with 2; lra).
  replace (x * (1 + eps) + eta - x) with (eps * x + eta) by ring.
  apply Rle_trans with (1 := Rabs_triang _ _). rewrite Rabs_mult.
  apply Rplus_le_compat; [|exact Ht]. apply Rmult_le_compat_r; [apply Rabs_pos|exact He].
Qed.

(** The unit of the bounds: [M] is at least 2^-900, so that underflow does not count. *)
Definition grain (M : R) : R := bpow radix2 (-52) * M.
Lemma tiny_grain M : bpow radix2 (-900) <= M -> IZR (2 ^ 32) * tiny <= u53 * M.
Proof.
  intros H. apply Rle_trans with (u53 * bpow radix2 (-900)).
  - unfold tiny, u53. change (IZR (2 ^ 32)) with (bpow radix2 32). rewrite <- !bpow_plus. apply bpow_le. lia.
  - apply Rmult_le_compat_l; [apply Rlt_le, u53_pos|exact H].
Qed.
Lemma u53_grain M : grain M = 2 * (u53 * M).
Proof. unfold grain, u53. change (-52)%Z with (1 + -53)%Z. rewrite bpow_plus. change (bpow radix2 1) with 2. ring. Qed.

Lemma rnd_grain x M K : bpow radix2 (-900) <= M -> 1 <= K -> Rabs x <= K * M -> Rabs (rnd x - x) <= K * grain M.
Proof.
  intros H HK Hx. apply Rle_trans with (1 := rnd_err x). rewrite u53_grain.
  pose proof (tiny_grain M H) as T. pose proof tiny_pos as TP. pose proof u53_pos as U.
  assert (T' : tiny <= u53 * M).
  { apply Rle_trans with (2 := T). rewrite <- (Rmult_1_l tiny) at 1. apply Rmult_le_compat_r; [lra|]. apply IZR_le. lia. }
  apply Rle_trans with (u53 * (K * M) + u53 * M).
  - apply Rplus_le_compat; [|exact T']. apply Rmult_le_compat_l; [lra|exact Hx].
  - assert (0 <= (K - 1) * (u53 * M)); [|lra].
    apply Rmult_le_pos; [lra|]. apply Rmult_le_pos; [lra|]. pose proof (bpow_gt_0 radix2 (-900)). lra.
Qed.

Lemma abs_le_inv x y : Rabs x <= y -> - y <= x <= y.
Proof. apply Rabs_le_inv. Qed.

Lemma mid_err a b M : moderate a -> moderate b -> val a <= val b ->
  bpow radix2 (-900) <= M -> Rabs (val a) <= M -> Rabs (val b) <= M ->
  Rabs (val (dmid a b) - (val a + val b) / 2) <= 2 * grain M.
Proof.
  intros A B H HM Ha Hb. destruct (mid_between a b A B H) as (_ & C & ->).
  assert (B1 : 2 * val a <= rnd (val a + val b) <= 2 * val b).
  { apply rnd_between; [apply repr_double, repr_val..|lra]. }
  apply abs_le_inv in Ha, Hb.
  pose proof (rnd_grain (val a + val b) M 2 HM ltac:(lra)) as E1.
  pose proof (rnd_grain (rnd (val a + val b) / 2) M 1 HM ltac:(lra)) as E2.
  set (s := rnd (val a + val b)) in *. set (m := rnd (s / 2)) in *.
  specialize (E1 ltac:(apply Rabs_le; lra)). specialize (E2 ltac:(apply Rabs_le; lra)).
  apply abs_le_inv in E1, E2. apply Rabs_le. lra.
Qed.

(** ** Rational numbers as real numbers *)
Lemma qval_plus a b : qval (a + b)%Qc = qval a + qval b.
Proof. unfold qval. rewrite <- Q2R_plus. apply Qeq_eqR. apply this_plus. Qed.
Lemma qval_minus a b : qval (a - b)%Qc = qval a - qval b.
Proof. unfold qval. rewrite <- Q2R_minus. apply Qeq_eqR. apply this_minus. Qed.
Lemma qval_mult a b : qval (a * b)%Qc = qval a * qval b.
Proof. unfold qval. rewrite <- Q2R_mult. apply Qeq_eqR. apply this_mult. Qed.
Lemma qval_0 : qval 0%Qc = 0.
Proof. unfold qval. unfold Q2R. cbn. lra. Qed.
Lemma qval_1 : qval 1%Qc = 1.
Proof. unfold qval, Q2R. cbn. lra. Qed.
Lemma qval_q2 : qval q2 = 2.
Proof. rewrite TreeTile.two, qval_plus, qval_1. lra. Qed.
Lemma qval_mid a b : qval ((a + b) / q2)%Qc = (qval a + qval b) / 2.
Proof. pose proof (f_equal qval (mid_sum a b)) as E. rewrite !qval_plus in E. lra. Qed.
Lemma qval_nat n : qval (Qc_of_nat n) = IZR (Z.of_nat n).
Proof.
  unfold Qc_of_nat, qval. transitivity (Q2R (inject_Z (Z.of_nat n))).
  - apply Qeq_eqR. apply Qred_correct.
  - unfold Q2R, inject_Z. cbn. lra.
Qed.

(** ** Accuracy of the bounds *)
Lemma part_accurate bs : forall l u l' u' M K, moderate l -> moderate u -> val l <= val u ->
  bpow radix2 (-900) <= M -> Rabs (val l) <= M -> Rabs (val u) <= M ->
  Rabs (val l - qval l') <= K -> Rabs (val u - qval u') <= K ->
  let n := IZR (Z.of_nat (length bs)) in
  Rabs (val (fst (part l u bs)) - qval (fst (iv l' u' bs))) <= K + n * (2 * grain M) /\
  Rabs (val (snd (part l u bs)) - qval (snd (iv l' u' bs))) <= K + n * (2 * grain M).
Proof.
  induction bs as [|b bs IH]; intros l u l' u' M K L U H HM Hl Hu El Eu n.
  - cbn [part iv fst snd]. unfold n. cbn [length]. change (IZR (Z.of_nat 0)) with 0. split; lra.
  - cbn [part iv]. destruct (mid_between l u L U H) as (M1 & B & _). pose proof (mid_err l u M L U H HM Hl Hu) as E.
    assert (UM : 0 <= grain M).
    { unfold grain. apply Rmult_le_pos; [apply bpow_ge_0|]. pose proof (bpow_gt_0 radix2 (-900)). lra. }
    assert (Hm : Rabs (val (dmid l u)) <= M) by (apply abs_le_inv in Hl, Hu; apply Rabs_le; lra).
    assert (Em : Rabs (val (dmid l u) - qval ((l' + u') / q2)%Qc) <= K + 2 * grain M).
    { rewrite qval_mid. apply abs_le_inv in E, El, Eu. apply Rabs_le. lra. }
    assert (N : n = IZR (Z.of_nat (length bs)) + 1).
    { unfold n. cbn [length]. rewrite Nat2Z.inj_succ. unfold Z.succ. apply plus_IZR. }
    assert (G : forall x, Rabs x <= (K + 2 * grain M) + IZR (Z.of_nat (length bs)) * (2 * grain M) -> Rabs x <= K + n * (2 * grain M))
      by (intros x Hx; rewrite N; lra).
    destruct b.
    + destruct (IH (dmid l u) u ((l' + u') / q2)%Qc u' M (K + 2 * grain M)) as [I1 I2]; try assumption; try lra.
      split; apply G; assumption.
    + destruct (IH l (dmid l u) l' ((l' + u') / q2)%Qc M (K + 2 * grain M)) as [I1 I2]; try assumption; try lra.
      split; apply G; assumption.
Qed.

(** ** Widths *)
Lemma part_width bs : forall l u M, moderate l -> moderate u -> val l <= val u ->
  bpow radix2 (-900) <= M -> Rabs (val l) <= M -> Rabs (val u) <= M ->
  Rabs ((val (snd (part l u bs)) - val (fst (part l u bs))) - (val u - val l) * bpow radix2 (- Z.of_nat (length bs))) <= 4 * grain M.
Proof.
  assert (UM : forall M, bpow radix2 (-900) <= M -> 0 <= grain M).
  { intros M HM. unfold grain. apply Rmult_le_pos; [apply bpow_ge_0|]. pose proof (bpow_gt_0 radix2 (-900)). lra. }
  assert (G : forall bs l u M, moderate l -> moderate u -> val l <= val u ->
    bpow radix2 (-900) <= M -> Rabs (val l) <= M -> Rabs (val u) <= M ->
    Rabs ((val (snd (part l u bs)) - val (fst (part l u bs))) - (val u - val l) * bpow radix2 (- Z.of_nat (length bs)))
      <= (4 - 4 * bpow radix2 (- Z.of_nat (length bs))) * grain M).
  { clear bs. induction bs as [|b bs IH]; intros l u M L U H HM Hl Hu.
    - cbn [part fst snd length]. change (bpow radix2 (- Z.of_nat 0)) with 1.
      replace (val u - val l - (val u - val l) * 1) with 0 by ring. rewrite Rabs_R0. lra.
    - cbn [part]. destruct (mid_between l u L U H) as (M1 & B & _). pose proof (mid_err l u M L U H HM Hl Hu) as E.
      assert (Hm : Rabs (val (dmid l u)) <= M) by (apply abs_le_inv in Hl, Hu; apply Rabs_le; lra).
      replace (bpow radix2 (- Z.of_nat (length (b :: bs)))) with (/ 2 * bpow radix2 (- Z.of_nat (length bs))).
      2: { cbn [length]. rewrite Nat2Z.inj_succ. replace (- Z.succ (Z.of_nat (length bs)))%Z with (-1 + - Z.of_nat (length bs))%Z by lia.
           rewrite bpow_plus. reflexivity. }
      pose proof (bpow_gt_0 radix2 (- Z.of_nat (length bs))) as P. specialize (UM M HM).
      set (p := bpow radix2 (- Z.of_nat (length bs))) in *.
      assert (S : forall a c : double, Rabs ((val c - val a) - (val u - val l) / 2) <= 2 * grain M ->
        forall z, Rabs (z - (val c - val a) * p) <= (4 - 4 * p) * grain M ->
        Rabs (z - (val u - val l) * (/ 2 * p)) <= (4 - 4 * (/ 2 * p)) * grain M).
      { intros a c Hw z Hz.
        replace (z - (val u - val l) * (/ 2 * p)) with ((z - (val c - val a) * p) + ((val c - val a) - (val u - val l) / 2) * p) by field.
        apply Rle_trans with (1 := Rabs_triang _ _).
        rewrite (Rabs_mult _ p), (Rabs_pos_eq p) by lra.
        pose proof (Rmult_le_compat_r p _ _ (Rlt_le _ _ P) Hw). lra. }
      destruct b.
      + apply (S (dmid l u) u); [apply abs_le_inv in E; apply Rabs_le; lra|].
        apply IH; try assumption; lra.
      + apply (S l (dmid l u)); [apply abs_le_inv in E; apply Rabs_le; lra|].
        apply IH; try assumption; lra. }
  intros l u M L U H HM Hl Hu. apply Rle_trans with (1 := G bs l u M L U H HM Hl Hu).
  apply Rmult_le_compat_r; [auto|]. pose proof (bpow_gt_0 radix2 (- Z.of_nat (length bs))). lra.
Qed.
