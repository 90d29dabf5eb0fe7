(** Accuracy of the cell centres of any grid. *)
From Coq Require Import Reals Lra Qreals.
From Flocq Require Import Core Binary Bits Relative.
From Verif Require Import Base VectorModel MatrixModel HPSModel TreeModel TreeSpec FloatModel FloatSpec FloatProofs FloatProofs2.

Local Open Scope R_scope.

Section cells.
Variables (l u : double) (M : R) (n : nat).
Hypothesis Fl : finite l.
Hypothesis Fu : finite u.
Hypothesis LU : val l <= val u.
Hypothesis HM : bpow radix2 (-900) <= M.
Hypothesis HM' : M <= bpow radix2 1020.
Hypothesis Hl : Rabs (val l) <= M.
Hypothesis Hu : Rabs (val u) <= M.
Hypothesis Hn : (1 <= n)%nat.
Hypothesis Hn' : (Z.of_nat n < 2 ^ 31)%Z.

Let w := (val u - val l) / IZR (Z.of_nat n).
Let step := ddiv (dsub u l) (dint (Z.of_nat n)).
Let q := grain M.

Lemma M_pos : 0 < M.
Proof. pose proof (bpow_gt_0 radix2 (-900)). lra. Qed.
Lemma q_small : 0 <= q /\ 1000 * q <= M.
Proof.
  pose proof M_pos. unfold q, grain. pose proof (bpow_ge_0 radix2 (-52)). split; [apply Rmult_le_pos; lra|].
  rewrite <- Rmult_assoc. rewrite <- (Rmult_1_l M) at 2. apply Rmult_le_compat_r; [lra|].
  apply Rle_trans with (bpow radix2 10 * bpow radix2 (-52)).
  - apply Rmult_le_compat_r; [apply bpow_ge_0|]. cbn. lra.
  - rewrite <- bpow_plus. apply (bpow_le radix2 _ 0). lia.
Qed.
Lemma no_overflow x : Rabs x <= 4 * M -> Rabs (rnd x) < bpow radix2 1024.
Proof.
  intros H. pose proof (rnd_grain x M 4 HM ltac:(lra) H) as E. fold q in E. destruct q_small as [Q0 Q1].
  apply abs_le_inv in H, E. pose proof M_pos.
  assert (X : bpow radix2 1024 = 16 * bpow radix2 1020) by (change 1024%Z with (4 + 1020)%Z; rewrite bpow_plus; reflexivity).
  rewrite X. apply Rabs_def1; lra.
Qed.

Lemma n_pos : 1 <= IZR (Z.of_nat n).
Proof. apply IZR_le. lia. Qed.

Lemma step_close : finite step /\ 0 <= val step /\ - (4 * q) <= IZR (Z.of_nat n) * val step - (val u - val l) <= 4 * q.
Proof.
  destruct q_small as [Q0 Q1]. pose proof M_pos as MP. pose proof n_pos as NP.
  pose proof Hl as Hl0. pose proof Hu as Hu0. apply abs_le_inv in Hl0, Hu0.
  assert (W : Rabs (val u - val l) <= 2 * M) by (apply Rabs_le; lra).
  destruct (dsub_ok u l Fu Fl) as [F1 V1]; [apply no_overflow; apply abs_le_inv in W; apply Rabs_le; lra|].
  pose proof (rnd_grain _ M 2 HM ltac:(lra) W) as E1. fold q in E1.
  assert (P1 : 0 <= rnd (val u - val l)).
  { rewrite <- (rnd_repr 0 (generic_format_0 _ _)) . apply rnd_le. lra. }
  set (d := rnd (val u - val l)) in *. apply abs_le_inv in E1, W.
  destruct (dint_ok (Z.of_nat n)) as [F2 V2]; [lia|].
  assert (D0 : 0 <= d / IZR (Z.of_nat n)) by (apply Rmult_le_pos; [lra|apply Rlt_le, Rinv_0_lt_compat; lra]).
  assert (D1 : IZR (Z.of_nat n) * (d / IZR (Z.of_nat n)) = d) by (field; lra).
  assert (D2 : d / IZR (Z.of_nat n) <= d).
  { rewrite <- D1 at 2. rewrite <- (Rmult_1_l (d / IZR (Z.of_nat n))) at 1. apply Rmult_le_compat_r; assumption. }
  destruct (ddiv_ok (dsub u l) (dint (Z.of_nat n)) F1) as [F3 V3].
  { rewrite V2. lra. }
  { rewrite V1, V2. apply no_overflow. rewrite Rabs_pos_eq; lra. }
  rewrite V1, V2 in V3. fold step in F3, V3. rewrite V3. split; [exact F3|].
  pose proof (rnd_err (d / IZR (Z.of_nat n))) as E2. rewrite (Rabs_pos_eq (d / IZR (Z.of_nat n))) in E2 by exact D0.
  split; [rewrite <- (rnd_repr 0 (generic_format_0 _ _)); apply rnd_le; exact D0|].
  pose proof (tiny_grain M HM) as T. pose proof tiny_pos as TP. pose proof u53_pos as UP.
  pose proof (u53_grain M) as UM. fold q in UM.
  assert (T1 : IZR (Z.of_nat n) * tiny <= u53 * M).
  { apply Rle_trans with (2 := T). apply Rmult_le_compat_r; [lra|]. apply IZR_le. lia. }
  assert (T2 : u53 * d <= u53 * (3 * M)) by (apply Rmult_le_compat_l; lra).
  assert (E3 : IZR (Z.of_nat n) * Rabs (rnd (d / IZR (Z.of_nat n)) - d / IZR (Z.of_nat n)) <= 2 * q).
  { apply Rle_trans with (IZR (Z.of_nat n) * (u53 * (d / IZR (Z.of_nat n)) + tiny)).
    - apply Rmult_le_compat_l; [lra|exact E2].
    - replace (IZR (Z.of_nat n) * (u53 * (d / IZR (Z.of_nat n)) + tiny)) with (u53 * d + IZR (Z.of_nat n) * tiny)
        by (field; lra). lra. }
  assert (E4 : Rabs (IZR (Z.of_nat n) * (rnd (d / IZR (Z.of_nat n)) - d / IZR (Z.of_nat n))) <= 2 * q).
  { rewrite Rabs_mult, (Rabs_pos_eq (IZR (Z.of_nat n))) by lra. exact E3. }
  apply abs_le_inv in E4. rewrite Rmult_minus_distr_l, D1 in E4. lra.
Qed.

Lemma centre_close i : (i < n)%nat ->
  let c := dadd (dadd l (ddiv step (dint 2))) (dmul (dint (Z.of_nat i)) step) in
  finite c /\ Rabs (val c - (val l + (IZR (Z.of_nat i) + / 2) * w)) <= 16 * q.
Proof.
  intros Hi c. unfold c. clear c. destruct step_close as (Fs & S0 & S1).
  destruct q_small as [Q0 Q1]. pose proof M_pos as MP. pose proof n_pos as NP.
  pose proof Hl as Hl0. pose proof Hu as Hu0. apply abs_le_inv in Hl0, Hu0.
  assert (I0 : 0 <= IZR (Z.of_nat i)) by (apply IZR_le; lia).
  assert (I1 : IZR (Z.of_nat i) + 1 <= IZR (Z.of_nat n)) by (rewrite <- plus_IZR; apply IZR_le; lia).
  assert (WN : IZR (Z.of_nat n) * w = val u - val l) by (unfold w; field; lra).
  set (N := IZR (Z.of_nat n)) in *. set (k := IZR (Z.of_nat i)) in *. set (s := val step) in *.
  (* multiples of the spacing *)
  assert (K1 : 0 <= k * s) by (apply Rmult_le_pos; lra).
  assert (K2 : k * s + s <= N * s).
  { replace (k * s + s) with ((k + 1) * s) by ring. apply Rmult_le_compat_r; lra. }
  assert (K3 : Rabs ((k + / 2) * (s - w)) <= 4 * q).
  { assert (Z : Rabs (N * (s - w)) <= 4 * q) by (rewrite Rmult_minus_distr_l, WN; apply Rabs_le; lra).
    rewrite Rabs_mult in Z |- *. apply Rle_trans with (2 := Z). apply Rmult_le_compat_r; [apply Rabs_pos|].
    rewrite !Rabs_pos_eq; lra. }
  apply abs_le_inv in K3. replace ((k + / 2) * (s - w)) with (k * s + s / 2 - (k + / 2) * w) in K3 by field.
  destruct dint2 as [F2 V2].
  (* half of the spacing *)
  destruct (ddiv_ok step (dint 2) Fs) as [F3 V3]; [rewrite V2; lra|rewrite V2; apply no_overflow; fold s; apply Rabs_le; lra|].
  rewrite V2 in V3. fold s in V3.
  pose proof (rnd_grain (s / 2) M 2 HM ltac:(lra) ltac:(apply Rabs_le; lra)) as E3. fold q in E3. rewrite <- V3 in E3. apply abs_le_inv in E3.
  (* the first centre *)
  destruct (dadd_ok l _ Fl F3) as [F4 V4]; [apply no_overflow; apply Rabs_le; lra|].
  pose proof (rnd_grain (val l + val (ddiv step (dint 2))) M 3 HM ltac:(lra) ltac:(apply Rabs_le; lra)) as E4.
  fold q in E4. rewrite <- V4 in E4. apply abs_le_inv in E4.
  (* the offset *)
  destruct (dint_ok (Z.of_nat i)) as [Fi Vi]; [lia|]. fold k in Vi.
  destruct (dmul_ok _ step Fi Fs) as [F5 V5]; [rewrite Vi; fold s; apply no_overflow; apply Rabs_le; lra|].
  rewrite Vi in V5. fold s in V5.
  pose proof (rnd_grain (k * s) M 3 HM ltac:(lra) ltac:(apply Rabs_le; lra)) as E5. fold q in E5. rewrite <- V5 in E5. apply abs_le_inv in E5.
  (* the sum *)
  destruct (dadd_ok _ _ F4 F5) as [F6 V6]; [apply no_overflow; apply Rabs_le; lra|].
  pose proof (rnd_grain (val (dadd l (ddiv step (dint 2))) + val (dmul (dint (Z.of_nat i)) step)) M 2 HM
    ltac:(lra) ltac:(apply Rabs_le; lra)) as E6.
  fold q in E6. rewrite <- V6 in E6. apply abs_le_inv in E6.
  split; [exact F6|]. apply Rabs_le. lra.
Qed.
End cells.
