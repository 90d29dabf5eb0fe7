(** All passes of uncoarsen_ in double arithmetic against the exact passes. *)
From Coq Require Import Reals Lra Permutation.
From Flocq Require Import Core Binary Bits.
From Verif Require Import Base VectorModel MatrixModel LinSpec MatProofs MatProofs2 MatProofs3 HPSModel FloatModel FloatSpec
  FloatProofs FloatProofs2 FProdModel FProdSpec FProdProofs FProdProofs2 FProdProofs3 FProdProofs4 FProdProofs5.

Local Open Scope R_scope.
Local Notation val := FloatSpec.val.

Lemma exact_row_q M xq yq i ws n : well_formed M -> mulv M xq = Ok yq -> nc M = n -> (i < nr M)%nat ->
  row_ws (fun j => qval (qent M i j)) n ws ->
  qval (nth i yq 0%Qc) = Rsum (map (fun w => snd w * qval (nth (fst w) xq 0%Qc)) ws).
Proof.
  intros W E <- Hi RW. rewrite (mulv_row M xq yq i W E Hi).
  destruct (row_sums _ _ _ (fun j => qval (nth j xq 0%Qc)) RW) as (R1 & _). rewrite <- R1. reflexivity.
Qed.

Lemma weighted_diff ws (f h : nat -> R) e : refine_ws ws -> (forall w, In w ws -> Rabs (f (fst w) - h (fst w)) <= e) ->
  Rabs (Rsum (map (fun w => snd w * f (fst w)) ws) - Rsum (map (fun w => snd w * h (fst w)) ws)) <= 17 / 8 * e.
Proof.
  intros RW H.
  destruct RW as [(a & b & d & ->)|(a & b & ->)]; unfold Rsum; cbn [map fold_right fst snd].
  - pose proof (H (a, 45 / 32) ltac:(cbn; auto)) as K1. pose proof (H (b, - (9 / 16)) ltac:(cbn; auto)) as K2.
    pose proof (H (d, 5 / 32) ltac:(cbn; auto)) as K3. cbn [fst] in K1, K2, K3.
    apply Rabs_le_inv in K1, K2, K3. apply Rabs_le. lra.
  - pose proof (H (a, 3 / 4) ltac:(cbn; auto)) as K1. pose proof (H (b, 1 / 4) ltac:(cbn; auto)) as K2. cbn [fst] in K1, K2.
    apply Rabs_le_inv in K1, K2. apply Rabs_le. lra.
Qed.

Definition near (e : R) (g : list double) (gq : list Qc) : Prop :=
  length g = length gq /\ forall i, (i < length g)%nat -> Rabs (val (nth i g (dint 0)) - qval (nth i gq 0%Qc)) <= e.

Lemma refine_near c g gq yq r B e : (3 <= c)%nat -> Forall finite g -> length g = (4 * c)%nat -> near e g gq ->
  bounded B g -> B <= bpow radix2 1020 ->
  (L <- Coarse2Fine (2 * c) ;; M <- four_diag L ;; mulv M gq) = Ok yq -> drefine (2 * c) g r ->
  exists y, r = Ok y /\ length y = (8 * c)%nat /\ Forall finite y /\
    bounded (17 / 8 * B + (bpow radix2 (-50) * B + bpow radix2 (-1073))) y /\
    near (17 / 8 * e + (bpow radix2 (-50) * B + bpow radix2 (-1073))) y yq.
Proof.
  intros Hc Fg Lg (Nl & Ng) Bg HB E O. destruct (refine_out c g r Hc O) as (D & M & SD & (W & R & C & RR) & EM & OM).
  assert (B0 : 0 <= B) by (apply (bounded_pos _ _ Bg); intros ->; cbn in Lg; lia).
  assert (EY : mulv M gq = Ok yq) by exact (two_steps _ _ (fun M => mulv M _) _ _ EM E).
  destruct (mulv_dims _ _ _ W EY) as (_ & _ & Lyq).
  destruct (rows_out D M g r (4 * c) W SD ltac:(lia) C ltac:(lia) Fg OM) as (y & -> & Ly & H).
  assert (K : forall i, (i < 8 * c)%nat -> finite (nth i y (dint 0)) /\
    Rabs (val (nth i y (dint 0))) <= 17 / 8 * B + (bpow radix2 (-50) * B + bpow radix2 (-1073)) /\
    Rabs (val (nth i y (dint 0)) - qval (nth i yq 0%Qc)) <= 17 / 8 * e + (bpow radix2 (-50) * B + bpow radix2 (-1073))).
  { intros i Hi. destruct (RR i Hi) as (ws & RW & RO).
    destruct (H i ws ltac:(lia) RO) as (l & S & N & X & Z & T & _).
    destruct (ws_size ws (fun j => val (nth j g (dint 0))) B RW (fun j => bounded_nth B g j Bg B0)) as (WS & WL).
    rewrite <- Z in WS. pose proof (size_nonneg l).
    assert (F : finite (nth i y (dint 0))).
    { apply (sum_finite l _ S N). apply (total_3 _ _ B); [lia|lra|exact HB]. }
    assert (ER : Rabs (val (nth i y (dint 0)) - exact_sum l) <= bpow radix2 (-50) * B + bpow radix2 (-1073)).
    { eapply Rle_trans; [apply (sum_error _ _ S F)|]. apply rounding_3; [lia|lra]. }
    split; [exact F|]. split.
    - pose proof (exact_size l). replace (val (nth i y (dint 0))) with (exact_sum l + (val (nth i y (dint 0)) - exact_sum l)) by ring.
      eapply Rle_trans; [apply Rabs_triang|]. lra.
    - rewrite (exact_row_q M gq yq i ws (4 * c) W EY C ltac:(lia) RO).
      rewrite Rplus_comm. eapply Rabs_le3; [exact ER|]. rewrite X.
      apply (weighted_diff ws (fun j => val (nth j g (dint 0))) (fun j => qval (nth j gq 0%Qc)) e RW). intros w Hw. apply Ng.
      destruct RO as (_ & Fo & _). rewrite Forall_forall in Fo. destruct (Fo w Hw) as (F1 & _). lia. }
  exists y. split; [reflexivity|]. split; [lia|].
  assert (IN : forall a, In a y -> exists i, (i < 8 * c)%nat /\ a = nth i y (dint 0)).
  { intros a Ha. destruct (In_nth _ _ (dint 0) Ha) as (i & Hi & <-). exists i. split; [lia|reflexivity]. }
  split; [|split].
  - apply Forall_forall. intros a Ha. destruct (IN a Ha) as (i & Hi & ->). apply K, Hi.
  - apply Forall_forall. intros a Ha. destruct (IN a Ha) as (i & Hi & ->). apply K, Hi.
  - split; [lia|]. intros i Hi. apply K. lia.
Qed.

Lemma bounded_le B B' g : B <= B' -> bounded B g -> bounded B' g.
Proof. intros H. apply Forall_impl. intros a K. lra. Qed.
Lemma near_le e e' g gq : e <= e' -> near e g gq -> near e' g gq.
Proof. intros H (L & K). split; [exact L|]. intros i Hi. specialize (K i Hi). lra. Qed.

Definition tiny : R := bpow radix2 (-1000).

Lemma grow_bound k B b : 0 <= b -> b + tiny <= 3 ^ k * (B + tiny) ->
  17 / 8 * b + (bpow radix2 (-50) * b + bpow radix2 (-1073)) + tiny <= 3 ^ S k * (B + tiny).
Proof.
  intros Hb H. cbn [pow]. assert (U : bpow radix2 (-50) <= / 8) by (apply Rle_trans with (bpow radix2 (-3)); [apply bpow_le; lia|cbn; lra]).
  assert (T : bpow radix2 (-1073) <= tiny) by (apply bpow_le; lia). assert (T0 : 0 < tiny) by apply bpow_gt_0.
  pose proof (bpow_gt_0 radix2 (-50)). nra.
Qed.
Lemma grow_error k B b e : 0 <= B -> 0 <= b -> b + tiny <= 3 ^ k * (B + tiny) -> e <= INR k * 3 ^ k * (bpow radix2 (-50) * (B + tiny)) ->
  17 / 8 * e + (bpow radix2 (-50) * b + bpow radix2 (-1073)) <= INR (S k) * 3 ^ S k * (bpow radix2 (-50) * (B + tiny)).
Proof.
  intros HB Hb H He. rewrite S_INR. cbn [pow].
  assert (T : bpow radix2 (-1073) <= bpow radix2 (-50) * tiny) by (unfold tiny; rewrite <- bpow_plus; apply bpow_le; lia).
  assert (T0 : 0 < tiny) by apply bpow_gt_0. pose proof (bpow_gt_0 radix2 (-50)) as U.
  set (u := bpow radix2 (-50)) in *. set (p := 3 ^ k) in *.
  assert (P : 0 < p) by (apply pow_lt; lra). pose proof (pos_INR k) as Ik. set (n := INR k) in *. clearbody u p n.
  assert (Q : 0 <= u * (B + tiny)) by nra. set (q := u * (B + tiny)) in *.
  assert (S1 : u * b + bpow radix2 (-1073) <= p * q).
  { unfold q. apply Rle_trans with (u * (b + tiny)); [nra|]. replace (p * (u * (B + tiny))) with (u * (p * (B + tiny))) by ring.
    apply Rmult_le_compat_l; lra. }
  assert (0 <= p * q) by nra. assert (0 <= n * p * q) by (apply Rmult_le_pos; [nra|exact Q]). nra.
Qed.

(** One exact pass. *)
Definition pass (tau : patch) (n : nat) : res patch :=
    let nfine := (gnx (pgrid tau) / 2 ^ (pnc tau - (n + 1)))%nat in
    L12_side <- Coarse2Fine nfine ;;
    L12 <- four_diag L12_side ;;
    g <- mulv L12 (pg tau) ;;
    Ok (set_g tau g).

Lemma passes_near n0 ncs B : (3 <= n0)%nat -> 0 <= B -> 3 ^ ncs * (B + tiny) <= bpow radix2 1020 ->
  forall n g g', duncoarsen (2 ^ ncs * n0) ncs n g g' -> (n <= ncs)%nat ->
  forall p p' b e, pnc p = ncs -> gnx (pgrid p) = (2 ^ ncs * n0)%nat -> foldM pass (seq n (ncs - n)) p = Ok p' ->
  length g = (4 * (2 ^ n * n0))%nat -> Forall finite g -> bounded b g -> b + tiny <= 3 ^ n * (B + tiny) ->
  near e g (pg p) -> e <= INR n * 3 ^ n * (bpow radix2 (-50) * (B + tiny)) ->
  length g' = (4 * (2 ^ ncs * n0))%nat /\ Forall finite g' /\ near (INR ncs * 3 ^ ncs * (bpow radix2 (-50) * (B + tiny))) g' (pg p').
Proof.
  intros H0 HB HM n g g' U. induction U as [g|n g g1 g' Hlt O U IH]; intros Hn p p' b e Hp Hg EF Lg Fg Bg Hb Ne He.
  - rewrite Nat.sub_diag in EF. cbn [seq foldM] in EF. apply Ok_inj in EF. subst p'. split; [exact Lg|]. split; [exact Fg|].
    apply (near_le e); assumption.
  - assert (P0 : (2 ^ (ncs - (n + 1)) <> 0)%nat) by (apply Nat.pow_nonzero; lia).
    assert (P1 : (2 ^ n <> 0)%nat) by (apply Nat.pow_nonzero; lia).
    assert (Q : (2 ^ ncs * n0 / 2 ^ (ncs - (n + 1)) = 2 * (2 ^ n * n0))%nat).
    { replace (2 ^ ncs)%nat with (2 ^ (ncs - (n + 1)) * 2 ^ (n + 1))%nat by (rewrite <- pow2_split; f_equal; lia).
      rewrite <- Nat.mul_assoc, Nat.mul_comm, Nat.div_mul by exact P0. rewrite pow2_split. cbn [Nat.pow]. lia. }
    assert (Hc : (3 <= 2 ^ n * n0)%nat) by nia.
    replace (ncs - n)%nat with (S (ncs - (n + 1))) in EF by lia. cbn [seq foldM] in EF. apply bind_inv in EF as (p1 & EP & EF).
    unfold pass in EP. rewrite Hp, Hg, Q in EP. apply bind_inv in EP as (L & EL & EP). apply bind_inv in EP as (M & EM & EP).
    apply bind_inv in EP as (gq & EG & EP). apply Ok_inj in EP. subst p1. rewrite Q in O.
    assert (B0 : 0 <= b) by (apply (bounded_pos _ _ Bg); intros ->; cbn in Lg; lia).
    assert (Hb1 : b <= bpow radix2 1020).
    { assert (T0 : 0 < tiny) by apply bpow_gt_0. apply Rle_trans with (3 ^ n * (B + tiny)); [lra|].
      eapply Rle_trans; [|exact HM]. apply Rmult_le_compat_r; [lra|]. apply Rle_pow; [lra|lia]. }
    destruct (refine_near _ g (pg p) gq (Ok g1) b e Hc Fg Lg Ne Bg Hb1) as (y & Ey & Ly & Fy & By & Ny).
    { rewrite EL, bind_Ok, EM, bind_Ok. exact EG. }
    { exact O. }
    apply Ok_inj in Ey. subst y.
    refine (IH ltac:(lia) (set_g p gq) p' _ _ Hp Hg _ _ Fy By _ Ny _).
    + replace (n + 1)%nat with (S n) by lia. replace (n + 1)%nat with (S n) in EF by lia. exact EF.
    + rewrite Ly, pow2_split. cbn [Nat.pow]. lia.
    + replace (n + 1)%nat with (S n) by lia. apply grow_bound; [exact B0|exact Hb].
    + replace (n + 1)%nat with (S n) by lia. apply grow_error; assumption.
Qed.

Lemma uncoarsen_near n0 tau tau' g g' B : (3 <= n0)%nat -> gnx (pgrid tau) = (2 ^ pnc tau * n0)%nat ->
  same_vector g (pg tau) -> length g = (4 * n0)%nat -> bounded B g -> 3 ^ pnc tau * (B + bpow radix2 (-1000)) <= bpow radix2 1020 ->
  uncoarsen tau = Ok tau' -> duncoarsen (gnx (pgrid tau)) (pnc tau) 0 g g' ->
  length g' = (4 * gnx (pgrid tau))%nat /\ Forall finite g' /\ length (pg tau') = length g' /\
  forall i, (i < length g')%nat -> Rabs (val (nth i g' (dint 0)) - qval (nth i (pg tau') 0%Qc)) <=
    INR (pnc tau) * 3 ^ pnc tau * (bpow radix2 (-50) * (B + bpow radix2 (-1000))).
Proof.
  intros H0 Hg Sg Lg Bg HM E U. rewrite Hg in U.
  assert (B0 : 0 <= B) by (apply (bounded_pos _ _ Bg); intros ->; cbn in Lg; lia).
  destruct (passes_near n0 (pnc tau) B H0 B0 HM 0 g g' U ltac:(lia) tau tau' B 0 eq_refl Hg) as (L & F & (N1 & N2)).
  - rewrite Nat.sub_0_r. exact E.
  - cbn [Nat.pow]. lia.
  - exact (same_finite _ _ Sg).
  - exact Bg.
  - cbn [pow]. lra.
  - split; [exact (F2_length _ _ _ Sg)|]. intros i Hi. rewrite (proj2 (same_nth g (pg tau) i Sg ltac:(rewrite <- (F2_length _ _ _ Sg); exact Hi))).
    rewrite Rminus_diag_eq by reflexivity. rewrite Rabs_R0. lra.
  - cbn [INR]. lra.
  - rewrite Hg. split; [exact L|]. split; [exact F|]. split; [symmetry; exact N1|exact N2].
Qed.
