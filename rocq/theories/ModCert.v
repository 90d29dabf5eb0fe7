(** Nonsingularity of a rational matrix from elimination modulo a number.  Used for the
    concrete cases: exact elimination of the matrices of refined meshes takes minutes. *)
From Coq Require Import ZArith.
From Verif Require Import Base VectorModel MatrixModel LinSpec MatProofs.
From Coq Require Import Lia.
Local Open Scope Z_scope.

Fixpoint zsum (n : nat) (f : nat -> Z) : Z := match n with O => 0 | S k => zsum k f + f k end.
Lemma zsum_ext n f g : (forall i, (i < n)%nat -> f i = g i) -> zsum n f = zsum n g.
Proof. induction n as [|n IH]; intros H; cbn [zsum]; [reflexivity|]. rewrite IH, H by (intros; auto with arith). reflexivity. Qed.
Lemma zsum_scal n c f : zsum n (fun i => c * f i) = c * zsum n f.
Proof. induction n as [|n IH]; cbn [zsum]; [ring|]. rewrite IH. ring. Qed.
Lemma zsum_plus n f g : zsum n (fun i => f i + g i) = zsum n f + zsum n g.
Proof. induction n as [|n IH]; cbn [zsum]; [ring|]. rewrite IH. ring. Qed.
Lemma zsum_zero n f : (forall i, (i < n)%nat -> f i = 0) -> zsum n f = 0.
Proof. induction n as [|n IH]; intros H; cbn [zsum]; [reflexivity|]. rewrite IH, H by (intros; auto with arith). reflexivity. Qed.
Lemma zsum_swap n k f : zsum n (fun i => zsum k (f i)) = zsum k (fun j => zsum n (fun i => f i j)).
Proof. induction n as [|n IH]; cbn [zsum]; [symmetry; apply zsum_zero; reflexivity|]. rewrite IH, <- zsum_plus. reflexivity. Qed.
Lemma zsum_divide n p f : (forall i, (i < n)%nat -> (p | f i)) -> (p | zsum n f).
Proof. induction n as [|n IH]; intros H; cbn [zsum]; [apply Z.divide_0_r|]. apply Z.divide_add_r; [apply IH; auto with arith|apply H; auto with arith]. Qed.
Lemma zsum_single n k f : (k < n)%nat -> (forall i, (i < n)%nat -> i <> k -> f i = 0) -> zsum n f = f k.
Proof.
  induction n as [|n IH]; intros H Z0; [lia|]. cbn [zsum]. destruct (Nat.eq_dec k n) as [->|Hne].
  - rewrite zsum_zero; [ring|]. intros i Hi. apply Z0; lia.
  - rewrite IH, (Z0 n); [ring|lia|congruence|lia|]. intros i Hi Hi'. apply Z0; lia.
Qed.

(** A left inverse modulo p: no integer vector but zero is annihilated. *)
Lemma modular_descent n p (A B : nat -> nat -> Z) : 1 < p ->
  (forall i j, (i < n)%nat -> (j < n)%nat -> zsum n (fun k => B i k * A k j) mod p = if (i =? j)%nat then 1 else 0) ->
  forall v, (forall i, (i < n)%nat -> zsum n (fun j => A i j * v j) = 0) -> forall j, (j < n)%nat -> v j = 0.
Proof.
  intros Hp HI.
  assert (DV : forall v, (forall i, (i < n)%nat -> zsum n (fun j => A i j * v j) = 0) -> forall i, (i < n)%nat -> (p | v i)).
  { intros v HA i Hi.
    assert (E : zsum n (fun j => zsum n (fun k => B i k * A k j) * v j) = 0).
    { transitivity (zsum n (fun k => B i k * zsum n (fun j => A k j * v j))).
      - rewrite (zsum_ext _ _ (fun j => zsum n (fun k => B i k * (A k j * v j)))).
        + rewrite zsum_swap. apply zsum_ext. intros k Hk. apply zsum_scal.
        + intros j Hj. rewrite Z.mul_comm, <- zsum_scal. apply zsum_ext. intros; ring.
      - apply zsum_zero. intros k Hk. rewrite HA by exact Hk. ring. }
    assert (S1 : zsum n (fun j => (if (i =? j)%nat then 1 else 0) * v j) = v i).
    { rewrite (zsum_single n i); [rewrite Nat.eqb_refl; ring|exact Hi|]. intros j Hj Hne. destruct (Nat.eqb_spec i j); [congruence|ring]. }
    assert (D : (p | zsum n (fun j => (zsum n (fun k => B i k * A k j) - (if (i =? j)%nat then 1 else 0)) * v j))).
    { apply zsum_divide. intros j Hj. apply Z.divide_mul_l. rewrite <- (HI i j Hi Hj). set (x := zsum n _).
      exists (x / p). rewrite Z.mod_eq by lia. ring. }
    rewrite (zsum_ext _ _ (fun j => zsum n (fun k => B i k * A k j) * v j + (-1) * ((if (i =? j)%nat then 1 else 0) * v j))) in D by (intros; ring).
    rewrite zsum_plus, E, zsum_scal, S1 in D. apply Z.divide_opp_r. replace (- v i) with (0 + -1 * v i) by ring. exact D. }
  assert (Q : forall N v, (forall j, (j < n)%nat -> Z.abs (v j) < 2 ^ Z.of_nat N) -> (forall i, (i < n)%nat -> zsum n (fun j => A i j * v j) = 0) -> forall j, (j < n)%nat -> v j = 0).
  { induction N as [|N IH]; intros v HB HA j Hj.
    - specialize (HB j Hj). cbn in HB. lia.
    - assert (X : forall i, (i < n)%nat -> v i = p * (v i / p)).
      { intros i Hi. destruct (DV v HA i Hi) as (c & ->). rewrite Z.div_mul by lia. ring. }
      rewrite X by exact Hj. rewrite (IH (fun i => v i / p)); [ring| | |exact Hj].
      + intros i Hi. specialize (HB i Hi). rewrite (X i Hi), Z.abs_mul in HB. rewrite Nat2Z.inj_succ, Z.pow_succ_r in HB by lia.
        rewrite (Z.abs_eq p) in HB by lia. nia.
      + intros i Hi. specialize (HA i Hi). rewrite (zsum_ext _ _ (fun j => p * (A i j * (v j / p)))) in HA.
        * rewrite zsum_scal in HA. apply Z.mul_eq_0 in HA as [HA|HA]; [lia|exact HA].
        * intros k Hk. rewrite (X k Hk) at 1. ring. }
  intros v HA j Hj.
  assert (BD : exists N, forall j, (j < n)%nat -> Z.abs (v j) < 2 ^ Z.of_nat N).
  { clear - n. induction n as [|k (N & IH)]; [exists O; intros; lia|]. exists (Nat.max N (Z.to_nat (Z.abs (v k)))). intros j Hj.
    destruct (Nat.eq_dec j k) as [->|Hne].
    - apply Z.lt_le_trans with (2 ^ Z.of_nat (Z.to_nat (Z.abs (v k)))); [rewrite Z2Nat.id by lia; apply Z.pow_gt_lin_r; lia|]. apply Z.pow_le_mono_r; lia.
    - eapply Z.lt_le_trans; [apply IH; lia|]. apply Z.pow_le_mono_r; lia. }
  destruct BD as (N & BD). eapply Q; eauto.
Qed.

(** Integers as rationals. *)
Definition zq (z : Z) : Qc := Q2Qc (inject_Z z).
Lemma this_zq z : (this (zq z) == inject_Z z)%Q.
Proof. unfold zq. apply Qred_correct. Qed.
Lemma zq_plus a b : zq (a + b) = (zq a + zq b)%Qc.
Proof.
  apply Qc_is_canon. rewrite this_zq. unfold Qcplus. change (this (Q2Qc (zq a + zq b)%Q)) with (Qred (zq a + zq b)).
  rewrite Qred_correct, !this_zq. rewrite inject_Z_plus. reflexivity.
Qed.
Lemma zq_mult a b : zq (a * b) = (zq a * zq b)%Qc.
Proof.
  apply Qc_is_canon. rewrite this_zq. unfold Qcmult. change (this (Q2Qc (zq a * zq b)%Q)) with (Qred (zq a * zq b)).
  rewrite Qred_correct, !this_zq. rewrite inject_Z_mult. reflexivity.
Qed.
Lemma zq_inj a b : zq a = zq b -> a = b.
Proof. intros H. assert (E : (inject_Z a == inject_Z b)%Q) by (rewrite <- !this_zq, H; reflexivity). unfold Qeq, inject_Z in E. cbn [Qnum Qden] in E. lia. Qed.
Lemma zq_zsum n f : zq (zsum n f) = sum n (fun i => zq (f i)).
Proof. induction n as [|n IH]; [reflexivity|]. cbn [zsum sum]. rewrite zq_plus, IH. reflexivity. Qed.
Lemma zq_num q : (zq (Zpos (Qden (this q))) * q)%Qc = zq (Qnum (this q)).
Proof.
  apply Qc_is_canon. rewrite this_zq. unfold Qcmult. change (this (Q2Qc (zq (Zpos (Qden q)) * q)%Q)) with (Qred (zq (Zpos (Qden q)) * q)).
  rewrite Qred_correct, this_zq. unfold Qeq, inject_Z, Qmult. cbn [Qnum Qden]. rewrite Pos.mul_1_l. ring.
Qed.
Lemma common_denominator n (v : nat -> Qc) : exists D (w : nat -> Z), D <> 0 /\ forall j, (j < n)%nat -> zq (w j) = (zq D * v j)%Qc.
Proof.
  induction n as [|n (D & w & HD & IH)]; [exists 1, (fun _ => 0); split; [lia|intros; lia]|].
  set (d := Zpos (Qden (this (v n)))). exists (d * D), (fun j => if (j =? n)%nat then D * Qnum (this (v n)) else d * w j).
  split; [unfold d; lia|]. intros j Hj. destruct (Nat.eqb_spec j n) as [->|Hne].
  - rewrite !zq_mult, <- zq_num. fold d. ring.
  - rewrite !zq_mult, IH by lia. ring.
Qed.

Lemma zq_cancel q x y : q <> 0%Qc -> (q * x = q * y)%Qc -> x = y.
Proof. intros Hq H. transitivity (/ q * (q * x))%Qc; [field; exact Hq|]. rewrite H. field. exact Hq. Qed.

(** ** The certificate: integer multiples of the rows, and a left inverse modulo p *)
Definition znth (M : list (list Z)) (i j : nat) : Z := nth j (nth i M []) 0.
Definition modular_ok (p : Z) (M : matrix Qc) (d : list Z) (A B : list (list Z)) : bool :=
  let n := nr M in
  (1 <? p) &&
  forallb (fun i => negb (nth i d 0 =? 0) && forallb (fun j => let x := this (val M i j) in znth A i j * Zpos (Qden x) =? Qnum x * nth i d 0) (seq 0 n)) (seq 0 n) &&
  forallb (fun i => forallb (fun j => zsum n (fun k => znth B i k * znth A k j) mod p =? if (i =? j)%nat then 1 else 0) (seq 0 n)) (seq 0 n).

Lemma modular_nonsingular p M d A B : well_formed M -> nr M = nc M -> modular_ok p M d A B = true -> nonsingular M.
Proof.
  intros W E H. split; [exact W|]. split; [exact E|]. unfold modular_ok in H. apply andb_prop in H as (H & H2). apply andb_prop in H as (Hp & H1).
  apply Z.ltb_lt in Hp. rewrite forallb_forall in H1, H2. set (n := nr M) in *.
  assert (HA : forall i j, (i < n)%nat -> (j < n)%nat -> nth i d 0 <> 0 /\ zq (znth A i j) = (zq (nth i d 0%Z) * val M i j)%Qc).
  { intros i j Hi Hj. specialize (H1 i). rewrite in_seq in H1. specialize (H1 ltac:(lia)). apply andb_prop in H1 as (D & H1).
    apply negb_true_iff, Z.eqb_neq in D. split; [exact D|]. rewrite forallb_forall in H1. specialize (H1 j). rewrite in_seq in H1. specialize (H1 ltac:(lia)).
    cbv zeta in H1. apply Z.eqb_eq in H1. apply (f_equal zq) in H1. rewrite !zq_mult, <- zq_num in H1. set (q := zq (Zpos (Qden (this (val M i j))))) in *.
    assert (Q0 : q <> 0%Qc) by (intros Q; unfold q in Q; change 0%Qc with (zq 0) in Q; apply zq_inj in Q; discriminate).
    apply (zq_cancel q); [exact Q0|]. rewrite (Qcmult_comm q (zq _)), H1. ring. }
  intros v HV. destruct (common_denominator n v) as (D & w & HD & HW).
  assert (Z : forall j, (j < n)%nat -> w j = 0).
  { apply (modular_descent n p (znth A) (znth B) Hp).
    - intros i j Hi Hj. specialize (H2 i). rewrite in_seq in H2. specialize (H2 ltac:(lia)). rewrite forallb_forall in H2. specialize (H2 j). rewrite in_seq in H2.
      specialize (H2 ltac:(lia)). apply Z.eqb_eq in H2. exact H2.
    - intros i Hi. apply zq_inj. rewrite zq_zsum.
      rewrite (sum_ext _ _ (fun j => (zq (nth i d 0%Z) * zq D) * (val M i j * v j))%Qc).
      + rewrite sum_scal_l, HV by exact Hi. change (zq 0) with 0%Qc. ring.
      + intros j Hj. rewrite zq_mult, HW by exact Hj. destruct (HA i j Hi Hj) as (_ & ->). ring. }
  intros j Hj. apply (zq_cancel (zq D)).
  - intros Q. change 0%Qc with (zq 0) in Q. apply zq_inj in Q. contradiction.
  - rewrite <- HW, Z by exact Hj. change (zq 0) with 0%Qc. ring.
Qed.

(** ** A program that finds the certificate; nothing is proved about it *)
Fixpoint zpow_mod (p : Z) (b : Z) (e : positive) : Z :=
  match e with
  | xH => b mod p
  | xO e' => zpow_mod p (b * b mod p) e'
  | xI e' => b * zpow_mod p (b * b mod p) e' mod p
  end.
Fixpoint pick (c : nat) (rows : list (list Z)) : option (list Z * list (list Z)) :=
  match rows with
  | [] => None
  | r :: rest => if nth c r 0 =? 0 then match pick c rest with Some (x, others) => Some (x, r :: others) | None => None end else Some (r, rest)
  end.
Fixpoint row_minus (p k : Z) (a b : list Z) : list Z :=
  match a, b with x :: a', y :: b' => (x - k * y) mod p :: row_minus p k a' b' | _, _ => [] end.
Fixpoint jordan (p : Z) (fuel c : nat) (done rest : list (list Z)) : option (list (list Z)) :=
  match fuel with
  | O => Some done
  | S f => match pick c rest with
      | None => None
      | Some (r, others) =>
          let inv := zpow_mod p (nth c r 0) (Z.to_pos (p - 2)) in
          let r' := map (fun x => x * inv mod p) r in
          let el := map (fun x => row_minus p (nth c x 0) x r') in
          jordan p f (S c) (el done ++ [r']) (el others)
      end
  end.
Definition find_cert (p : Z) (M : matrix Qc) : list Z * list (list Z) * list (list Z) :=
  let n := nr M in
  let rows := map (fun i => map (fun j => this (val M i j)) (seq 0 n)) (seq 0 n) in
  let d := map (fun r => fold_left (fun a x => a / Z.gcd a (Zpos (Qden x)) * Zpos (Qden x)) r 1) rows in
  let A := map (fun r => let e := fold_left (fun a x => a / Z.gcd a (Zpos (Qden x)) * Zpos (Qden x)) r 1 in map (fun x => Qnum x * (e / Zpos (Qden x))) r) rows in
  let start := map (fun ir => map (fun x => x mod p) (snd ir) ++ map (fun j => if (fst ir =? j)%nat then 1 else 0) (seq 0 n)) (combine (seq 0 n) A) in
  let B := match jordan p n 0 [] start with Some rs => map (skipn n) rs | None => [] end in
  (d, A, B).
Definition modular_b (M : matrix Qc) : bool :=
  let p := 2147483647 in let c := find_cert p M in modular_ok p M (fst (fst c)) (snd (fst c)) (snd c).
Lemma modular_b_ok M : well_formed M -> nr M = nc M -> modular_b M = true -> nonsingular M.
Proof. intros W E H. eapply modular_nonsingular; eauto. Qed.
