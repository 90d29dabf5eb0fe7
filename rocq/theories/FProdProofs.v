(** Proofs about sums of products in double arithmetic. *)
From Coq Require Import Reals Lra Permutation.
From Flocq Require Import Core Binary Bits Relative Plus_error.
From Verif Require Import Base VectorModel MatrixModel LinSpec MatProofs FloatModel FloatSpec FloatProofs
  FProdModel FProdSpec.

Local Open Scope R_scope.

(** ** Single operations that return a finite number *)
Lemma overflow_inf s : Binary.B2FF 53 1024 (Binary.FF2B 53 1024 (Binary.F754_infinity s) eq_refl) = Binary.F754_infinity s.
Proof. reflexivity. Qed.

Lemma not_finite_overflow (z : double) s : Binary.B2FF 53 1024 z = binary_overflow 53 1024 BinarySingleNaN.mode_NE s -> ~ finite z.
Proof. destruct z; cbn; intros E F; try discriminate E; discriminate F. Qed.

Lemma add_args x y : finite (dadd x y) -> finite x /\ finite y.
Proof.
  intros F. destruct x as [sx|sx|sx px Hx|sx mx ex Hx], y as [sy|sy|sy py Hy|sy my ey Hy]; try (split; reflexivity);
    exfalso; try (vm_compute in F; discriminate F);
    try (revert F; unfold finite, dadd, b64_plus, Bplus; cbn; try destruct (Bool.eqb sx sy); cbn; discriminate).
Qed.
Lemma mul_args x y : finite (dmul x y) -> finite x /\ finite y.
Proof.
  intros F. destruct x as [sx|sx|sx px Hx|sx mx ex Hx], y as [sy|sy|sy py Hy|sy my ey Hy]; try (split; reflexivity);
    exfalso; try (vm_compute in F; discriminate F);
    try (revert F; unfold finite, dmul, b64_mult, Bmult; cbn; discriminate).
Qed.
Lemma fma_args a b c : finite (dfma a b c) -> finite a /\ finite b /\ finite c.
Proof.
  intros F. destruct a as [sx|sx|sx px Hx|sx mx ex Hx], b as [sy|sy|sy py Hy|sy my ey Hy], c as [sz|sz|sz pz Hz|sz mz ez Hz];
    try (repeat split; reflexivity);
    exfalso; revert F; unfold finite, dfma, b64_fma, Bfma; cbn; try destruct (Bool.eqb _ _); cbn; discriminate.
Qed.

Lemma add_val x y : finite (dadd x y) -> finite x /\ finite y /\ val (dadd x y) = rnd (val x + val y).
Proof.
  intros F. destruct (add_args _ _ F) as (A & B). split; [exact A|]. split; [exact B|].
  pose proof (Bplus_correct 53 1024 eq_refl eq_refl binop_nan_pl64 BinarySingleNaN.mode_NE x y A B) as K.
  cbn [BinarySingleNaN.round_mode] in K. fold fe in K. fold (val x) (val y) in K. fold (rnd (val x + val y)) in K.
  destruct (Rlt_bool _ _); [exact (proj1 K)|]. exfalso. exact (not_finite_overflow _ _ (proj1 K) F).
Qed.
Lemma mul_val x y : finite (dmul x y) -> finite x /\ finite y /\ val (dmul x y) = rnd (val x * val y).
Proof.
  intros F. destruct (mul_args _ _ F) as (A & B). split; [exact A|]. split; [exact B|].
  pose proof (Bmult_correct 53 1024 eq_refl eq_refl binop_nan_pl64 BinarySingleNaN.mode_NE x y) as K.
  cbn [BinarySingleNaN.round_mode] in K. fold fe in K. fold (val x) (val y) in K. fold (rnd (val x * val y)) in K.
  destruct (Rlt_bool _ _); [exact (proj1 K)|]. exfalso. exact (not_finite_overflow _ _ K F).
Qed.
Lemma fma_val a b c : finite (dfma a b c) -> finite a /\ finite b /\ finite c /\ val (dfma a b c) = rnd (val a * val b + val c).
Proof.
  intros F. destruct (fma_args _ _ _ F) as (A & B & C). split; [exact A|]. split; [exact B|]. split; [exact C|].
  pose proof (Bfma_correct 53 1024 eq_refl eq_refl ternop_nan_pl64 BinarySingleNaN.mode_NE a b c A B C) as K. cbv zeta in K.
  cbn [BinarySingleNaN.round_mode] in K. fold fe in K. fold (val a) (val b) (val c) in K.
  fold (rnd (val a * val b + val c)) in K.
  destruct (Rlt_bool _ _); [exact (proj1 K)|]. exfalso. exact (not_finite_overflow _ _ K F).
Qed.
Lemma fma_ok a b c : finite a -> finite b -> finite c -> Rabs (rnd (val a * val b + val c)) < bpow radix2 1024 ->
  finite (dfma a b c) /\ val (dfma a b c) = rnd (val a * val b + val c).
Proof.
  intros A B C H.
  pose proof (Bfma_correct 53 1024 eq_refl eq_refl ternop_nan_pl64 BinarySingleNaN.mode_NE a b c A B C) as K. cbv zeta in K.
  cbn [BinarySingleNaN.round_mode] in K. fold fe in K. fold (val a) (val b) (val c) in K.
  fold (rnd (val a * val b + val c)) in K.
  rewrite Rlt_bool_true in K by exact H. destruct K as (K1 & K2 & _). split; [exact K2|exact K1].
Qed.

(** ** Rounding errors *)
Definition uu : R := bpow radix2 (-53).
Definition eta : R := bpow radix2 (-1075).
Lemma uu_pos : 0 < uu. Proof. apply bpow_gt_0. Qed.
Lemma eta_pos : 0 < eta. Proof. apply bpow_gt_0. Qed.
Lemma half_bpow e : / 2 * bpow radix2 (e + 1) = bpow radix2 e.
Proof. rewrite bpow_plus. change (bpow radix2 1) with 2. field. Qed.
Lemma u_ro_uu : u_ro radix2 53 / (1 + u_ro radix2 53) <= uu.
Proof.
  eapply Rle_trans; [apply u_rod1pu_ro_le_u_ro|]. unfold u_ro. change (-53 + 1)%Z with (-53 + 1)%Z.
  rewrite half_bpow. apply Rle_refl.
Qed.
Lemma rnd_error x : Rabs (rnd x - x) <= uu * Rabs x + eta.
Proof.
  unfold rnd. rewrite fe_flt.
  destruct (relative_error_N_FLT'_ex radix2 (-1074) 53 eq_refl (fun x => negb (Z.even x)) x) as (e & h & He & Hh & _ & E).
  rewrite E. replace (x * (1 + e) + h - x) with (e * x + h) by ring.
  eapply Rle_trans; [apply Rabs_triang|]. apply Rplus_le_compat.
  - rewrite Rabs_mult. apply Rmult_le_compat_r; [apply Rabs_pos|]. eapply Rle_trans; [exact He|apply u_ro_uu].
  - change (-1074)%Z with (-1075 + 1)%Z in Hh. rewrite half_bpow in Hh. exact Hh.
Qed.
Lemma rnd_error_sum x y : repr x -> repr y -> Rabs (rnd (x + y) - (x + y)) <= uu * Rabs (x + y).
Proof.
  intros X Y. unfold rnd, repr in *. rewrite fe_flt in *.
  destruct (FLT_plus_error_N_ex radix2 (-1074) 53 (fun x => negb (Z.even x)) x y X Y) as (e & He & E).
  rewrite E. replace ((x + y) * (1 + e) - (x + y)) with (e * (x + y)) by ring.
  rewrite Rabs_mult. apply Rmult_le_compat_r; [apply Rabs_pos|]. eapply Rle_trans; [exact He|apply u_ro_uu].
Qed.

(** ** Sums over lists *)
Lemma Rsum_app l1 l2 : Rsum (l1 ++ l2) = Rsum l1 + Rsum l2.
Proof. unfold Rsum. induction l1 as [|a l IH]; cbn; [lra|]. rewrite IH. lra. Qed.
Lemma Rsum_perm l l' : Permutation l l' -> Rsum l = Rsum l'.
Proof. unfold Rsum. induction 1; cbn; lra. Qed.

Lemma exact_app l1 l2 : exact_sum (l1 ++ l2) = exact_sum l1 + exact_sum l2.
Proof. unfold exact_sum. rewrite map_app. apply Rsum_app. Qed.
Lemma exact_perm l l' : Permutation l l' -> exact_sum l = exact_sum l'.
Proof. intros P. apply Rsum_perm, Permutation_map, P. Qed.
Lemma size_app l1 l2 : size_sum (l1 ++ l2) = size_sum l1 + size_sum l2.
Proof. unfold size_sum. rewrite map_app. apply Rsum_app. Qed.
Lemma size_perm l l' : Permutation l l' -> size_sum l = size_sum l'.
Proof. intros P. apply Rsum_perm, Permutation_map, P. Qed.
Lemma filter_perm {A} (f : A -> bool) l l' : Permutation l l' -> Permutation (filter f l) (filter f l').
Proof.
  induction 1; cbn; [constructor| | |eapply Permutation_trans; eassumption].
  - destruct (f x); [constructor|]; assumption.
  - destruct (f x), (f y); try constructor; apply Permutation_refl.
Qed.
Lemma terms_app l1 l2 : terms (l1 ++ l2) = (terms l1 + terms l2)%nat.
Proof. unfold terms. rewrite filter_app. apply app_length. Qed.
Lemma terms_perm l l' : Permutation l l' -> terms l = terms l'.
Proof. intros P. apply Permutation_length, filter_perm, P. Qed.
Lemma size_nonneg l : 0 <= size_sum l.
Proof. unfold size_sum, Rsum. induction l as [|a l IH]; cbn; [lra|]. pose proof (Rabs_pos (product a)). lra. Qed.
Lemma exact_size l : Rabs (exact_sum l) <= size_sum l.
Proof.
  unfold size_sum, exact_sum, Rsum. induction l as [|a l IH]; cbn; [rewrite Rabs_R0; lra|].
  eapply Rle_trans; [apply Rabs_triang|]. lra.
Qed.
Lemma terms_0 l : terms l = 0%nat -> exact_sum l = 0 /\ size_sum l = 0.
Proof.
  unfold terms, exact_sum, size_sum, Rsum. induction l as [|a l IH]; cbn [filter map fold_right]; [split; reflexivity|].
  destruct (Req_bool_spec (product a) 0) as [E|E]; cbn [negb length]; [|discriminate].
  intros H. destruct (IH H) as (I1 & I2). rewrite I1, I2, E, Rabs_R0. split; ring.
Qed.

(** ** The error of a sum *)
Definition pw (n : nat) : R := (1 + uu) ^ n.
Lemma pw_1 n : 1 <= pw n.
Proof. apply pow_R1_Rle. pose proof uu_pos. lra. Qed.
Lemma pw_S n : pw (S n) = (1 + uu) * pw n.
Proof. reflexivity. Qed.
Lemma pw_le n m : (n <= m)%nat -> pw n <= pw m.
Proof. intros H. apply Rle_pow; [pose proof uu_pos; lra|exact H]. Qed.
Lemma rounding_pw n A : rounding n A = (pw n - 1) * A + INR n * pw n * eta.
Proof. reflexivity. Qed.
Lemma rounding_0 : rounding 0 0 = 0.
Proof. rewrite rounding_pw. cbn. ring. Qed.
Lemma rounding_nonneg n A : 0 <= A -> 0 <= rounding n A.
Proof.
  intros H. rewrite rounding_pw. pose proof (pw_1 n). pose proof eta_pos. pose proof (pos_INR n).
  apply Rplus_le_le_0_compat; [apply Rmult_le_pos; lra|]. apply Rmult_le_pos; [apply Rmult_le_pos; lra|lra].
Qed.
(** One more rounding. *)
Lemma rounding_step n m A : (n < m)%nat -> 0 <= A -> (1 + uu) * rounding n A + uu * A <= (pw m - 1) * A + INR n * pw m * eta.
Proof.
  intros H HA. rewrite rounding_pw. pose proof (pw_le (S n) m H) as P. rewrite pw_S in P.
  pose proof (pos_INR n). pose proof eta_pos. pose proof uu_pos. pose proof (pw_1 n).
  assert (INR n * eta * ((1 + uu) * pw n) <= INR n * eta * pw m) by (apply Rmult_le_compat_l; [apply Rmult_le_pos; lra|exact P]).
  assert (((1 + uu) * pw n) * A <= pw m * A) by (apply Rmult_le_compat_r; assumption).
  nra.
Qed.

Lemma Rabs_le3 a b c x y : Rabs (a - b) <= x -> Rabs (b - c) <= y -> Rabs (a - c) <= x + y.
Proof. intros H1 H2. replace (a - c) with ((a - b) + (b - c)) by ring. eapply Rle_trans; [apply Rabs_triang|]. lra. Qed.

Lemma zero_val x : zero_double x = true -> val x = 0.
Proof. destruct x; try discriminate. reflexivity. Qed.
Lemma val0 : val (dint 0) = 0.
Proof. apply (dint_ok 0). reflexivity. Qed.
Lemma repr0 : repr 0.
Proof. apply generic_format_0. Qed.
Lemma rnd0 : rnd 0 = 0.
Proof. apply rnd_repr, repr0. Qed.

Lemma sum_error l r : sum_value l r -> finite r ->
  Rabs (val r - exact_sum l) <= rounding (terms l) (size_sum l).
Proof.
  induction 1 as [|a b Z|a b|a b l l' x Sx IH P|l1 l2 l' x y S1 IH1 S2 IH2 P]; intros F.
  - rewrite val0. cbn. rewrite Rminus_0_r, Rabs_R0. apply rounding_nonneg. cbn. lra.
  - rewrite val0. assert (E : product (a, b) = 0).
    { unfold product. cbn [fst snd]. apply orb_prop in Z. destruct Z as [Z|Z]; rewrite (zero_val _ Z); ring. }
    unfold exact_sum, size_sum, Rsum. cbn [map fold_right]. rewrite E, Rabs_R0.
    replace (0 - (0 + 0)) with 0 by ring. rewrite Rabs_R0. apply rounding_nonneg. lra.
  - destruct (mul_val _ _ F) as (_ & _ & ->). unfold exact_sum, size_sum, terms, Rsum. cbn [map fold_right filter].
    rewrite !Rplus_0_r. unfold product. cbn [fst snd]. destruct (Req_bool_spec (val a * val b) 0) as [E|E]; cbn [negb length].
    + rewrite E, rnd0, Rminus_0_r, Rabs_R0, rounding_0. lra.
    + rewrite rounding_pw. cbn [INR]. unfold pw. pose proof (rnd_error (val a * val b)). pose proof uu_pos. pose proof eta_pos.
      cbn [pow]. nra.
  - destruct (fma_val _ _ _ F) as (_ & _ & Fx & V). specialize (IH Fx). rewrite V.
    rewrite (exact_perm _ _ P), (size_perm _ _ P), (terms_perm _ _ P).
    change ((a, b) :: l) with ([(a, b)] ++ l). rewrite exact_app, size_app, terms_app.
    replace (exact_sum [(a, b)]) with (val a * val b) by (unfold exact_sum, Rsum, product; cbn; ring).
    replace (size_sum [(a, b)]) with (Rabs (val a * val b)) by (unfold size_sum, Rsum, product; cbn; ring).
    set (p := val a * val b) in *. unfold terms at 1. cbn [filter]. unfold product at 1. cbn [fst snd]. fold p.
    pose proof (size_nonneg l) as A0. pose proof uu_pos. pose proof eta_pos. pose proof (exact_size l) as ES.
    destruct (Req_bool_spec p 0) as [E|E]; cbn [negb length Nat.add].
    + rewrite E, Rabs_R0, !Rplus_0_l. rewrite rnd_repr by apply repr_val. exact IH.
    + destruct (Nat.eq_dec (terms l) 0) as [T|T].
      * destruct (terms_0 _ T) as (X1 & X2). rewrite T, X1, X2, rounding_0 in IH. rewrite T, X1, X2, !Rplus_0_r.
        rewrite Rminus_0_r in IH. assert (E0 : val x = 0).
        { pose proof (Rabs_pos (val x)). destruct (Req_dec (val x) 0) as [D|D]; [exact D|]. pose proof (Rabs_pos_lt _ D). lra. }
        rewrite E0, Rplus_0_r, rounding_pw. cbn [INR]. unfold pw. cbn [pow]. pose proof (rnd_error p). nra.
      * pose proof (rnd_error (p + val x)) as RE.
        assert (TR : Rabs (p + val x) <= Rabs p + (size_sum l + rounding (terms l) (size_sum l))).
        { eapply Rle_trans; [apply Rabs_triang|]. apply Rplus_le_compat_l.
          replace (val x) with (exact_sum l + (val x - exact_sum l)) by ring.
          eapply Rle_trans; [apply Rabs_triang|]. lra. }
        assert (D : Rabs (p + val x - (p + exact_sum l)) <= rounding (terms l) (size_sum l)).
        { replace (p + val x - (p + exact_sum l)) with (val x - exact_sum l) by ring. exact IH. }
        pose proof (Rabs_le3 _ _ _ _ _ RE D) as FIN. eapply Rle_trans; [exact FIN|].
        pose proof (rounding_step (terms l) (S (terms l)) (size_sum l) (Nat.lt_succ_diag_r _) A0) as ST.
        rewrite (rounding_pw (S (terms l))). rewrite S_INR. pose proof (pw_1 (terms l)) as W. pose proof (pw_1 (S (terms l))) as W'.
        assert (uu * Rabs p <= (pw (S (terms l)) - 1) * Rabs p).
        { apply Rmult_le_compat_r; [apply Rabs_pos|]. rewrite pw_S. nra. }
        assert (uu * Rabs (p + val x) <= uu * (Rabs p + (size_sum l + rounding (terms l) (size_sum l)))) by (apply Rmult_le_compat_l; lra).
        nra.
  - destruct (add_val _ _ F) as (Fx & Fy & V). specialize (IH1 Fx). specialize (IH2 Fy). rewrite V.
    rewrite (exact_perm _ _ P), (size_perm _ _ P), (terms_perm _ _ P).
    rewrite exact_app, size_app, terms_app.
    pose proof uu_pos. pose proof eta_pos.
    destruct (Nat.eq_dec (terms l1) 0) as [T|T].
    { destruct (terms_0 _ T) as (X1 & X2). rewrite T, X1, X2, rounding_0 in IH1. rewrite T, X1, X2, !Rplus_0_l. cbn [Nat.add].
      rewrite Rminus_0_r in IH1. assert (E0 : val x = 0).
      { destruct (Req_dec (val x) 0) as [D|D]; [exact D|]. pose proof (Rabs_pos_lt _ D). lra. }
      rewrite E0, Rplus_0_l, rnd_repr by apply repr_val. exact IH2. }
    destruct (Nat.eq_dec (terms l2) 0) as [T2|T2].
    { destruct (terms_0 _ T2) as (X1 & X2). rewrite T2, X1, X2, rounding_0 in IH2. rewrite T2, X1, X2, !Rplus_0_r, Nat.add_0_r.
      rewrite Rminus_0_r in IH2. assert (E0 : val y = 0).
      { destruct (Req_dec (val y) 0) as [D|D]; [exact D|]. pose proof (Rabs_pos_lt _ D). lra. }
      rewrite E0, Rplus_0_r, rnd_repr by apply repr_val. exact IH1. }
    pose proof (rnd_error_sum _ _ (repr_val x) (repr_val y)) as RE.
    pose proof (size_nonneg l1) as A1. pose proof (size_nonneg l2) as A2.
    pose proof (exact_size l1) as E1. pose proof (exact_size l2) as E2.
    set (n := (terms l1 + terms l2)%nat).
    pose proof (rounding_step (terms l1) n (size_sum l1) ltac:(unfold n; lia) A1) as ST1.
    pose proof (rounding_step (terms l2) n (size_sum l2) ltac:(unfold n; lia) A2) as ST2.
    assert (B1 : Rabs (val x) <= size_sum l1 + rounding (terms l1) (size_sum l1)).
    { replace (val x) with (exact_sum l1 + (val x - exact_sum l1)) by ring. eapply Rle_trans; [apply Rabs_triang|]. lra. }
    assert (B2 : Rabs (val y) <= size_sum l2 + rounding (terms l2) (size_sum l2)).
    { replace (val y) with (exact_sum l2 + (val y - exact_sum l2)) by ring. eapply Rle_trans; [apply Rabs_triang|]. lra. }
    assert (D : Rabs (val x + val y - (exact_sum l1 + exact_sum l2)) <= rounding (terms l1) (size_sum l1) + rounding (terms l2) (size_sum l2)).
    { replace (val x + val y - (exact_sum l1 + exact_sum l2)) with ((val x - exact_sum l1) + (val y - exact_sum l2)) by ring.
      eapply Rle_trans; [apply Rabs_triang|]. lra. }
    pose proof (Rabs_le3 _ _ _ _ _ RE D) as FIN. eapply Rle_trans; [exact FIN|].
    pose proof (Rabs_triang (val x) (val y)) as TR.
    assert (uu * Rabs (val x + val y) <= uu * (size_sum l1 + rounding (terms l1) (size_sum l1) + (size_sum l2 + rounding (terms l2) (size_sum l2))))
      by (apply Rmult_le_compat_l; lra).
    rewrite (rounding_pw n). unfold n at 2. rewrite plus_INR. fold n. lra.
Qed.
