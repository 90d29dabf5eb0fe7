(** Proofs about the norms in double arithmetic. *)
From Coq Require Import Reals Lra.
From Flocq Require Import Core Binary Bits Relative Plus_error.
From Verif Require Import Base VectorModel MatrixModel LinSpec MatProofs FloatModel FloatSpec FloatProofs
  FNormModel FNormSpec.

Local Open Scope R_scope.

(** ** The loops as folds over the pairs of entries *)
Definition nstep (m : double) (p : double * double) : double := dfmax m (dfabs (dsub (fst p) (snd p))).

Lemma combine_nth_pair {A} (v w : list A) i d : length v = length w -> nth i (combine v w) (d, d) = (nth i v d, nth i w d).
Proof. apply combine_nth. Qed.

Lemma firstn_snoc {A} (l : list A) k d : (k < length l)%nat -> firstn (S k) l = firstn k l ++ [nth k l d].
Proof.
  revert k. induction l as [|a l IH]; intros k H; [cbn in H; lia|]. destruct k as [|k]; [reflexivity|].
  cbn [length] in H. cbn [firstn app nth]. rewrite <- IH by lia. reflexivity.
Qed.

Section loops.
Variable g : double -> double * double -> double.
Lemma vloop v w m0 : length v = length w ->
  foldM (fun m i => a <- vget v i ;; b <- vget w i ;; Ok (g m (a, b))) (seq 0 (length v)) m0 =
  Ok (fold_left g (combine v w) m0).
Proof.
  intros L.
  assert (H : forall n, (n <= length v)%nat ->
    foldM (fun m i => a <- vget v i ;; b <- vget w i ;; Ok (g m (a, b))) (seq 0 n) m0 =
    Ok (fold_left g (firstn n (combine v w)) m0)).
  { induction n as [|n IH]; intros Hn; [reflexivity|].
    rewrite seq_S, foldM_app, IH by lia. rewrite bind_Ok. cbn [Nat.add foldM].
    rewrite (vget_ok v n (dint 0)), (vget_ok w n (dint 0)) by lia. rewrite !bind_Ok.
    rewrite (firstn_snoc _ n (dint 0, dint 0)) by (rewrite combine_length; lia).
    rewrite fold_left_app. cbn [fold_left]. rewrite combine_nth_pair by exact L. reflexivity. }
  rewrite H by lia. rewrite firstn_all2 by (rewrite combine_length; lia). reflexivity.
Qed.

Lemma mloop a b m0 : well_formed a -> well_formed b -> nr a = nr b -> nc a = nc b ->
  foldM (fun m i => foldM (fun m j => x <- mget a i j ;; y <- mget b i j ;; Ok (g m (x, y))) (seq 0 (nc b)) m)
    (seq 0 (nr a)) m0 = Ok (fold_left g (combine (dat a) (dat b)) m0).
Proof.
  intros Wa Wb Er Ec.
  assert (LL : length (dat a) = length (dat b)) by (rewrite Wa, Wb, Er, Ec; reflexivity).
  assert (In : forall i k, (i < nr a)%nat -> (k <= nc a)%nat ->
    foldM (fun m j => x <- mget a i j ;; y <- mget b i j ;; Ok (g m (x, y))) (seq 0 k)
      (fold_left g (firstn (i * nc a) (combine (dat a) (dat b))) m0) =
    Ok (fold_left g (firstn (i * nc a + k) (combine (dat a) (dat b))) m0)).
  { intros i k Hi. induction k as [|k IH]; intros Hk; [rewrite Nat.add_0_r; reflexivity|].
    rewrite seq_S, foldM_app, IH by lia. rewrite bind_Ok. cbn [Nat.add foldM].
    rewrite (mget_ok (dint 0) a), (mget_ok (dint 0) b) by (auto; lia). rewrite !bind_Ok.
    assert (i * nc a + k < nr a * nc a)%nat by nia.
    rewrite Nat.add_succ_r, (firstn_snoc _ _ (dint 0, dint 0)) by (rewrite combine_length, <- LL, Wa; lia).
    rewrite fold_left_app. cbn [fold_left]. rewrite combine_nth_pair by exact LL. unfold ent.
    rewrite Ec. reflexivity. }
  assert (H : forall n, (n <= nr a)%nat ->
    foldM (fun m i => foldM (fun m j => x <- mget a i j ;; y <- mget b i j ;; Ok (g m (x, y))) (seq 0 (nc b)) m)
      (seq 0 n) m0 = Ok (fold_left g (firstn (n * nc a) (combine (dat a) (dat b))) m0)).
  { induction n as [|n IH]; intros Hn; [reflexivity|].
    rewrite seq_S, foldM_app, IH by lia. rewrite bind_Ok. cbn [Nat.add foldM].
    rewrite <- Ec at 1. rewrite In by lia. rewrite bind_Ok. do 3 f_equal. lia. }
  rewrite H by lia. rewrite firstn_all2; [reflexivity|]. rewrite combine_length, <- LL, Wa. lia.
Qed.
End loops.

Lemma vinf_fold v w : length v = length w -> dvectorInfNorm v w = Ok (fold_left nstep (combine v w) (dint 0)).
Proof.
  intros L. unfold dvectorInfNorm. rewrite (proj2 (Nat.eqb_eq _ _) L). cbn [negb]. exact (vloop nstep v w (dint 0) L).
Qed.
Lemma minf_fold a b : well_formed a -> well_formed b -> nr a = nr b -> nc a = nc b ->
  dmatrixInfNorm a b = Ok (fold_left nstep (combine (dat a) (dat b)) (dint 0)).
Proof.
  intros Wa Wb Er Ec. unfold dmatrixInfNorm. rewrite (proj2 (Nat.eqb_eq _ _) Er), (proj2 (Nat.eqb_eq _ _) Ec). cbn [negb].
  exact (mloop nstep a b (dint 0) Wa Wb Er Ec).
Qed.

(** ** Single operations *)
Lemma fabs_nan x : dnan (dfabs x) = dnan x.
Proof. destruct x; reflexivity. Qed.
Lemma fabs_finite x : finite x -> finite (dfabs x).
Proof. unfold finite, dfabs, b64_abs. rewrite is_finite_Babs. auto. Qed.
Lemma fabs_val x : val (dfabs x) = Rabs (val x).
Proof. apply B2R_Babs. Qed.
Lemma finite_num x : finite x -> dnan x = false.
Proof. destruct x; [reflexivity..|discriminate|reflexivity]. Qed.

Lemma zero0 : is_zero (dint 0).
Proof. split; [reflexivity|]. reflexivity. Qed.

Lemma fmax_finite x y : finite x -> finite y -> finite (dfmax x y) /\ val (dfmax x y) = Rmax (val x) (val y).
Proof.
  intros X Y. unfold dfmax. rewrite (finite_num x X), (finite_num y Y). unfold b64_compare.
  rewrite Bcompare_correct by assumption. fold (val x) (val y).
  destruct (Rcompare_spec (val x) (val y)).
  - split; [exact Y|]. rewrite Rmax_right; lra.
  - split; [exact X|]. rewrite Rmax_left; lra.
  - split; [exact X|]. rewrite Rmax_left; lra.
Qed.

Lemma rnd_0 : rnd 0 = 0.
Proof. apply round_0; auto with typeclass_instances. Qed.
Lemma rnd_abs x : rnd (Rabs x) = Rabs (rnd x).
Proof. apply round_NE_abs; auto with typeclass_instances. Qed.

(** The greatest number below 2^1023 and the greatest double. *)
Lemma moderate_diff a b : moderate a -> moderate b -> Rabs (rnd (val a - val b)) < bpow radix2 1024.
Proof.
  intros (Fa & A) (Fb & B).
  set (h := IZR (2 ^ 53 - 1) * bpow radix2 970).
  assert (Hh : 2 * h = IZR (2 ^ 53 - 1) * bpow radix2 971).
  { unfold h. change 971%Z with (1 + 970)%Z. rewrite bpow_plus. change (bpow radix2 1) with 2. ring. }
  assert (P : forall x : double, Rabs (val x) < bpow radix2 1023 -> Rabs (val x) <= h).
  { intros x X. unfold h. replace (IZR (2 ^ 53 - 1) * bpow radix2 970) with (pred radix2 fe (bpow radix2 1023)).
    - apply pred_ge_gt; auto with typeclass_instances.
      + apply generic_format_abs, repr_val.
      + apply generic_format_bpow. vm_compute. discriminate.
    - rewrite pred_eq_pos by apply bpow_ge_0. unfold pred_pos. rewrite mag_bpow.
      replace (1023 + 1 - 1)%Z with 1023%Z by reflexivity. rewrite Req_bool_true by reflexivity.
      change (fe 1023) with 970%Z. change 1023%Z with (53 + 970)%Z. rewrite bpow_plus.
      rewrite minus_IZR. change (bpow radix2 53) with (IZR (2 ^ 53)). ring. }
  pose proof (P a A). pose proof (P b B).
  assert (R2 : repr (2 * h)) by (rewrite Hh; apply repr_scaled; [reflexivity|lia]).
  rewrite <- rnd_abs.
  assert (E : Rabs (val a - val b) <= 2 * h).
  { unfold Rminus. eapply Rle_trans; [apply Rabs_triang|]. rewrite Rabs_Ropp. lra. }
  apply rnd_le in E. rewrite (rnd_repr _ R2) in E. eapply Rle_lt_trans; [exact E|]. rewrite Hh.
  change 1024%Z with (53 + 971)%Z. rewrite bpow_plus. change (bpow radix2 53) with (IZR (2 ^ 53)).
  apply Rmult_lt_compat_r; [apply bpow_gt_0|]. apply IZR_lt. reflexivity.
Qed.

(** ** Rounded once *)
Lemma norm_val l : Forall tame l -> forall m M, finite m -> val m = rnd M ->
  exists M', finite (fold_left nstep l m) /\ val (fold_left nstep l m) = rnd M' /\
    M <= M' /\ (forall p, In p l -> difference p <= M') /\ (M' = M \/ exists p, In p l /\ M' = difference p).
Proof.
  induction 1 as [|(a, b) l (A & B) Hl IH]; intros m M Fm Vm.
  - exists M. cbn [fold_left]. repeat split; [exact Fm|exact Vm|lra|intros p []|left; reflexivity].
  - cbn [fst snd] in A, B. cbn [fold_left].
    destruct (dsub_ok a b (proj1 A) (proj1 B) (moderate_diff a b A B)) as (Fd & Vd).
    destruct (fmax_finite m (dfabs (dsub a b)) Fm (fabs_finite _ Fd)) as (Fn & Vn).
    assert (Vn' : val (nstep m (a, b)) = rnd (Rmax M (difference (a, b)))).
    { unfold nstep. cbn [fst snd]. rewrite Vn, Vm, fabs_val, Vd, <- rnd_abs. unfold difference. cbn [fst snd].
      destruct (Rle_or_lt M (Rabs (val a - val b))) as [C|C].
      - rewrite (Rmax_right M) by exact C. apply Rmax_right, rnd_le, C.
      - rewrite (Rmax_left M) by lra. apply Rmax_left, rnd_le. lra. }
    destruct (IH _ _ Fn Vn') as (M' & F' & V' & L' & D' & E'). exists M'.
    pose proof (Rmax_l M (difference (a, b))). pose proof (Rmax_r M (difference (a, b))).
    repeat split; [exact F'|exact V'|lra| |].
    + intros p [<-|Hp]; [lra|auto].
    + destruct E' as [E'|(p & Hp & E')]; [|right; exists p; split; [right; exact Hp|exact E']].
      destruct (Rmax_case_strong M (difference (a, b)) (fun x => x = M \/ x = difference (a, b))) as [C|C];
        [intros; left; reflexivity|intros; right; reflexivity|left; lra|].
      right. exists (a, b). split; [left; reflexivity|]. rewrite E'. exact C.
Qed.

Lemma difference_ge p : 0 <= difference p.
Proof. apply Rabs_pos. Qed.

Lemma norm_greatest l : Forall tame l -> exists M, greatest l M /\ finite (fold_left nstep l (dint 0)) /\
  val (fold_left nstep l (dint 0)) = rnd M.
Proof.
  intros H. destruct (norm_val l H (dint 0) 0 (proj1 zero0)) as (M & F & V & G & D & E).
  { rewrite rnd_0. exact (proj2 zero0). }
  exists M. split; [|split; assumption]. split; [exact D|].
  destruct E as [->|E]; [|right; exact E]. destruct l as [|p l]; [left; auto|right].
  exists p. split; [left; reflexivity|]. pose proof (D p (or_introl eq_refl)). pose proof (difference_ge p). lra.
Qed.

Lemma rnd_relative a b : repr a -> repr b -> Rabs (rnd (a - b) - (a - b)) <= bpow radix2 (-53) * Rabs (a - b).
Proof.
  intros A B.
  destruct (FLT_plus_error_N_ex radix2 (-1074) 53 (fun x => negb (Z.even x)) a (- b)) as (e & He & E);
    [exact A|apply repr_opp, B|].
  change (rnd (a - b)) with (round radix2 (FLT_exp (-1074) 53) (Znearest (fun x => negb (Z.even x))) (a + - b)).
  rewrite E. replace ((a + - b) * (1 + e) - (a - b)) with (e * (a - b)) by ring. rewrite Rabs_mult.
  apply Rmult_le_compat_r; [apply Rabs_pos|].
  assert (U : u_ro radix2 53 = bpow radix2 (-53)).
  { unfold u_ro. change (- (53) + 1)%Z with (1 + -53)%Z. rewrite bpow_plus. change (bpow radix2 1) with 2. lra. }
  rewrite U in He. eapply Rle_trans; [exact He|]. pose proof (bpow_gt_0 radix2 (-53)).
  apply Rmult_le_reg_r with (1 + bpow radix2 (-53)); [lra|]. unfold Rdiv. rewrite Rmult_assoc, Rinv_l by lra. nra.
Qed.

Lemma greatest_nearest l M r : greatest l M -> finite r -> val r = rnd M -> nearest M r.
Proof.
  intros (D & E) F V. split; [exact F|]. split.
  - intros x X. rewrite V. apply round_N_pt; auto with typeclass_instances. apply repr_val.
  - destruct E as [(_ & ->)|(p & Hp & ->)].
    + rewrite V, rnd_0, Rminus_0_r, Rabs_R0, Rmult_0_r. lra.
    + rewrite V. unfold difference. rewrite rnd_abs.
      eapply Rle_trans; [apply Rabs_triang_inv2|]. apply rnd_relative; apply repr_val.
Qed.

(** ** Zero only for equal entries *)
Definition positive (m : double) : Prop := (finite m /\ 0 < val m) \/ m = B754_infinity 53 1024 false.

Lemma diff_cases a b : finite a -> finite b ->
  (val a = val b /\ is_zero (dfabs (dsub a b))) \/ (val a <> val b /\ positive (dfabs (dsub a b))).
Proof.
  intros A B. destruct (Rlt_or_le (Rabs (rnd (val a - val b))) (bpow radix2 1024)) as [H|H].
  - destruct (dsub_ok a b A B H) as (F & V).
    destruct (Req_dec (val a) (val b)) as [E|E]; [left|right]; (split; [exact E|]).
    + split; [apply fabs_finite, F|]. rewrite fabs_val, V, E, Rminus_diag_eq, rnd_0 by reflexivity. apply Rabs_R0.
    + left. split; [apply fabs_finite, F|]. rewrite fabs_val, V. apply Rabs_pos_lt.
      apply (round_plus_neq_0 radix2 fe ZnearestE (val a) (- val b)); [apply repr_val|apply repr_opp, repr_val|lra].
  - right. split.
    + intros E. rewrite E, Rminus_diag_eq, rnd_0, Rabs_R0 in H by reflexivity. pose proof (bpow_gt_0 radix2 1024). lra.
    + right. pose proof (Bminus_correct 53 1024 eq_refl eq_refl binop_nan_pl64 BinarySingleNaN.mode_NE a b A B) as K.
      cbn [BinarySingleNaN.round_mode] in K. fold fe in K. fold (val a) (val b) in K. fold (rnd (val a - val b)) in K.
      rewrite Rlt_bool_false in K by exact H. destruct K as (K & _).
      change (Bminus 53 1024 eq_refl eq_refl binop_nan_pl64 BinarySingleNaN.mode_NE a b) with (dsub a b) in K.
      destruct (dsub a b) as [s|s|s pl e|s m e e0]; cbn in K; try discriminate K. reflexivity.
Qed.

Lemma fmax_zero m d : is_zero m -> is_zero d -> is_zero (dfmax m d).
Proof.
  intros (F & V) (F' & V'). destruct (fmax_finite m d F F') as (H & H'). split; [exact H|].
  rewrite H', V, V'. apply Rmax_left. lra.
Qed.
Lemma fmax_pos_r m d : is_zero m -> positive d -> positive (dfmax m d).
Proof.
  intros (F & V) [(F' & V')|E].
  - left. destruct (fmax_finite m d F F') as (H & H'). split; [exact H|]. rewrite H', V. rewrite Rmax_right; lra.
  - right. rewrite E. unfold dfmax. rewrite (finite_num m F). destruct m as [s|s|s pl e|s m' e e0]; try discriminate F; try reflexivity.
Qed.
Lemma fmax_pos_l m d : positive m -> is_zero d \/ positive d -> positive (dfmax m d).
Proof.
  intros [(F & V)|E] [(F' & V')|[(F' & V')|E']].
  - left. destruct (fmax_finite m d F F') as (H & H'). split; [exact H|]. rewrite H'. rewrite Rmax_left; lra.
  - left. destruct (fmax_finite m d F F') as (H & H'). split; [exact H|]. rewrite H'. pose proof (Rmax_l (val m) (val d)). lra.
  - right. rewrite E'. unfold dfmax. rewrite (finite_num m F). destruct m as [s|s|s pl e|s m' e e0]; try discriminate F; try reflexivity.
  - right. rewrite E. unfold dfmax. rewrite (finite_num d F'). destruct d as [s|s|s pl e|s m' e e0]; try discriminate F'; try reflexivity.
  - right. rewrite E. unfold dfmax. rewrite (finite_num d F'). destruct d as [s|s|s pl e|s m' e e0]; try discriminate F'; try reflexivity.
  - right. rewrite E, E'. reflexivity.
Qed.

Lemma norm_zero l : Forall (fun p => finite (fst p) /\ finite (snd p)) l -> forall m,
  (is_zero m -> (Forall (fun p => val (fst p) = val (snd p)) l -> is_zero (fold_left nstep l m)) /\
                (~ Forall (fun p => val (fst p) = val (snd p)) l -> positive (fold_left nstep l m))) /\
  (positive m -> positive (fold_left nstep l m)).
Proof.
  induction 1 as [|(a, b) l (A & B) Hl IH]; intros m; cbn [fold_left].
  - split; [intros Z; split; [auto|intros H; exfalso; apply H; constructor]|auto].
  - cbn [fst snd] in A, B. destruct (IH (nstep m (a, b))) as (IH1 & IH2). clear IH.
    destruct (diff_cases a b A B) as [(E & Z)|(E & P)]; unfold nstep in *; cbn [fst snd] in *.
    + split.
      * intros Hm. destruct (IH1 (fmax_zero _ _ Hm Z)) as (I1 & I2). split.
        -- intros H. apply Forall_inv_tail in H. auto.
        -- intros H. apply I2. intros H'. apply H. constructor; [exact E|exact H'].
      * intros Hm. apply IH2. apply fmax_pos_l; auto.
    + split.
      * intros Hm. split; [intros H; apply Forall_inv in H; contradiction|].
        intros _. apply IH2. apply fmax_pos_r; auto.
      * intros Hm. apply IH2. apply fmax_pos_l; auto.
Qed.

Lemma positive_not_zero m : positive m -> ~ is_zero m.
Proof. intros [(F & V)|E] (F' & V'); [lra|]. rewrite E in F'. discriminate F'. Qed.

Lemma norm_zero_iff l : Forall (fun p => finite (fst p) /\ finite (snd p)) l ->
  (is_zero (fold_left nstep l (dint 0)) <-> Forall (fun p => val (fst p) = val (snd p)) l).
Proof.
  intros H. destruct (norm_zero l H (dint 0)) as (K & _). destruct (K zero0) as (K1 & K2). split; [|exact K1].
  intros Z. destruct (Forall_dec (fun p => val (fst p) = val (snd p)) (fun p => Req_EM_T _ _) l) as [D|D]; [exact D|].
  exfalso. exact (positive_not_zero _ (K2 D) Z).
Qed.

(** ** Entries that are not numbers *)
Definition is_number (p : double * double) : bool := negb (dnan (dsub (fst p) (snd p))).

Lemma fmax_number m d : dnan m = false -> dnan (dfmax m d) = false.
Proof.
  intros M. unfold dfmax. rewrite M. destruct (dnan d) eqn:E; [exact M|].
  destruct (b64_compare m d) as [[| |]|]; assumption.
Qed.

Lemma norm_filter l : forall m, dnan m = false -> fold_left nstep l m = fold_left nstep (filter is_number l) m.
Proof.
  induction l as [|p l IH]; intros m M; [reflexivity|]. cbn [fold_left filter]. unfold is_number at 1.
  destruct (dnan (dsub (fst p) (snd p))) eqn:E; cbn [negb].
  - rewrite <- IH by exact M. unfold nstep at 2. unfold dfmax. rewrite M, fabs_nan, E. reflexivity.
  - cbn [fold_left]. apply IH. apply fmax_number, M.
Qed.

Lemma combine_fst_snd {A B} (l : list (A * B)) : combine (map fst l) (map snd l) = l.
Proof. induction l as [|(a, b) l IH]; [reflexivity|]. cbn. rewrite IH. reflexivity. Qed.

(** ** The norm with squares *)
Lemma dadd_nan_r m d : dnan d = true -> dnan (dadd m d) = true.
Proof. destruct d; try discriminate. destruct m; reflexivity. Qed.
Lemma dadd_nan_l m d : dnan m = true -> dnan (dadd m d) = true.
Proof. destruct m; try discriminate. reflexivity. Qed.
Lemma l2_nan pow2 l : (forall x, dnan x = true -> dnan (pow2 x) = true) -> forall m,
  dnan m = true \/ (exists p, In p l /\ dnan (dsub (fst p) (snd p)) = true) ->
  dnan (fold_left (fun m p => dadd m (pow2 (dsub (fst p) (snd p)))) l m) = true.
Proof.
  intros Hp. induction l as [|q l IH]; intros m H; cbn [fold_left].
  - destruct H as [H|(p & [] & _)]. exact H.
  - apply IH. destruct H as [H|(p & [->|H] & N)].
    + left. apply dadd_nan_l, H.
    + left. apply dadd_nan_r, Hp, N.
    + right. exists p. auto.
Qed.
Lemma sqrt_nan x : dnan x = true -> dnan (b64_sqrt BinarySingleNaN.mode_NE x) = true.
Proof. destruct x; try discriminate. reflexivity. Qed.
