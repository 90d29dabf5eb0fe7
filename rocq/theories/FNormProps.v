(** Property theorems about norms in double arithmetic. *)
From Coq Require Import Reals Lra.
From Flocq Require Import Core Binary Bits.
From Verif Require Import Base VectorModel MatrixModel LinSpec MatProofs FloatModel FloatSpec FloatProofs
  FNormModel FNormSpec FNormProofs.

Local Open Scope R_scope.

(** [C72] The infinity norm of a difference of vectors is the greatest difference of
    entries rounded once. *)
Lemma double_vector_norm_pf : forall v w : list double, length v = length w -> Forall tame (combine v w) ->
  exists M r, dvectorInfNorm v w = Ok r /\ greatest (combine v w) M /\ nearest M r.
Proof.
  intros v w L H. destruct (norm_greatest _ H) as (M & G & F & V). exists M. eexists.
  split; [apply vinf_fold, L|]. split; [exact G|]. exact (greatest_nearest _ _ _ G F V).
Qed.

(** [C72] The same for matrices. *)
Lemma double_matrix_norm_pf : forall a b : matrix double, well_formed a -> well_formed b -> nr a = nr b -> nc a = nc b ->
  Forall tame (combine (dat a) (dat b)) ->
  exists M r, dmatrixInfNorm a b = Ok r /\ greatest (combine (dat a) (dat b)) M /\ nearest M r.
Proof.
  intros a b Wa Wb Er Ec H. destruct (norm_greatest _ H) as (M & G & F & V). exists M. eexists.
  split; [apply minf_fold; assumption|]. split; [exact G|]. exact (greatest_nearest _ _ _ G F V).
Qed.

(** [C72] The norm of finite data, however large, is zero exactly if the entries are equal. *)
Lemma double_norm_zero_pf : forall v w : list double, length v = length w ->
  Forall (fun p => finite (fst p) /\ finite (snd p)) (combine v w) ->
  exists r, dvectorInfNorm v w = Ok r /\ (is_zero r <-> Forall (fun p => val (fst p) = val (snd p)) (combine v w)).
Proof.
  intros v w L H. eexists. split; [apply vinf_fold, L|]. apply norm_zero_iff, H.
Qed.

(** [C72] Entries whose difference is not a number do not count. *)
Lemma double_norm_skips_nan_pf : forall v w : list double, length v = length w ->
  let numbers := filter (fun p => negb (dnan (dsub (fst p) (snd p)))) (combine v w) in
  dvectorInfNorm v w = dvectorInfNorm (map fst numbers) (map snd numbers).
Proof.
  intros v w L numbers. rewrite vinf_fold by exact L.
  rewrite vinf_fold by (rewrite !map_length; reflexivity). rewrite combine_fst_snd. f_equal.
  apply norm_filter. reflexivity.
Qed.

(** [C72] A norm of zero does not mean that the vectors agree: a vector that has no number in
    it is reported to have distance zero from another one. *)
Lemma double_norm_hides_nan_refuted_pf : exists v w : list double, length v = length w /\ v <> [] /\
  (forall x, In x v -> dnan x = true) /\ (forall x, In x w -> finite x) /\ dvectorInfNorm v w = Ok (dint 0).
Proof.
  exists [b64_sqrt BinarySingleNaN.mode_NE (dint (-1)); b64_sqrt BinarySingleNaN.mode_NE (dint (-1))], [dint 1; dint 2].
  split; [reflexivity|]. split; [discriminate|].
  split; [intros x [<-|[<-|[]]]; reflexivity|]. split; [intros x [<-|[<-|[]]]; reflexivity|].
  rewrite vinf_fold by reflexivity. rewrite norm_filter by reflexivity. reflexivity.
Qed.

(** [C72] The norm of squares shows that an entry is not a number, if pow does. *)
Lemma double_l2_shows_nan_pf : forall (pow2 : double -> double) (v w : list double), length v = length w ->
  (forall x, dnan x = true -> dnan (pow2 x) = true) ->
  (exists p, In p (combine v w) /\ dnan (dsub (fst p) (snd p)) = true) ->
  exists r, dvectorL2Norm pow2 v w = Ok r /\ dnan r = true.
Proof.
  intros pow2 v w L Hp H. unfold dvectorL2Norm. rewrite (proj2 (Nat.eqb_eq _ _) L). cbn [negb].
  pose proof (vloop (fun m p => dadd m (pow2 (dsub (fst p) (snd p)))) v w (dint 0) L) as E. cbn [fst snd] in E.
  rewrite E, bind_Ok.
  eexists. split; [reflexivity|]. apply sqrt_nan, l2_nan; [exact Hp|right; exact H].
Qed.

(** The hypotheses hold for entries 1 and 1/3 against 0 and 1/3; the norm is 1. *)
Lemma double_norm_example_expf :
  let third := ddiv (dint 1) (dint 3) in
  Forall tame (combine [dint 1; third] [dint 0; third]) /\
  dvectorInfNorm [dint 1; third] [dint 0; third] = Ok (dint 1) /\
  dvectorInfNorm [third] [dint 0] = Ok third.
Proof.
  cbv zeta.
  assert (B1 : 1 < bpow radix2 1023) by (change 1 with (bpow radix2 0); apply bpow_lt; lia).
  assert (T : moderate (ddiv (dint 1) (dint 3))).
  { destruct (dint_ok 1 eq_refl) as (F1 & V1). destruct (dint_ok 3 eq_refl) as (F3 & V3).
    assert (H : 0 <= rnd (val (dint 1) / val (dint 3)) <= 1).
    { apply rnd_between; [exact (repr_int 0 eq_refl)|exact (repr_int 1 eq_refl)|]. rewrite V1, V3. lra. }
    destruct (ddiv_ok (dint 1) (dint 3) F1) as (F & V).
    - rewrite V3. lra.
    - rewrite Rabs_pos_eq by lra. eapply Rle_lt_trans; [exact (proj2 H)|]. change 1 with (bpow radix2 0); apply bpow_lt; lia.
    - split; [exact F|]. rewrite V, Rabs_pos_eq by lra. lra. }
  assert (I1 : moderate (dint 1)).
  { destruct (dint_ok 1 eq_refl) as (F & V). split; [exact F|]. rewrite V, Rabs_pos_eq; lra. }
  assert (I0 : moderate (dint 0)).
  { destruct (dint_ok 0 eq_refl) as (F & V). split; [exact F|]. rewrite V, Rabs_R0; lra. }
  split.
  - constructor; [split; assumption|]. constructor; [split; assumption|]. constructor.
  - split; rewrite vinf_fold by reflexivity; f_equal; apply B2FF_inj; vm_compute; reflexivity.
Qed.
