(** Norms of differences. *)
From Verif Require Import Base VectorModel MatrixModel LinSpec NormSpec MatProofs LinProofs.
From Coq Require Import Lia.

Lemma Qc_opp_le a b : (a <= b)%Qc -> (- b <= - a)%Qc.
Proof. apply Qcopp_le_compat. Qed.

Lemma abs_bound x : (0 <= Qcabs x)%Qc /\ (- Qcabs x <= x)%Qc /\ (x <= Qcabs x)%Qc /\ (Qcabs x = x \/ Qcabs x = (- x)%Qc).
Proof.
  unfold Qcabs. destruct (Qclt_le_dec x 0) as [H|H].
  - pose proof (Qclt_le_weak _ _ H) as H'. pose proof (Qc_opp_le _ _ H') as N. change (- 0)%Qc with 0%Qc in N.
    repeat split; auto; [rewrite Qcopp_involutive; apply Qcle_refl|eapply Qcle_trans; eassumption].
  - pose proof (Qc_opp_le _ _ H) as N. change (- 0)%Qc with 0%Qc in N.
    repeat split; auto; [eapply Qcle_trans; eassumption|apply Qcle_refl].
Qed.

Lemma max_bound x y : (x <= Qcmax x y)%Qc /\ (y <= Qcmax x y)%Qc /\ (Qcmax x y = x \/ Qcmax x y = y).
Proof.
  unfold Qcmax. destruct (Qclt_le_dec x y) as [H|H]; repeat split; auto using Qcle_refl. apply Qclt_le_weak; auto.
Qed.

Lemma largest_step {I} (P P' : I -> Prop) d m k : (forall i, P' i <-> P i \/ i = k) ->
  largest P d m -> largest P' d (Qcmax m (Qcabs (d k))).
Proof.
  intros HP (H0 & HB & HA). destruct (abs_bound (d k)) as (A0 & A1 & A2 & A3).
  destruct (max_bound m (Qcabs (d k))) as (M1 & M2 & M3). set (r := Qcmax m (Qcabs (d k))) in *.
  split; [eapply Qcle_trans; eassumption|]. split.
  - intros i Hi. apply HP in Hi as [Hi| ->].
    + destruct (HB i Hi) as (B1 & B2). split; [|eapply Qcle_trans; eassumption].
      eapply Qcle_trans; [apply Qc_opp_le; exact M1|exact B1].
    + split; [|eapply Qcle_trans; eassumption]. eapply Qcle_trans; [apply Qc_opp_le; exact M2|exact A1].
  - destruct M3 as [M3|M3]; rewrite M3.
    + destruct HA as [HA|(i & Hi & HA)]; [left; exact HA|right; exists i; split; [apply HP; auto|exact HA]].
    + right. exists k. split; [apply HP; auto|]. destruct A3 as [A3|A3]; rewrite A3; auto.
Qed.

Lemma largest_ext {I} (P P' : I -> Prop) (d d' : I -> Qc) m : (forall i, P i <-> P' i) -> (forall i, P i -> d i = d' i) ->
  largest P d m -> largest P' d' m.
Proof.
  intros HP HD (H0 & HB & HA). split; [exact H0|]. split.
  - intros i Hi. apply HP in Hi. rewrite <- HD by auto. auto.
  - destruct HA as [HA|(i & Hi & HA)]; [auto|]. right. exists i. rewrite <- HD by auto. split; [apply HP; auto|auto].
Qed.

Lemma largest_none {I} (P : I -> Prop) d : (forall i, ~ P i) -> largest P d 0%Qc.
Proof. intros H. split; [apply Qcle_refl|]. split; [intros i Hi; destruct (H i Hi)|auto]. Qed.

Lemma vinf_ok v w : length v = length w ->
  exists m, vectorInfNorm v w = Ok m /\ largest (fun i => i < length v) (fun i => vval v i - vval w i)%Qc m.
Proof.
  intros L. unfold vectorInfNorm. rewrite (proj2 (Nat.eqb_eq _ _) L). cbn [negb].
  assert (H : forall n, n <= length v ->
    exists m, foldM (fun m i => a <- vget v i ;; b <- vget w i ;; Ok (Qcmax m (Qcabs (a - b)%Qc))) (seq 0 n) 0%Qc = Ok m /\
      largest (fun i => i < n) (fun i => vval v i - vval w i)%Qc m).
  { induction n as [|n IH]; intros Hn.
    - exists 0%Qc. split; [reflexivity|]. apply largest_none. lia.
    - destruct IH as (m & E & HL); [lia|]. rewrite seq_S, foldM_app, E, bind_Ok. cbn [Nat.add foldM].
      rewrite (vget_ok v n 0%Qc), (vget_ok w n 0%Qc) by lia. rewrite !bind_Ok. eexists. split; [reflexivity|].
      apply (largest_step (fun i => i < n) _ (fun i => vval v i - vval w i)%Qc m n); [intros i; lia|exact HL]. }
  apply H. lia.
Qed.

Lemma minf_row a b i k m0 : well_formed a -> well_formed b -> nr a = nr b -> nc a = nc b -> i < nr a -> k <= nc a ->
  largest (fun p => fst p < i /\ snd p < nc a) (fun p => val a (fst p) (snd p) - val b (fst p) (snd p))%Qc m0 ->
  exists m, foldM (fun m j => x <- mget a i j ;; y <- mget b i j ;; Ok (Qcmax m (Qcabs (x - y)%Qc))) (seq 0 k) m0 = Ok m /\
    largest (fun p => fst p < i /\ snd p < nc a \/ fst p = i /\ snd p < k)
      (fun p => val a (fst p) (snd p) - val b (fst p) (snd p))%Qc m.
Proof.
  intros Wa Wb Er Ec Hi Hk H0. induction k as [|k IH].
  - exists m0. split; [reflexivity|]. eapply largest_ext; [| |exact H0]; [intros p; cbv beta; lia|auto].
  - destruct IH as (m & E & HL); [lia|]. rewrite seq_S, foldM_app, E, bind_Ok. cbn [Nat.add foldM].
    rewrite (mget_ok 0%Qc a), (mget_ok 0%Qc b) by (auto; lia). rewrite !bind_Ok. eexists. split; [reflexivity|].
    rewrite <- (val_ent a), <- (val_ent b) by (auto; lia).
    apply (largest_step (fun p => fst p < i /\ snd p < nc a \/ fst p = i /\ snd p < k) _ (fun p => val a (fst p) (snd p) - val b (fst p) (snd p))%Qc m (i, k)); [|exact HL].
    intros (p, r). cbn [fst snd]. split; [intros HH|intros [HH|HH]; [lia|injection HH as -> ->; lia]].
    assert ((p < i /\ r < nc a \/ p = i /\ r < k) \/ (p = i /\ r = k)) as [|(-> & ->)] by lia; auto.
Qed.

Lemma minf_ok a b : well_formed a -> well_formed b -> nr a = nr b -> nc a = nc b ->
  exists m, matrixInfNorm a b = Ok m /\
    largest (fun p => fst p < nr a /\ snd p < nc a) (fun p => val a (fst p) (snd p) - val b (fst p) (snd p))%Qc m.
Proof.
  intros Wa Wb Er Ec. unfold matrixInfNorm. rewrite (proj2 (Nat.eqb_eq _ _) Er), (proj2 (Nat.eqb_eq _ _) Ec). cbn [negb].
  assert (H : forall n, n <= nr a ->
    exists m, foldM (fun m i => foldM (fun m j => x <- mget a i j ;; y <- mget b i j ;; Ok (Qcmax m (Qcabs (x - y)%Qc))) (seq 0 (nc b)) m)
      (seq 0 n) 0%Qc = Ok m /\
      largest (fun p => fst p < n /\ snd p < nc a) (fun p => val a (fst p) (snd p) - val b (fst p) (snd p))%Qc m).
  { induction n as [|n IH]; intros Hn.
    - exists 0%Qc. split; [reflexivity|]. apply largest_none. lia.
    - destruct IH as (m & E & HL); [lia|]. rewrite seq_S, foldM_app, E, bind_Ok. cbn [Nat.add foldM].
      destruct (minf_row a b n (nc b) m Wa Wb Er Ec ltac:(lia) ltac:(lia) HL) as (m1 & E1 & L1).
      rewrite E1, bind_Ok. exists m1. split; [reflexivity|]. eapply largest_ext; [| |exact L1]; [intros p; cbv beta; lia|auto]. }
  apply H. lia.
Qed.

Lemma l2_ok v w : length v = length w ->
  vectorL2NormSquared v w = Ok (sum (length v) (fun i => (vval v i - vval w i) * (vval v i - vval w i))%Qc).
Proof.
  intros L. unfold vectorL2NormSquared. rewrite (proj2 (Nat.eqb_eq _ _) L). cbn [negb].
  assert (H : forall n, n <= length v ->
    foldM (fun m i => a <- vget v i ;; b <- vget w i ;; Ok (m + (a - b) * (a - b))%Qc) (seq 0 n) 0%Qc =
    Ok (sum n (fun i => (vval v i - vval w i) * (vval v i - vval w i))%Qc)).
  { induction n as [|n IH]; intros Hn; [reflexivity|].
    rewrite seq_S, foldM_app, IH by lia. rewrite bind_Ok. cbn [Nat.add foldM].
    rewrite (vget_ok v n 0%Qc), (vget_ok w n 0%Qc) by lia. rewrite !bind_Ok. reflexivity. }
  apply H. lia.
Qed.

(** [C62] The infinity norm is the largest modulus of a difference of entries; for
    different sizes an exception is raised. *)
Lemma vector_inf_norm_pf : forall v w : list Qc,
  (length v = length w ->
   exists m, vectorInfNorm v w = Ok m /\ largest (fun i => i < length v) (fun i => vval v i - vval w i)%Qc m) /\
  (length v <> length w -> vectorInfNorm v w = Throw invalid_argument).
Proof.
  intros v w. split; [apply vinf_ok|]. intros H. unfold vectorInfNorm. apply Nat.eqb_neq in H. rewrite H. reflexivity.
Qed.

(** [C62] The same for matrices. *)
Lemma matrix_inf_norm_pf : forall a b : matrix Qc, well_formed a -> well_formed b ->
  (nr a = nr b -> nc a = nc b ->
   exists m, matrixInfNorm a b = Ok m /\
     largest (fun p => fst p < nr a /\ snd p < nc a) (fun p => val a (fst p) (snd p) - val b (fst p) (snd p))%Qc m) /\
  (nr a <> nr b \/ nc a <> nc b -> matrixInfNorm a b = Throw invalid_argument).
Proof.
  intros a b Wa Wb. split; [intros; apply minf_ok; auto|]. unfold matrixInfNorm. intros H.
  destruct (nr a =? nr b) eqn:E; cbn [negb]; [|reflexivity]. apply Nat.eqb_eq in E.
  destruct H as [H|H]; [lia|]. apply Nat.eqb_neq in H. rewrite H. reflexivity.
Qed.

(** [C62] The sum under the root of the two-norm. *)
Lemma vector_two_norm_pf : forall v w : list Qc,
  (length v = length w ->
   vectorL2NormSquared v w = Ok (sum (length v) (fun i => (vval v i - vval w i) * (vval v i - vval w i))%Qc)) /\
  (length v <> length w -> vectorL2NormSquared v w = Throw invalid_argument).
Proof.
  intros v w. split; [apply l2_ok|]. intros H. unfold vectorL2NormSquared. apply Nat.eqb_neq in H. rewrite H. reflexivity.
Qed.

(** [C62] The infinity norm is zero exactly for equal vectors. *)
Lemma inf_norm_zero_pf : forall v w : list Qc, length v = length w -> (vectorInfNorm v w = Ok 0%Qc <-> v = w).
Proof.
  intros v w L. destruct (vinf_ok v w L) as (m & E & H0 & HB & HA). rewrite E. split.
  - intros Z. apply Ok_inj in Z. subst m. apply (nth_ext _ _ 0%Qc 0%Qc L). intros i Hi.
    destruct (HB i Hi) as (B1 & B2). change (- 0)%Qc with 0%Qc in B1.
    assert (D : (vval v i - vval w i)%Qc = 0%Qc) by (apply Qcle_antisym; assumption).
    change (vval v i = vval w i). replace (vval v i) with (vval v i - vval w i + vval w i)%Qc by ring. rewrite D. ring.
  - intros <-. f_equal. destruct HA as [HA|(i & _ & [HA|HA])]; rewrite HA; auto; ring.
Qed.

Lemma norm_example_expf :
  vectorInfNorm [1; 0; 1]%Qc [0; 1 + 1; 1]%Qc = Ok (1 + 1)%Qc /\
  vectorL2NormSquared [1; 0; 1]%Qc [0; 1 + 1; 1]%Qc = Ok (1 + 1 + 1 + 1 + 1)%Qc /\
  matrixInfNorm (Mat 2 2 [0; 1 + 1; 0; 0]%Qc) (Mat 2 2 [1; 0; 1; 0]%Qc) = Ok (1 + 1)%Qc.
Proof. repeat split; vm_compute; f_equal; apply Qc_is_canon; reflexivity. Qed.
