(** Exact sums of products, and products of matrices, in double arithmetic. *)
From Coq Require Import Reals Lra Permutation.
From Flocq Require Import Core Binary Bits.
From Verif Require Import Base VectorModel MatrixModel LinSpec MatProofs FloatModel FloatSpec FloatProofs FloatProofs2
  FProdModel FProdSpec FProdProofs.

Local Open Scope R_scope.
Local Notation val := FloatSpec.val.

(** ** Sums without rounding error *)
Definition is_val (x : R) : Prop := exists d : double, finite d /\ val d = x.

Lemma is_val_rnd x : is_val x -> rnd x = x /\ Rabs x < bpow radix2 1024.
Proof.
  intros (d & F & <-). split; [apply rnd_repr, repr_val|apply lt_emax_val].
Qed.

Lemma sum_exact l r : sum_value l r -> numbers l ->
  (forall l1 l2, Permutation l (l1 ++ l2) -> is_val (exact_sum l1)) -> finite r /\ val r = exact_sum l.
Proof.
  induction 1 as [|a b Z|a b|a b l l' x Sx IH P|l1 l2 l' x y S1 IH1 S2 IH2 P]; intros N H.
  - split; [reflexivity|]. rewrite val0. reflexivity.
  - split; [reflexivity|]. rewrite val0. unfold exact_sum, Rsum, product. cbn [map fold_right fst snd].
    apply orb_prop in Z. destruct Z as [Z|Z]; rewrite (zero_val _ Z); ring.
  - assert (E : exact_sum [(a, b)] = val a * val b) by (unfold exact_sum, Rsum, product; cbn; ring).
    destruct (is_val_rnd _ (H [(a, b)] [] (Permutation_refl _))) as (R & L). rewrite E in *.
    inversion N as [|? ? (Fa & Fb) _]; subst. cbn [fst snd] in Fa, Fb.
    rewrite <- R. apply dmul_ok; [exact Fa|exact Fb|]. rewrite R. exact L.
  - assert (N' : numbers ((a, b) :: l)) by (eapply Permutation_Forall; [exact P|exact N]).
    inversion N' as [|? ? (Fa & Fb) Nl]; subst. cbn [fst snd] in Fa, Fb.
    destruct (IH Nl) as (Fx & Vx).
    { intros l1 l2 Q. apply (H l1 ((a, b) :: l2)). eapply Permutation_trans; [exact P|].
      eapply Permutation_trans; [apply perm_skip, Q|]. apply Permutation_middle. }
    assert (E : exact_sum l' = val a * val b + val x).
    { rewrite (exact_perm _ _ P), Vx. reflexivity. }
    destruct (is_val_rnd _ (H l' [] ltac:(rewrite app_nil_r; apply Permutation_refl))) as (R & L). rewrite E in *.
    rewrite <- R. apply fma_ok; try assumption. rewrite R. exact L.
  - assert (N' : numbers (l1 ++ l2)) by (eapply Permutation_Forall; [exact P|exact N]).
    apply Forall_app in N'. destruct N' as (N1 & N2).
    destruct (IH1 N1) as (Fx & Vx).
    { intros k1 k2 Q. apply (H k1 (k2 ++ l2)). eapply Permutation_trans; [exact P|]. rewrite app_assoc.
      apply Permutation_app_tail, Q. }
    destruct (IH2 N2) as (Fy & Vy).
    { intros k1 k2 Q. apply (H k1 (k2 ++ l1)). eapply Permutation_trans; [exact P|].
      eapply Permutation_trans; [apply Permutation_app_comm|]. rewrite app_assoc. apply Permutation_app_tail, Q. }
    assert (E : exact_sum l' = val x + val y).
    { rewrite (exact_perm _ _ P), exact_app, Vx, Vy. reflexivity. }
    destruct (is_val_rnd _ (H l' [] ltac:(rewrite app_nil_r; apply Permutation_refl))) as (R & L). rewrite E in *.
    rewrite <- R. apply dadd_ok; try assumption. rewrite R. exact L.
Qed.

(** An integer times a power of two is a double. *)
Lemma is_val_scaled m e : (Z.abs m < 2 ^ 53)%Z -> (-1074 <= e <= 971)%Z -> is_val (IZR m * bpow radix2 e).
Proof.
  intros Hm He. exists (Binary.binary_normalize 53 1024 eq_refl eq_refl BinarySingleNaN.mode_NE m e false).
  pose proof (binary_normalize_correct 53 1024 eq_refl eq_refl BinarySingleNaN.mode_NE m e false) as K.
  cbn [BinarySingleNaN.round_mode] in K. fold fe in K.
  change (F2R {| Fnum := m; Fexp := e |}) with (IZR m * bpow radix2 e) in K.
  fold (rnd (IZR m * bpow radix2 e)) in K. rewrite (rnd_repr _ (repr_scaled m e Hm (proj1 He))) in K.
  rewrite Rlt_bool_true in K; [destruct K as (K1 & K2 & _); split; assumption|].
  rewrite Rabs_mult, (Rabs_pos_eq (bpow radix2 e)) by apply bpow_ge_0. rewrite <- abs_IZR.
  apply Rlt_le_trans with (bpow radix2 53 * bpow radix2 e).
  - apply Rmult_lt_compat_r; [apply bpow_gt_0|]. change (bpow radix2 53) with (IZR (2 ^ 53)). apply IZR_lt, Hm.
  - rewrite <- bpow_plus. apply bpow_le. lia.
Qed.

(** All products are multiples of 2^E and small together. *)
Definition zabs_sum (ks : list Z) : Z := fold_right (fun k s => (Z.abs k + s)%Z) 0%Z ks.

Lemma scaled_part E l ks : Forall2 (fun p k => product p = IZR k * bpow radix2 E) l ks ->
  forall l1 l2, Permutation l (l1 ++ l2) ->
  exists m, exact_sum l1 = IZR m * bpow radix2 E /\ (Z.abs m <= zabs_sum ks)%Z.
Proof.
  intros F.
  assert (G : forall l l1, Permutation l l1 -> forall ks, Forall2 (fun p k => product p = IZR k * bpow radix2 E) l ks ->
    exists ks1, Forall2 (fun p k => product p = IZR k * bpow radix2 E) l1 ks1 /\ zabs_sum ks1 = zabs_sum ks).
  { induction 1 as [|x l0 l1 P IH|x y l0|l0 l1 l2 P1 IH1 P2 IH2]; intros ks0 F0.
    - inversion F0; subst. exists []. split; [constructor|reflexivity].
    - inversion F0 as [|? k ? ks' Hk F']; subst. destruct (IH _ F') as (ks1 & F1 & E1). exists (k :: ks1).
      split; [constructor; assumption|]. unfold zabs_sum in *. cbn [fold_right]. lia.
    - inversion F0 as [|? k ? ks' Hk F']; subst. inversion F' as [|? k' ? ks'' Hk' F'']; subst.
      exists (k' :: k :: ks''). split; [repeat constructor; assumption|]. cbn. lia.
    - destruct (IH1 _ F0) as (ks1 & F1 & E1). destruct (IH2 _ F1) as (ks2 & F2 & E2). exists ks2.
      split; [exact F2|congruence]. }
  intros l1 l2 P. destruct (G _ _ P _ F) as (ks1 & F1 & E1). rewrite <- E1. clear - F1. revert ks1 F1.
  induction l1 as [|p l1 IH]; intros ks1 F1.
  - exists 0%Z. split; [unfold exact_sum, Rsum; cbn; ring|]. cbn [Z.abs]. clear. induction ks1 as [|k ks IH]; unfold zabs_sum in *; cbn [fold_right]; lia.
  - cbn [app] in F1. inversion F1 as [|? k ? ks' Hk F']; subst. destruct (IH _ F') as (m & Em & Bm).
    exists (k + m)%Z. split; [|unfold zabs_sum in *; cbn [fold_right]; lia]. rewrite plus_IZR, Rmult_plus_distr_r, <- Hk, <- Em. reflexivity.
Qed.

Lemma sum_exact_scaled E l ks r : sum_value l r -> numbers l ->
  Forall2 (fun p k => product p = IZR k * bpow radix2 E) l ks -> (zabs_sum ks < 2 ^ 53)%Z -> (-1074 <= E <= 971)%Z ->
  finite r /\ val r = exact_sum l.
Proof.
  intros S N F B HE. apply (sum_exact _ _ S N). intros l1 l2 P.
  destruct (scaled_part E l ks F l1 l2 P) as (m & -> & Bm). apply is_val_scaled; [lia|exact HE].
Qed.

(** ** A factor that is not finite shows *)
Lemma sum_finite_factors l r : sum_value l r -> finite r ->
  Forall (fun p => (finite (fst p) /\ finite (snd p)) \/ zero_double (fst p) || zero_double (snd p) = true) l.
Proof.
  induction 1 as [|a b Z|a b|a b l l' x Sx IH P|l1 l2 l' x y S1 IH1 S2 IH2 P]; intros F.
  - constructor.
  - constructor; [right; exact Z|constructor].
  - constructor; [left; exact (mul_args _ _ F)|constructor].
  - destruct (fma_args _ _ _ F) as (Fa & Fb & Fx). apply Permutation_sym in P. eapply Permutation_Forall; [exact P|].
    constructor; [left; split; assumption|auto].
  - destruct (add_args _ _ F) as (Fx & Fy). apply Permutation_sym in P. eapply Permutation_Forall; [exact P|].
    apply Forall_app. split; auto.
Qed.

(** ** A sum can always be formed *)
Lemma sum_exists l : exists r, sum_value l r.
Proof.
  induction l as [|(a, b) l (x & IH)]; [exists (dint 0); constructor|].
  exists (dfma a b x). eapply sum_fma; [exact IH|apply Permutation_refl].
Qed.

Lemma F2_length {A B} (P : A -> B -> Prop) l l' : Forall2 P l l' -> length l = length l'.
Proof. induction 1; cbn; lia. Qed.

(** ** Rows *)
Definition row_of (D : matrix double) (i : nat) : list double := map (fun j => nth (i * nc D + j) (dat D) (dint 0)) (seq 0 (nc D)).
Definition col_of (D : matrix double) (j : nat) : list double := map (fun i => nth (i * nc D + j) (dat D) (dint 0)) (seq 0 (nr D)).

Lemma drow_ok D i : well_formed D -> (i < nr D)%nat -> drow D i = Ok (row_of D i).
Proof.
  intros W H. unfold drow, row_of. apply mapM_ok. intros j Hj. apply in_seq in Hj.
  rewrite (mget_ok (dint 0)) by (auto; lia). reflexivity.
Qed.
Lemma dcol_ok D j : well_formed D -> (j < nc D)%nat -> dcol D j = Ok (col_of D j).
Proof.
  intros W H. unfold dcol, col_of. apply mapM_ok. intros i Hi. apply in_seq in Hi.
  rewrite (mget_ok (dint 0)) by (auto; lia). reflexivity.
Qed.
Lemma drows_ok D : well_formed D -> mapM (drow D) (seq 0 (nr D)) = Ok (map (row_of D) (seq 0 (nr D))).
Proof. intros W. apply mapM_ok. intros i Hi. apply in_seq in Hi. apply drow_ok; [exact W|lia]. Qed.
Lemma dcols_ok D : well_formed D -> mapM (dcol D) (seq 0 (nc D)) = Ok (map (col_of D) (seq 0 (nc D))).
Proof. intros W. apply mapM_ok. intros i Hi. apply in_seq in Hi. apply dcol_ok; [exact W|lia]. Qed.

Lemma Forall2_nth {A B} (P : A -> B -> Prop) l l' da db : Forall2 P l l' ->
  length l = length l' /\ forall i, (i < length l)%nat -> P (nth i l da) (nth i l' db).
Proof.
  induction 1 as [|a b l l' H F (L & N)]; [split; [reflexivity|intros i Hi; cbn in Hi; lia]|].
  split; [cbn; lia|]. intros [|i] Hi; cbn; [exact H|]. apply N. cbn in Hi. lia.
Qed.

Lemma mulv_rows D x r : well_formed D -> nc D = length x -> nc D <> 0%nat -> dmulv_outcome D x r ->
  exists y, r = Ok y /\ length y = nr D /\
    forall i, (i < nr D)%nat -> sum_value (combine (row_of D i) x) (nth i y (dint 0)).
Proof.
  intros W L N. unfold dmulv_outcome. rewrite (proj2 (Nat.eqb_eq _ _) L), (proj2 (Nat.eqb_neq _ _) N). cbn [negb].
  rewrite (drows_ok D W). intros (y & -> & F). exists y. split; [reflexivity|].
  destruct (Forall2_nth _ _ _ [] (dint 0) F) as (LL & H). rewrite map_length, seq_length in LL, H. split; [auto|].
  intros i Hi. specialize (H i Hi). rewrite (nth_indep _ [] (row_of D 0)) in H by (rewrite map_length, seq_length; exact Hi).
  rewrite map_nth, seq_nth in H by exact Hi. exact H.
Qed.
Lemma mulv_outcome_exists D x : well_formed D -> exists r, dmulv_outcome D x r.
Proof.
  intros W. unfold dmulv_outcome. destruct (negb _); [eexists; reflexivity|]. destruct (nc D =? 0)%nat; [eexists; reflexivity|].
  rewrite (drows_ok D W).
  assert (G : forall rows : list (list double), exists y, Forall2 (fun row s => sum_value (combine row x) s) rows y).
  { induction rows as [|row rows (y & IH)]; [exists []; constructor|]. destruct (sum_exists (combine row x)) as (s & Hs).
    exists (s :: y). constructor; assumption. }
  destruct (G (map (row_of D) (seq 0 (nr D)))) as (y & F). exists (Ok y). exists y. split; [reflexivity|exact F].
Qed.

(** ** Doubles and rational numbers *)
Lemma same_wf D M : same_matrix D M -> well_formed M -> well_formed D.
Proof. intros (E1 & E2 & F) W. unfold well_formed in *. rewrite (F2_length _ _ _ F), W, E1, E2. reflexivity. Qed.
Lemma same_nth d q i : Forall2 is_double d q -> (i < length q)%nat -> is_double (nth i d (dint 0)) (nth i q 0%Qc).
Proof.
  intros F H. destruct (Forall2_nth _ _ _ (dint 0) 0%Qc F) as (L & N). apply N. lia.
Qed.

(** The pairs of a row and a vector. *)
Lemma combine_map_seq {A B} (f : nat -> A) (x : list B) d n : length x = n ->
  combine (map f (seq 0 n)) x = map (fun j => (f j, nth j x d)) (seq 0 n).
Proof.
  intros <-. revert f. induction x as [|b x IH]; intros f; [reflexivity|].
  cbn [length seq map combine nth]. f_equal. rewrite <- !seq_shift, !map_map. apply (IH (fun j => f (S j))).
Qed.
Lemma row_pairs D x i : length x = nc D ->
  combine (row_of D i) x = map (fun j => (nth (i * nc D + j) (dat D) (dint 0), nth j x (dint 0))) (seq 0 (nc D)).
Proof. intros L. unfold row_of. apply combine_map_seq, L. Qed.

Lemma sum_qval n f : qval (sum n f) = Rsum (map (fun j => qval (f j)) (seq 0 n)).
Proof.
  induction n as [|n IH]; [apply qval_0|]. cbn [sum]. rewrite qval_plus, IH, seq_S, map_app, Rsum_app. cbn. ring.
Qed.

Lemma row_exact D M x xq i : well_formed M -> same_matrix D M -> same_vector x xq -> length xq = nc M -> (i < nr M)%nat ->
  numbers (combine (row_of D i) x) /\
  map product (combine (row_of D i) x) = qproducts M xq i.
Proof.
  intros W (E1 & E2 & F) Fx L Hi. pose proof (F2_length _ _ _ Fx) as Lx.
  assert (Hr : forall j, (j < nc M)%nat -> is_double (nth (i * nc M + j) (dat D) (dint 0)) (nth (i * nc M + j) (dat M) 0%Qc)).
  { intros j Hj. apply same_nth; [exact F|]. rewrite W. nia. }
  assert (Hx : forall j, (j < nc M)%nat -> is_double (nth j x (dint 0)) (nth j xq 0%Qc)).
  { intros j Hj. apply same_nth; [exact Fx|lia]. }
  rewrite row_pairs by lia. rewrite E2. split.
  - apply Forall_forall. intros p Hp. apply in_map_iff in Hp as (j & <- & Hj). apply in_seq in Hj. cbn [fst snd].
    split; [apply (Hr j)|apply (Hx j)]; lia.
  - unfold qproducts. rewrite map_map. apply map_ext_in. intros j Hj. apply in_seq in Hj. unfold product. cbn [fst snd].
    rewrite (proj2 (Hr j ltac:(lia))), (proj2 (Hx j ltac:(lia))). reflexivity.
Qed.

Lemma size_map l : size_sum l = sizes (map product l).
Proof. unfold size_sum, sizes. rewrite map_map. reflexivity. Qed.
Lemma terms_map l : terms l = nonzeros (map product l).
Proof.
  unfold terms, nonzeros. induction l as [|p l IH]; [reflexivity|]. cbn [filter map].
  destruct (negb (Req_bool (product p) 0)); cbn [length]; rewrite IH; reflexivity.
Qed.

Lemma mulv_row M xq yq i : well_formed M -> mulv M xq = Ok yq -> (i < nr M)%nat ->
  qval (nth i yq 0%Qc) = Rsum (qproducts M xq i).
Proof.
  intros W E Hi.
  assert (L : nc M = length xq /\ nc M <> 0%nat).
  { unfold mulv, dgemv in E. destruct (Nat.eqb_spec (nc M) (length xq)) as [L|]; cbn [negb] in E; [|discriminate].
    split; [exact L|]. intros Z. rewrite Z in E. cbn in E. discriminate. }
  destruct L as (L & N). rewrite (mulv_ok M xq W L N) in E. apply Ok_inj in E. subst yq.
  rewrite nth_vec_of by exact Hi. rewrite sum_qval. unfold qproducts. f_equal. apply map_ext. intros j.
  rewrite qval_mult. reflexivity.
Qed.
Lemma mulv_dims M xq yq : well_formed M -> mulv M xq = Ok yq -> nc M = length xq /\ nc M <> 0%nat /\ length yq = nr M.
Proof.
  intros W E. unfold mulv, dgemv in E. destruct (Nat.eqb_spec (nc M) (length xq)) as [L|]; cbn [negb] in E; [|discriminate].
  split; [exact L|]. assert (N : nc M <> 0%nat). { intros Z. rewrite Z in E. cbn in E. discriminate. }
  split; [exact N|]. fold (dgemv true (nc M) (nr M) 1%Qc (dat M) (nc M) xq 0%Qc (repeat 0%Qc (nr M))) in E.
  pose proof (mulv_ok M xq W L N) as K. unfold mulv in K. rewrite (proj2 (Nat.eqb_eq _ _) L) in K. cbn [negb] in K.
  assert (E' : Ok yq = Ok (vec_of (nr M) (fun i => sum (nc M) (fun j => qent M i j * vval xq j)%Qc)))
    by (rewrite <- K; symmetry; exact E).
  apply Ok_inj in E'. subst yq. apply vec_of_length.
Qed.

Lemma product_error D M x xq yq r : well_formed M -> same_matrix D M -> same_vector x xq -> mulv M xq = Ok yq ->
  dmulv_outcome D x r ->
  exists y, r = Ok y /\ length y = length yq /\
    forall i, (i < length yq)%nat ->
      sum_value (combine (row_of D i) x) (nth i y (dint 0)) /\
      (finite (nth i y (dint 0)) ->
       Rabs (val (nth i y (dint 0)) - qval (nth i yq 0%Qc)) <= rounding (nonzeros (qproducts M xq i)) (sizes (qproducts M xq i))).
Proof.
  intros W S Sx E O. destruct (mulv_dims _ _ _ W E) as (L & N & Ly). pose proof (same_wf _ _ S W) as WD.
  pose proof (F2_length _ _ _ Sx) as Lx. destruct S as (S1 & S2 & S3).
  destruct (mulv_rows D x r WD ltac:(lia) ltac:(lia) O) as (y & -> & Lyy & H). exists y. split; [reflexivity|].
  split; [lia|]. intros i Hi. specialize (H i ltac:(lia)). split; [exact H|]. intros F.
  destruct (row_exact D M x xq i W (conj S1 (conj S2 S3)) Sx ltac:(lia) ltac:(lia)) as (_ & P).
  rewrite (mulv_row M xq yq i W E ltac:(lia)). rewrite <- P, <- size_map, <- terms_map.
  exact (sum_error _ _ H F).
Qed.
