(** Matrices and vectors seen as arrays of n x n blocks. *)
From Coq Require Import Permutation.
From Verif Require Import Base VectorModel MatrixModel LinSpec MatProofs MatProofs2 MatProofs3 LinProofs.

(** [m] has R x C blocks of size n x n, block (p,q) given by [F p q]. *)
Record isB (R C n : nat) (m : matrix Qc) (F : nat -> nat -> nat -> nat -> Qc) : Prop := {
  isB_wf : well_formed m;
  isB_nr : nr m = R * n;
  isB_nc : nc m = C * n;
  isB_ent : forall p q i j, p < R -> q < C -> i < n -> j < n ->
    qent m (p * n + i) (q * n + j) = F p q i j }.

Record isV (K n : nat) (v : list Qc) (f : nat -> nat -> Qc) : Prop := {
  isV_len : length v = K * n;
  isV_ent : forall p i, p < K -> i < n -> vval v (p * n + i) = f p i }.

Lemma blk_bound p R n i : p < R -> i < n -> p * n + i < R * n.
Proof.
  intros Hp Hi. assert (S p * n <= R * n) by (apply Nat.mul_le_mono_r; lia). simpl in *. lia.
Qed.

Lemma blk_le p0 p n i : i < n -> (p0 * n <=? p * n + i) = (p0 <=? p).
Proof.
  intros Hi. destruct (Nat.leb_spec p0 p) as [H|H].
  - apply Nat.leb_le. assert (p0 * n <= p * n) by (apply Nat.mul_le_mono_r; auto). lia.
  - apply Nat.leb_gt. assert (S p * n <= p0 * n) by (apply Nat.mul_le_mono_r; lia). simpl in *. lia.
Qed.

Lemma blk_lt p p1 n i : i < n -> (p * n + i <? p1 * n) = (p <? p1).
Proof.
  intros Hi. rewrite !Nat.ltb_antisym. f_equal. apply blk_le; auto.
Qed.

Lemma blk_sub p p0 n i : p0 <= p -> p * n + i - p0 * n = (p - p0) * n + i.
Proof.
  intros H. rewrite Nat.mul_sub_distr_r.
  assert (p0 * n <= p * n) by (apply Nat.mul_le_mono_r; auto). lia.
Qed.

Lemma isB_ext R C n m F G :
  isB R C n m F ->
  (forall p q i j, p < R -> q < C -> i < n -> j < n -> F p q i j = G p q i j) ->
  isB R C n m G.
Proof. intros [a b c d] H. split; auto. intros. rewrite d by auto. auto. Qed.

Lemma isV_ext K n v f g :
  isV K n v f -> (forall p i, p < K -> i < n -> f p i = g p i) -> isV K n v g.
Proof. intros [a b] H. split; auto. intros. rewrite b by auto. auto. Qed.

Lemma isB_self R C n m : well_formed m -> nr m = R * n -> nc m = C * n ->
  isB R C n m (fun p q i j => qent m (p * n + i) (q * n + j)).
Proof. intros. split; auto. Qed.

Lemma isV_self K n v : length v = K * n -> isV K n v (fun p i => vval v (p * n + i)).
Proof. intros. split; auto. Qed.

Lemma isB_mat_of R C n F f :
  (forall p q i j, p < R -> q < C -> i < n -> j < n -> f (p * n + i) (q * n + j) = F p q i j) ->
  isB R C n (mat_of (R * n) (C * n) f) F.
Proof.
  intros H. split; auto using mat_of_wf.
  intros p q i j Hp Hq Hi Hj. rewrite mat_of_ent by auto using blk_bound. auto.
Qed.

Lemma isV_vec_of K n f g :
  (forall p i, p < K -> i < n -> f (p * n + i) = g p i) -> isV K n (vec_of (K * n) f) g.
Proof.
  intros H. split; [apply vec_of_length|].
  intros p i Hp Hi. unfold vval. rewrite nth_vec_of by auto using blk_bound. auto.
Qed.

(** Vectors agree when their blocks do. *)
Lemma isV_eq K n v w f : isV K n v f -> isV K n w f -> v = w.
Proof.
  intros [a b] [c d]. apply (nth_ext _ _ 0%Qc 0%Qc); [congruence|].
  intros x Hx. destruct (Nat.eq_dec n 0) as [->|Hn]; [lia|].
  rewrite a in Hx.
  assert (E : x = x / n * n + x mod n) by (rewrite Nat.mul_comm; apply Nat.div_mod; auto).
  assert (x / n < K) by (apply Nat.div_lt_upper_bound; lia).
  assert (x mod n < n) by (apply Nat.mod_upper_bound; auto).
  fold (vval v x). fold (vval w x). rewrite E. rewrite b, d by auto. reflexivity.
Qed.

(** * Operations *)
Definition Bset (F G : nat -> nat -> nat -> nat -> Qc) (p0 q0 r c : nat)
  : nat -> nat -> nat -> nat -> Qc := fun p q i j =>
  if (p0 <=? p) && (p <? p0 + r) && ((q0 <=? q) && (q <? q0 + c))
  then G (p - p0) (q - q0) i j else F p q i j.

Lemma setBlock_B R C r c n m b F G p0 q0 ri ci :
  isB R C n m F -> isB r c n b G -> p0 + r <= R -> q0 + c <= C ->
  ri = p0 * n -> ci = q0 * n ->
  exists m', setBlock m ri ci b = Ok m' /\ isB R C n m' (Bset F G p0 q0 r c).
Proof.
  intros HF HG Hp Hq -> ->.
  rewrite (setBlock_ok 0%Qc).
  - eexists. split; [reflexivity|].
    rewrite (isB_nr _ _ _ _ _ HF), (isB_nc _ _ _ _ _ HF), (isB_nr _ _ _ _ _ HG), (isB_nc _ _ _ _ _ HG).
    apply isB_mat_of. intros p q i j Hp' Hq' Hi Hj. unfold in_block, Bset.
    rewrite <- !Nat.mul_add_distr_r.
    rewrite !blk_le, !blk_lt by auto.
    destruct (Nat.leb_spec p0 p); cbn [andb]; [|apply (isB_ent _ _ _ _ _ HF); auto].
    destruct (Nat.ltb_spec p (p0 + r)); cbn [andb]; [|apply (isB_ent _ _ _ _ _ HF); auto].
    destruct (Nat.leb_spec q0 q); cbn [andb]; [|apply (isB_ent _ _ _ _ _ HF); auto].
    destruct (Nat.ltb_spec q (q0 + c)); cbn [andb]; [|apply (isB_ent _ _ _ _ _ HF); auto].
    rewrite !blk_sub by auto. apply (isB_ent _ _ _ _ _ HG); lia || auto.
  - apply HF.
  - apply HG.
  - rewrite (isB_nr _ _ _ _ _ HF), (isB_nr _ _ _ _ _ HG), <- Nat.mul_add_distr_r.
    apply Nat.mul_le_mono_r; auto.
  - rewrite (isB_nc _ _ _ _ _ HF), (isB_nc _ _ _ _ _ HG), <- Nat.mul_add_distr_r.
    apply Nat.mul_le_mono_r; auto.
Qed.

Lemma mconst_B R C n r c : r = R * n -> c = C * n ->
  isB R C n (mconst r c 0%Qc) (fun _ _ _ _ => 0%Qc).
Proof. intros -> ->. rewrite mconst_is. apply isB_mat_of. reflexivity. Qed.

Lemma mneg_B R C n m F : isB R C n m F ->
  exists m', mneg m = Ok m' /\ isB R C n m' (fun p q i j => - F p q i j)%Qc.
Proof.
  intros HF. rewrite mneg_ok by apply HF. eexists. split; [reflexivity|].
  rewrite (isB_nr _ _ _ _ _ HF), (isB_nc _ _ _ _ _ HF). apply isB_mat_of.
  intros. rewrite (isB_ent _ _ _ _ _ HF) by auto. reflexivity.
Qed.

Lemma mzipeq_B op R C n a b F G : isB R C n a F -> isB R C n b G ->
  exists m', mzipeq op a b = Ok m' /\ isB R C n m' (fun p q i j => op (F p q i j) (G p q i j)).
Proof.
  intros HF HG. rewrite mzipeq_ok.
  - eexists. split; [reflexivity|].
    rewrite (isB_nr _ _ _ _ _ HF), (isB_nc _ _ _ _ _ HF). apply isB_mat_of.
    intros. rewrite (isB_ent _ _ _ _ _ HF), (isB_ent _ _ _ _ _ HG) by auto. reflexivity.
  - apply HF.
  - apply HG.
  - rewrite (isB_nr _ _ _ _ _ HF), (isB_nr _ _ _ _ _ HG). reflexivity.
  - rewrite (isB_nc _ _ _ _ _ HF), (isB_nc _ _ _ _ _ HG). reflexivity.
Qed.

Lemma mulm_B R K C n a b F G : isB R K n a F -> isB K C n b G ->
  R <> 0 -> K <> 0 -> C <> 0 -> n <> 0 ->
  exists m', mulm a b = Ok m' /\
    isB R C n m' (fun p q i j => sum K (fun l => sum n (fun k => F p l i k * G l q k j)%Qc)).
Proof.
  intros HF HG HR HK HC Hn. rewrite mulm_ok.
  - eexists. split; [reflexivity|].
    rewrite (isB_nr _ _ _ _ _ HF), (isB_nc _ _ _ _ _ HG), (isB_nc _ _ _ _ _ HF).
    apply isB_mat_of. intros p q i j Hp Hq Hi Hj. rewrite sum_mul.
    apply sum_ext. intros l Hl. apply sum_ext. intros k Hk.
    rewrite (isB_ent _ _ _ _ _ HF), (isB_ent _ _ _ _ _ HG) by auto. reflexivity.
  - apply HF.
  - apply HG.
  - rewrite (isB_nc _ _ _ _ _ HF), (isB_nr _ _ _ _ _ HG). reflexivity.
  - rewrite (isB_nr _ _ _ _ _ HF). apply Nat.neq_mul_0; auto.
  - rewrite (isB_nc _ _ _ _ _ HF). apply Nat.neq_mul_0; auto.
  - rewrite (isB_nc _ _ _ _ _ HG). apply Nat.neq_mul_0; auto.
Qed.

Lemma mulv_B R K n a v F g : isB R K n a F -> isV K n v g -> K <> 0 -> n <> 0 ->
  exists w, mulv a v = Ok w /\
    isV R n w (fun p i => sum K (fun l => sum n (fun k => F p l i k * g l k)%Qc)).
Proof.
  intros HF HG HK Hn. rewrite mulv_ok.
  - eexists. split; [reflexivity|].
    rewrite (isB_nr _ _ _ _ _ HF), (isB_nc _ _ _ _ _ HF).
    apply isV_vec_of. intros p i Hp Hi. rewrite sum_mul.
    apply sum_ext. intros l Hl. apply sum_ext. intros k Hk.
    rewrite (isB_ent _ _ _ _ _ HF), (isV_ent _ _ _ _ HG) by auto. reflexivity.
  - apply HF.
  - rewrite (isB_nc _ _ _ _ _ HF), (isV_len _ _ _ _ HG). reflexivity.
  - rewrite (isB_nc _ _ _ _ _ HF). apply Nat.neq_mul_0; auto.
Qed.

Lemma vzip_B (op : list Qc -> list Qc -> res (list Qc)) f K n v w g h :
  (forall v w, length w = length v ->
     op v w = Ok (vec_of (length v) (fun i => f (vval v i) (vval w i)))) ->
  isV K n v g -> isV K n w h ->
  exists x, op v w = Ok x /\ isV K n x (fun p i => f (g p i) (h p i)).
Proof.
  intros Hop Hv Hw. rewrite Hop.
  - eexists. split; [reflexivity|]. rewrite (isV_len _ _ _ _ Hv). apply isV_vec_of.
    intros. rewrite (isV_ent _ _ _ _ Hv), (isV_ent _ _ _ _ Hw) by auto. reflexivity.
  - rewrite (isV_len _ _ _ _ Hv), (isV_len _ _ _ _ Hw). reflexivity.
Qed.

(** * Index sets made of whole blocks *)
Definition blkidx (n : nat) (ks : list nat) : list Z :=
  concat (map (fun k => map Z.of_nat (seq (k * n) n)) ks).

Lemma blkidx_length n ks : length (blkidx n ks) = length ks * n.
Proof.
  unfold blkidx. induction ks as [|k ks IH]; simpl; [reflexivity|].
  rewrite app_length, map_length, seq_length, IH. reflexivity.
Qed.

Lemma blkidx_nth n ks p i : p < length ks -> i < n ->
  nth (p * n + i) (blkidx n ks) 0%Z = Z.of_nat (nth p ks 0 * n + i).
Proof.
  revert p; induction ks as [|k ks IH]; intros p Hp Hi; simpl in Hp; [lia|].
  unfold blkidx in *. cbn [map concat]. destruct p as [|p].
  - rewrite app_nth1 by (rewrite map_length, seq_length; lia).
    change (0 * n + i) with i.
    rewrite (nth_indep _ _ (Z.of_nat 0)) by (rewrite map_length, seq_length; auto).
    rewrite map_nth, seq_nth by auto. reflexivity.
  - rewrite app_nth2 by (rewrite map_length, seq_length; simpl; lia).
    rewrite map_length, seq_length.
    replace (S p * n + i - n) with (p * n + i) by (simpl; lia).
    cbn [nth]. apply IH; auto. lia.
Qed.

Lemma blkidx_in n ks R z :
  (forall k, In k ks -> k < R) -> In z (blkidx n ks) -> (0 <= z < Z.of_nat (R * n))%Z.
Proof.
  intros H Hz. unfold blkidx in Hz. apply in_concat in Hz as (l & Hl & Hz).
  apply in_map_iff in Hl as (k & <- & Hk). apply in_map_iff in Hz as (x & <- & Hx).
  apply in_seq in Hx. specialize (H k Hk).
  assert (S k * n <= R * n) by (apply Nat.mul_le_mono_r; lia). simpl in *. lia.
Qed.

Lemma mget_B R C n m F I J :
  isB R C n m F -> (forall k, In k I -> k < R) -> (forall k, In k J -> k < C) ->
  length I <= R -> length J <= C ->
  exists m', mgetFromIndexSet m (blkidx n I) (blkidx n J) = Ok m' /\
    isB (length I) (length J) n m' (fun p q i j => F (nth p I 0) (nth q J 0) i j).
Proof.
  intros HF HI HJ HlI HlJ. rewrite (mgetFromIndexSet_ok 0%Qc).
  - eexists. split; [reflexivity|]. rewrite !blkidx_length. apply isB_mat_of.
    intros p q i j Hp Hq Hi Hj. rewrite !blkidx_nth by auto. rewrite !Nat2Z.id.
    apply (isB_ent _ _ _ _ _ HF); auto using nth_In.
  - apply HF.
  - rewrite blkidx_length, (isB_nr _ _ _ _ _ HF). apply Nat.mul_le_mono_r; auto.
  - rewrite blkidx_length, (isB_nc _ _ _ _ _ HF). apply Nat.mul_le_mono_r; auto.
  - intros z Hz. rewrite (isB_nr _ _ _ _ _ HF). eapply blkidx_in; eauto.
  - intros z Hz. rewrite (isB_nc _ _ _ _ _ HF). eapply blkidx_in; eauto.
Qed.

Lemma vget_B K n v f I :
  isV K n v f -> (forall k, In k I -> k < K) -> length I <= K ->
  exists w, vgetFromIndexSet v (blkidx n I) = Ok w /\
    isV (length I) n w (fun p i => f (nth p I 0) i).
Proof.
  intros HF HI Hl. rewrite (vgetFromIndexSet_ok 0%Qc).
  - eexists. split; [reflexivity|]. split; [rewrite map_length; apply blkidx_length|].
    intros p i Hp Hi. unfold vval.
    rewrite (nth_indep _ _ ((fun z => nth (Z.to_nat z) v 0%Qc) 0%Z))
      by (rewrite map_length, blkidx_length; auto using blk_bound).
    rewrite (map_nth (fun z => nth (Z.to_nat z) v 0%Qc)).
    rewrite blkidx_nth by auto. rewrite Nat2Z.id.
    apply (isV_ent _ _ _ _ HF); auto using nth_In.
  - rewrite blkidx_length, (isV_len _ _ _ _ HF). apply Nat.mul_le_mono_r; auto.
  - intros z Hz. rewrite (isV_len _ _ _ _ HF). eapply blkidx_in; eauto.
Qed.

(** * Block diagonal matrix with equal blocks *)
Lemma bdo_B r n (ds : list (matrix Qc)) : r <> 0 ->
  (forall d, In d ds -> nr d = r * n /\ nc d = r * n) ->
  forall p q i j, p < length ds * r -> q < length ds * r -> i < n -> j < n ->
  match bdo ds (p * n + i) (q * n + j) with Some x => x | None => 0%Qc end =
  if p / r =? q / r then qent (nth (p / r) ds (mconst 0 0 0%Qc)) (p mod r * n + i) (q mod r * n + j) else 0%Qc.
Proof.
  intros Hr. induction ds as [|d ds IH]; intros Hd p q i j Hp Hq Hi Hj; [simpl in Hp; lia|].
  cbn [bdo]. destruct (Hd d) as [E1 E2]; [left; auto|]. rewrite E1, E2.
  rewrite !blk_le, !blk_lt by auto.
  cbn [length Nat.mul] in Hp, Hq.
  destruct (Nat.ltb_spec p r) as [H1|H1]; destruct (Nat.ltb_spec q r) as [H2|H2]; cbn [andb].
  - rewrite (Nat.div_small p), (Nat.div_small q), (Nat.mod_small p), (Nat.mod_small q) by auto.
    reflexivity.
  - destruct (Nat.leb_spec r p); [lia|]. cbn [andb].
    rewrite (Nat.div_small p) by auto. destruct (Nat.eqb_spec 0 (q / r)) as [E|E]; [|reflexivity].
    assert (0 < q / r) by (apply Nat.div_str_pos; lia). lia.
  - destruct (Nat.leb_spec r p); [|lia]. destruct (Nat.leb_spec r q); [lia|]. cbn [andb].
    rewrite (Nat.div_small q) by auto. destruct (Nat.eqb_spec (p / r) 0) as [E|E]; [|reflexivity].
    assert (0 < p / r) by (apply Nat.div_str_pos; lia). lia.
  - destruct (Nat.leb_spec r p); [|lia]. destruct (Nat.leb_spec r q); [|lia]. cbn [andb].
    rewrite !blk_sub by auto. rewrite IH; try lia.
    2:{ intros; apply Hd; right; auto. }
    assert (Ep : p = (p - r) + 1 * r) by lia. assert (Eq : q = (q - r) + 1 * r) by lia.
    remember (p - r) as p'. remember (q - r) as q'. subst p q.
    rewrite !Nat.div_add, !Nat.mod_add by auto.
    rewrite !Nat.add_1_r. cbn [nth].
    reflexivity.
Qed.

Lemma blockDiag_B r n ds (Fs : nat -> nat -> nat -> nat -> nat -> Qc) : r <> 0 ->
  (forall k, k < length ds -> isB r r n (nth k ds (mconst 0 0 0%Qc)) (Fs k)) ->
  exists m, blockDiagonalMatrix ds = Ok m /\
    isB (length ds * r) (length ds * r) n m
      (fun p q i j => if p / r =? q / r then Fs (p / r) (p mod r) (q mod r) i j else 0%Qc).
Proof.
  intros Hr H.
  assert (Hd : forall d, In d ds -> well_formed d /\ nr d = r * n /\ nc d = r * n).
  { intros d Hd. apply (In_nth _ _ (mconst 0 0 0%Qc)) in Hd as (k & Hk & <-).
    specialize (H k Hk). split; [apply H|]. split; [apply (isB_nr _ _ _ _ _ H)|apply (isB_nc _ _ _ _ _ H)]. }
  rewrite blockDiagonalMatrix_ok by (intros; apply Hd; auto).
  eexists. split; [reflexivity|].
  assert (E : rows_of ds = length ds * r * n /\ cols_of ds = length ds * r * n).
  { unfold rows_of, cols_of. clear H. induction ds as [|d ds IH]; [split; reflexivity|].
    cbn [map list_sum fold_right length Nat.mul].
    destruct IH as [I1 I2]; [intros; apply Hd; right; auto|].
    fold (list_sum (map (fun d => nr d) ds)). fold (list_sum (map (fun d => nc d) ds)).
    unfold list_sum in *. rewrite I1, I2.
    destruct (Hd d) as (_ & -> & ->); [left; auto|].
    split; rewrite Nat.mul_add_distr_r; reflexivity. }
  destruct E as [-> ->]. apply isB_mat_of. intros p q i j Hp Hq Hi Hj.
  rewrite (bdo_B r n) by (auto; intros; apply Hd; auto).
  destruct (Nat.eqb_spec (p / r) (q / r)); [|reflexivity].
  apply (isB_ent _ _ _ _ _ (H (p / r) ltac:(apply Nat.div_lt_upper_bound; lia)));
    auto using Nat.mod_upper_bound.
Qed.

(** * Equal-size block permutations *)
Lemma offs_repeat n K k : k <= K -> offs (repeat n K) k = k * n.
Proof.
  revert k; induction K as [|K IH]; intros k Hk.
  - destruct k; [reflexivity|lia].
  - destruct k as [|k]; [reflexivity|]. cbn [repeat]. rewrite offs_cons.
    rewrite IH by lia. reflexivity.
Qed.

Lemma list_sum_repeat n K : list_sum (repeat n K) = K * n.
Proof. induction K; simpl; auto. Qed.

Lemma nth_repeat_lt {A} (a d : A) K k : k < K -> nth k (repeat a K) d = a.
Proof. revert k; induction K; intros k Hk; [lia|]. destruct k; simpl; auto. apply IHK. lia. Qed.

Lemma gidx_repeat n I K p i : Permutation I (seq 0 K) -> p < K -> i < n ->
  nth (p * n + i) (gidx (repeat n K) I) 0 = nth p I 0 * n + i.
Proof.
  intros HI Hp Hi.
  assert (HlI : length I = K) by (eapply perm_seq_length; eauto).
  assert (E : map (fun b => nth b (repeat n K) 0) I = repeat n K).
  { rewrite <- HlI. rewrite <- (map_id (repeat n (length I))).
    assert (G : forall b, In b I -> nth b (repeat n (length I)) 0 = n).
    { intros b Hb. apply nth_repeat_lt. rewrite HlI.
      apply (Permutation_in _ HI) in Hb. apply in_seq in Hb. lia. }
    clear - G. rewrite map_id. revert G. generalize (length I) at 1 2. intros L G.
    induction I as [|b I IH]; [reflexivity|]. cbn [map length repeat].
    rewrite G by (left; auto). f_equal. apply IH. intros; apply G; right; auto. }
  pose proof (perm_seq_nth I K p HI Hp) as Hb.
  rewrite <- (offs_repeat n K p) by lia. rewrite <- E at 1.
  rewrite nth_gidx.
  - rewrite offs_repeat by lia. reflexivity.
  - lia.
  - rewrite nth_repeat_lt by auto. auto.
Qed.

Lemma mblockPermute_B R C n m F I J :
  isB R C n m F -> Permutation I (seq 0 R) -> Permutation J (seq 0 C) ->
  exists m', mblockPermute m I J (repeat n R) (repeat n C) = Ok m' /\
    isB R C n m' (fun p q i j => F (nth p I 0) (nth q J 0) i j).
Proof.
  intros HF HI HJ. rewrite (mblockPermute_ok 0%Qc).
  - eexists. split; [reflexivity|]. rewrite (isB_nr _ _ _ _ _ HF), (isB_nc _ _ _ _ _ HF).
    apply isB_mat_of. intros p q i j Hp Hq Hi Hj.
    rewrite !gidx_repeat by auto. apply (isB_ent _ _ _ _ _ HF); auto using perm_seq_nth.
  - apply HF.
  - rewrite repeat_length. auto.
  - rewrite list_sum_repeat. symmetry. apply (isB_nr _ _ _ _ _ HF).
  - rewrite repeat_length. auto.
  - rewrite list_sum_repeat. symmetry. apply (isB_nc _ _ _ _ _ HF).
Qed.

Lemma vblockPermute_B K n v f I :
  isV K n v f -> Permutation I (seq 0 K) ->
  exists w, vblockPermute v I (repeat n K) = Ok w /\ isV K n w (fun p i => f (nth p I 0) i).
Proof.
  intros HF HI. rewrite (vblockPermute_ok 0%Qc).
  - eexists. split; [reflexivity|].
    assert (El : length (gidx (repeat n K) I) = K * n).
    { erewrite Permutation_length by (apply gidx_perm; rewrite repeat_length; eauto).
      rewrite seq_length. apply list_sum_repeat. }
    split; [rewrite map_length; auto|].
    intros p i Hp Hi. unfold vval.
    rewrite (nth_indep _ _ ((fun k => nth k v 0%Qc) 0)) by (rewrite map_length, El; auto using blk_bound).
    rewrite (map_nth (fun k => nth k v 0%Qc)).
    rewrite gidx_repeat by auto. apply (isV_ent _ _ _ _ HF); auto using perm_seq_nth.
  - rewrite repeat_length. auto.
  - rewrite list_sum_repeat. symmetry. apply (isV_len _ _ _ _ HF).
Qed.

(** * Pieces of vectors *)
Definition vpiece (n : nat) (v : list Qc) (k : nat) : list Qc := firstn n (skipn (k * n) v).

Lemma nth_firstn_lt {A} (d : A) k l i : i < k -> nth i (firstn k l) d = nth i l d.
Proof.
  revert l i; induction k as [|k IH]; intros l i Hi; [lia|].
  destruct l as [|a l]; [destruct i; reflexivity|]. destruct i; simpl; auto. apply IH. lia.
Qed.

Lemma vval_skipn k v i : vval (skipn k v) i = vval v (k + i).
Proof.
  unfold vval. revert v; induction k as [|k IH]; intros v; [reflexivity|].
  destruct v as [|a v]; [destruct i; reflexivity|]. simpl. apply IH.
Qed.

Lemma vpiece_length n v k K : length v = K * n -> k < K -> length (vpiece n v k) = n.
Proof.
  intros Hv Hk. unfold vpiece. rewrite firstn_length, skipn_length, Hv.
  assert (S k * n <= K * n) by (apply Nat.mul_le_mono_r; lia). simpl in *. lia.
Qed.

Lemma vpiece_nth n v k i : i < n -> vval (vpiece n v k) i = vval v (k * n + i).
Proof.
  intros Hi. unfold vpiece. unfold vval at 1. rewrite nth_firstn_lt by auto.
  apply vval_skipn.
Qed.

Lemma vpiece_B K n v f k : isV K n v f -> k < K -> isV 1 n (vpiece n v k) (fun _ i => f k i).
Proof.
  intros HF Hk. split; [rewrite (vpiece_length n v k K); [lia|apply HF|auto]|].
  intros p i Hp Hi. assert (p = 0) by lia. subst p. change (0 * n + i) with i.
  rewrite vpiece_nth by auto. apply (isV_ent _ _ _ _ HF); auto.
Qed.

Lemma concat_B n (vs : list (list Qc)) (fs : nat -> nat -> Qc) :
  (forall k, k < length vs -> length (nth k vs []) = n /\ forall i, i < n -> vval (nth k vs []) i = fs k i) ->
  isV (length vs) n (concat vs) fs.
Proof.
  revert fs; induction vs as [|v vs IH]; intros fs H.
  - split; [reflexivity|]. simpl. lia.
  - destruct (H 0) as [L E]; [simpl; lia|]. cbn [nth] in L, E.
    destruct (IH (fun k => fs (S k))) as [L' E'].
    { intros k Hk. apply (H (S k)). simpl; lia. }
    split; cbn [concat length Nat.mul]; [rewrite app_length; lia|].
    intros p i Hp Hi. unfold vval. destruct p as [|p].
    + rewrite app_nth1 by (simpl; lia). apply E; auto.
    + rewrite app_nth2 by (simpl; lia). replace (S p * n + i - length v) with (p * n + i) by (simpl; lia).
      apply E'; auto; lia.
Qed.

Lemma getSegment_piece K n v k : length v = K * n -> k < K ->
  getSegment v (k * n) n = Ok (vpiece n v k).
Proof.
  intros Hv Hk.
  assert (S k * n <= K * n) by (apply Nat.mul_le_mono_r; lia).
  rewrite (getSegment_ok 0%Qc) by (simpl in *; lia). f_equal.
  symmetry. apply (vec_is 0%Qc).
  - eapply vpiece_length; eauto.
  - intros i Hi. apply vpiece_nth. auto.
Qed.
