(** Change of resolution: coarsen_, coarsenUpwards_, uncoarsen_ against
    refine_by and coarsen_by. *)
From Coq Require Import Permutation.
From Verif Require Import Base VectorModel MatrixModel LinSpec MatProofs MatProofs2 MatProofs3 LinProofs.
From Verif Require Import SpecialProps BlockProofs HPSModel HPSSpec HPSProofs HPSProofs2.

(** * Operators composed *)
Lemma apply_op_qent T v : well_formed T ->
  apply_op T v = vec_of (nr T) (fun i => sum (nc T) (fun j => qent T i j * vval v j)%Qc).
Proof.
  intros W. rewrite apply_op_vec. apply vec_of_ext. intros i Hi. apply sum_ext. intros j Hj.
  rewrite val_ent by auto. reflexivity.
Qed.

Lemma vval_vec_of n f i : i < n -> vval (vec_of n f) i = f i.
Proof. intros H. unfold vval. rewrite nth_vec_of by auto. reflexivity. Qed.

Lemma mulm_apply a b : well_formed a -> well_formed b -> nc a = nr b ->
  nr a <> 0 -> nc a <> 0 -> nc b <> 0 ->
  exists m, mulm a b = Ok m /\ well_formed m /\ nr m = nr a /\ nc m = nc b /\
    forall v, apply_op m v = apply_op a (apply_op b v).
Proof.
  intros Wa Wb E Ha Hc Hb. rewrite mulm_ok by auto. eexists. split; [reflexivity|].
  split; [apply mat_of_wf|]. split; [reflexivity|]. split; [reflexivity|].
  intros v. rewrite !apply_op_qent by auto using mat_of_wf. cbn [nr nc mat_of].
  apply vec_of_ext. intros i Hi.
  rewrite (sum_ext (nc b) _ (fun j => sum (nc a) (fun k => qent a i k * qent b k j * vval v j)%Qc)).
  2:{ intros j Hj. rewrite mat_of_ent by auto. rewrite sum_scal_r. reflexivity. }
  rewrite sum_swap. apply sum_ext. intros k Hk.
  rewrite vval_vec_of by (rewrite <- E; auto).
  rewrite <- sum_scal_l. apply sum_ext. intros. ring.
Qed.

(** * Block diagonal matrix with equal rectangular blocks *)
Lemma bdo_rect a b (ds : list (matrix Qc)) :
  (forall d, In d ds -> nr d = a /\ nc d = b) ->
  forall p q i j, p < length ds -> q < length ds -> i < a -> j < b ->
  match bdo ds (p * a + i) (q * b + j) with Some x => x | None => 0%Qc end =
  if p =? q then qent (nth p ds (mconst 0 0 0%Qc)) i j else 0%Qc.
Proof.
  induction ds as [|d ds IH]; intros Hd p q i j Hp Hq Hi Hj; [simpl in Hp; lia|].
  cbn [bdo]. destruct (Hd d) as [E1 E2]; [left; auto|]. rewrite E1, E2.
  destruct p as [|p]; destruct q as [|q]; cbn [Nat.mul Nat.add].
  - destruct (Nat.ltb_spec i a); [|lia]. destruct (Nat.ltb_spec j b); [|lia]. reflexivity.
  - destruct (Nat.ltb_spec (b + q * b + j) b); [lia|].
    destruct (Nat.leb_spec a i); [lia|]. rewrite !andb_false_r. reflexivity.
  - destruct (Nat.ltb_spec (a + p * a + i) a); [lia|]. destruct (Nat.leb_spec b j); [lia|].
    rewrite !andb_false_r. reflexivity.
  - destruct (Nat.ltb_spec (a + p * a + i) a); [lia|].
    destruct (Nat.leb_spec a (a + p * a + i)); [|lia]. destruct (Nat.leb_spec b (b + q * b + j)); [|lia].
    cbn [andb].
    replace (a + p * a + i - a) with (p * a + i) by lia.
    replace (b + q * b + j - b) with (q * b + j) by lia.
    simpl in Hp, Hq. rewrite IH by (lia || intros; apply Hd; right; auto). reflexivity.
Qed.

Lemma four_diag_apply L : well_formed L ->
  exists M, four_diag L = Ok M /\ well_formed M /\ nr M = 4 * nr L /\ nc M = 4 * nc L /\
    forall v, length v = 4 * nc L ->
      apply_op M v = concat (map (fun k => apply_op L (piece (nc L) v k)) [0; 1; 2; 3]).
Proof.
  intros W. unfold four_diag. rewrite blockDiagonalMatrix_ok.
  2:{ intros d Hd. cbn in Hd. intuition (subst; auto). }
  eexists. split; [reflexivity|]. split; [apply mat_of_wf|].
  assert (ER : rows_of [L; L; L; L] = 4 * nr L) by (unfold rows_of; cbn; lia).
  assert (EC : cols_of [L; L; L; L] = 4 * nc L) by (unfold cols_of; cbn; lia).
  split; [cbn [nr mat_of]; auto|]. split; [cbn [nc mat_of]; auto|].
  intros v Lv.
  eapply (isV_eq 4 (nr L)).
  2:{ apply (concat_B (nr L) (map (fun k => apply_op L (piece (nc L) v k)) [0; 1; 2; 3])
        (fun k i => sum (nc L) (fun j => qent L i j * vval v (k * nc L + j)%nat)%Qc)).
      intros k Hk. cbn [map length] in Hk.
      assert (E : nth k (map (fun k => apply_op L (piece (nc L) v k)) [0; 1; 2; 3]) [] =
                  apply_op L (piece (nc L) v k)).
      { cases4 k Hk; reflexivity. }
      rewrite E. split; [rewrite apply_op_length; reflexivity|].
      intros i Hi. rewrite apply_op_qent by auto. rewrite vval_vec_of by auto.
      apply sum_ext. intros j Hj. f_equal.
      change (piece (nc L) v k) with (vpiece (nc L) v k). apply vpiece_nth. auto. }
  rewrite apply_op_qent by apply mat_of_wf. cbn [nr nc mat_of]. rewrite ER, EC.
  apply isV_vec_of. intros p i Hp Hi. rewrite sum_mul.
  rewrite (sum_single 4 p); auto.
  - apply sum_ext. intros j Hj.
    rewrite mat_of_ent by auto using blk_bound.
    rewrite (bdo_rect (nr L) (nc L)); auto.
    + rewrite Nat.eqb_refl. f_equal. cases4 p Hp; reflexivity.
    + intros d Hd. cbn in Hd. intuition (subst; auto).
  - intros q Hq Hne. apply sum_zero. intros j Hj.
    rewrite mat_of_ent by auto using blk_bound.
    rewrite (bdo_rect (nr L) (nc L)); auto.
    + destruct (Nat.eqb_spec p q); [congruence|]. ring.
    + intros d Hd. cbn in Hd. intuition (subst; auto).
Qed.

Lemma f2c_apply c v : c <> 0 -> 
  apply_op (mat_of c (2 * c) (fun i j => if (j =? 2 * i) || (j =? 2 * i + 1) then half else 0%Qc)) v =
  coarsen_side c v.
Proof.
  intros Hc. rewrite apply_op_qent by apply mat_of_wf. cbn [nr nc mat_of].
  unfold coarsen_side. change (map ?h (seq 0 ?k)) with (vec_of k h).
  apply vec_of_ext. intros i Hi.
  rewrite (sum_ext _ _ (fun j => (if j =? 2 * i then half else if j =? 2 * i + 1 then half else 0%Qc) * vval v j)%Qc).
  - rewrite sum_pick2 by lia. unfold half. ring.
  - intros j Hj. rewrite mat_of_ent by auto.
    destruct (j =? 2 * i), (j =? 2 * i + 1); reflexivity.
Qed.

Lemma odd_mod2 i : Nat.odd i = (i mod 2 =? 1).
Proof.
  parity i.
  - rewrite Nat.odd_mul. reflexivity.
  - rewrite Nat.add_1_r, Nat.odd_succ, Nat.even_mul. reflexivity.
Qed.

Lemma c2f_apply c v : 3 <= c ->
  apply_op (mat_of (2 * c) c (c2f_entry c)) v = refine_side c v.
Proof.
  intros Hc. rewrite apply_op_qent by apply mat_of_wf. cbn [nr nc mat_of].
  unfold refine_side. change (map ?h (seq 0 ?k)) with (vec_of k h).
  apply vec_of_ext. intros i Hi.
  rewrite (sum_ext _ _ (fun j => c2f_entry c i j * vval v j)%Qc).
  2:{ intros j Hj. rewrite mat_of_ent by auto. reflexivity. }
  rewrite c2f_row by auto. unfold fine_value. rewrite odd_mod2. reflexivity.
Qed.

Lemma coarsen_op_ok c : c <> 0 ->
  exists L0 L, Fine2Coarse c = Ok L0 /\ four_diag L0 = Ok L /\
    well_formed L /\ nr L = 4 * c /\ nc L = 4 * (2 * c) /\
    forall h, length h = 4 * (2 * c) -> apply_op L h = coarsen4 c h.
Proof.
  intros Hc. rewrite Fine2Coarse_ok.
  destruct (four_diag_apply (mat_of c (2 * c) (fun i j => if (j =? 2 * i) || (j =? 2 * i + 1) then half else 0%Qc)))
    as (M & E & W & N & C & A); [apply mat_of_wf|].
  eexists. exists M. split; [reflexivity|]. split; [exact E|]. split; [exact W|]. split; [exact N|]. split; [exact C|].
  intros h Lh. rewrite A by exact Lh. unfold coarsen4. cbn [map nc mat_of].
  rewrite !f2c_apply by auto. reflexivity.
Qed.

Lemma refine_op_ok c : 3 <= c ->
  exists L0 L, Coarse2Fine (2 * c) = Ok L0 /\ four_diag L0 = Ok L /\
    well_formed L /\ nr L = 4 * (2 * c) /\ nc L = 4 * c /\
    forall g, length g = 4 * c -> apply_op L g = refine4 c g.
Proof.
  intros Hc. rewrite Coarse2Fine_ok by auto.
  destruct (four_diag_apply (mat_of (2 * c) c (c2f_entry c))) as (M & E & W & N & C & A); [apply mat_of_wf|].
  eexists. exists M. split; [reflexivity|]. split; [exact E|]. split; [exact W|]. split; [exact N|]. split; [exact C|].
  intros h Lh. rewrite A by exact Lh. unfold refine4. cbn [map nc mat_of].
  rewrite !c2f_apply by auto. reflexivity.
Qed.

(** * Lengths *)
Lemma refine_side_length c v : length (refine_side c v) = 2 * c.
Proof. unfold refine_side. rewrite map_length, seq_length. reflexivity. Qed.
Lemma coarsen_side_length c v : length (coarsen_side c v) = c.
Proof. unfold coarsen_side. rewrite map_length, seq_length. reflexivity. Qed.
Lemma refine4_length c v : length (refine4 c v) = 4 * (2 * c).
Proof. unfold refine4. cbn [map concat]. rewrite !app_length, !refine_side_length. cbn [length]. lia. Qed.
Lemma coarsen4_length c v : length (coarsen4 c v) = 4 * c.
Proof. unfold coarsen4. cbn [map concat]. rewrite !app_length, !coarsen_side_length. cbn [length]. lia. Qed.
Lemma refine_by_length k c v : length v = 4 * c -> length (refine_by k c v) = 4 * (c * 2 ^ k).
Proof.
  revert c v; induction k as [|k IH]; intros c v Hv; cbn [refine_by].
  - rewrite Hv. simpl. lia.
  - rewrite IH by apply refine4_length. rewrite Nat.pow_succ_r'. lia.
Qed.
Lemma coarsen_by_length k c v : length v = 4 * (c * 2 ^ k) -> length (coarsen_by k c v) = 4 * c.
Proof.
  destruct k as [|k]; cbn [coarsen_by]; intros Hv.
  - simpl in Hv. lia.
  - apply coarsen4_length.
Qed.

Lemma refine_by_last k c v : refine_by (S k) c v = refine4 (c * 2 ^ k) (refine_by k c v).
Proof.
  revert c v; induction k as [|k IH]; intros c v.
  - cbn [refine_by]. simpl. rewrite Nat.mul_1_r. reflexivity.
  - change (refine_by (S (S k)) c v) with (refine_by (S k) (2 * c) (refine4 c v)).
    rewrite IH. rewrite Nat.pow_succ_r'. replace (2 * c * 2 ^ k) with (c * (2 * 2 ^ k)) by lia. reflexivity.
Qed.

Lemma pow_split n k j : j <= k -> n * 2 ^ k / 2 ^ j = n * 2 ^ (k - j).
Proof.
  intros H. replace k with (k - j + j) at 1 by lia. rewrite Nat.pow_add_r.
  rewrite Nat.mul_assoc. apply Nat.div_mul. apply Nat.pow_nonzero. lia.
Qed.

Lemma pow_pos k : 0 < 2 ^ k.
Proof. assert (2 ^ k <> 0) by (apply Nat.pow_nonzero; lia). lia. Qed.

(** * coarsen_ *)
Lemma coarsen_step_ok p j c :
  gnx (pgrid p) / 2 ^ j = 2 * c -> 3 <= c -> square (4 * (2 * c)) (pT p) ->
  exists T', coarsen_step p j = Ok (set_nc (set_T p T') (pnc p + 1)) /\ square (4 * c) T' /\
    forall g, length g = 4 * c -> apply_op T' g = coarsen4 c (apply_op (pT p) (refine4 c g)).
Proof.
  intros Hf Hc (W & N & C). unfold coarsen_step. rewrite Hf, even_div.
  destruct (coarsen_op_ok c) as (L10 & L1 & E10 & E1 & W1 & N1 & C1 & A1); [lia|].
  destruct (refine_op_ok c) as (L20 & L2 & E20 & E2 & W2 & N2 & C2 & A2); [lia|].
  rewrite E10, bind_Ok, E1, bind_Ok, E20, bind_Ok, E2, bind_Ok.
  destruct (mulm_apply L1 (pT p)) as (T1 & E & WT1 & NT1 & CT1 & AT1); auto; try lia.
  rewrite E, bind_Ok. clear E. cbv zeta.
  change (pT (set_T p T1)) with T1.
  destruct (mulm_apply T1 L2) as (T2 & E & WT2 & NT2 & CT2 & AT2); auto; try lia.
  rewrite E, bind_Ok. clear E.
  exists T2. split; [reflexivity|]. split; [split; [auto|lia]|].
  intros g Lg. rewrite AT2, AT1, A2 by auto. apply A1.
  rewrite apply_op_length. lia.
Qed.

Lemma coarsen_one_ok p k n :
  gnx (pgrid p) = n * 2 ^ k -> (k = 0 \/ 3 <= n) -> square (4 * (n * 2 ^ k)) (pT p) ->
  exists T', coarsen_one p k = Ok (set_nc (set_T p T') (pnc p + k)) /\ square (4 * n) T' /\
    forall g, length g = 4 * n -> apply_op T' g = coarsen_by k n (apply_op (pT p) (refine_by k n g)).
Proof.
  intros Hx Hk HT. unfold coarsen_one.
  assert (H : forall j, j <= k -> exists T',
    foldM coarsen_step (seq 0 j) p = Ok (set_nc (set_T p T') (pnc p + j)) /\
    square (4 * (n * 2 ^ (k - j))) T' /\
    forall g, length g = 4 * (n * 2 ^ (k - j)) ->
      apply_op T' g = coarsen_by j (n * 2 ^ (k - j)) (apply_op (pT p) (refine_by j (n * 2 ^ (k - j)) g))).
  { induction j as [|j IH]; intros Hj.
    - exists (pT p). rewrite Nat.sub_0_r, Nat.add_0_r. split.
      + destruct p; reflexivity.
      + split; [exact HT|]. intros g Hg. reflexivity.
    - destruct IH as (T1 & E1 & S1 & A1); [lia|].
      rewrite seq_S, foldM_app, E1, bind_Ok. cbn [foldM Nat.add].
      assert (Ec : n * 2 ^ (k - j) = 2 * (n * 2 ^ (k - S j))).
      { replace (k - j) with (S (k - S j)) by lia. rewrite Nat.pow_succ_r'. lia. }
      rewrite Ec in *.
      assert (3 <= n * 2 ^ (k - S j)).
      { pose proof (pow_pos (k - S j)). nia. }
      destruct (coarsen_step_ok (set_nc (set_T p T1) (pnc p + j)) j (n * 2 ^ (k - S j))) as (T2 & E2 & S2 & A2); auto.
      { cbn [pgrid set_nc set_T]. rewrite Hx, pow_split by lia. exact Ec. }
      cbn [Nat.add] in E2. rewrite E2, bind_Ok. exists T2. split.
      + cbn [pnc set_nc set_T]. rewrite <- Nat.add_assoc. rewrite Nat.add_1_r. destruct p; reflexivity.
      + split; [exact S2|]. intros g Hg. rewrite A2 by auto. cbn [pT set_nc set_T].
        rewrite A1 by apply refine4_length. reflexivity. }
  destruct (H k (le_n k)) as (T' & E & S' & A). rewrite Nat.sub_diag in S', A.
  simpl in S', A. rewrite Nat.mul_1_r in S', A. exists T'. auto.
Qed.

(** * coarsenUpwards_ and uncoarsen_ *)
Lemma coarsenUp_one_ok p k n :
  pnc p = k -> gnx (pgrid p) = n * 2 ^ k -> (k = 0 \/ n <> 0) -> length (ph p) = 4 * (n * 2 ^ k) ->
  coarsenUp_one p = Ok (set_h p (coarsen_by k n (ph p))).
Proof.
  intros Hp Hx Hk Hh. unfold coarsenUp_one. rewrite Hp.
  match goal with |- foldM ?F _ _ = _ => set (body := F) end.
  assert (H : forall j, j <= k ->
    foldM body (seq 0 j) p = Ok (set_h p (coarsen_by j (n * 2 ^ (k - j)) (ph p)))).
  { induction j as [|j IH]; intros Hj.
    - destruct p; reflexivity.
    - rewrite seq_S, foldM_app, IH, bind_Ok by lia. cbn [foldM Nat.add].
      assert (Ec : n * 2 ^ (k - j) = 2 * (n * 2 ^ (k - S j))).
      { replace (k - j) with (S (k - S j)) by lia. rewrite Nat.pow_succ_r'. lia. }
      assert (n * 2 ^ (k - S j) <> 0).
      { pose proof (pow_pos (k - S j)). nia. }
      destruct (coarsen_op_ok (n * 2 ^ (k - S j))) as (L10 & L1 & E10 & E1 & W1 & N1 & C1 & A1); auto.
      unfold body at 1. cbn [pgrid set_h]. rewrite Hx, pow_split, Ec, even_div by lia.
      rewrite E10, bind_Ok, E1, bind_Ok. cbn [ph set_h].
      assert (Ln : length (coarsen_by j (2 * (n * 2 ^ (k - S j))) (ph p)) = 4 * (2 * (n * 2 ^ (k - S j)))).
      { apply coarsen_by_length. rewrite Hh. rewrite <- Ec. rewrite <- Nat.mul_assoc, <- Nat.pow_add_r.
        replace (k - j + j) with k by lia. reflexivity. }
      rewrite apply_op_mulv by (auto; lia). rewrite bind_Ok, bind_Ok.
      rewrite A1 by auto. reflexivity. }
  rewrite H by auto. rewrite Nat.sub_diag. simpl. rewrite Nat.mul_1_r. reflexivity.
Qed.

Lemma uncoarsen_ok p k n :
  pnc p = k -> gnx (pgrid p) = n * 2 ^ k -> (k = 0 \/ 3 <= n) -> length (pg p) = 4 * n ->
  uncoarsen p = Ok (set_g p (refine_by k n (pg p))).
Proof.
  intros Hp Hx Hk Hh. unfold uncoarsen.
  match goal with |- foldM ?F _ _ = _ => set (body := F) end. rewrite Hp.
  assert (H : forall j, j <= k ->
    foldM body (seq 0 j) p = Ok (set_g p (refine_by j n (pg p)))).
  { induction j as [|j IH]; intros Hj.
    - destruct p; reflexivity.
    - rewrite seq_S, foldM_app, IH, bind_Ok by lia. cbn [foldM Nat.add].
      assert (3 <= n * 2 ^ j).
      { pose proof (pow_pos j). nia. }
      destruct (refine_op_ok (n * 2 ^ j)) as (L10 & L1 & E10 & E1 & W1 & N1 & C1 & A1); auto.
      unfold body at 1. cbn [pgrid pnc set_g]. rewrite Hx, Hp, pow_split by lia.
      replace (k - (k - (j + 1))) with (S j) by lia. rewrite Nat.pow_succ_r'.
      replace (n * (2 * 2 ^ j)) with (2 * (n * 2 ^ j)) by lia.
      rewrite E10, bind_Ok, E1, bind_Ok. cbn [pg set_g].
      assert (Ln : length (refine_by j n (pg p)) = 4 * (n * 2 ^ j)) by (apply refine_by_length; auto).
      rewrite apply_op_mulv by (auto; lia). rewrite bind_Ok, bind_Ok.
      rewrite A1 by auto. rewrite refine_by_last. reflexivity. }
  apply H. auto.
Qed.

(** * Tags *)
Lemma int_log2_ok m l : m <> 0 -> int_log2 (m * 2 ^ l) = Ok (l + Nat.log2 m).
Proof.
  intros Hm. unfold int_log2. pose proof (pow_pos l).
  destruct (Nat.eqb_spec (m * 2 ^ l) 0); [nia|].
  rewrite Nat.log2_mul_pow2 by lia. reflexivity.
Qed.

Lemma min_pow m a b : Nat.min (m * 2 ^ a) (m * 2 ^ b) = m * 2 ^ Nat.min a b.
Proof.
  destruct (Nat.le_gt_cases a b) as [H|H].
  - rewrite (Nat.min_l a b) by auto. apply Nat.min_l. apply Nat.mul_le_mono_l.
    apply Nat.pow_le_mono_r; lia.
  - rewrite (Nat.min_r a b) by lia. apply Nat.min_r. apply Nat.mul_le_mono_l.
    apply Nat.pow_le_mono_r; lia.
Qed.

Lemma tagPatches_ok m ch la lb lc ld : m <> 0 ->
  psize (fa ch) = m * 2 ^ la -> psize (fb ch) = m * 2 ^ lb ->
  psize (fc ch) = m * 2 ^ lc -> psize (fd ch) = m * 2 ^ ld ->
  let l := Nat.min (Nat.min la lb) (Nat.min lc ld) in
  tagPatches ch = Ok (Four (la - l) (lb - l) (lc - l) (ld - l)).
Proof.
  intros Hm Ha Hb Hc Hd l. unfold tagPatches. cbn [fmap fa fb fc fd].
  rewrite Ha, Hb, Hc, Hd, !min_pow.
  replace (Nat.min (Nat.min (Nat.min la lb) lc) ld) with l by (unfold l; lia).
  unfold fmapM, fmap. cbn [fa fb fc fd]. rewrite Ha, Hb, Hc, Hd, !int_log2_ok by auto. rewrite !bind_Ok.
  do 2 f_equal; lia.
Qed.
