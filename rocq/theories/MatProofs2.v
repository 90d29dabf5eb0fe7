(** Lemmas about solves, block index lists, block permutation, block diagonal
    matrices, concatenation and the special matrices. *)
From Coq Require Import Permutation.
From Verif Require Import Base VectorModel MatrixModel LinSpec MatProofs.

(** * Solves *)
Lemma vval_dat_mat_of r c f i j :
  i < r -> j < c -> vval (dat (mat_of r c f)) (j + i * c) = f i j.
Proof.
  intros Hi Hj. pose proof (mat_of_ent 0%Qc r c f i j Hi Hj) as H.
  unfold ent in H. simpl nc in H. unfold vval. rewrite Nat.add_comm. exact H.
Qed.

Lemma col_nonsingular_T a :
  nonsingular a ->
  col_nonsingular (nr a) (dat (mat_of (nc a) (nr a) (fun j i => qent a i j))).
Proof.
  intros (Hw & Hsq & Hns) z Hz. apply Hns. intros i Hi.
  rewrite <- (Hz i Hi). apply sum_ext. intros j Hj.
  rewrite vval_dat_mat_of by lia. rewrite val_ent by (auto; lia). reflexivity.
Qed.

Lemma solvem_ok gesv a b :
  gesv_contract gesv -> nonsingular a -> nr a <> 0 -> well_formed b -> nr b = nr a ->
  exists x, solvem gesv a b = Ok x /\ well_formed x /\ nr x = nr a /\ nc x = nc b /\
    forall i j, i < nr a -> j < nc b ->
      sum (nr a) (fun k => qent a i k * qent x k j)%Qc = qent b i j.
Proof.
  intros G Hns Hn Hb Hab. pose proof Hns as (Hw & Hsq & _).
  unfold solvem. rewrite Hsq, Nat.eqb_refl. cbn [negb].
  rewrite <- Hsq, Hab, Nat.eqb_refl. cbn [negb].
  rewrite (mT_ok 0%Qc b) by auto. rewrite bind_Ok.
  rewrite (mT_ok 0%Qc a) by auto. rewrite bind_Ok.
  cbn [nr]. cbn [nr mat_of]. destruct (Nat.ltb_spec (nc a) 1); [lia|].
  fold (mat_of (nc a) (nr a) (fun j i => qent a i j)).
  fold (mat_of (nc b) (nr b) (fun j i => qent b i j)).
  set (AT := mat_of (nc a) (nr a) (fun j i => qent a i j)).
  set (BT := mat_of (nc b) (nr b) (fun j i => qent b i j)).
  pose proof (gesv_solves _ G (nr a) (nc b) (dat AT) (dat BT) Hn) as HG.
  assert (HlA : length (dat AT) = nr a * nr a)
    by (unfold AT; rewrite mat_of_wf; cbn [nr nc mat_of]; rewrite Hsq; auto).
  assert (HlB : length (dat BT) = nr a * nc b)
    by (unfold BT; rewrite mat_of_wf; cbn [nr nc mat_of]; rewrite Hab; apply Nat.mul_comm).
  specialize (HG HlA HlB (col_nonsingular_T a Hns)).
  rewrite <- Hsq.
  destruct (gesv (nr a) (nc b) (dat AT) (dat BT)) as [x info].
  destruct HG as (_ & Hlx & HG). cbn [fst nc].
  assert (Hwx : well_formed (Mat (nc b) (nr b) x)).
  { unfold well_formed; simpl. rewrite Hlx, Hab. apply Nat.mul_comm. }
  change (nc BT) with (nr b).
  rewrite (mT_ok 0%Qc) by exact Hwx. cbn [nr nc].
  eexists; split; [reflexivity|]. split; [apply mat_of_wf|].
  cbn [nr nc mat_of]. split; [auto|]. split; [auto|].
  fold (mat_of (nr b) (nc b) (fun j i => qent (Mat (nc b) (nr b) x) i j)).
  intros i j Hi Hj. specialize (HG i j Hi Hj).
  unfold BT in HG. rewrite Hab in HG. rewrite vval_dat_mat_of in HG by lia.
  rewrite <- HG. apply sum_ext. intros k Hk.
  rewrite mat_of_ent by lia.
  unfold AT. rewrite <- Hsq. rewrite vval_dat_mat_of by lia.
  f_equal. unfold ent; simpl. unfold vval. rewrite Hab. f_equal. lia.
Qed.

Lemma solvev_ok gesv a b :
  gesv_contract gesv -> nonsingular a -> nr a <> 0 -> length b = nr a ->
  exists x, solvev gesv a b = Ok x /\ length x = nr a /\
    forall i, i < nr a -> sum (nr a) (fun k => qent a i k * vval x k)%Qc = vval b i.
Proof.
  intros G Hns Hn Hb. pose proof Hns as (Hw & Hsq & _).
  unfold solvev. rewrite Hsq, Nat.eqb_refl. cbn [negb].
  rewrite <- Hsq, Hb, Nat.eqb_refl. cbn [negb].
  rewrite (mT_ok 0%Qc a) by auto. rewrite bind_Ok.
  cbn [nr mat_of]. destruct (Nat.ltb_spec (nc a) 1); [lia|].
  fold (mat_of (nc a) (nr a) (fun j i => qent a i j)).
  set (AT := mat_of (nc a) (nr a) (fun j i => qent a i j)).
  pose proof (gesv_solves _ G (nr a) 1 (dat AT) b Hn) as HG.
  assert (HlA : length (dat AT) = nr a * nr a)
    by (unfold AT; rewrite mat_of_wf; cbn [nr nc mat_of]; rewrite Hsq; auto).
  specialize (HG HlA ltac:(lia) (col_nonsingular_T a Hns)).
  rewrite <- Hsq.
  destruct (gesv (nr a) 1 (dat AT) b) as [x info]. cbn [fst].
  destruct HG as (_ & Hlx & HG).
  eexists; split; [reflexivity|]. split; [lia|].
  intros i Hi. specialize (HG i 0 Hi ltac:(lia)).
  rewrite Nat.mul_0_l, Nat.add_0_r in HG. rewrite <- HG.
  apply sum_ext. intros k Hk. unfold AT. rewrite <- Hsq.
  rewrite vval_dat_mat_of by lia. rewrite Nat.add_0_r. reflexivity.
Qed.

(** * Block index lists *)
Definition offs (S : list nat) (k : nat) : nat := list_sum (firstn k S).
Definition gidx (S I : list nat) : list nat :=
  flat_map (fun b => seq (offs S b) (nth b S 0)) I.

Lemma sum_sizes_list_sum S : sum_sizes S = list_sum S.
Proof.
  unfold sum_sizes.
  enough (H : forall a, fold_left Nat.add S a = a + list_sum S) by (rewrite H; reflexivity).
  induction S as [|x S IH]; intros a; simpl; [lia|]. rewrite IH. lia.
Qed.

Lemma list_sum_app l1 l2 : list_sum (l1 ++ l2) = list_sum l1 + list_sum l2.
Proof. induction l1; simpl; lia. Qed.

Lemma firstn_S_nth {A} (d : A) k l : k < length l -> firstn (S k) l = firstn k l ++ [nth k l d].
Proof.
  revert k; induction l as [|a l IH]; intros k H; simpl in H; [lia|].
  destruct k; [reflexivity|]. cbn [firstn app nth]. f_equal. apply IH. lia.
Qed.

Lemma offs_S S k : k < length S -> offs S (k + 1) = offs S k + nth k S 0.
Proof.
  intros H. unfold offs. rewrite Nat.add_1_r, (firstn_S_nth 0) by auto.
  rewrite list_sum_app. simpl. lia.
Qed.

Lemma offs_all S : offs S (length S) = list_sum S.
Proof. unfold offs. rewrite firstn_all. reflexivity. Qed.

Lemma offs_le S k : k < length S -> offs S k + nth k S 0 <= list_sum S.
Proof.
  intros H. rewrite <- (firstn_skipn (k + 1) S) at 3. rewrite list_sum_app.
  pose proof (offs_S S k H) as E. unfold offs in E at 1. lia.
Qed.

Lemma flat_map_app_nil {A B} (f : A -> list B) l1 l2 :
  flat_map f (l1 ++ l2) = flat_map f l1 ++ flat_map f l2.
Proof. apply flat_map_app. Qed.

Lemma gidx_id S : gidx S (seq 0 (length S)) = seq 0 (list_sum S).
Proof.
  enough (H : forall k, k <= length S -> gidx S (seq 0 k) = seq 0 (offs S k)).
  { rewrite H by lia. rewrite offs_all. reflexivity. }
  induction k as [|k IH]; intros Hk; [reflexivity|].
  rewrite seq_S. unfold gidx in *. rewrite flat_map_app, IH by lia. simpl.
  rewrite app_nil_r. replace (Datatypes.S k) with (k + 1) by lia.
  rewrite offs_S by lia. rewrite seq_app. reflexivity.
Qed.

Lemma Permutation_flat_map {A B} (f : A -> list B) l1 l2 :
  Permutation l1 l2 -> Permutation (flat_map f l1) (flat_map f l2).
Proof.
  induction 1; simpl; auto.
  - apply Permutation_app_head; auto.
  - rewrite !app_assoc. apply Permutation_app_tail. apply Permutation_app_comm.
  - eapply Permutation_trans; eauto.
Qed.

Lemma gidx_perm S I :
  Permutation I (seq 0 (length S)) -> Permutation (gidx S I) (seq 0 (list_sum S)).
Proof. intros H. rewrite <- gidx_id. apply Permutation_flat_map; auto. Qed.

Lemma upd_app_mid {A} (l1 l2 : list A) a b : upd (l1 ++ a :: l2) (length l1) b = l1 ++ b :: l2.
Proof. induction l1; simpl; auto. f_equal; auto. Qed.

(** Filling an array from position [length done] on. *)
Lemma fill_seq {A} (xs : list A) :
  forall (pre : list A) (z : A) rest,
  foldM (fun (st : nat * list A) x =>
           let '(cnt, g) := st in
           g' <- vset g cnt x ;; Ok (S cnt, g')) xs
        (length pre, pre ++ repeat z (length xs + rest))
  = Ok (length pre + length xs, pre ++ xs ++ repeat z rest).
Proof.
  induction xs as [|x xs IH]; intros pre z rest; simpl.
  - rewrite Nat.add_0_r. reflexivity.
  - rewrite vset_ok.
    2: { rewrite app_length. simpl. lia. }
    simpl. rewrite upd_app_mid.
    replace (S (length pre)) with (length (pre ++ [x])) by (rewrite app_length; simpl; lia).
    replace (pre ++ x :: repeat z (length xs + rest))
      with ((pre ++ [x]) ++ repeat z (length xs + rest)) by (rewrite <- app_assoc; reflexivity).
    rewrite IH. rewrite app_length. simpl. rewrite <- !app_assoc. simpl.
    do 2 f_equal. lia.
Qed.

Lemma foldM_map {A B S} (f : S -> B -> res S) (g : A -> B) l s :
  foldM f (map g l) s = foldM (fun s a => f s (g a)) l s.
Proof.
  revert s; induction l as [|a l IH]; intros s; simpl; [reflexivity|].
  destruct (f s (g a)); simpl; auto.
Qed.

Lemma prefix_sum_ok S k : k <= length S ->
  foldM (fun s ii => x <- vget S ii ;; Ok (s + x)) (seq 0 k) 0 = Ok (offs S k).
Proof.
  induction k as [|k IH]; intros Hk; [reflexivity|].
  rewrite seq_S, foldM_app, IH by lia. simpl.
  rewrite (vget_ok S k 0) by lia. simpl. f_equal.
  rewrite <- offs_S by lia. f_equal. lia.
Qed.

Lemma foldM_nth {A S} (d : A) (f : S -> A -> res S) l s :
  foldM (fun s i => x <- vget l i ;; f s x) (seq 0 (length l)) s = foldM f l s.
Proof.
  rewrite (foldM_ext _ (fun s i => f s (nth i l d))).
  - rewrite <- (foldM_map f (fun i => nth i l d)). rewrite map_seq_nth. reflexivity.
  - intros s0 i Hi. apply in_seq in Hi. rewrite (vget_ok l i d) by lia. reflexivity.
Qed.

Lemma blockIndexList_gen S I n :
  (forall b, In b I -> b < length S) ->
  forall pre rest,
  n = length pre + length (gidx S I) + rest ->
  foldM (fun st I_i =>
          s <- foldM (fun s ii => x <- vget S ii ;; Ok (s + x)) (seq 0 I_i) 0 ;;
          len <- vget S I_i ;;
          foldM (fun st iii =>
                   let '(cnt, g) := st in
                   g' <- vset g cnt (Z.of_nat iii) ;; Ok (Datatypes.S cnt, g'))
                (seq s len) st)
        I (length pre, pre ++ repeat 0%Z (length (gidx S I) + rest))
  = Ok (length pre + length (gidx S I), pre ++ map Z.of_nat (gidx S I) ++ repeat 0%Z rest).
Proof.
  induction I as [|b I IH]; intros HI pre rest Hn; simpl.
  - rewrite Nat.add_0_r. reflexivity.
  - assert (Hb : b < length S) by (apply HI; simpl; auto).
    rewrite prefix_sum_ok by lia. rewrite bind_Ok.
    rewrite (vget_ok S b 0) by auto. rewrite bind_Ok.
    fold (gidx S I) in *. rewrite app_length, seq_length.
    set (L := seq (offs S b) (nth b S 0)).
    rewrite <- (foldM_map (fun (st : nat * list Z) x =>
                   let '(cnt, g) := st in
                   g' <- vset g cnt x ;; Ok (Datatypes.S cnt, g')) Z.of_nat).
    replace (nth b S 0 + length (gidx S I) + rest)
      with (length (map Z.of_nat L) + (length (gidx S I) + rest))
      by (unfold L; rewrite map_length, seq_length; lia).
    rewrite fill_seq. rewrite bind_Ok.
    rewrite <- app_length. rewrite (app_assoc pre).
    rewrite IH with (rest := rest).
    + rewrite app_length, map_length. unfold L. rewrite seq_length.
      rewrite map_app, <- !app_assoc. do 2 f_equal. lia.
    + intros; apply HI; simpl; auto.
    + rewrite app_length, map_length. unfold L. rewrite seq_length.
      simpl in Hn. rewrite app_length, seq_length in Hn. fold (gidx S I) in Hn. lia.
Qed.

Lemma blockIndexList_ok I S n :
  Permutation I (seq 0 (length S)) -> list_sum S = n ->
  blockIndexList I S n = Ok (map Z.of_nat (gidx S I)).
Proof.
  intros HP Hn. unfold blockIndexList.
  rewrite (foldM_nth 0 (fun st I_i =>
          s <- foldM (fun s ii => x <- vget S ii ;; Ok (s + x)) (seq 0 I_i) 0 ;;
          len <- vget S I_i ;;
          foldM (fun st iii =>
                   let '(cnt, g) := st in
                   g' <- vset g cnt (Z.of_nat iii) ;; Ok (Datatypes.S cnt, g'))
                (seq s len) st)).
  assert (Hl : length (gidx S I) = n).
  { rewrite (Permutation_length (gidx_perm S I HP)), seq_length. auto. }
  pose proof (blockIndexList_gen S I n) as H.
  specialize (H) with (pre := []) (rest := 0). simpl app in H. simpl length in H.
  rewrite !Nat.add_0_r in H. rewrite Hl in H. rewrite H.
  - simpl. rewrite app_nil_r. reflexivity.
  - intros b Hb. apply (Permutation_in _ HP) in Hb. apply in_seq in Hb. lia.
  - lia.
Qed.

Lemma gidx_bound S I k :
  Permutation I (seq 0 (length S)) -> In k (gidx S I) -> k < list_sum S.
Proof.
  intros HP Hk. apply (Permutation_in _ (gidx_perm S I HP)) in Hk. apply in_seq in Hk. lia.
Qed.

Lemma vblockPermute_ok {A} (d : A) v I S :
  Permutation I (seq 0 (length S)) -> list_sum S = length v ->
  vblockPermute v I S = Ok (map (fun k => nth k v d) (gidx S I)).
Proof.
  intros HP Hl. unfold vblockPermute. rewrite sum_sizes_list_sum, Hl, Nat.eqb_refl.
  cbn [negb]. rewrite blockIndexList_ok by auto. rewrite bind_Ok.
  rewrite (vgetFromIndexSet_ok d).
  - rewrite map_map. f_equal. apply map_ext. intros. rewrite Nat2Z.id. reflexivity.
  - rewrite map_length, (Permutation_length (gidx_perm S I HP)), seq_length. lia.
  - intros z Hz. apply in_map_iff in Hz as (k & <- & Hk).
    pose proof (gidx_bound S I k HP Hk). lia.
Qed.

Lemma nth_map_Z l i : nth i (map Z.of_nat l) 0%Z = Z.of_nat (nth i l 0).
Proof. exact (map_nth Z.of_nat l 0 i). Qed.

Lemma mblockPermute_ok {A} (d : A) m I J R C :
  well_formed m ->
  Permutation I (seq 0 (length R)) -> list_sum R = nr m ->
  Permutation J (seq 0 (length C)) -> list_sum C = nc m ->
  mblockPermute m I J R C =
  Ok (mat_of (nr m) (nc m) (fun i j => ent d m (nth i (gidx R I) 0) (nth j (gidx C J) 0))).
Proof.
  intros Hw HI HR HJ HC. unfold mblockPermute.
  rewrite !sum_sizes_list_sum, HR, HC, !Nat.eqb_refl. cbn [negb].
  rewrite blockIndexList_ok, bind_Ok, blockIndexList_ok, bind_Ok by auto.
  pose proof (Permutation_length (gidx_perm R I HI)) as LI. rewrite seq_length in LI.
  pose proof (Permutation_length (gidx_perm C J HJ)) as LJ. rewrite seq_length in LJ.
  rewrite (mgetFromIndexSet_ok d); auto; rewrite ?map_length; try lia.
  - rewrite LI, LJ, HR, HC. f_equal. apply mat_of_ext. intros i j Hi Hj.
    rewrite !nth_map_Z, !Nat2Z.id. reflexivity.
  - intros z Hz. apply in_map_iff in Hz as (k & <- & Hk).
    pose proof (gidx_bound R I k HI Hk). lia.
  - intros z Hz. apply in_map_iff in Hz as (k & <- & Hk).
    pose proof (gidx_bound C J k HJ Hk). lia.
Qed.

(** * Concatenation *)
Lemma concatenate_gen {A} (zero : A) vs :
  forall pre rest,
  foldM (fun st v =>
          foldM (fun st i =>
                   let '(index, r) := st in
                   a <- vget v i ;; r' <- vset r index a ;; Ok (Datatypes.S index, r'))
                (seq 0 (length v)) st)
        vs (length pre, pre ++ repeat zero (length (concat vs) + rest))
  = Ok (length pre + length (concat vs), pre ++ concat vs ++ repeat zero rest).
Proof.
  induction vs as [|v vs IH]; intros pre rest; simpl.
  - rewrite Nat.add_0_r. reflexivity.
  - rewrite (foldM_ext _ (fun (st : nat * list A) i =>
         a <- vget v i ;; (let '(index, r) := st in
            r' <- vset r index a ;; Ok (Datatypes.S index, r')))).
    2: { intros [idx r] a _. reflexivity. }
    rewrite (foldM_nth zero (fun (st : nat * list A) a => let '(index, r) := st in
            r' <- vset r index a ;; Ok (Datatypes.S index, r'))).
    rewrite app_length, <- Nat.add_assoc. rewrite fill_seq, bind_Ok.
    rewrite <- app_length, app_assoc. rewrite IH.
    rewrite app_length, <- !app_assoc. do 2 f_equal. lia.
Qed.

Lemma concatenate_ok {A} (zero : A) vs : concatenate zero vs = Ok (concat vs).
Proof.
  unfold concatenate.
  replace (sum_sizes (map (@length A) vs)) with (length (concat vs) + 0).
  - pose proof (concatenate_gen zero vs [] 0) as H. simpl app in H. simpl length in H.
    rewrite H. simpl. rewrite app_nil_r. reflexivity.
  - rewrite sum_sizes_list_sum. clear. rewrite Nat.add_0_r.
    induction vs as [|v vs IH]; simpl; [reflexivity|]. rewrite app_length. lia.
Qed.

Lemma vectorRange_ok a n : n <> 0 ->
  vectorRange (Z.of_nat a) (Z.of_nat a + Z.of_nat n - 1) = Ok (map Z.of_nat (seq a n)).
Proof.
  intros Hn. unfold vectorRange.
  destruct (Z.ltb_spec (Z.of_nat a + Z.of_nat n - 1 - Z.of_nat a + 1) 0); [lia|].
  f_equal. replace (Z.to_nat _) with n by lia.
  replace (seq a n) with (map (fun i => a + i) (seq 0 n)).
  - rewrite map_map. apply map_ext. intros. lia.
  - clear. induction n as [|n IH]; [reflexivity|]. rewrite !seq_S, map_app, IH. reflexivity.
Qed.
