(** Further lemmas used by the theorems about vectors and matrices. *)
From Coq Require Import Permutation.
From Verif Require Import Base VectorModel MatrixModel InPlaceModel LinSpec MatProofs MatProofs2 MatProofs3.

(** * In-place loops *)
Lemma loopI_foldM {A S} (f : S -> A -> res S) l s s' :
  foldM f l s = Ok s' -> loopI (fun s a => act s (f s a)) l s = (s', Ok tt).
Proof.
  revert s; induction l as [|a l IH]; intros s H; cbn [foldM loopI] in *.
  - injection H as ->. reflexivity.
  - apply bind_inv in H as (s1 & H1 & H2). rewrite H1. cbn [act]. apply IH; auto.
Qed.

Lemma loopI_foldM2 {A S} (f : S -> A -> res S) (g : S -> A -> S * res unit) l s s' :
  (forall s a s', f s a = Ok s' -> g s a = (s', Ok tt)) ->
  foldM f l s = Ok s' -> loopI g l s = (s', Ok tt).
Proof.
  intros Hg. revert s; induction l as [|a l IH]; intros s H; cbn [foldM loopI] in *.
  - injection H as ->. reflexivity.
  - apply bind_inv in H as (s1 & H1 & H2). rewrite (Hg _ _ _ H1). apply IH; auto.
Qed.

(** * Global index lists *)
Lemma offs_S' S k : k < length S -> offs S (Datatypes.S k) = offs S k + nth k S 0.
Proof. intros. rewrite <- offs_S by auto. f_equal. lia. Qed.

Lemma offs_cons s S k : offs (s :: S) (Datatypes.S k) = s + offs S k.
Proof. reflexivity. Qed.

(** Position [i] of block [a] of the permuted layout holds global index
    [offs S (I a) + i]. *)
Lemma nth_gidx S I a i :
  a < length I -> i < nth (nth a I 0) S 0 ->
  nth (offs (map (fun b => nth b S 0) I) a + i) (gidx S I) 0 = offs S (nth a I 0) + i.
Proof.
  revert a; induction I as [|b I IH]; intros a Ha Hi; simpl in Ha; [lia|].
  unfold gidx in *. cbn [flat_map map].
  destruct a as [|a].
  - cbn [nth] in *. change (offs (nth b S 0 :: map (fun b0 => nth b0 S 0) I) 0) with 0.
    cbn [Nat.add]. rewrite app_nth1 by (rewrite seq_length; auto).
    rewrite seq_nth by auto. reflexivity.
  - rewrite offs_cons. cbn [nth] in *.
    rewrite app_nth2 by (rewrite seq_length; lia). rewrite seq_length.
    replace (nth b S 0 + offs (map (fun b0 => nth b0 S 0) I) a + i - nth b S 0)
      with (offs (map (fun b0 => nth b0 S 0) I) a + i) by lia.
    apply IH; auto. lia.
Qed.

Lemma locate S x : x < list_sum S ->
  exists a i, a < length S /\ i < nth a S 0 /\ x = offs S a + i.
Proof.
  revert x; induction S as [|s S IH]; intros x Hx; simpl in Hx; [lia|].
  destruct (Nat.lt_ge_cases x s) as [H|H].
  - exists 0, x. cbn. repeat split; auto; lia.
  - destruct (IH (x - s)) as (a & i & Ha & Hi & E); [lia|].
    exists (Datatypes.S a), i. cbn [length nth]. rewrite offs_cons. repeat split; auto; lia.
Qed.

Lemma perm_seq_nth I n a : Permutation I (seq 0 n) -> a < n -> nth a I 0 < n.
Proof.
  intros HP Ha. assert (In (nth a I 0) (seq 0 n)).
  { apply (Permutation_in _ HP), nth_In. rewrite (Permutation_length HP), seq_length. auto. }
  apply in_seq in H. lia.
Qed.

Lemma perm_seq_length I n : Permutation I (seq 0 n) -> length I = n.
Proof. intros HP. rewrite (Permutation_length HP), seq_length. reflexivity. Qed.

Lemma list_sum_perm l1 l2 : Permutation l1 l2 -> list_sum l1 = list_sum l2.
Proof. induction 1; simpl; lia. Qed.

Lemma list_sum_permuted S I :
  Permutation I (seq 0 (length S)) -> list_sum (map (fun b => nth b S 0) I) = list_sum S.
Proof.
  intros HP. transitivity (list_sum (map (fun b => nth b S 0) (seq 0 (length S)))).
  - apply list_sum_perm, Permutation_map, HP.
  - rewrite map_seq_nth. reflexivity.
Qed.

(** Applying a permutation and then its inverse. *)
Lemma gidx_inverse S I I' x :
  Permutation I (seq 0 (length S)) -> Permutation I' (seq 0 (length S)) ->
  (forall a, a < length S -> nth (nth a I' 0) I 0 = a) ->
  x < list_sum S ->
  nth (nth x (gidx (map (fun b => nth b S 0) I) I') 0) (gidx S I) 0 = x.
Proof.
  intros HI HI' Hinv Hx.
  pose proof (perm_seq_length _ _ HI) as HlI. pose proof (perm_seq_length _ _ HI') as HlI'.
  set (S' := map (fun b => nth b S 0) I).
  assert (HS' : forall b, b < length S -> nth b S' 0 = nth (nth b I 0) S 0).
  { intros b Hb. unfold S'. rewrite (nth_indep _ 0 (nth 0 S 0)) by (rewrite map_length; lia).
    rewrite (map_nth (fun b => nth b S 0)). reflexivity. }
  assert (HSS : map (fun b => nth b S' 0) I' = S).
  { apply (list_ext 0).
    - rewrite map_length. auto.
    - rewrite map_length. intros b Hb.
      rewrite (nth_indep _ 0 (nth 0 S' 0)) by (rewrite map_length; lia).
      rewrite (map_nth (fun b => nth b S' 0)). rewrite HS' by (eapply perm_seq_nth; eauto; lia).
      rewrite Hinv by lia. reflexivity. }
  destruct (locate S x Hx) as (a & i & Ha & Hi & ->).
  rewrite <- HSS at 1. rewrite nth_gidx.
  - unfold S'. rewrite nth_gidx; rewrite ?Hinv by auto; auto.
    rewrite HlI. eapply perm_seq_nth; eauto.
  - lia.
  - rewrite HS' by (eapply perm_seq_nth; eauto). rewrite Hinv by auto. auto.
Qed.

(** * Rows and columns *)
Lemma mrange_ok {A} (d : A) m a rows c cols :
  well_formed m -> a + rows <= nr m -> c + cols <= nc m ->
  mrange m a rows c cols = Ok (mat_of rows cols (fun i j => ent d m (a + i) (c + j))).
Proof. intros. apply mbuild_ok. intros. apply mget_ok; auto; lia. Qed.

Lemma fill_loop {A} (g : nat -> res A) (h : nat -> A) (zero : A) n k :
  k <= n -> (forall j, j < k -> g j = Ok (h j)) ->
  foldM (fun r j => a <- g j ;; vset r j a) (seq 0 k) (repeat zero n) =
  Ok (vec_of k h ++ repeat zero (n - k)).
Proof.
  induction k as [|k IH]; intros Hk Hg.
  - cbn [seq foldM]. rewrite vec_of_0, Nat.sub_0_r. reflexivity.
  - rewrite seq_S, foldM_app, IH by (auto; lia). cbn [bind foldM]. change (0 + k) with k.
    rewrite Hg by lia. cbn [bind].
    rewrite vset_ok by (rewrite app_length, vec_of_length, repeat_length; lia).
    cbn [bind]. f_equal.
    replace (n - k) with (Datatypes.S (n - Datatypes.S k)) by lia. cbn [repeat].
    pose proof (upd_app_mid (vec_of k h) (repeat zero (n - Datatypes.S k)) zero (h k)) as E.
    rewrite vec_of_length in E. rewrite E, vec_of_S, <- app_assoc. reflexivity.
Qed.

Lemma getRow_ok {A} (zero d : A) m i :
  well_formed m -> i < nr m -> getRow zero m i = Ok (vec_of (nc m) (fun j => ent d m i j)).
Proof.
  intros Hw Hi. unfold getRow. rewrite (mrange_ok d) by (auto; lia). rewrite bind_Ok.
  rewrite (fill_loop _ (fun j => ent d m i j)).
  - rewrite Nat.sub_diag. cbn [repeat]. rewrite app_nil_r. reflexivity.
  - lia.
  - intros j Hj. rewrite (mget_ok d) by (try apply mat_of_wf; cbn [nr nc mat_of]; lia).
    rewrite mat_of_ent by lia. rewrite Nat.add_0_r. reflexivity.
Qed.

(** The column loop runs over as many entries as there are columns. *)
Lemma getCol_ok {A} (zero d : A) m j :
  well_formed m -> j < nc m -> nc m <= nr m ->
  getCol zero m j = Ok (vec_of (nc m) (fun i => ent d m i j) ++ repeat zero (nr m - nc m)).
Proof.
  intros Hw Hj Hs. unfold getCol. rewrite (mrange_ok d) by (auto; lia). rewrite bind_Ok.
  apply fill_loop; [lia|].
  intros i Hi. rewrite (mget_ok d) by (try apply mat_of_wf; cbn [nr nc mat_of]; lia).
  rewrite mat_of_ent by lia. rewrite Nat.add_0_r. reflexivity.
Qed.

Lemma mget_end {A} (m : matrix A) n :
  well_formed m -> nr m = n -> nc m = 1 -> mget m n 0 = UB.
Proof.
  intros Hw Hn Hc. unfold mget, flattenIndex. rewrite Hn, Nat.ltb_irrefl, Hc.
  cbn [Nat.ltb Nat.leb bind].
  unfold vdata. rewrite (proj2 (nth_error_None _ _)); [reflexivity|]. rewrite Hw. lia.
Qed.

Lemma getCol_wide {A} (zero : A) m j :
  well_formed m -> j < nc m -> nr m < nc m -> getCol zero m j = UB.
Proof.
  intros Hw Hj Hs. unfold getCol.
  assert (exists d : A, True) as [d _].
  { destruct (dat m) as [|d l] eqn:E; [|exists d; auto].
    exists zero; auto. }
  rewrite (mrange_ok d) by (auto; lia). rewrite bind_Ok.
  replace (nc m) with (nr m + (1 + (nc m - nr m - 1))) by lia.
  rewrite seq_app, foldM_app, (fill_loop _ (fun i => ent d m i j)).
  - rewrite bind_Ok, Nat.sub_diag. cbn [repeat seq Nat.add foldM]. rewrite app_nil_r.
    rewrite mget_end by (try apply mat_of_wf; reflexivity). reflexivity.
  - lia.
  - intros i Hi. rewrite (mget_ok d) by (try apply mat_of_wf; cbn [nr nc mat_of]; lia).
    rewrite mat_of_ent by lia. rewrite Nat.add_0_r. reflexivity.
Qed.

Lemma setRow_loop {A} (d : A) (g : nat -> A) i n m :
  well_formed m -> i < nr m -> n <= nc m ->
  foldM (fun m j => mset m i j (g j)) (seq 0 n) m =
  Ok (mat_of (nr m) (nc m) (fun i' j => if (i' =? i) && (j <? n) then g j else ent d m i' j)).
Proof.
  intros Hw Hi Hn.
  pose proof (setBlock_row d g i 0 n m Hw Hi) as H. cbn [Nat.add] in H.
  rewrite H by lia. f_equal. apply mat_of_ext. intros i' j Hi' Hj. unfold in_block.
  rewrite Nat.sub_0_r. bsolve; reflexivity.
Qed.

Lemma setRow_ok {A} (d : A) m i v :
  well_formed m -> i < nr m -> length v = nc m ->
  setRow_st m i v =
  (mat_of (nr m) (nc m) (fun i' j => if i' =? i then nth j v d else ent d m i' j), Ok tt).
Proof.
  intros Hw Hi Hv. unfold setRow_st. bsolve.
  apply loopI_foldM.
  rewrite (foldM_ext _ (fun m j => mset m i j (nth j v d))).
  - rewrite (setRow_loop d) by (auto; lia). f_equal. apply mat_of_ext. intros. bsolve; reflexivity.
  - intros s j Hj. apply in_seq in Hj. rewrite (vget_ok v j d) by lia. reflexivity.
Qed.

Lemma setColumn_ok {A} (d : A) m j v :
  well_formed m -> j < nc m -> length v = nr m ->
  setColumn_st m j v =
  (mat_of (nr m) (nc m) (fun i j' => if j' =? j then nth i v d else ent d m i j'), Ok tt).
Proof.
  intros Hw Hj Hv. unfold setColumn_st. bsolve.
  apply loopI_foldM.
  rewrite (foldM_ext _ (fun m i => mset m i j (nth i v d))).
  2: { intros s i Hi. apply in_seq in Hi. rewrite (vget_ok v i d) by lia. reflexivity. }
  assert (Hlp : forall n, n <= nr m -> foldM (fun m i => mset m i j (nth i v d)) (seq 0 n) m =
     Ok (mat_of (nr m) (nc m) (fun i j' => if (j' =? j) && (i <? n) then nth i v d else ent d m i j'))).
  { induction n as [|n IH]; intros Hn.
    - cbn [seq foldM]. f_equal. apply (mat_is d); auto. intros. bsolve; reflexivity.
    - rewrite seq_S, foldM_app, IH by lia. cbn [bind foldM]. change (0 + n) with n.
      rewrite mset_ok by (try apply mat_of_wf; cbn [nr nc mat_of]; lia). cbn [bind].
      f_equal. apply (mat_is d); [apply mupd_wf, mat_of_wf|reflexivity|reflexivity|].
      intros i' j' Hi' Hj'.
      rewrite mupd_ent by (try apply mat_of_wf; cbn [nr nc mat_of]; lia).
      rewrite mat_of_ent by lia. bsolve; subst; try reflexivity; try lia. }
  rewrite Hlp by lia. f_equal. apply mat_of_ext. intros. bsolve; reflexivity.
Qed.

(** * Compound operators *)
Lemma vput_loop (g : nat -> Qc -> res Qc) (h : nat -> Qc -> Qc) (v : list Qc) k :
  k <= length v ->
  (forall i a, i < length v -> g i a = Ok (h i a)) ->
  foldM (fun v i => a <- vdata v i ;; b <- g i a ;; vput v i b) (seq 0 k) v =
  Ok (vec_of (length v) (fun i => if i <? k then h i (vval v i) else vval v i)).
Proof.
  intros Hk Hg. induction k as [|k IH].
  - cbn [seq foldM]. f_equal. apply (vec_is 0%Qc); auto.
  - rewrite seq_S, foldM_app, IH by lia. cbn [bind foldM]. change (0 + k) with k.
    rewrite (vdata_ok _ _ 0%Qc) by (rewrite vec_of_length; lia). cbn [bind].
    rewrite nth_vec_of by lia. rewrite Hg by lia. cbn [bind].
    unfold vput. rewrite vec_of_length.
    destruct (Nat.ltb_spec k (length v)); [|lia]. cbn [bind]. f_equal.
    apply (vec_is 0%Qc); [rewrite upd_length, vec_of_length; auto|].
    intros i Hi. rewrite nth_upd by (rewrite vec_of_length; auto).
    rewrite nth_vec_of by auto. bsolve; subst; try reflexivity; try lia.
Qed.

Lemma vcompound_ok op v w :
  length w = length v ->
  vcompound op v w = (vec_of (length v) (fun i => op (vval v i) (vval w i)), Ok tt).
Proof.
  intros H. unfold vcompound. rewrite H, Nat.eqb_refl. cbn [negb].
  apply loopI_foldM.
  rewrite (foldM_ext _ (fun v0 i => a <- vdata v0 i ;; b <- (b <- vget w i ;; Ok (op a b)) ;; vput v0 i b)).
  - rewrite (vput_loop (fun i a => b <- vget w i ;; Ok (op a b)) (fun i a => op a (vval w i))) by
      (try lia; intros; rewrite (vget_ok w i 0%Qc) by lia; reflexivity).
    f_equal. apply vec_of_ext. intros. bsolve. reflexivity.
  - intros s i Hi. destruct (vdata s i); auto. cbn [bind]. destruct (vget w i); reflexivity.
Qed.

Lemma vcompound_s_ok op v c :
  vcompound_s op v c = (vec_of (length v) (fun i => op (vval v i) c), Ok tt).
Proof.
  unfold vcompound_s. apply loopI_foldM.
  rewrite (foldM_ext _ (fun v0 i => a <- vdata v0 i ;; b <- Ok (op a c) ;; vput v0 i b)) by reflexivity.
  rewrite (vput_loop (fun i a => Ok (op a c)) (fun i a => op a c)) by (auto; lia).
  f_equal. apply vec_of_ext. intros. bsolve. reflexivity.
Qed.

Lemma mput_row (g : nat -> nat -> Qc -> res Qc) (h : nat -> nat -> Qc -> Qc) (m : matrix Qc) i k :
  well_formed m -> i < nr m -> k <= nc m ->
  (forall j a, j < nc m -> g i j a = Ok (h i j a)) ->
  foldM (fun m j => x <- mget m i j ;; y <- g i j x ;; mset m i j y) (seq 0 k) m =
  Ok (mat_of (nr m) (nc m) (fun i' j =>
    if (i' =? i) && (j <? k) then h i j (qent m i j) else qent m i' j)).
Proof.
  intros Hw Hi Hk Hg. induction k as [|k IH].
  - cbn [seq foldM]. f_equal. apply (mat_is 0%Qc); auto. intros. bsolve; reflexivity.
  - rewrite seq_S, foldM_app, IH by lia. cbn [bind foldM]. change (0 + k) with k.
    rewrite (mget_ok 0%Qc) by (try apply mat_of_wf; cbn [nr nc mat_of]; lia). cbn [bind].
    rewrite mat_of_ent by lia. rewrite Hg by lia. cbn [bind].
    rewrite mset_ok by (try apply mat_of_wf; cbn [nr nc mat_of]; lia). cbn [bind].
    f_equal. apply (mat_is 0%Qc); [apply mupd_wf, mat_of_wf|reflexivity|reflexivity|].
    intros i' j' Hi' Hj'.
    rewrite mupd_ent by (try apply mat_of_wf; cbn [nr nc mat_of]; lia).
    rewrite mat_of_ent by lia.
    destruct (Nat.eqb_spec i i'), (Nat.eqb_spec k j'), (Nat.eqb_spec i' i); subst; try lia;
      cbn [andb]; bsolve; try reflexivity; try lia.
Qed.

Lemma mput_loop (g : nat -> nat -> Qc -> res Qc) (h : nat -> nat -> Qc -> Qc) (m : matrix Qc) k :
  well_formed m -> k <= nr m ->
  (forall i j a, i < nr m -> j < nc m -> g i j a = Ok (h i j a)) ->
  forall c, c = nc m ->
  foldM (fun m i => foldM (fun m j => x <- mget m i j ;; y <- g i j x ;; mset m i j y) (seq 0 (nc m)) m)
    (seq 0 k) m =
  Ok (mat_of (nr m) (nc m) (fun i j => if i <? k then h i j (qent m i j) else qent m i j)).
Proof.
  intros Hw Hk Hg c Hc. induction k as [|k IH].
  - cbn [seq foldM]. f_equal. apply (mat_is 0%Qc); auto.
  - rewrite seq_S, foldM_app, IH by lia. cbn [bind foldM]. change (0 + k) with k.
    cbn [nc mat_of]. rewrite (mput_row g h) by (try apply mat_of_wf; cbn [nr nc mat_of]; auto; lia).
    cbn [bind nr nc mat_of]. f_equal. apply mat_of_ext. intros i j Hi Hj.
    rewrite !mat_of_ent by lia.
    destruct (Nat.eqb_spec i k); subst; cbn [andb]; bsolve; try reflexivity; lia.
Qed.

Lemma mcompound_ok op m b :
  well_formed m -> well_formed b -> nr b = nr m -> nc b = nc m ->
  mcompound op m b = (mat_of (nr m) (nc m) (fun i j => op (qent m i j) (qent b i j)), Ok tt).
Proof.
  intros Hw Hb Hr Hc. unfold mcompound. rewrite Hr, Hc, !Nat.eqb_refl. cbn [negb].
  eapply loopI_foldM2.
  2: { rewrite (mput_loop (fun i j x => y <- mget b i j ;; Ok (op x y))
                 (fun i j x => op x (qent b i j)) m (nr m) Hw (le_n _)) with (c := nc m).
       - f_equal. apply mat_of_ext. intros. bsolve. reflexivity.
       - intros. rewrite (mget_ok 0%Qc) by (auto; lia). reflexivity.
       - reflexivity. }
  intros s i s' H. apply loopI_foldM. rewrite <- H. apply foldM_ext.
  intros s0 j _. destruct (mget s0 i j); auto. cbn [bind]. destruct (mget b i j); reflexivity.
Qed.

Lemma mcompound_s_ok op m c :
  well_formed m ->
  mcompound_s op m c = (mat_of (nr m) (nc m) (fun i j => op (qent m i j) c), Ok tt).
Proof.
  intros Hw. unfold mcompound_s.
  eapply loopI_foldM2.
  2: { rewrite (mput_loop (fun i j x => Ok (op x c))
                 (fun i j x => op x c) m (nr m) Hw (le_n _)) with (c := nc m).
       - f_equal. apply mat_of_ext. intros. bsolve. reflexivity.
       - reflexivity.
       - reflexivity. }
  intros s i s' H. apply loopI_foldM. rewrite <- H. apply foldM_ext.
  intros s0 j _. destruct (mget s0 i j); auto.
Qed.

(** * Segments and blocks with size_t arithmetic *)
Lemma w64_small x : (x < 2 ^ 64)%N -> w64 x = x.
Proof. intros. unfold w64. apply N.mod_small. auto. Qed.

Lemma getSegment_sz_ok {A} (zero : A) v start len :
  (start + len < 2 ^ 64)%N -> (len < 2 ^ 60)%N ->
  getSegment_sz zero v start len = getSegment v (N.to_nat start) (N.to_nat len).
Proof.
  intros H1 H2. unfold getSegment_sz, getSegment, Nlen, too_long.
  rewrite w64_small by auto.
  destruct (N.ltb_spec (N.of_nat (length v)) (start + len));
    destruct (Nat.ltb_spec (length v) (N.to_nat start + N.to_nat len)); try lia; auto.
  destruct (N.leb_spec (2 ^ 60) len); try lia.
  assert (E : forall l, (forall ii, In ii l -> ii < N.to_nat len) ->
    mapM (fun ii => if (N.of_nat ii <? start + len - start)%N
                    then vdata v (N.to_nat start + ii) else Ok zero) l =
    mapM (fun ii => vdata v (N.to_nat start + ii)) l).
  { induction l as [|a l IH]; intros Hl; [reflexivity|]. cbn [mapM].
    destruct (N.ltb_spec (N.of_nat a) (start + len - start)).
    - rewrite IH by (intros; apply Hl; simpl; auto). reflexivity.
    - specialize (Hl a (or_introl eq_refl)). lia. }
  apply E. intros ii Hii. apply in_seq in Hii. lia.
Qed.

Lemma setSegment_st_fits {A} (v w : list A) start :
  (start + Nlen w < 2 ^ 64)%N -> N.to_nat start + length w <= length v ->
  setSegment_st v start w =
  (firstn (N.to_nat start) v ++ w ++ skipn (N.to_nat start + length w) v, Ok tt).
Proof.
  intros H1 H2. unfold setSegment_st, Nlen in *. rewrite w64_small by auto.
  destruct (N.ltb_spec (N.of_nat (length v)) (start + N.of_nat (length w))); [lia|].
  apply loopI_foldM.
  replace (N.to_nat (start + N.of_nat (length w) - start)) with (length w) by lia.
  pose proof (setSegment_ok v w (N.to_nat start) H2) as HS. unfold setSegment in HS.
  destruct (Nat.ltb_spec (length v) (N.to_nat start + length w)); [lia|]. exact HS.
Qed.

Lemma setSegment_st_rejects {A} (v w : list A) start :
  (start + Nlen w < 2 ^ 64)%N -> length v < N.to_nat start + length w ->
  setSegment_st v start w = (v, Throw out_of_range).
Proof.
  intros H1 H2. unfold setSegment_st, Nlen in *. rewrite w64_small by auto.
  destruct (N.ltb_spec (N.of_nat (length v)) (start + N.of_nat (length w))); [reflexivity|lia].
Qed.

Lemma setBlock_st_fits {A} (d : A) (m b : matrix A) (ri ci : N) :
  (ri + N.of_nat (nr b) < 2 ^ 64)%N -> (ci + N.of_nat (nc b) < 2 ^ 64)%N ->
  well_formed m -> well_formed b ->
  N.to_nat ri + nr b <= nr m -> N.to_nat ci + nc b <= nc m ->
  setBlock_st m ri ci b =
  (mat_of (nr m) (nc m) (fun i j =>
     if in_block (N.to_nat ri) (N.to_nat ci) (nr b) (nc b) i j
     then ent d b (i - N.to_nat ri) (j - N.to_nat ci) else ent d m i j), Ok tt).
Proof.
  intros H1 H2 Hm Hb Hr Hc. unfold setBlock_st. rewrite !w64_small by auto.
  destruct (N.ltb_spec (N.of_nat (nr m)) (ri + N.of_nat (nr b))); [lia|].
  destruct (N.ltb_spec (N.of_nat (nc m)) (ci + N.of_nat (nc b))); [lia|].
  replace (N.to_nat (ri + N.of_nat (nr b) - ri)) with (nr b) by lia.
  replace (N.to_nat (ci + N.of_nat (nc b) - ci)) with (nc b) by lia.
  pose proof (setBlock_ok d m (N.to_nat ri) (N.to_nat ci) b Hm Hb Hr Hc) as HS.
  unfold setBlock in HS.
  destruct (Nat.ltb_spec (nr m) (N.to_nat ri + nr b)); [lia|].
  destruct (Nat.ltb_spec (nc m) (N.to_nat ci + nc b)); [lia|].
  eapply loopI_foldM2; [|exact HS].
  intros s a s' E. apply loopI_foldM. exact E.
Qed.

Lemma getBlock_sz_ok {A} (d : A) (m : matrix A) (ri ci rl cl : N) :
  (ri + rl < 2 ^ 64)%N -> (ci + cl < 2 ^ 64)%N -> (rl * cl < 2 ^ 60)%N ->
  well_formed m ->
  N.to_nat ri + N.to_nat rl <= nr m -> N.to_nat ci + N.to_nat cl <= nc m ->
  getBlock_sz m ri ci rl cl =
  Ok (rl, cl, dat (mat_of (N.to_nat rl) (N.to_nat cl)
        (fun i j => ent d m (N.to_nat ri + i) (N.to_nat ci + j)))).
Proof.
  intros H1 H2 H3 Hw Hr Hc. unfold getBlock_sz, too_long. rewrite !w64_small by lia.
  destruct (N.ltb_spec (N.of_nat (nr m)) (ri + rl)); [lia|].
  destruct (N.ltb_spec (N.of_nat (nc m)) (ci + cl)); [lia|].
  destruct (N.leb_spec (2 ^ 60) (rl * cl)); [lia|].
  replace (N.to_nat (ri + rl - ri)) with (N.to_nat rl) by lia.
  replace (N.to_nat (ci + cl - ci)) with (N.to_nat cl) by lia.
  rewrite (mapM_ok _ (fun i => vec_of (N.to_nat cl) (fun j => ent d m (N.to_nat ri + i) (N.to_nat ci + j)))).
  - reflexivity.
  - intros i Hi. apply in_seq in Hi. apply mapM_vec. intros j Hj. apply mget_ok; auto; lia.
Qed.
