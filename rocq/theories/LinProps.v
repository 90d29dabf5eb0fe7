(** Proofs of the properties C01 - C06, C09 - C12 of vectors and matrices. *)
From Coq Require Import Permutation NArith Nnat.
From Verif Require Import Base VectorModel MatrixModel InPlaceModel LinSpec LinSpec2.
From Verif Require Import MatProofs MatProofs2 MatProofs3 LinProofs.

(** Small matrices for the examples. *)
Definition mat23 : matrix Z := Mat 2 3 [1; 2; 3; 4; 5; 6]%Z.
Definition q (n : Z) : Qc := Q2Qc (n # 1).

(** Compute and compare rational results. *)
Ltac qcompute :=
  vm_compute; try reflexivity;
  repeat (match goal with |- @eq Qc _ _ => fail 1 | |- _ => f_equal end); try reflexivity;
  apply Qc_is_canon; reflexivity.

Lemma entry_some_wf {A} (m : matrix A) i j :
  well_formed m -> i < nr m -> j < nc m -> exists a, entry m i j = Some a.
Proof.
  intros Hw Hi Hj. unfold entry. bsolve.
  destruct (nth_error (dat m) (i * nc m + j)) eqn:E; [eauto|].
  apply nth_error_None in E. rewrite Hw in E. pose proof (flat_lt i j (nr m) (nc m) Hi Hj). lia.
Qed.

(** [C01] Transposing a matrix of any element type and shape. *)
Lemma transpose_pf : forall (A : Type) (m : matrix A), well_formed m ->
  exists t, mT m = Ok t /\ well_formed t /\ nr t = nc m /\ nc t = nr m /\
    (forall i j, i < nr m -> j < nc m -> entry t j i = entry m i j) /\
    mT t = Ok m.
Proof.
  intros A m Hw.
  destruct (Nat.eq_dec (nr m * nc m) 0) as [E|E].
  - exists (Mat (nc m) (nr m) []).
    assert (Hd : dat m = []) by (apply length_zero_iff_nil; rewrite Hw; auto).
    assert (Hb : forall r c (f : nat -> nat -> res A), r * c = 0 -> mbuild r c f = Ok (Mat r c [])).
    { intros r c f H0. unfold mbuild.
      apply Nat.eq_mul_0 in H0 as [->| ->].
      - reflexivity.
      - cbn [seq mapM]. assert (Hm : forall l, mapM (fun _ : nat => Ok (@nil A)) l = Ok (map (fun _ => []) l)).
        { intros l. apply mapM_ok. auto. }
        rewrite Hm. cbn [bind]. do 2 f_equal. clear. induction (seq 0 r); simpl; auto. }
    repeat split.
    + unfold mT. rewrite Hb by lia. reflexivity.
    + unfold well_formed; simpl; lia.
    + intros i j Hi Hj. destruct (nr m), (nc m); lia.
    + unfold mT. cbn [nr nc]. rewrite Hb by lia. destruct m; simpl in *; subst; reflexivity.
  - assert (exists d : A, True) as [d _].
    { destruct (dat m) as [|d l] eqn:Ed; [|exists d; auto].
      unfold well_formed in Hw. rewrite Ed in Hw. simpl in Hw. lia. }
    exists (mat_of (nc m) (nr m) (fun j i => ent d m i j)).
    rewrite (mT_ok d) by auto. repeat split; auto using mat_of_wf.
    + intros i j Hi Hj. rewrite entry_mat_of, (entry_ent d) by auto. reflexivity.
    + rewrite mT_mat_of, mat_of_eta by auto. reflexivity.
Qed.

Lemma transpose_example_expf :
  well_formed mat23 /\ mT mat23 = Ok (Mat 3 2 [1; 4; 2; 5; 3; 6]%Z).
Proof. split; reflexivity. Qed.

(** [C02] Writing a block and reading it back, for all positions for which
    position + block size does not overflow 64 bits.  (The block is assumed to
    have fewer than 2^60 entries, the largest size a std::vector<double> can
    have.)  Missing from the full property: positions for which the sum
    overflows; see [block_write_wraps_refuted]. *)
Lemma block_write_read_partial_pf :
  forall (A : Type) (m b : matrix A) (r c : N),
  well_formed m -> well_formed b ->
  (r + N.of_nat (nr b) < 2 ^ 64)%N -> (c + N.of_nat (nc b) < 2 ^ 64)%N ->
  (N.of_nat (nr b) * N.of_nat (nc b) < 2 ^ 60)%N ->
  let fits := N.to_nat r + nr b <= nr m /\ N.to_nat c + nc b <= nc m in
  (fits -> exists m',
     setBlock_st m r c b = (m', Ok tt) /\
     well_formed m' /\ nr m' = nr m /\ nc m' = nc m /\
     getBlock_sz m' r c (N.of_nat (nr b)) (N.of_nat (nc b))
       = Ok (N.of_nat (nr b), N.of_nat (nc b), dat b) /\
     (forall i j, i < nr m -> j < nc m ->
        (i < N.to_nat r \/ N.to_nat r + nr b <= i \/ j < N.to_nat c \/ N.to_nat c + nc b <= j) ->
        entry m' i j = entry m i j) /\
     (forall i j, i < nr b -> j < nc b ->
        entry m' (N.to_nat r + i) (N.to_nat c + j) = entry b i j)) /\
  (~ fits -> setBlock_st m r c b = (m, Throw out_of_range) /\
             getBlock_sz m r c (N.of_nat (nr b)) (N.of_nat (nc b)) = Throw out_of_range).
Proof.
  intros A m b r c Hm Hb Hr Hc Hs fits. split.
  - intros (Hfr & Hfc).
    assert (Hcase : (exists d : A, True) \/ (dat m = [] /\ dat b = [])).
    { destruct (dat m) as [|d l]; [|left; exists d; auto].
      destruct (dat b) as [|d l]; [|left; exists d; auto]. right; auto. }
    destruct Hcase as [[d _]|[Hdm Hdb]].
    + rewrite (setBlock_st_fits d) by auto.
      eexists; split; [reflexivity|]. repeat split; auto using mat_of_wf.
      * rewrite (getBlock_sz_ok d); rewrite ?Nat2N.id; auto; cbn [nr nc mat_of]; try lia.
        2: apply mat_of_wf.
        do 2 f_equal. rewrite <- (mat_of_eta d b) at 3 by auto. f_equal.
        apply mat_of_ext. intros i j Hi Hj.
        rewrite mat_of_ent by lia. unfold in_block.
        replace (N.to_nat r + i - N.to_nat r) with i by lia.
        replace (N.to_nat c + j - N.to_nat c) with j by lia.
        bsolve. reflexivity.
      * intros i j Hi Hj Hout. rewrite entry_mat_of, (entry_ent d) by auto. f_equal.
        unfold in_block. bsolve; try reflexivity; lia.
      * intros i j Hi Hj. rewrite entry_mat_of, (entry_ent d) by (auto; lia). f_equal.
        unfold in_block.
        replace (N.to_nat r + i - N.to_nat r) with i by lia.
        replace (N.to_nat c + j - N.to_nat c) with j by lia.
        bsolve. reflexivity.
    + assert (Hzb : nr b * nc b = 0) by (rewrite <- Hb, Hdb; reflexivity).
      assert (Hst : setBlock_st m r c b = (m, Ok tt)).
      { unfold setBlock_st. rewrite !w64_small by auto.
        destruct (N.ltb_spec (N.of_nat (nr m)) (r + N.of_nat (nr b))); [lia|].
        destruct (N.ltb_spec (N.of_nat (nc m)) (c + N.of_nat (nc b))); [lia|].
        replace (N.to_nat (r + N.of_nat (nr b) - r)) with (nr b) by lia.
        replace (N.to_nat (c + N.of_nat (nc b) - c)) with (nc b) by lia.
        apply Nat.eq_mul_0 in Hzb as [-> | ->]; [reflexivity|].
        cbn [seq loopI]. clear. induction (seq 0 (nr b)); simpl; auto. }
      exists m. rewrite Hst. repeat split; auto.
      * unfold getBlock_sz, too_long. rewrite !w64_small by lia.
        destruct (N.ltb_spec (N.of_nat (nr m)) (r + N.of_nat (nr b))); [lia|].
        destruct (N.ltb_spec (N.of_nat (nc m)) (c + N.of_nat (nc b))); [lia|].
        destruct (N.leb_spec (2 ^ 60) (N.of_nat (nr b) * N.of_nat (nc b))); [lia|].
        replace (N.to_nat (r + N.of_nat (nr b) - r)) with (nr b) by lia.
        replace (N.to_nat (c + N.of_nat (nc b) - c)) with (nc b) by lia.
        rewrite Hdb. apply Nat.eq_mul_0 in Hzb as [-> | ->]; [reflexivity|].
        cbn [seq mapM].
        rewrite (mapM_ok _ (fun _ => [])) by auto. cbn [bind]. do 2 f_equal.
        clear. induction (seq 0 (nr b)); simpl; auto.
      * intros i j Hi Hj. destruct (nr b), (nc b); lia.
  - intros Hnf. unfold setBlock_st, getBlock_sz. rewrite !w64_small by auto.
    destruct (N.ltb_spec (N.of_nat (nr m)) (r + N.of_nat (nr b))); [auto|].
    destruct (N.ltb_spec (N.of_nat (nc m)) (c + N.of_nat (nc b))); [auto|].
    exfalso. apply Hnf. unfold fits. split; lia.
Qed.

Lemma block_write_read_example_expf :
  let b := Mat 1 2 [8; 9]%Z in
  well_formed mat23 /\ well_formed b /\
  setBlock_st mat23 1 1 b = (Mat 2 3 [1; 2; 3; 4; 8; 9]%Z, Ok tt) /\
  setBlock_st mat23 1 2 b = (mat23, Throw out_of_range).
Proof. repeat split. Qed.

(** [C02] The full property is false: at row 2^64 - 1 a block with two rows is
    accepted silently, although it does not fit. *)
Lemma block_write_wraps_refuted_pf :
  exists (m b : matrix Z) (r c : N),
    well_formed m /\ well_formed b /\ (r < 2 ^ 64)%N /\ (c < 2 ^ 64)%N /\
    nr m < N.to_nat r + nr b /\
    setBlock_st m r c b = (m, Ok tt).
Proof.
  exists (Mat 1 1 [5]%Z), (Mat 2 1 [7; 8]%Z), (2 ^ 64 - 1)%N, 0%N.
  repeat split; cbn [nr]; lia.
Qed.

(** [C03] Selecting rows and columns by index sets that are in range and not
    longer than the matrix.  Indices that are negative or larger than the size
    are rejected.  Missing: index = size, longer index sets with repetitions,
    and bad columns together with no rows; see the refutations below. *)
Lemma index_sets_partial_pf :
  forall (A : Type) (m : matrix A) (I J : list Z),
  well_formed m -> length I <= nr m -> length J <= nc m ->
  ((forall z, In z I -> (0 <= z < Z.of_nat (nr m))%Z) ->
   (forall z, In z J -> (0 <= z < Z.of_nat (nc m))%Z) ->
   exists s, mgetFromIndexSet m I J = Ok s /\ well_formed s /\
     nr s = length I /\ nc s = length J /\
     forall a b, a < length I -> b < length J ->
       entry s a b = entry m (Z.to_nat (nth a I 0%Z)) (Z.to_nat (nth b J 0%Z))) /\
  ((forall z, In z I -> z <> Z.of_nat (nr m)) ->
   (forall z, In z J -> z <> Z.of_nat (nc m)) ->
   I <> [] -> J <> [] ->
   (exists z, (In z I /\ ~ (0 <= z < Z.of_nat (nr m))%Z) \/
              (In z J /\ ~ (0 <= z < Z.of_nat (nc m))%Z)) ->
   mgetFromIndexSet m I J = Throw out_of_range).
Proof.
  intros A m I J Hw HlI HlJ. split.
  - intros HI HJ.
    destruct (dat m) as [|d l] eqn:Ed.
    + (* no entries at all *)
      assert (Hz : nr m * nc m = 0) by (rewrite <- Hw, Ed; reflexivity).
      assert (Hempty : length I * length J = 0).
      { apply Nat.eq_mul_0 in Hz as [Hz|Hz].
        - destruct I; simpl in *; lia.
        - destruct J; simpl in *; lia. }
      exists (Mat (length I) (length J) []).
      assert (Hb : forall r c (f : nat -> nat -> res A), r * c = 0 -> mbuild r c f = Ok (Mat r c [])).
      { intros r c f H0. unfold mbuild. apply Nat.eq_mul_0 in H0 as [->| ->]; [reflexivity|].
        cbn [seq mapM]. rewrite (mapM_ok _ (fun _ => [])) by auto. cbn [bind]. do 2 f_equal.
        clear. induction (seq 0 r); simpl; auto. }
      repeat split; cbn [nr nc]; auto.
      * unfold mgetFromIndexSet.
        destruct (Nat.ltb_spec (nr m) (length I)); [lia|].
        destruct (Nat.ltb_spec (nc m) (length J)); [lia|]. apply Hb; auto.
      * unfold well_formed; simpl; lia.
      * intros a b Ha Hbb. destruct (length I), (length J); lia.
    + rewrite (mgetFromIndexSet_ok d) by auto.
      eexists; split; [reflexivity|]. repeat split; auto using mat_of_wf.
      intros a b Ha Hb. rewrite entry_mat_of by auto. symmetry. apply entry_ent; auto.
      * pose proof (HI _ (nth_In I 0%Z Ha)). lia.
      * pose proof (HJ _ (nth_In J 0%Z Hb)). lia.
  - intros HneI HneJ HI0 HJ0 Hbad. unfold mgetFromIndexSet.
    destruct (Nat.ltb_spec (nr m) (length I)); [lia|].
    destruct (Nat.ltb_spec (nc m) (length J)); [lia|].
    set (f := fun i j : nat => zi <- vget I i ;; zj <- vget J j ;; mget_z m zi zj).
    assert (Hf : forall i j, i < length I -> j < length J ->
      ((0 <= nth i I 0 < Z.of_nat (nr m))%Z /\ (0 <= nth j J 0 < Z.of_nat (nc m))%Z /\ is_ok (f i j)) \/
      ((~ (0 <= nth i I 0 < Z.of_nat (nr m))%Z \/ ~ (0 <= nth j J 0 < Z.of_nat (nc m))%Z) /\
       f i j = Throw out_of_range)).
    { intros i j Hi Hj. unfold f. rewrite (vget_ok I i 0%Z), (vget_ok J j 0%Z) by auto.
      cbn [bind]. pose proof (HneI _ (nth_In I 0%Z Hi)). pose proof (HneJ _ (nth_In J 0%Z Hj)).
      set (zi := nth i I 0%Z) in *. set (zj := nth j J 0%Z) in *.
      destruct (Z_lt_dec zi 0); [right; split; [lia|]; unfold mget_z;
        destruct (Z.ltb_spec zi 0); [reflexivity|lia]|].
      destruct (Z_le_dec (Z.of_nat (nr m)) zi); [right; split; [lia|]; unfold mget_z;
        destruct (Z.ltb_spec zi 0); [lia|];
        destruct (Nat.ltb_spec (nr m) (Z.to_nat zi)); [reflexivity|lia]|].
      destruct (Z_lt_dec zj 0); [right; split; [lia|]; unfold mget_z;
        destruct (Z.ltb_spec zi 0); [lia|];
        destruct (Nat.ltb_spec (nr m) (Z.to_nat zi)); [lia|];
        destruct (Z.ltb_spec zj 0); [reflexivity|lia]|].
      destruct (Z_le_dec (Z.of_nat (nc m)) zj); [right; split; [lia|]; unfold mget_z;
        destruct (Z.ltb_spec zi 0); [lia|];
        destruct (Nat.ltb_spec (nr m) (Z.to_nat zi)); [lia|];
        destruct (Z.ltb_spec zj 0); [lia|]; unfold mget, flattenIndex;
        destruct (Nat.ltb_spec (nr m) (Z.to_nat zi)); [lia|];
        destruct (Nat.ltb_spec (nc m) (Z.to_nat zj)); [reflexivity|lia]|].
      left. split; [lia|]. split; [lia|].
      destruct (dat m) as [|d l] eqn:Ed.
      - exfalso. assert (Hz : nr m * nc m = 0) by (rewrite <- Hw, Ed; reflexivity).
        apply Nat.eq_mul_0 in Hz. lia.
      - exists (ent d m (Z.to_nat zi) (Z.to_nat zj)). apply mget_z_ok; auto; lia. }
    clearbody f.
    (* a loop of which every step succeeds or throws, and one throws, throws *)
    assert (Hloop : forall (B : Type) (g : nat -> res B) l,
      (forall i, In i l -> is_ok (g i) \/ g i = Throw out_of_range) ->
      (exists i, In i l /\ g i = Throw out_of_range) -> mapM g l = Throw out_of_range).
    { intros B g l. induction l as [|a l IH]; intros Hall (i & Hi & Hg); [contradiction|].
      cbn [mapM]. destruct (Hall a (or_introl eq_refl)) as [[x Hx]|Hx]; rewrite Hx; [|reflexivity].
      cbn [bind]. destruct Hi as [->|Hi]; [congruence|].
      rewrite IH; [reflexivity| |eauto]. intros; apply Hall; simpl; auto. }
    assert (Hok : forall (B : Type) (g : nat -> res B) l,
      (forall i, In i l -> is_ok (g i)) -> is_ok (mapM g l)).
    { intros B g l. induction l as [|a l IH]; intros Hall; [exists []; reflexivity|].
      cbn [mapM]. destruct (Hall a (or_introl eq_refl)) as [x Hx]. rewrite Hx. cbn [bind].
      destruct IH as [y Hy]; [intros; apply Hall; simpl; auto|]. rewrite Hy. cbn [bind].
      eexists; reflexivity. }
    assert (HlI0 : 0 < length I) by (destruct I; simpl; [congruence|lia]).
    assert (HlJ0 : 0 < length J) by (destruct J; simpl; [congruence|lia]).
    unfold mbuild. rewrite Hloop; [reflexivity| |].
    + intros i Hi. apply in_seq in Hi.
      destruct (Forall_Exists_dec (fun j => is_ok (f i j)) ltac:(intros j; destruct (f i j) eqn:Efij;
         [left; eexists; exact Efij|right; intros [? ?]; congruence|right; intros [? ?]; congruence])
         (seq 0 (length J))) as [HF|HE].
      * left. apply Hok. intros j Hj. rewrite Forall_forall in HF. auto.
      * right. apply Hloop.
        -- intros j Hj. apply in_seq in Hj. destruct (Hf i j) as [(_ & _ & ?)|(_ & ?)]; auto; lia.
        -- apply Exists_exists in HE as (j & Hj & Hn). exists j. split; auto.
           apply in_seq in Hj. destruct (Hf i j) as [(_ & _ & ?)|(_ & ?)]; try lia; tauto.
    + assert (Hrow : forall i, i < length I ->
         (exists j, j < length J /\ f i j = Throw out_of_range) ->
         mapM (fun j => f i j) (seq 0 (length J)) = Throw out_of_range).
      { intros i Hi (j & Hj & E). apply Hloop.
        - intros j' Hj'. apply in_seq in Hj'. destruct (Hf i j') as [(_ & _ & ?)|(_ & ?)]; auto; lia.
        - exists j. split; auto. apply in_seq. lia. }
      destruct Hbad as (z & [(Hin & Hz)|(Hin & Hz)]).
      * apply (In_nth _ _ 0%Z) in Hin as (i & Hi & <-). exists i. split; [apply in_seq; lia|].
        apply Hrow; auto. exists 0. split; auto.
        destruct (Hf i 0 Hi HlJ0) as [(? & _)|(_ & ?)]; auto. contradiction.
      * apply (In_nth _ _ 0%Z) in Hin as (j & Hj & <-). exists 0. split; [apply in_seq; lia|].
        apply Hrow; auto. exists j. split; auto.
        destruct (Hf 0 j HlI0 Hj) as [(_ & ? & _)|(_ & ?)]; auto. contradiction.
Qed.

Lemma index_sets_example_expf :
  mgetFromIndexSet mat23 [1; 0]%Z [2; 2; 0]%Z = Ok (Mat 2 3 [6; 6; 4; 3; 3; 1]%Z) /\
  mgetFromIndexSet mat23 [1]%Z [-1]%Z = Throw out_of_range /\
  mgetFromIndexSet mat23 [1]%Z [4]%Z = Throw out_of_range.
Proof. repeat split. Qed.

(** [C03] The full property is false: column index = number of columns is
    accepted and silently returns the first entry of the next row; row index =
    number of rows reads past the storage; and in-range indices are rejected
    when there are more of them than rows. *)
Lemma index_sets_refuted_pf :
  (exists (m : matrix Z) I J z, well_formed m /\ In z J /\ ~ (0 <= z < Z.of_nat (nc m))%Z /\
     exists s, mgetFromIndexSet m I J = Ok s) /\
  (exists (m : matrix Z) I J z, well_formed m /\ In z I /\ ~ (0 <= z < Z.of_nat (nr m))%Z /\
     mgetFromIndexSet m I J = UB) /\
  (exists (m : matrix Z) I J, well_formed m /\
     (forall z, In z I -> (0 <= z < Z.of_nat (nr m))%Z) /\
     (forall z, In z J -> (0 <= z < Z.of_nat (nc m))%Z) /\
     raises (mgetFromIndexSet m I J)).
Proof.
  repeat split.
  - exists mat23, [0]%Z, [3]%Z, 3%Z. repeat split; simpl; auto; try lia. eexists. reflexivity.
  - exists mat23, [2]%Z, [0]%Z, 2%Z. repeat split; simpl; auto; lia.
  - exists mat23, [0; 0; 1]%Z, [0]%Z. repeat split; simpl in *; try lia.
    all: try (destruct H as [<-|[<-|[<-|[]]]]; lia).
    all: try (destruct H as [<-|[]]; lia).
    eexists; reflexivity.
Qed.

(** * Block permutations *)
Lemma block_start_offs sizes k : k <= length sizes -> block_start sizes k = offs sizes k.
Proof.
  revert k; induction sizes as [|s sizes IH]; intros [|k] Hk; simpl in *; try reflexivity; try lia.
  rewrite IH by lia. rewrite offs_cons. reflexivity.
Qed.

Lemma offs_in_layout S a i :
  a < length S -> i < nth a S 0 -> offs S a + i < list_sum S.
Proof. intros Ha Hi. pose proof (offs_le S a Ha). lia. Qed.

Lemma rearranged_length S I : length (rearranged S I) = length I.
Proof. apply map_length. Qed.

Lemma rearranged_nth S I a : a < length I -> nth a (rearranged S I) 0 = nth (nth a I 0) S 0.
Proof.
  intros Ha. unfold rearranged.
  rewrite (nth_indep _ 0 (nth 0 S 0)) by (rewrite map_length; auto).
  rewrite (map_nth (fun b => nth b S 0)). reflexivity.
Qed.

Lemma inverse_perm_is_perm I J n : is_perm I n -> inverse_perm I J -> is_perm J n.
Proof.
  intros HI (Hl & H1 & H2). unfold is_perm in *.
  pose proof (perm_seq_length _ _ HI) as HlI.
  apply NoDup_Permutation_bis.
  - apply NoDup_nth with (d := 0). intros i j Hi Hj E.
    rewrite <- (H2 i), <- (H2 j) by lia. rewrite E. reflexivity.
  - rewrite seq_length. lia.
  - intros x Hx. apply (In_nth _ _ 0) in Hx as (a & Ha & <-).
    apply in_seq. split; [lia|].
    destruct (Nat.lt_ge_cases (nth a J 0) n) as [?|Hge]; [lia|]. exfalso.
    (* a is the image of some b, hence J a = b is in range *)
    assert (Hin : In a I).
    { apply (Permutation_in _ (Permutation_sym HI)). apply in_seq. lia. }
    apply (In_nth _ _ 0) in Hin as (b & Hb & Eb).
    pose proof (H1 b Hb) as E. rewrite Eb in E. lia.
Qed.

(** [C04] Block permutation of a matrix: where blocks go, and how to undo it. *)
Lemma block_permute_pf :
  forall (A : Type) (m : matrix A) (I J R C : list nat),
  well_formed m ->
  is_perm I (length R) -> list_sum R = nr m ->
  is_perm J (length C) -> list_sum C = nc m ->
  exists p, mblockPermute m I J R C = Ok p /\
    well_formed p /\ nr p = nr m /\ nc p = nc m /\
    (forall a b i j, a < length R -> b < length C ->
       i < nth (nth a I 0) R 0 -> j < nth (nth b J 0) C 0 ->
       entry p (block_start (rearranged R I) a + i) (block_start (rearranged C J) b + j)
       = entry m (block_start R (nth a I 0) + i) (block_start C (nth b J 0) + j)) /\
    (forall I' J', inverse_perm I I' -> inverse_perm J J' ->
       mblockPermute p I' J' (rearranged R I) (rearranged C J) = Ok m).
Proof.
  intros A m I J R C Hw HI HR HJ HC.
  pose proof (perm_seq_length _ _ HI) as HlI. pose proof (perm_seq_length _ _ HJ) as HlJ.
  assert (Hsum : list_sum (rearranged R I) = nr m) by (unfold rearranged; rewrite list_sum_permuted; auto).
  assert (HsumC : list_sum (rearranged C J) = nc m) by (unfold rearranged; rewrite list_sum_permuted; auto).
  destruct (Nat.eq_dec (nr m * nc m) 0) as [E|E].
  - (* empty matrices *)
    assert (Hb : forall r c (f : nat -> nat -> res A), r * c = 0 -> mbuild r c f = Ok (Mat r c [])).
    { intros r c f H0. unfold mbuild. apply Nat.eq_mul_0 in H0 as [->| ->]; [reflexivity|].
      cbn [seq mapM]. rewrite (mapM_ok _ (fun _ => [])) by auto. cbn [bind]. do 2 f_equal.
      clear. induction (seq 0 r); simpl; auto. }
    assert (Hp : forall (m0 : matrix A) I J R C, nr m0 * nc m0 = 0 ->
       is_perm I (length R) -> list_sum R = nr m0 -> is_perm J (length C) -> list_sum C = nc m0 ->
       mblockPermute m0 I J R C = Ok (Mat (nr m0) (nc m0) [])).
    { intros m0 I0 J0 R0 C0 E0 HI0 HR0 HJ0 HC0. unfold mblockPermute.
      rewrite !sum_sizes_list_sum, HR0, HC0, !Nat.eqb_refl. cbn [negb].
      rewrite (blockIndexList_ok I0 R0), (blockIndexList_ok J0 C0) by auto. cbn [bind].
      assert (L1 : length (gidx R0 I0) = nr m0)
        by (rewrite (Permutation_length (gidx_perm R0 I0 HI0)), seq_length; auto).
      assert (L2 : length (gidx C0 J0) = nc m0)
        by (rewrite (Permutation_length (gidx_perm C0 J0 HJ0)), seq_length; auto).
      unfold mgetFromIndexSet. rewrite !map_length, L1, L2, !Nat.ltb_irrefl. apply Hb; auto. }
    assert (Hdm : dat m = []) by (apply length_zero_iff_nil; rewrite Hw; auto).
    exists (Mat (nr m) (nc m) []). split; [apply Hp; auto|]. repeat split.
    + unfold well_formed; simpl; lia.
    + intros a b i j Ha Hb2 Hi Hj. exfalso.
      assert (nth a I 0 < length R) by (eapply perm_seq_nth; eauto).
      assert (nth b J 0 < length C) by (eapply perm_seq_nth; eauto).
      pose proof (offs_in_layout R (nth a I 0) i). pose proof (offs_in_layout C (nth b J 0) j).
      apply Nat.eq_mul_0 in E. lia.
    + intros I' J' HI' HJ'. rewrite Hp; cbn [nr nc]; auto; rewrite ?rearranged_length, ?HlI, ?HlJ.
      * destruct m; simpl in *; subst; reflexivity.
      * eapply inverse_perm_is_perm; eauto.
      * eapply inverse_perm_is_perm; eauto.
  - assert (exists d : A, True) as [d _].
    { destruct (dat m) as [|d l] eqn:Ed; [|exists d; auto].
      unfold well_formed in Hw. rewrite Ed in Hw. simpl in Hw. lia. }
    rewrite (mblockPermute_ok d) by auto. eexists; split; [reflexivity|].
    split; [apply mat_of_wf|]. split; [reflexivity|]. split; [reflexivity|]. split.
    + intros a b i j Ha Hb Hi Hj.
      assert (HaI : nth a I 0 < length R) by (eapply perm_seq_nth; eauto).
      assert (HbJ : nth b J 0 < length C) by (eapply perm_seq_nth; eauto).
      rewrite !block_start_offs by (rewrite ?rearranged_length; lia).
      rewrite entry_mat_of.
      * unfold rearranged. rewrite !nth_gidx by (auto; lia). symmetry. apply entry_ent; auto.
        -- rewrite <- HR. apply offs_in_layout; auto.
        -- rewrite <- HC. apply offs_in_layout; auto.
      * rewrite <- Hsum. apply offs_in_layout; rewrite ?rearranged_length; [lia|].
        rewrite rearranged_nth by lia. auto.
      * rewrite <- HsumC. apply offs_in_layout; rewrite ?rearranged_length; [lia|].
        rewrite rearranged_nth by lia. auto.
    + intros I' J' HI' HJ'.
      assert (HpI : is_perm I' (length R)) by (eapply inverse_perm_is_perm; eauto).
      assert (HpJ : is_perm J' (length C)) by (eapply inverse_perm_is_perm; eauto).
      rewrite (mblockPermute_ok d); rewrite ?rearranged_length, ?HlI, ?HlJ; auto using mat_of_wf.
      f_equal. symmetry. apply (mat_is d); auto. cbn [nr nc mat_of]. intros i j Hi Hj.
      assert (Bi : nth i (gidx (rearranged R I) I') 0 < nr m).
      { rewrite <- Hsum. apply (gidx_bound _ I'); [rewrite rearranged_length, HlI; auto|].
        apply nth_In. rewrite (Permutation_length (gidx_perm (rearranged R I) I'
          ltac:(rewrite rearranged_length, HlI; auto))), seq_length. lia. }
      assert (Bj : nth j (gidx (rearranged C J) J') 0 < nc m).
      { rewrite <- HsumC. apply (gidx_bound _ J'); [rewrite rearranged_length, HlJ; auto|].
        apply nth_In. rewrite (Permutation_length (gidx_perm (rearranged C J) J'
          ltac:(rewrite rearranged_length, HlJ; auto))), seq_length. lia. }
      rewrite mat_of_ent by auto.
      destruct HI' as (L1 & _ & V1). destruct HJ' as (L2 & _ & V2).
      unfold rearranged. rewrite !gidx_inverse; auto; try lia.
      * intros a Ha. apply V2. lia.
      * intros a Ha. apply V1. lia.
Qed.

Lemma block_permute_example_expf :
  is_perm [2; 0; 1] 3 /\ inverse_perm [2; 0; 1] [1; 2; 0] /\
  mblockPermute mat23 [1; 0] [2; 0; 1] [1; 1] [1; 1; 1] = Ok (Mat 2 3 [6; 4; 5; 3; 1; 2]%Z).
Proof.
  split; [|split].
  - apply (Permutation_trans (l' := [0; 2; 1])); [apply perm_swap|apply perm_skip, perm_swap].
  - repeat split; intros a Ha; simpl in Ha;
      (destruct a as [|[|[|a]]]; [reflexivity|reflexivity|reflexivity|lia]).
  - reflexivity.
Qed.

(** [C06] Block permutation commutes with matrix-vector multiplication. *)
Lemma block_permute_mulv_pf :
  forall (m : matrix Qc) (x : list Qc) (I J R C : list nat),
  well_formed m -> length x = nc m ->
  is_perm I (length R) -> list_sum R = nr m ->
  is_perm J (length C) -> list_sum C = nc m ->
  (p <- mblockPermute m I J R C ;; y <- vblockPermute x J C ;; mulv p y)
  = (z <- mulv m x ;; vblockPermute z I R).
Proof.
  intros m x I J R C Hw Hx HI HR HJ HC.
  rewrite (mblockPermute_ok 0%Qc), (vblockPermute_ok 0%Qc x) by (auto; lia). cbn [bind].
  set (y := map (fun k => nth k x 0%Qc) (gidx C J)).
  assert (Ly : length y = nc m).
  { unfold y. rewrite map_length, (Permutation_length (gidx_perm C J HJ)), seq_length. auto. }
  destruct (Nat.eq_dec (nc m) 0) as [E|E].
  - unfold mulv. cbn [nr nc mat_of]. rewrite Ly, Hx, Nat.eqb_refl. cbn [negb].
    rewrite E. reflexivity.
  - rewrite (mulv_ok (mat_of _ _ _) y) by (try apply mat_of_wf; cbn [nr nc mat_of]; auto).
    rewrite (mulv_ok m x) by auto. cbn [bind nr nc mat_of].
    rewrite (vblockPermute_ok 0%Qc) by (rewrite ?vec_of_length; auto).
    f_equal.
    assert (LR : length (gidx R I) = nr m)
      by (rewrite (Permutation_length (gidx_perm R I HI)), seq_length; auto).
    apply (list_ext 0%Qc).
    + rewrite vec_of_length, map_length. auto.
    + rewrite vec_of_length. intros i Hi. rewrite nth_vec_of by auto.
      set (G := fun k => nth k (vec_of (nr m) (fun i => sum (nc m) (fun j => qent m i j * vval x j)%Qc)) 0%Qc).
      rewrite (nth_indep _ 0%Qc (G 0)) by (rewrite map_length; lia).
      rewrite (map_nth G). unfold G.
      assert (Hb : nth i (gidx R I) 0 < nr m).
      { rewrite <- HR. apply (gidx_bound R I); auto. apply nth_In. lia. }
      rewrite nth_vec_of by auto.
      pose proof (gidx_perm C J HJ) as HG. rewrite HC in HG.
      rewrite <- (sum_reindex _ _ (fun j => qent m (nth i (gidx R I) 0%nat) j * vval x j)%Qc HG).
      apply sum_ext. intros j Hj. rewrite mat_of_ent by auto. f_equal.
      unfold vval, y. rewrite (nth_indep _ 0%Qc (nth 0 x 0%Qc)) by (fold y; lia).
      rewrite (map_nth (fun k => nth k x 0%Qc)). reflexivity.
Qed.

Lemma block_permute_mulv_example_expf :
  let m := Mat 2 3 (map q [1; 2; 3; 4; 5; 6]%Z) in
  let x := map q [7; 8; 9]%Z in
  (p <- mblockPermute m [1; 0] [2; 0; 1] [1; 1] [1; 1; 1] ;;
   y <- vblockPermute x [2; 0; 1] [1; 1; 1] ;; mulv p y) = Ok (map q [122; 50]%Z) /\
  mulv m x = Ok (map q [50; 122]%Z).
Proof. split; vm_compute; reflexivity. Qed.

(** * Vectors *)

(** [C05] Concatenation and segments, for all start positions and lengths whose
    sum does not overflow 64 bits (lengths below 2^60, the largest possible
    vector).  Missing: sums that overflow, see [segments_wrap_refuted]. *)
Lemma concatenate_segments_partial_pf :
  forall (A : Type) (zero : A) (vs : list (list A)),
  exists c, concatenate zero vs = Ok c /\
    length c = list_sum (map (@length A) vs) /\
    ((N.of_nat (length c) < 2 ^ 60)%N ->
     forall k, k < length vs ->
       getSegment_sz zero c (N.of_nat (block_start (map (@length A) vs) k))
                            (N.of_nat (length (nth k vs []))) = Ok (nth k vs [])).
Proof.
  intros A zero vs. exists (concat vs). rewrite concatenate_ok. split; [reflexivity|]. split.
  - induction vs as [|v vs IH]; simpl; [reflexivity|]. rewrite app_length. lia.
  - intros Hlen k Hk.
    assert (Hsplit : forall vs k, k < length vs ->
      exists suf, concat vs = concat (firstn k vs) ++ nth k vs [] ++ suf /\
        length (concat (firstn k vs)) = block_start (map (@length A) vs) k).
    { clear. induction vs as [|v vs IH]; intros k Hk; simpl in Hk; [lia|].
      destruct k as [|k]; [exists (concat vs); split; reflexivity|].
      destruct (IH k) as (suf & E1 & E2); [lia|]. exists suf.
      cbn [firstn concat nth map block_start]. rewrite app_length, E2, E1, <- app_assoc. auto. }
    destruct (Hsplit vs k Hk) as (suf & E1 & E2).
    assert (Hl : block_start (map (@length A) vs) k + length (nth k vs []) <= length (concat vs)).
    { rewrite E1, !app_length, E2. lia. }
    rewrite getSegment_sz_ok by lia. rewrite !Nat2N.id.
    rewrite getSegment_firstn by auto. f_equal.
    rewrite E1, <- E2, skipn_app, skipn_all, Nat.sub_diag. cbn [skipn app].
    rewrite firstn_app, firstn_all, Nat.sub_diag, firstn_O, app_nil_r. reflexivity.
Qed.

(** [C05] Writing a segment and reading it back; same restriction. *)
Lemma segment_write_read_partial_pf :
  forall (A : Type) (zero : A) (v w : list A) (start : N),
  (start + N.of_nat (length w) < 2 ^ 64)%N -> (N.of_nat (length w) < 2 ^ 60)%N ->
  let fits := N.to_nat start + length w <= length v in
  (fits -> exists v', setSegment_st v start w = (v', Ok tt) /\ length v' = length v /\
     getSegment_sz zero v' start (N.of_nat (length w)) = Ok w /\
     forall i, i < N.to_nat start \/ N.to_nat start + length w <= i ->
       nth_error v' i = nth_error v i) /\
  (~ fits -> setSegment_st v start w = (v, Throw out_of_range) /\
             getSegment_sz zero v start (N.of_nat (length w)) = Throw out_of_range).
Proof.
  intros A zero v w start H1 H2 fits. split.
  - intros Hf. unfold fits in Hf. rewrite setSegment_st_fits by auto. eexists; split; [reflexivity|].
    set (s := N.to_nat start) in *.
    assert (L1 : length (firstn s v) = s) by (rewrite firstn_length; lia).
    split; [|split].
    + rewrite !app_length, L1, skipn_length. lia.
    + rewrite getSegment_sz_ok by auto. rewrite Nat2N.id. fold s.
      rewrite getSegment_firstn by (rewrite !app_length, L1; lia). f_equal.
      rewrite <- L1 at 1. rewrite skipn_app, skipn_all, Nat.sub_diag. cbn [skipn app].
      rewrite firstn_app, firstn_all, Nat.sub_diag, firstn_O, app_nil_r. reflexivity.
    + intros i Hi. destruct (Nat.lt_ge_cases i s) as [Hlt|Hge].
      * rewrite nth_error_app1 by lia.
        destruct (nth_error v i) eqn:E.
        -- rewrite <- (firstn_skipn s v) in E. rewrite nth_error_app1 in E by lia. auto.
        -- apply nth_error_None in E. lia.
      * rewrite nth_error_app2 by lia. rewrite nth_error_app2 by lia.
        rewrite L1. rewrite <- (firstn_skipn (s + length w) v) at 2.
        rewrite nth_error_app2 by (rewrite firstn_length; lia).
        f_equal. rewrite firstn_length. lia.
  - intros Hnf. assert (Hlt : length v < N.to_nat start + length w) by (unfold fits in Hnf; lia).
    split.
    + apply setSegment_st_rejects; auto.
    + rewrite getSegment_sz_ok by auto. rewrite Nat2N.id. unfold getSegment.
      destruct (Nat.ltb_spec (length v) (N.to_nat start + length w)); [reflexivity|lia].
Qed.

Lemma segments_example_expf :
  concatenate 0%Z [[1; 2]; []; [3; 4; 5]]%Z = Ok [1; 2; 3; 4; 5]%Z /\
  getSegment_sz 0%Z [1; 2; 3; 4; 5]%Z 2 3 = Ok [3; 4; 5]%Z /\
  setSegment_st [1; 2; 3; 4; 5]%Z 1 [8; 9]%Z = ([1; 8; 9; 4; 5]%Z, Ok tt) /\
  setSegment_st [1; 2; 3; 4; 5]%Z 4 [8; 9]%Z = ([1; 2; 3; 4; 5]%Z, Throw out_of_range).
Proof. repeat split; vm_compute; reflexivity. Qed.

(** [C05] The full property is false: at start 2^64 - 1 a segment of length two
    passes the check; reading returns two made-up zeros and writing is ignored. *)
Lemma segments_wrap_refuted_pf :
  exists (v w : list Z) (start : N), (start < 2 ^ 64)%N /\
    length v < N.to_nat start + length w /\
    setSegment_st v start w = (v, Ok tt) /\
    getSegment_sz 0%Z v start (N.of_nat (length w)) = Ok [0; 0]%Z.
Proof.
  exists [1; 2; 3]%Z, [8; 9]%Z, (2 ^ 64 - 1)%N. repeat split; cbn [length]; try lia.
Qed.

(** [C09] Element access.  In range: the element.  Beyond size: exception.
    Missing: index = size (one past the end), see [access_refuted]. *)
Lemma access_partial_pf :
  forall (A : Type) (v : list A) (m : matrix A) (i j : nat),
  (forall a, nth_error v i = Some a -> vget v i = Ok a) /\
  (length v < i -> vget v i = Throw out_of_range) /\
  (well_formed m -> forall a, entry m i j = Some a -> mget m i j = Ok a) /\
  (nr m < i \/ nc m < j -> mget m i j = Throw out_of_range).
Proof.
  intros A v m i j. repeat split.
  - intros a H. assert (i < length v) by (apply nth_error_Some; congruence).
    rewrite (vget_ok v i a) by auto. f_equal. apply nth_error_nth; auto.
  - intros H. unfold vget. destruct (Nat.ltb_spec (length v) i); [reflexivity|lia].
  - intros Hw a H. unfold entry in H.
    destruct (Nat.ltb_spec i (nr m)); [|discriminate].
    destruct (Nat.ltb_spec j (nc m)); [|discriminate]. simpl in H.
    rewrite (mget_ok a) by auto. f_equal. apply nth_error_nth; auto.
  - intros H. unfold mget, flattenIndex.
    destruct (Nat.ltb_spec (nr m) i); [reflexivity|].
    destruct (Nat.ltb_spec (nc m) j); [reflexivity|lia].
Qed.

Lemma access_example_expf :
  vget [4; 5]%Z 1 = Ok 5%Z /\ vget [4; 5]%Z 3 = Throw out_of_range /\
  mget mat23 1 2 = Ok 6%Z /\ mget mat23 1 4 = Throw out_of_range.
Proof. repeat split. Qed.

(** [C09] The full property is false: one past the end is undefined behaviour
    instead of an exception, for every vector; a column index one past the end
    silently reads the next row. *)
Lemma access_refuted_pf :
  (forall (A : Type) (v : list A), vget v (length v) = UB) /\
  (exists m : matrix Z, well_formed m /\ mget m 0 (nc m) = Ok 4%Z) /\
  (exists m : matrix Z, well_formed m /\ mget m (nr m) 0 = UB).
Proof.
  split; [|split].
  - intros A v. unfold vget. rewrite Nat.ltb_irrefl.
    rewrite (proj2 (nth_error_None v (length v))) by auto. reflexivity.
  - exists mat23. split; reflexivity.
  - exists mat23. split; reflexivity.
Qed.

(** [C10] Contiguous ranges.  The property is false: the entries returned are
    the indices a, a+1, ..., b instead of the values stored there. *)
Lemma get_range_refuted_pf :
  exists (v : list Z) a b, a <= b < length v /\
    getRange Z.of_nat v a b <> Ok (firstn (b + 1 - a) (skipn a v)).
Proof. exists [7; 8; 9]%Z, 1, 2. split; [simpl; lia|]. discriminate. Qed.

(** [C10] What does hold: the result has the right length, and it is the right
    range for exactly those vectors whose entries in the range equal their
    index. *)
Lemma get_range_partial_pf :
  forall (A : Type) (of_nat : nat -> A) (v : list A) a b, a <= b < length v ->
  exists r, getRange of_nat v a b = Ok r /\ length r = b + 1 - a /\
    (r = firstn (b + 1 - a) (skipn a v) <->
     forall i, a <= i <= b -> nth_error v i = Some (of_nat i)).
Proof.
  intros A of_nat v a b H. unfold getRange.
  destruct (Nat.ltb_spec (length v) a); [lia|]. destruct (Nat.ltb_spec (length v) b); [lia|].
  destruct (Nat.ltb_spec (b + 1) a); [lia|]. cbn [orb].
  eexists; split; [reflexivity|]. split; [rewrite map_length, seq_length; auto|].
  assert (Hn : forall i, a <= i <= b ->
    nth_error (firstn (b + 1 - a) (skipn a v)) (i - a) = nth_error v i).
  { intros i Hi. rewrite <- (firstn_skipn a v) at 2.
    rewrite nth_error_app2 by (rewrite firstn_length; lia).
    rewrite firstn_length. replace (i - Nat.min a (length v)) with (i - a) by lia.
    rewrite <- (firstn_skipn (b + 1 - a) (skipn a v)) at 2.
    rewrite nth_error_app1; [reflexivity|]. rewrite firstn_length, skipn_length. lia. }
  split.
  - intros E i Hi. rewrite <- Hn, <- E by auto.
    rewrite (nth_error_map_seq (fun i => of_nat (a + i))) by lia. do 2 f_equal. lia.
  - intros E. apply nth_ext with (d := of_nat 0) (d' := of_nat 0).
    + rewrite map_length, seq_length, firstn_length, skipn_length. lia.
    + rewrite map_length, seq_length. intros k Hk.
      rewrite (nth_map_seq (fun i => of_nat (a + i))) by auto.
      symmetry. apply nth_error_nth. specialize (Hn (a + k) ltac:(lia)).
      replace (a + k - a) with k in Hn by lia. rewrite Hn. apply E. lia.
Qed.

Lemma get_range_example_expf :
  getRange Z.of_nat [0; 1; 2; 3]%Z 1 2 = Ok [1; 2]%Z /\
  getRange Z.of_nat [5; 6; 7; 8]%Z 1 2 = Ok [1; 2]%Z.
Proof. split; reflexivity. Qed.

(** [C11] Rows, setting rows and setting columns for every shape; reading a
    column for square matrices.  Missing: getCol of a non-square matrix, see
    [get_col_refuted]. *)
Lemma rows_columns_partial_pf :
  forall (A : Type) (zero : A) (m : matrix A), well_formed m ->
  (forall i, i < nr m -> exists r, getRow zero m i = Ok r /\ length r = nc m /\
     forall j, j < nc m -> nth_error r j = entry m i j) /\
  (forall j, j < nc m -> nr m = nc m -> exists c, getCol zero m j = Ok c /\ length c = nr m /\
     forall i, i < nr m -> nth_error c i = entry m i j) /\
  (forall i v, i < nr m -> length v = nc m ->
     exists m', setRow_st m i v = (m', Ok tt) /\ well_formed m' /\ nr m' = nr m /\ nc m' = nc m /\
       forall i' j, i' < nr m -> j < nc m ->
         entry m' i' j = if Nat.eq_dec i' i then nth_error v j else entry m i' j) /\
  (forall j v, j < nc m -> length v = nr m ->
     exists m', setColumn_st m j v = (m', Ok tt) /\ well_formed m' /\ nr m' = nr m /\ nc m' = nc m /\
       forall i j', i < nr m -> j' < nc m ->
         entry m' i j' = if Nat.eq_dec j' j then nth_error v i else entry m i j') /\
  (forall i v, i < nr m -> length v <> nc m -> setRow_st m i v = (m, Throw invalid_argument)) /\
  (forall j v, j < nc m -> length v <> nr m -> setColumn_st m j v = (m, Throw invalid_argument)).
Proof.
  intros A zero m Hw. repeat split.
  - intros i Hi. rewrite (getRow_ok zero zero) by auto. eexists; split; [reflexivity|].
    split; [apply vec_of_length|]. intros j Hj.
    rewrite (entry_ent zero) by auto. rewrite (nth_error_nth' _ zero) by (rewrite vec_of_length; auto).
    rewrite nth_vec_of by auto. reflexivity.
  - intros j Hj Hs. rewrite (getCol_ok zero zero) by (auto; lia). rewrite Hs, Nat.sub_diag.
    cbn [repeat]. rewrite app_nil_r. eexists; split; [reflexivity|].
    split; [apply vec_of_length|]. intros i Hi.
    rewrite (entry_ent zero) by (auto; lia). rewrite (nth_error_nth' _ zero) by (rewrite vec_of_length; lia).
    rewrite nth_vec_of by lia. reflexivity.
  - intros i v Hi Hv. rewrite (setRow_ok zero) by auto. eexists; split; [reflexivity|].
    repeat split; auto using mat_of_wf. intros i' j Hi' Hj. rewrite entry_mat_of by auto.
    destruct (Nat.eqb_spec i' i), (Nat.eq_dec i' i); try lia.
    + rewrite (nth_error_nth' _ zero) by lia. reflexivity.
    + rewrite (entry_ent zero) by auto. reflexivity.
  - intros j v Hj Hv. rewrite (setColumn_ok zero) by auto. eexists; split; [reflexivity|].
    repeat split; auto using mat_of_wf. intros i j' Hi Hj'. rewrite entry_mat_of by auto.
    destruct (Nat.eqb_spec j' j), (Nat.eq_dec j' j); try lia.
    + rewrite (nth_error_nth' _ zero) by lia. reflexivity.
    + rewrite (entry_ent zero) by auto. reflexivity.
  - intros i v Hi Hv. unfold setRow_st. destruct (Nat.ltb_spec (nr m) i); [lia|].
    destruct (Nat.eqb_spec (length v) (nc m)); [lia|]. reflexivity.
  - intros j v Hj Hv. unfold setColumn_st. destruct (Nat.ltb_spec (nc m) j); [lia|].
    destruct (Nat.eqb_spec (length v) (nr m)); [lia|]. reflexivity.
Qed.

Lemma rows_columns_example_expf :
  getRow 0%Z mat23 1 = Ok [4; 5; 6]%Z /\
  setColumn_st mat23 1 [8; 9]%Z = (Mat 2 3 [1; 8; 3; 4; 9; 6]%Z, Ok tt) /\
  getCol 0%Z (Mat 2 2 [1; 2; 3; 4]%Z) 1 = Ok [2; 4]%Z.
Proof. repeat split. Qed.

(** [C11] The full property is false: for a matrix with more columns than rows
    every getCol runs past the end, and for one with more rows than columns the
    remaining entries are left zero. *)
Lemma get_col_refuted_pf :
  (forall (A : Type) (zero : A) (m : matrix A) j,
     well_formed m -> j < nc m -> nr m < nc m -> getCol zero m j = UB) /\
  (exists (m : matrix Z) j, well_formed m /\ j < nc m /\ nc m < nr m /\
     getCol 0%Z m j = Ok [1; 0; 0]%Z /\ entry m 2 j = Some 3%Z).
Proof.
  split.
  - intros. apply getCol_wide; auto.
  - exists (Mat 3 1 [1; 2; 3]%Z), 0. repeat split; simpl; lia.
Qed.

(** * Arithmetic *)
Lemma vec_of_entrywise op v w :
  entrywise_v op v w (vec_of (length v) (fun i => op (vval v i) (vval w i))).
Proof.
  split; [apply vec_of_length|]. intros i Hi. unfold vval at 1. rewrite nth_vec_of by auto. reflexivity.
Qed.

Lemma mat_of_entrywise op a b : well_formed a -> well_formed b -> nr b = nr a -> nc b = nc a ->
  entrywise_m op a b (mat_of (nr a) (nc a) (fun i j => op (qent a i j) (qent b i j))).
Proof.
  intros Ha Hb Hr Hc. split; [apply mat_of_wf|]. split; [reflexivity|]. split; [reflexivity|].
  intros i j Hi Hj. rewrite val_mat_of, !val_ent by (auto; lia). reflexivity.
Qed.

(** [C12] Vector arithmetic: entrywise results, agreement of compound and binary
    forms, and rejection of mismatched sizes without changing the operand.
    Division is by nonzero numbers. *)
Lemma vector_arithmetic_pf :
  forall (v w : list Qc) (c : Qc),
  (length w = length v ->
     (exists r, vadd v w = Ok r /\ vaddeq_st v w = (r, Ok tt) /\ entrywise_v Qcplus v w r) /\
     (exists r, vsub v w = Ok r /\ vsubeq_st v w = (r, Ok tt) /\ entrywise_v Qcminus v w r) /\
     (exists r, vhad v w = Ok r /\ entrywise_v Qcmult v w r) /\
     ((forall i, i < length w -> vval w i <> 0%Qc) ->
      exists r, vquot v w = Ok r /\ length r = length v /\
        forall i, i < length v -> (vval r i * vval w i = vval v i)%Qc)) /\
  (length w <> length v ->
     vadd v w = Throw invalid_argument /\ vaddeq_st v w = (v, Throw invalid_argument) /\
     vsub v w = Throw invalid_argument /\ vsubeq_st v w = (v, Throw invalid_argument) /\
     vhad v w = Throw invalid_argument /\ vquot v w = Throw invalid_argument /\
     vdot v w = Throw invalid_argument) /\
  (exists r, vneg v = Ok r /\ length r = length v /\
     forall i, i < length v -> vval r i = (- vval v i)%Qc) /\
  (exists r, vscal c v = Ok r /\ vmulseq_st v c = (r, Ok tt) /\ length r = length v /\
     forall i, i < length v -> vval r i = (c * vval v i)%Qc) /\
  (exists r, vadds v c = Ok r /\ vaddseq_st v c = (r, Ok tt) /\ length r = length v /\
     forall i, i < length v -> vval r i = (vval v i + c)%Qc) /\
  (exists r, vsubs v c = Ok r /\ vsubseq_st v c = (r, Ok tt) /\ length r = length v /\
     forall i, i < length v -> vval r i = (vval v i - c)%Qc) /\
  (c <> 0%Qc -> exists r, vdivseq_st v c = (r, Ok tt) /\ length r = length v /\
     forall i, i < length v -> (vval r i * c = vval v i)%Qc).
Proof.
  intros v w c. split; [|split; [|repeat split]].
  - intros H. repeat split.
    + eexists. split; [apply vadd_ok; auto|]. split; [apply vcompound_ok; auto|apply vec_of_entrywise].
    + eexists. split; [apply vsub_ok; auto|]. split; [apply vcompound_ok; auto|apply vec_of_entrywise].
    + eexists. split; [apply ventrywise_ok; auto|apply vec_of_entrywise].
    + intros Hnz. eexists. split; [apply ventrywise_ok; auto|].
      split; [apply vec_of_length|]. intros i Hi. unfold vval at 1. rewrite nth_vec_of by auto.
      field. apply Hnz. lia.
  - intros H.
    assert (E1 : (length w =? length v) = false) by (apply Nat.eqb_neq; auto).
    assert (E2 : (length v =? length w) = false) by (apply Nat.eqb_neq; auto).
    unfold vadd, vaddeq_st, vsub, vsubeq_st, vhad, vquot, vdot, vcompound, ventrywise.
    rewrite E1, E2. repeat split.
  - eexists. split; [apply vneg_ok|]. split; [apply vec_of_length|].
    intros i Hi. unfold vval at 1. rewrite nth_vec_of by auto. reflexivity.
  - eexists. split; [apply vscal_ok|].
    split; [unfold vmulseq_st; rewrite vcompound_s_ok; f_equal; apply vec_of_ext; intros; ring|].
    split; [apply vec_of_length|]. intros i Hi. unfold vval at 1. rewrite nth_vec_of by auto. reflexivity.
  - eexists. split; [apply vscaleq_ok|]. split; [apply vcompound_s_ok|].
    split; [apply vec_of_length|]. intros i Hi. unfold vval at 1. rewrite nth_vec_of by auto. reflexivity.
  - eexists. split; [apply vscaleq_ok|]. split; [apply vcompound_s_ok|].
    split; [apply vec_of_length|]. intros i Hi. unfold vval at 1. rewrite nth_vec_of by auto. reflexivity.
  - intros Hc. eexists. split; [apply vcompound_s_ok|].
    split; [apply vec_of_length|]. intros i Hi. unfold vval at 1. rewrite nth_vec_of by auto.
    field. auto.
Qed.

(** [C12] Matrix arithmetic, except [*=] by a scalar (see
    [matrix_times_assign_refuted]). *)
Lemma matrix_arithmetic_partial_pf :
  forall (a b : matrix Qc) (c : Qc), well_formed a -> well_formed b ->
  (nr b = nr a -> nc b = nc a ->
     (exists r, madd a b = Ok r /\ maddeq_st a b = (r, Ok tt) /\ entrywise_m Qcplus a b r) /\
     (exists r, msub a b = Ok r /\ msubeq_st a b = (r, Ok tt) /\ entrywise_m Qcminus a b r)) /\
  (nr b <> nr a \/ nc b <> nc a ->
     madd a b = Throw invalid_argument /\ maddeq_st a b = (a, Throw invalid_argument) /\
     msub a b = Throw invalid_argument /\ msubeq_st a b = (a, Throw invalid_argument)) /\
  (exists r, mneg a = Ok r /\ entrywise_m (fun x _ => - x)%Qc a a r) /\
  (exists r, mscal c a = Ok r /\ entrywise_m (fun x _ => c * x)%Qc a a r) /\
  (exists r, maddseq_st a c = (r, Ok tt) /\ entrywise_m (fun x _ => x + c)%Qc a a r) /\
  (exists r, msubseq_st a c = (r, Ok tt) /\ entrywise_m (fun x _ => x - c)%Qc a a r).
Proof.
  intros a b c Ha Hb. split; [|split; [|repeat split]].
  - intros Hr Hc. split.
    + eexists. split; [apply mzipeq_ok; auto|]. split; [apply mcompound_ok; auto|].
      apply mat_of_entrywise; auto.
    + eexists. split; [apply mzipeq_ok; auto|]. split; [apply mcompound_ok; auto|].
      apply mat_of_entrywise; auto.
  - intros H. unfold madd, msub, maddeq, msubeq, mzipeq, maddeq_st, msubeq_st, mcompound.
    destruct (Nat.eqb_spec (nr b) (nr a)); cbn [negb]; [|repeat split].
    destruct (Nat.eqb_spec (nc b) (nc a)); cbn [negb]; [lia|repeat split].
  - eexists. split; [apply mneg_ok; auto|]. apply (mat_of_entrywise (fun x _ => - x)%Qc); auto.
  - eexists. split; [apply mscal_ok; auto|]. apply (mat_of_entrywise (fun x _ => c * x)%Qc); auto.
  - eexists. split; [apply mcompound_s_ok; auto|]. apply (mat_of_entrywise (fun x _ => x + c)%Qc); auto.
  - eexists. split; [apply mcompound_s_ok; auto|]. apply (mat_of_entrywise (fun x _ => x - c)%Qc); auto.
Qed.

(** [C12] [A *= c] adds [c] to every entry: it gives the entrywise product for
    no nonempty matrix unless x + c = c * x happens to hold. *)
Lemma matrix_times_assign_refuted_pf :
  (exists (a : matrix Qc) (c : Qc), well_formed a /\
     exists r, mmulseq_st a c = (r, Ok tt) /\ ~ entrywise_m (fun x _ => c * x)%Qc a a r) /\
  (forall (a : matrix Qc) (c : Qc), well_formed a ->
     exists r, mmulseq_st a c = (r, Ok tt) /\ entrywise_m (fun x _ => x + c)%Qc a a r).
Proof.
  split.
  - exists (Mat 1 1 [q 3]), (q 5). split; [reflexivity|].
    eexists. split; [vm_compute; reflexivity|]. intros (_ & _ & _ & H).
    specialize (H 0 0 (le_n 1) (le_n 1)). vm_compute in H. discriminate.
  - intros a c Ha. eexists. split; [apply mcompound_s_ok; auto|].
    apply (mat_of_entrywise (fun x _ => x + c)%Qc); auto.
Qed.

Lemma arithmetic_example_expf :
  vadd (map q [1; 2]%Z) (map q [3; 4]%Z) = Ok (map q [4; 6]%Z) /\
  vsubeq_st (map q [1; 2]%Z) (map q [3]%Z) = (map q [1; 2]%Z, Throw invalid_argument) /\
  vquot (map q [6; 8]%Z) (map q [3; 4]%Z) = Ok (map q [2; 2]%Z) /\
  msub (Mat 1 2 (map q [1; 2]%Z)) (Mat 1 2 (map q [3; 5]%Z)) = Ok (Mat 1 2 (map q [-2; -3]%Z)) /\
  madd (Mat 1 2 (map q [1; 2]%Z)) (Mat 2 1 (map q [3; 5]%Z)) = Throw invalid_argument.
Proof. repeat split; qcompute. Qed.
