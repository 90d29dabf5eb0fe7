(** Lemmas about vectors and matrices: every routine on well-formed arguments is
    reduced to the normal form [mat_of r c f] / [vec_of n f]. *)
From Coq Require Import Permutation.
From Verif Require Import Base VectorModel MatrixModel LinSpec.

Ltac bsolve :=
  repeat match goal with
  | |- context [?a <? ?b] => destruct (Nat.ltb_spec a b); try lia
  | |- context [?a =? ?b] => destruct (Nat.eqb_spec a b); try lia
  | |- context [?a <=? ?b] => destruct (Nat.leb_spec a b); try lia
  end; simpl.

(** * Vectors *)
Definition vec_of {A} (n : nat) (f : nat -> A) : list A := map f (seq 0 n).

Lemma vec_of_length {A} n (f : nat -> A) : length (vec_of n f) = n.
Proof. unfold vec_of. rewrite map_length, seq_length. reflexivity. Qed.

Lemma nth_vec_of {A} n (f : nat -> A) i d : i < n -> nth i (vec_of n f) d = f i.
Proof. apply nth_map_seq. Qed.

Lemma vec_of_eta {A} d (v : list A) : vec_of (length v) (fun i => nth i v d) = v.
Proof. apply map_seq_nth. Qed.

Lemma vec_of_ext {A} n (f g : nat -> A) :
  (forall i, i < n -> f i = g i) -> vec_of n f = vec_of n g.
Proof.
  intros H. apply map_ext_in. intros i Hi. apply in_seq in Hi. apply H. lia.
Qed.

Lemma vec_is {A} d (v : list A) n f :
  length v = n -> (forall i, i < n -> nth i v d = f i) -> v = vec_of n f.
Proof.
  intros Hl H. apply (list_ext d).
  - rewrite vec_of_length. auto.
  - intros i Hi. rewrite nth_vec_of by lia. apply H. lia.
Qed.

Lemma mapM_vec {A} n (f : nat -> res A) g :
  (forall i, i < n -> f i = Ok (g i)) -> mapM f (seq 0 n) = Ok (vec_of n g).
Proof. intros H. apply mapM_ok. intros i Hi. apply in_seq in Hi. apply H. lia. Qed.

Lemma map_vec_of {A B} (h : A -> B) n f : map h (vec_of n f) = vec_of n (fun i => h (f i)).
Proof. unfold vec_of. rewrite map_map. reflexivity. Qed.

Lemma vec_of_0 {A} (f : nat -> A) : vec_of 0 f = [].
Proof. reflexivity. Qed.

Lemma vec_of_S {A} n (f : nat -> A) : vec_of (S n) f = vec_of n f ++ [f n].
Proof. unfold vec_of. rewrite seq_S, map_app. reflexivity. Qed.

Lemma vec_of_app {A} n m (f : nat -> A) :
  vec_of (n + m) f = vec_of n f ++ vec_of m (fun i => f (n + i)).
Proof.
  unfold vec_of. rewrite seq_app, map_app. f_equal. simpl.
  replace (seq n m) with (map (fun i => n + i) (seq 0 m)).
  - rewrite map_map. reflexivity.
  - clear. induction m as [|m IH]; [reflexivity|]. rewrite !seq_S, map_app, IH. reflexivity.
Qed.

Global Opaque vec_of.

Lemma vget_ok {A} (v : list A) i d : i < length v -> vget v i = Ok (nth i v d).
Proof.
  intros H. unfold vget. bsolve.
  rewrite (nth_error_nth' v d) by auto. reflexivity.
Qed.

Lemma vdata_ok {A} (v : list A) i d : i < length v -> vdata v i = Ok (nth i v d).
Proof.
  intros H. unfold vdata. rewrite (nth_error_nth' v d) by auto. reflexivity.
Qed.

Lemma vset_ok {A} (v : list A) i a : i < length v -> vset v i a = Ok (upd v i a).
Proof. intros H. unfold vset. bsolve. reflexivity. Qed.

Lemma getSegment_ok {A} (d : A) v start len :
  start + len <= length v ->
  getSegment v start len = Ok (vec_of len (fun i => nth (start + i) v d)).
Proof.
  intros H. unfold getSegment. bsolve.
  apply mapM_vec. intros i Hi. apply vdata_ok. lia.
Qed.

Lemma getSegment_firstn {A} (v : list A) start len :
  start + len <= length v ->
  getSegment v start len = Ok (firstn len (skipn start v)).
Proof.
  intros H. destruct v as [|d v'] eqn:E.
  - simpl in H. assert (start = 0) by lia. assert (len = 0) by lia. subst. reflexivity.
  - rewrite <- E in *. rewrite (getSegment_ok d) by auto. f_equal.
    symmetry. apply (vec_is d).
    + rewrite firstn_length, skipn_length. lia.
    + intros i Hi. clear E. rewrite <- (firstn_skipn start v) at 2.
      rewrite app_nth2 by (rewrite firstn_length; lia).
      rewrite firstn_length. replace (start + i - Nat.min start (length v)) with i by lia.
      rewrite <- (firstn_skipn len (skipn start v)) at 2.
      rewrite app_nth1; auto. rewrite firstn_length, skipn_length. lia.
Qed.

(** Writing consecutive positions. *)
Lemma foldM_upd {A} (f : nat -> A) (v : list A) start n :
  start + n <= length v ->
  foldM (fun v k => if start + k <? length v then Ok (upd v (start + k) (f k)) else UB)
        (seq 0 n) v
  = Ok (firstn start v ++ vec_of n f ++ skipn (start + n) v).
Proof.
  revert v; induction n as [|n IH]; intros v H.
  - simpl. rewrite Nat.add_0_r. rewrite vec_of_0. simpl. rewrite firstn_skipn. reflexivity.
  - rewrite seq_S, foldM_app, IH by lia. simpl.
    set (v' := firstn start v ++ vec_of n f ++ skipn (start + n) v).
    assert (Hl : length v' = length v).
    { unfold v'. rewrite !app_length, firstn_length, vec_of_length, skipn_length. lia. }
    rewrite Hl. bsolve. f_equal.
    assert (Hd : exists d : A, True) by (destruct v as [|d0 v0]; [simpl in H; lia|exists d0; auto]).
    destruct Hd as [d _].
    apply (list_ext d).
    + rewrite upd_length, Hl, !app_length, firstn_length, vec_of_length, skipn_length. lia.
    + intros i Hi. rewrite upd_length, Hl in Hi. rewrite nth_upd by lia.
      unfold v'.
      assert (Hf : length (firstn start v) = start) by (rewrite firstn_length; lia).
      destruct (Nat.lt_ge_cases i start).
      * bsolve. rewrite !app_nth1 by lia. reflexivity.
      * rewrite !(app_nth2 (firstn start v)) by lia. rewrite Hf.
        destruct (Nat.lt_ge_cases (i - start) n).
        -- bsolve. rewrite !app_nth1 by (rewrite vec_of_length; lia).
           rewrite !nth_vec_of by lia. reflexivity.
        -- rewrite (app_nth2 (vec_of n f)) by (rewrite vec_of_length; lia).
           rewrite vec_of_length.
           destruct (Nat.eqb_spec (start + n) i).
           ++ rewrite app_nth1 by (rewrite vec_of_length; lia).
              rewrite nth_vec_of by lia. f_equal. lia.
           ++ rewrite (app_nth2 (vec_of (S n) f)) by (rewrite vec_of_length; lia).
              rewrite vec_of_length.
              rewrite <- (firstn_skipn (start + n) v) in Hi.
              assert (Hsk : forall k j, nth j (skipn k v) d = nth (k + j) v d).
              { intros k. clear. revert v. induction k; intros v j; [reflexivity|].
                destruct v; simpl; [destruct j; reflexivity|]. apply IHk. }
              rewrite !Hsk. f_equal. lia.
Qed.

Lemma setSegment_ok {A} (v w : list A) start :
  start + length w <= length v ->
  setSegment v start w = Ok (firstn start v ++ w ++ skipn (start + length w) v).
Proof.
  intros H. unfold setSegment. bsolve.
  destruct w as [|d w'] eqn:E.
  - simpl. rewrite Nat.add_0_r, firstn_skipn. reflexivity.
  - rewrite <- E in *.
    rewrite (foldM_ext _ (fun v k => if start + k <? length v
        then Ok (upd v (start + k) (nth k w d)) else UB)).
    + rewrite foldM_upd by lia. rewrite vec_of_eta. reflexivity.
    + intros s a Ha. apply in_seq in Ha. rewrite (vget_ok w a d) by lia. reflexivity.
Qed.

Lemma vgetFromIndexSet_ok {A} (d : A) v (I : list Z) :
  length I <= length v ->
  (forall z, In z I -> (0 <= z < Z.of_nat (length v))%Z) ->
  vgetFromIndexSet v I = Ok (map (fun z => nth (Z.to_nat z) v d) I).
Proof.
  intros Hl HI. unfold vgetFromIndexSet. bsolve.
  rewrite (mapM_ok _ (fun i => nth (Z.to_nat (nth i I 0%Z)) v d)).
  - f_equal. rewrite <- (map_map (fun i => nth i I 0%Z) (fun z => nth (Z.to_nat z) v d)).
    rewrite map_seq_nth. reflexivity.
  - intros i Hi. apply in_seq in Hi.
    rewrite (vget_ok I i 0%Z) by lia. rewrite bind_Ok.
    assert (Hz : In (nth i I 0%Z) I) by (apply nth_In; lia).
    specialize (HI _ Hz).
    destruct (Z.ltb_spec (Z.of_nat (length v)) (nth i I 0%Z)); [lia|].
    destruct (Z.ltb_spec (nth i I 0%Z) 0); [lia|]. simpl.
    apply vget_ok. lia.
Qed.

(** * Matrices *)
Definition mat_of {A} (r c : nat) (f : nat -> nat -> A) : matrix A :=
  Mat r c (concat (map (fun i => vec_of c (f i)) (seq 0 r))).

Definition ent {A} (d : A) (m : matrix A) (i j : nat) : A := nth (i * nc m + j) (dat m) d.

Arguments mat_of {A} r c f : simpl nomatch.
Arguments ent : simpl never.

Lemma mat_of_wf {A} r c (f : nat -> nat -> A) : well_formed (mat_of r c f).
Proof.
  unfold well_formed, mat_of; simpl.
  rewrite (concat_rows_length c).
  - rewrite map_length, seq_length. reflexivity.
  - intros l Hl. apply in_map_iff in Hl as (i & <- & _). apply vec_of_length.
Qed.

Lemma mat_of_ent {A} (d : A) r c f i j : i < r -> j < c -> ent d (mat_of r c f) i j = f i j.
Proof.
  intros Hi Hj. unfold ent, mat_of; simpl.
  rewrite (nth_concat_rows d c).
  - rewrite (nth_map_seq (fun i => vec_of c (f i))) by auto.
    apply nth_vec_of; auto.
  - intros l Hl. apply in_map_iff in Hl as (k & <- & _). apply vec_of_length.
  - auto.
  - rewrite map_length, seq_length. auto.
Qed.

Lemma mat_ext {A} (d : A) (a b : matrix A) :
  well_formed a -> well_formed b -> nr a = nr b -> nc a = nc b ->
  (forall i j, i < nr a -> j < nc a -> ent d a i j = ent d b i j) -> a = b.
Proof.
  destruct a as [ra ca da], b as [rb cb db]; unfold well_formed, ent; simpl.
  intros Ha Hb <- <- H. f_equal. apply (list_ext d); [congruence|].
  intros k Hk. rewrite Ha in Hk. apply divmod_lt in Hk as (H1 & H2 & ->).
  apply H; auto.
Qed.

Lemma mat_is {A} (d : A) (m : matrix A) r c f :
  well_formed m -> nr m = r -> nc m = c ->
  (forall i j, i < r -> j < c -> ent d m i j = f i j) -> m = mat_of r c f.
Proof.
  intros Hw <- <- H. apply (mat_ext d); auto using mat_of_wf.
  intros i j Hi Hj. rewrite mat_of_ent by auto. apply H; auto.
Qed.

Lemma mat_of_eta {A} (d : A) m : well_formed m -> mat_of (nr m) (nc m) (ent d m) = m.
Proof. intros. symmetry. apply (mat_is d); auto. Qed.

Lemma mat_of_ext {A} r c (f g : nat -> nat -> A) :
  (forall i j, i < r -> j < c -> f i j = g i j) -> mat_of r c f = mat_of r c g.
Proof.
  intros H. unfold mat_of. f_equal. f_equal. apply map_ext_in.
  intros i Hi. apply in_seq in Hi. apply vec_of_ext. intros; apply H; lia.
Qed.

Lemma entry_ent {A} (d : A) m i j :
  well_formed m -> i < nr m -> j < nc m -> entry m i j = Some (ent d m i j).
Proof.
  intros Hw Hi Hj. unfold entry. bsolve.
  apply nth_error_nth'. rewrite Hw. apply flat_lt; auto.
Qed.

Lemma val_ent m i j : well_formed m -> i < nr m -> j < nc m -> val m i j = ent 0%Qc m i j.
Proof. intros. unfold val. rewrite (entry_ent 0%Qc) by auto. reflexivity. Qed.

Lemma val_mat_of r c f i j : i < r -> j < c -> val (mat_of r c f) i j = f i j.
Proof.
  intros. rewrite val_ent by (auto using mat_of_wf). apply mat_of_ent; auto.
Qed.

Lemma entry_mat_of {A} r c (f : nat -> nat -> A) i j :
  i < r -> j < c -> entry (mat_of r c f) i j = Some (f i j).
Proof.
  intros. rewrite (entry_ent (f i j)) by (auto using mat_of_wf).
  f_equal. apply mat_of_ent; auto.
Qed.

Lemma mat_ext_entry {A} (a b : matrix A) :
  well_formed a -> well_formed b -> nr a = nr b -> nc a = nc b ->
  (forall i j, i < nr a -> j < nc a -> entry a i j = entry b i j) -> a = b.
Proof.
  intros Ha Hb Hr Hc H.
  destruct (dat a) as [|d l] eqn:E.
  - destruct a as [ra ca da], b as [rb cb db]; unfold well_formed in *; simpl in *; subst.
    simpl in *. f_equal. symmetry. apply length_zero_iff_nil. lia.
  - apply (mat_ext d); auto. intros i j Hi Hj.
    specialize (H i j Hi Hj). rewrite !(entry_ent d) in H by (auto; lia). congruence.
Qed.

Lemma mget_ok {A} (d : A) m i j :
  well_formed m -> i < nr m -> j < nc m -> mget m i j = Ok (ent d m i j).
Proof.
  intros Hw Hi Hj. unfold mget, flattenIndex. bsolve.
  apply vdata_ok. rewrite Hw. apply flat_lt; auto.
Qed.

Definition mupd {A} (m : matrix A) i j a : matrix A :=
  Mat (nr m) (nc m) (upd (dat m) (i * nc m + j) a).

Lemma mset_ok {A} (m : matrix A) i j a :
  well_formed m -> i < nr m -> j < nc m ->
  mset m i j a = Ok (mupd m i j a).
Proof.
  intros Hw Hi Hj. unfold mset, flattenIndex.
  pose proof (flat_lt i j (nr m) (nc m) Hi Hj). rewrite Hw. bsolve.
  destruct (Nat.ltb_spec (i * nc m + j) (nr m * nc m)); [reflexivity|lia].
Qed.


Lemma mupd_wf {A} (m : matrix A) i j a : well_formed m -> well_formed (mupd m i j a).
Proof. unfold well_formed, mupd; simpl. rewrite upd_length. auto. Qed.

Lemma mupd_ent {A} (d : A) m i j a i' j' :
  well_formed m -> i < nr m -> j < nc m -> i' < nr m -> j' < nc m ->
  ent d (mupd m i j a) i' j' = if (i =? i') && (j =? j') then a else ent d m i' j'.
Proof.
  intros Hw Hi Hj Hi' Hj'. unfold ent, mupd; simpl.
  rewrite nth_upd by (rewrite Hw; apply flat_lt; auto).
  destruct (Nat.eqb_spec (i * nc m + j) (i' * nc m + j')) as [E|E].
  - apply flat_inj in E as [-> ->]; auto. rewrite !Nat.eqb_refl. reflexivity.
  - destruct (Nat.eqb_spec i i'), (Nat.eqb_spec j j'); subst; auto; congruence.
Qed.

Lemma mconst_is {A} r c (a : A) : mconst r c a = mat_of r c (fun _ _ => a).
Proof.
  apply (mat_is a); auto.
  - unfold well_formed, mconst; simpl. apply repeat_length.
  - intros i j Hi Hj. unfold ent, mconst; simpl. apply nth_repeat.
Qed.

Lemma mconst_wf {A} r c (a : A) : well_formed (mconst r c a).
Proof. unfold well_formed, mconst; simpl. apply repeat_length. Qed.

Lemma mbuild_ok {A} r c (f : nat -> nat -> res A) g :
  (forall i j, i < r -> j < c -> f i j = Ok (g i j)) -> mbuild r c f = Ok (mat_of r c g).
Proof.
  intros H. unfold mbuild.
  rewrite (mapM_ok _ (fun i => vec_of c (g i))).
  - reflexivity.
  - intros i Hi. apply in_seq in Hi. apply mapM_vec. intros j Hj.
    apply H; lia.
Qed.

Lemma mT_ok {A} (d : A) m :
  well_formed m -> mT m = Ok (mat_of (nc m) (nr m) (fun j i => ent d m i j)).
Proof. intros Hw. apply mbuild_ok. intros. apply mget_ok; auto. Qed.

Lemma mT_mat_of {A} r c (f : nat -> nat -> A) :
  mT (mat_of r c f) = Ok (mat_of c r (fun j i => f i j)).
Proof.
  destruct r as [|r]; [|destruct c as [|c]].
  - unfold mT. simpl. apply mbuild_ok. intros; lia.
  - unfold mT. simpl. apply mbuild_ok. intros; lia.
  - rewrite (mT_ok (f 0 0)) by apply mat_of_wf. f_equal. apply mat_of_ext.
    intros; apply mat_of_ent; auto.
Qed.

Lemma getBlock_ok {A} (d : A) m ri ci rl cl :
  well_formed m -> ri + rl <= nr m -> ci + cl <= nc m ->
  getBlock m ri ci rl cl = Ok (mat_of rl cl (fun i j => ent d m (ri + i) (ci + j))).
Proof.
  intros Hw Hr Hc. unfold getBlock. bsolve.
  apply mbuild_ok. intros. apply mget_ok; auto; lia.
Qed.

(** Writing a block: the loop nest of setBlock as a fold of single updates. *)
Definition in_block (ri ci rl cl i j : nat) : bool :=
  (ri <=? i) && (i <? ri + rl) && ((ci <=? j) && (j <? ci + cl)).

Lemma setBlock_row {A} (d : A) (g : nat -> A) ri ci n m :
  well_formed m -> ri < nr m -> ci + n <= nc m ->
  foldM (fun m j => mset m ri (ci + j) (g j)) (seq 0 n) m =
  Ok (mat_of (nr m) (nc m) (fun i j =>
        if in_block ri ci 1 n i j then g (j - ci) else ent d m i j)).
Proof.
  intros Hw Hr. induction n as [|n IH]; intros Hc.
  - simpl. f_equal. apply (mat_is d); auto. intros i j Hi Hj.
    unfold in_block. bsolve; reflexivity.
  - rewrite seq_S, foldM_app, IH by lia. cbn [bind foldM].
    change (0 + n) with n.
    match goal with |- context [mset ?M _ _ _] => set (m' := M) end.
    rewrite mset_ok by (simpl; try apply mat_of_wf; lia). cbn [bind]. f_equal.
    apply (mat_is d); [apply mupd_wf, mat_of_wf|reflexivity|reflexivity|].
    intros i j Hi Hj.
    rewrite mupd_ent by (simpl; try apply mat_of_wf; lia).
    unfold m'. rewrite mat_of_ent by lia.
    unfold in_block. bsolve; try reflexivity. f_equal. lia.
Qed.

Lemma setBlock_ok {A} (d : A) m ri ci b :
  well_formed m -> well_formed b -> ri + nr b <= nr m -> ci + nc b <= nc m ->
  setBlock m ri ci b =
  Ok (mat_of (nr m) (nc m) (fun i j =>
        if in_block ri ci (nr b) (nc b) i j then ent d b (i - ri) (j - ci) else ent d m i j)).
Proof.
  intros Hw Hb Hr Hc. unfold setBlock. bsolve.
  assert (Hgen : forall n, n <= nr b ->
    foldM (fun m i => foldM (fun m j => a <- mget b i j ;; mset m (ri + i) (ci + j) a)
               (seq 0 (nc b)) m) (seq 0 n) m =
    Ok (mat_of (nr m) (nc m) (fun i j =>
        if in_block ri ci n (nc b) i j then ent d b (i - ri) (j - ci) else ent d m i j))).
  { induction n as [|n IH]; intros Hn.
    - simpl. f_equal. apply (mat_is d); auto. intros i j Hi Hj.
      unfold in_block. bsolve; reflexivity.
    - rewrite seq_S, foldM_app, IH by lia. simpl.
      match goal with |- context [foldM _ _ ?M] => set (m' := M) end.
      rewrite (foldM_ext _ (fun m j => mset m (ri + n) (ci + j) (ent d b n j))).
      + rewrite (setBlock_row d (fun j => ent d b n j)) by (simpl; try apply mat_of_wf; lia).
        simpl. f_equal. apply mat_of_ext. intros i j Hi Hj.
        unfold m'. rewrite mat_of_ent by auto.
        unfold in_block. bsolve; try reflexivity; f_equal; lia.
      + intros s j Hj. apply in_seq in Hj. rewrite (mget_ok d b) by (auto; lia). reflexivity. }
  apply Hgen. lia.
Qed.

Lemma mget_z_ok {A} (d : A) m (i j : Z) :
  well_formed m -> (0 <= i < Z.of_nat (nr m))%Z -> (0 <= j < Z.of_nat (nc m))%Z ->
  mget_z m i j = Ok (ent d m (Z.to_nat i) (Z.to_nat j)).
Proof.
  intros Hw Hi Hj. unfold mget_z.
  destruct (Z.ltb_spec i 0); [lia|]. destruct (Z.ltb_spec j 0); [lia|].
  destruct (Nat.ltb_spec (nr m) (Z.to_nat i)); [lia|].
  apply mget_ok; auto; lia.
Qed.

Lemma mgetFromIndexSet_ok {A} (d : A) m (I J : list Z) :
  well_formed m -> length I <= nr m -> length J <= nc m ->
  (forall z, In z I -> (0 <= z < Z.of_nat (nr m))%Z) ->
  (forall z, In z J -> (0 <= z < Z.of_nat (nc m))%Z) ->
  mgetFromIndexSet m I J =
  Ok (mat_of (length I) (length J)
        (fun i j => ent d m (Z.to_nat (nth i I 0%Z)) (Z.to_nat (nth j J 0%Z)))).
Proof.
  intros Hw HI HJ HI' HJ'. unfold mgetFromIndexSet. bsolve.
  apply mbuild_ok. intros i j Hi Hj.
  rewrite (vget_ok I i 0%Z), (vget_ok J j 0%Z) by auto. simpl.
  apply mget_z_ok; auto.
  - apply HI'. apply nth_In; auto.
  - apply HJ'. apply nth_In; auto.
Qed.

(** * Arithmetic *)
Notation qent := (ent 0%Qc).

Lemma vzipeq_ok op v w :
  length w = length v ->
  vzipeq op v w = Ok (vec_of (length v) (fun i => op (vval v i) (vval w i))).
Proof.
  intros H. unfold vzipeq. bsolve. apply mapM_vec. intros i Hi.
  rewrite (vdata_ok v i 0%Qc), (vget_ok w i 0%Qc) by lia. reflexivity.
Qed.

Lemma vadd_ok v w : length w = length v ->
  vadd v w = Ok (vec_of (length v) (fun i => vval v i + vval w i)%Qc).
Proof. intros H. unfold vadd, vaddeq. bsolve. apply vzipeq_ok; auto. Qed.

Lemma vsub_ok v w : length w = length v ->
  vsub v w = Ok (vec_of (length v) (fun i => vval v i - vval w i)%Qc).
Proof. intros H. unfold vsub, vsubeq. bsolve. apply vzipeq_ok; auto. Qed.

Lemma vscaleq_ok op v c :
  vscaleq op v c = Ok (vec_of (length v) (fun i => op (vval v i) c)).
Proof.
  apply mapM_vec. intros i Hi.
  rewrite (vdata_ok v i 0%Qc) by lia. reflexivity.
Qed.

Lemma vneg_ok v : vneg v = Ok (vec_of (length v) (fun i => - vval v i)%Qc).
Proof.
  apply mapM_vec. intros i Hi.
  rewrite (vdata_ok v i 0%Qc) by lia. reflexivity.
Qed.

Lemma vscal_ok c v : vscal c v = Ok (vec_of (length v) (fun i => c * vval v i)%Qc).
Proof.
  apply mapM_vec. intros i Hi.
  rewrite (vget_ok v i 0%Qc) by lia. reflexivity.
Qed.

Lemma ventrywise_ok op v w : length v = length w ->
  ventrywise op v w = Ok (vec_of (length v) (fun i => op (vval v i) (vval w i))).
Proof.
  intros H. unfold ventrywise. bsolve. apply mapM_vec. intros i Hi.
  rewrite (vget_ok v i 0%Qc), (vget_ok w i 0%Qc) by lia. reflexivity.
Qed.

Lemma vdot_ok v w : length w = length v ->
  vdot v w = Ok (sum (length v) (fun i => vval w i * vval v i)%Qc).
Proof.
  intros H. unfold vdot. bsolve. clear e.
  assert (Hg : forall n, n <= length v ->
    foldM (fun s i => b <- vget w i ;; a <- vdata v i ;; Ok (s + b * a)%Qc) (seq 0 n) 0%Qc
    = Ok (sum n (fun i => vval w i * vval v i)%Qc)).
  { induction n as [|n IH]; intros Hn; [reflexivity|].
    rewrite seq_S, foldM_app, IH by lia. simpl.
    rewrite (vget_ok w n 0%Qc), (vdata_ok v n 0%Qc) by lia. reflexivity. }
  apply Hg; auto.
Qed.

Lemma mneg_ok m : well_formed m ->
  mneg m = Ok (mat_of (nr m) (nc m) (fun i j => - qent m i j)%Qc).
Proof.
  intros Hw. apply mbuild_ok. intros. rewrite (mget_ok 0%Qc) by auto. reflexivity.
Qed.

Lemma mzipeq_ok op a b : well_formed a -> well_formed b -> nr a = nr b -> nc a = nc b ->
  mzipeq op a b = Ok (mat_of (nr a) (nc a) (fun i j => op (qent a i j) (qent b i j))).
Proof.
  intros Ha Hb Hr Hc. unfold mzipeq. bsolve. apply mbuild_ok. intros i j Hi Hj.
  rewrite (mget_ok 0%Qc a), (mget_ok 0%Qc b) by (auto; lia). reflexivity.
Qed.

Lemma mscal_ok c m : well_formed m ->
  mscal c m = Ok (mat_of (nr m) (nc m) (fun i j => c * qent m i j)%Qc).
Proof.
  intros Hw. apply mbuild_ok. intros. rewrite (mget_ok 0%Qc) by auto. reflexivity.
Qed.

Lemma sumM_ok n f g : (forall i, i < n -> f i = Ok (g i)) -> sumM n f = Ok (sum n g).
Proof.
  induction n as [|n IH]; intros H; [reflexivity|]. simpl.
  rewrite IH by (intros; apply H; lia). simpl. rewrite H by lia. reflexivity.
Qed.

Lemma mulv_ok m x :
  well_formed m -> nc m = length x -> nc m <> 0 ->
  mulv m x = Ok (vec_of (nr m) (fun i => sum (nc m) (fun j => qent m i j * vval x j)%Qc)).
Proof.
  intros Hw Hx Hn. unfold mulv. rewrite Hx, Nat.eqb_refl. simpl. rewrite <- Hx.
  unfold dgemv. rewrite repeat_length, Nat.eqb_refl. cbn [negb].
  destruct (Nat.ltb_spec (nc m) (Nat.max 1 (nc m))); [lia|].
  apply mapM_vec. intros i Hi.
  rewrite (sumM_ok _ _ (fun j => qent m i j * vval x j)%Qc).
  - simpl. rewrite (vdata_ok _ i 0%Qc) by (rewrite repeat_length; lia). simpl. f_equal. ring.
  - intros j Hj. unfold fget.
    rewrite (vdata_ok (dat m) _ 0%Qc)
      by (rewrite Hw, Nat.add_comm; apply flat_lt; lia).
    simpl. rewrite (vdata_ok x j 0%Qc) by lia. simpl. unfold ent.
    rewrite Nat.add_comm. reflexivity.
Qed.

Lemma mulm_ok a b :
  well_formed a -> well_formed b -> nc a = nr b ->
  nr a <> 0 -> nc a <> 0 -> nc b <> 0 ->
  mulm a b = Ok (mat_of (nr a) (nc b)
    (fun i j => sum (nc a) (fun k => qent a i k * qent b k j)%Qc)).
Proof.
  intros Ha Hb Hab H1 H2 H3. unfold mulm. rewrite Hab, Nat.eqb_refl. simpl.
  rewrite <- Hab. unfold dgemm.
  rewrite repeat_length, Nat.eqb_refl.
  rewrite (Nat.mul_comm (nc b) (nr a)), Nat.eqb_refl. cbn [negb andb].
  destruct (Nat.ltb_spec (nc a) (Nat.max 1 (nc a))); [lia|].
  destruct (Nat.ltb_spec (nc b) (Nat.max 1 (nc b))); [lia|].
  destruct (Nat.ltb_spec (nr a) (Nat.max 1 (nr a))); [lia|].
  rewrite (mapM_ok _ (fun j => vec_of (nr a) (fun i =>
      sum (nc a) (fun k => qent a i k * qent b k j)%Qc))).
  - simpl. change (Mat (nc b) (nr a) (concat _)) with
      (mat_of (nc b) (nr a) (fun j i => sum (nc a) (fun k => qent a i k * qent b k j)%Qc)).
    apply mT_mat_of.
  - intros j Hj. apply in_seq in Hj. apply mapM_vec. intros i Hi.
    rewrite (sumM_ok _ _ (fun k => qent a i k * qent b k j)%Qc).
    + simpl. unfold fget at 1.
      rewrite (vdata_ok _ _ 0%Qc)
        by (rewrite repeat_length; nia).
      simpl. f_equal. ring.
    + intros k Hk. unfold fget.
      rewrite (vdata_ok (dat a) _ 0%Qc) by (rewrite Ha, Nat.add_comm; apply flat_lt; lia).
      rewrite bind_Ok.
      rewrite (vdata_ok (dat b) _ 0%Qc)
        by (rewrite Hb, Nat.add_comm; apply flat_lt; lia).
      simpl. unfold ent. rewrite (Nat.add_comm k), (Nat.add_comm j). reflexivity.
Qed.
