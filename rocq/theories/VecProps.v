(** Scalar product, unit and diagonal matrices, entries selected by an index set. *)
From Verif Require Import Base VectorModel MatrixModel LinSpec VecSpec MatProofs MatProofs2 MatProofs3 LinProofs LinProps.
From Coq Require Import Lia.

Lemma sum_head n f : sum (S n) f = (f 0%nat + sum n (fun i => f (S i)))%Qc.
Proof. induction n as [|n IH]; [cbn; ring|]. change (sum (S (S n)) f) with (sum (S n) f + f (S n))%Qc. rewrite IH. cbn [sum]. ring. Qed.

Lemma dot_sum v : forall w, length w = length v -> dot v w = sum (length v) (fun i => vval w i * vval v i)%Qc.
Proof.
  induction v as [|x v IH]; intros [|y w] L; try discriminate; [reflexivity|].
  cbn [length] in *. rewrite sum_head. cbn [dot]. rewrite IH by lia. unfold vval. cbn [nth]. ring.
Qed.

(** [C66] v * w is the sum of the products of the entries; vectors of different length
    are rejected. *)
Lemma dot_product_pf : forall v w,
  (length w = length v -> vdot v w = Ok (dot v w)) /\
  (length w <> length v -> vdot v w = Throw invalid_argument).
Proof.
  intros v w. split; intros L.
  - rewrite dot_sum by exact L. apply vdot_ok; exact L.
  - unfold vdot. apply Nat.eqb_neq in L. rewrite L. reflexivity.
Qed.

(** [C66] IdentityMatrix is neutral for the multiplication of vectors and matrices. *)
Lemma identity_matrix_pf : forall n, exists m, IdentityMatrix n = Ok m /\ neutral n m.
Proof.
  intros n. exists (mat_of n n (fun i j => delta i j)). split; [apply IdentityMatrix_ok|].
  split; [apply mat_of_wf|]. split; [reflexivity|]. split; [reflexivity|].
  assert (E : forall i f, i < n -> sum n (fun j => val (mat_of n n (fun i j => delta i j)) i j * f j)%Qc = f i).
  { intros i f Hi. rewrite <- (sum_delta_l n i f Hi). apply sum_ext. intros j Hj. rewrite val_mat_of by auto. reflexivity. }
  split; [|split].
  - intros x y Lx. split.
    + intros (Ly & H). cbn [nr nc mat_of] in *. apply nth_ext with (d := 0%Qc) (d' := 0%Qc); [congruence|]. intros i Hi.
      change (vval y i = vval x i). rewrite H by lia. apply E. lia.
    + intros ->. split; [exact Lx|]. cbn [nr nc mat_of]. intros i Hi. symmetry. apply E. exact Hi.
  - intros a Wa Ra. split; [exact Wa|]. split; [exact Ra|]. split; [reflexivity|]. cbn [nr nc mat_of]. intros i j Hi Hj. symmetry. apply (E i (fun k => val a k j)). exact Hi.
  - intros a Wa Ca. split; [exact Wa|]. split; [reflexivity|]. split; [exact Ca|]. cbn [nr nc mat_of]. intros i j Hi Hj. symmetry.
    rewrite Ca. rewrite <- (sum_delta_r n j (fun k => val a i k) Hj). apply sum_ext. intros k Hk. rewrite val_mat_of by auto. reflexivity.
Qed.

(** [C66] DiagonalMatrix(d) has the entries of d on the diagonal and zero elsewhere; it
    multiplies every entry of a vector by the matching one of d. *)
Lemma diagonal_matrix_pf : forall d, exists m, DiagonalMatrix d = Ok m /\
  well_formed m /\ nr m = length d /\ nc m = length d /\
  (forall i j, i < length d -> j < length d -> val m i j = if i =? j then vval d i else 0%Qc) /\
  forall x y, length x = length d -> is_product_mv m x y ->
    length y = length d /\ forall i, i < length d -> vval y i = (vval d i * vval x i)%Qc.
Proof.
  intros d. eexists. split; [apply DiagonalMatrix_ok|]. split; [apply mat_of_wf|]. split; [reflexivity|]. split; [reflexivity|].
  assert (V : forall i j, i < length d -> j < length d ->
    val (mat_of (length d) (length d) (fun i j => if i =? j then vval d i else 0%Qc)) i j = if i =? j then vval d i else 0%Qc).
  { intros i j Hi Hj. apply (val_mat_of _ _ (fun i j => if i =? j then vval d i else 0%Qc)); auto. }
  split; [exact V|]. intros x y Lx (Ly & H). cbn [nr nc mat_of] in *. split; [exact Ly|]. intros i Hi. rewrite (H i Hi).
  transitivity (sum (length d) (fun j => delta i j * (vval d i * vval x j))%Qc); [|apply (sum_delta_l _ _ (fun j => vval d i * vval x j)%Qc); exact Hi].
  apply sum_ext. intros j Hj. rewrite V by auto. unfold delta. destruct (i =? j); ring.
Qed.

(** [C66] v(I): entry a of the result is v[I[a]]; negative indices and indices above the
    size are rejected.  Not rejected: index = size, see below. *)
Lemma vector_index_set_partial_pf : forall (A : Type) (v : list A) (I : list Z), length I <= length v ->
  ((forall z, In z I -> (0 <= z < Z.of_nat (length v))%Z) ->
   exists r, vgetFromIndexSet v I = Ok r /\ length r = length I /\
     forall a, a < length I -> nth_error r a = nth_error v (Z.to_nat (nth a I 0%Z))) /\
  ((forall z, In z I -> z <> Z.of_nat (length v)) -> (exists z, In z I /\ ~ (0 <= z < Z.of_nat (length v))%Z) ->
   vgetFromIndexSet v I = Throw out_of_range).
Proof.
  intros A v I HL. split.
  - intros HI. destruct v as [|d v].
    + destruct I; [|cbn in HL; lia]. exists []. split; [reflexivity|]. split; [reflexivity|]. cbn. lia.
    + exists (map (fun z => nth (Z.to_nat z) (d :: v) d) I). split; [apply vgetFromIndexSet_ok; auto|]. split; [apply map_length|].
      intros a Ha. rewrite nth_error_map, (nth_error_nth' I 0%Z Ha). cbn [option_map]. symmetry. apply nth_error_nth'.
      pose proof (HI _ (nth_In I 0%Z Ha)). lia.
  - intros HN (z & Hz & Bad). unfold vgetFromIndexSet. destruct (Nat.ltb_spec (length v) (length I)); [lia|].
    apply (In_nth _ _ 0%Z) in Hz as (k & Hk & Ez).
    set (f := fun i => _). assert (HB : f k = Throw out_of_range).
    { unfold f. rewrite (vget_ok I k 0%Z) by exact Hk. rewrite bind_Ok, Ez.
      assert (In z I) by (rewrite <- Ez; apply nth_In; exact Hk). pose proof (HN z H0).
      destruct (Z.ltb_spec (Z.of_nat (length v)) z); [reflexivity|]. destruct (Z.ltb_spec z 0); [reflexivity|lia]. }
    assert (HA : forall i, i < length I -> is_ok (f i) \/ f i = Throw out_of_range).
    { intros i Hi. unfold f. rewrite (vget_ok I i 0%Z) by exact Hi. rewrite bind_Ok.
      pose proof (HN _ (nth_In I 0%Z Hi)). destruct (Z.ltb_spec (Z.of_nat (length v)) (nth i I 0%Z)); [right; reflexivity|].
      destruct (Z.ltb_spec (nth i I 0%Z) 0); [right; reflexivity|left]. cbn [orb].
      unfold vget. destruct (Nat.ltb_spec (length v) (Z.to_nat (nth i I 0%Z))); [lia|].
      destruct (nth_error v (Z.to_nat (nth i I 0%Z))) eqn:E; [eexists; reflexivity|]. apply nth_error_None in E. lia. }
    clearbody f. assert (G : forall n s, s <= k < s + n -> (forall i, s <= i < s + n -> is_ok (f i) \/ f i = Throw out_of_range) -> mapM f (seq s n) = Throw out_of_range).
    { clear - HB. induction n as [|n IH]; intros s Hs HA; [lia|]. cbn [seq mapM].
      destruct (Nat.eq_dec s k) as [->|Ne]; [rewrite HB; reflexivity|].
      destruct (HA s) as [(x & E)|E]; [lia| |rewrite E; reflexivity]. rewrite E, bind_Ok, IH; [reflexivity|lia|]. intros i Hi. apply HA. lia. }
    apply G; [lia|]. intros i Hi. apply HA. lia.
Qed.

(** [C66] Index = size passes both checks and reads past the end. *)
Lemma vector_index_set_refuted_pf : exists (v : list Z) (I : list Z) z, length I <= length v /\ In z I /\
  ~ (0 <= z < Z.of_nat (length v))%Z /\ vgetFromIndexSet v I = UB.
Proof. exists [1; 2]%Z, [2]%Z, 2%Z. repeat split; cbn; auto; lia. Qed.

Lemma vec_examples_expf :
  vdot (map q [1; 2; 3]%Z) (map q [4; -5; 6]%Z) = Ok (q 12) /\
  IdentityMatrix 2 = Ok (Mat 2 2 (map q [1; 0; 0; 1]%Z)) /\
  DiagonalMatrix (map q [5; 7]%Z) = Ok (Mat 2 2 (map q [5; 0; 0; 7]%Z)) /\
  vgetFromIndexSet [10; 20; 30]%Z [2; 0; 2]%Z = Ok [30; 10; 30]%Z.
Proof. repeat split. Qed.
