(** Property theorems about aliasing, copies and constructors. *)
From Coq Require Import Ascii String.
From Verif Require Import Base VectorModel MatrixModel LinSpec MatProofs XmlModel AliasModel AliasSpec.
Local Open Scope nat_scope.
Local Open Scope list_scope.

Lemma vdata_nth {A} (v : list A) i d : i < length v -> vdata v i = Ok (nth i v d).
Proof. intros H. unfold vdata. rewrite (nth_error_nth' v d H). reflexivity. Qed.


(** A loop that replaces entry [i] by [F i], where step [i] finds the original entry at [i]. *)
Lemma loop_upd {A} (d : A) (step : list A -> nat -> res (list A)) (F : nat -> A) (v : list A) :
  (forall u i, length u = length v -> i < length v ->
     (forall j, j < i -> nth j u d = F j) -> (forall j, i <= j -> nth j u d = nth j v d) -> step u i = Ok (upd u i (F i))) ->
  exists w, foldM step (seq 0 (length v)) v = Ok w /\ length w = length v /\ forall i, i < length v -> nth i w d = F i.
Proof.
  intros H.
  assert (K : forall n, n <= length v -> exists w, foldM step (seq 0 n) v = Ok w /\ length w = length v /\
    (forall j, j < n -> nth j w d = F j) /\ (forall j, n <= j -> nth j w d = nth j v d)).
  { induction n as [|n IH]; intros Hn.
    - exists v. cbn. repeat split; auto. lia.
    - destruct IH as (w & E & L & P & Q); [lia|]. rewrite seq_S, foldM_app, E, bind_Ok. cbn [Nat.add foldM].
      rewrite H by (auto; lia). rewrite bind_Ok. eexists. split; [reflexivity|]. rewrite upd_length. split; [exact L|].
      split; intros j Hj.
      + rewrite nth_upd by lia. destruct (Nat.eqb_spec n j) as [->|]; [reflexivity|apply P; lia].
      + destruct (Nat.lt_ge_cases j (length w)) as [J|J].
        * rewrite nth_upd by lia. destruct (Nat.eqb_spec n j); [lia|apply Q; lia].
        * rewrite !nth_overflow by (rewrite ?upd_length; lia). reflexivity. }
  destruct (K (length v)) as (w & E & L & P & _); [lia|]. exists w. auto.
Qed.

Lemma combined_intro {A} (d : A) op v x w : length w = length v ->
  (forall i, i < length v -> nth i w d = op (nth i v d) x) -> combined op v x w.
Proof.
  intros L H. split; [exact L|]. intros i a E. pose proof (nth_error_Some v i) as S.
  assert (i < length v) by (apply S; congruence). rewrite (nth_error_nth' w d) by lia.
  rewrite H by lia. apply (nth_error_nth _ _ d) in E. rewrite E. reflexivity.
Qed.

(** [C73] With a scalar passed by value, or an object outside the vector, every entry is
    combined with the value the scalar had before the call. *)
Lemma scalar_update_pf : forall (A : Type) (op : A -> A -> A) (v : list A) (s : scalar A) (x : A), deref v s = Ok x ->
  (exists w, scalar_by_value op v s = Ok w /\ combined op v x w) /\
  (s = Outside x -> exists w, scalar_by_reference op v s = Ok w /\ combined op v x w).
Proof.
  intros A op v s x E. split.
  - unfold scalar_by_value. rewrite E, bind_Ok.
    destruct (loop_upd x (fun v i => a <- vdata v i ;; Ok (upd v i (op a x))) (fun i => op (nth i v x) x) v) as (w & W & L & P).
    { intros u i L Hi _ Q. rewrite (vdata_nth u i x) by lia. rewrite bind_Ok, Q by lia. reflexivity. }
    exists w. split; [exact W|]. apply (combined_intro x); auto.
  - intros ->. unfold scalar_by_reference. cbn [deref].
    destruct (loop_upd x (fun v i => a <- vdata v i ;; b <- Ok x ;; Ok (upd v i (op a b))) (fun i => op (nth i v x) x) v) as (w & W & L & P).
    { intros u i L Hi _ Q. rewrite (vdata_nth u i x) by lia. rewrite !bind_Ok, Q by lia. reflexivity. }
    exists w. split; [exact W|]. apply (combined_intro x); auto.
Qed.

(** [C73] With a reference to entry [k] of the vector itself, entries up to [k] are combined
    with its old value [x] and the entries behind it with its new value. *)
Lemma own_entry_update_pf : forall (A : Type) (op : A -> A -> A) (v : list A) (k : nat) (x : A), nth_error v k = Some x ->
  exists w, scalar_by_reference op v (Entry k) = Ok w /\ length w = length v /\
    forall i a, nth_error v i = Some a -> nth_error w i = Some (op a (if i <=? k then x else op x x)).
Proof.
  intros A op v k x E.
  assert (Hk : k < length v) by (apply nth_error_Some; congruence).
  assert (Ek : nth k v x = x) by (apply nth_error_nth, E).
  unfold scalar_by_reference. cbn [deref].
  destruct (loop_upd x (fun v i => a <- vdata v i ;; b <- vdata v k ;; Ok (upd v i (op a b)))
              (fun i => op (nth i v x) (if i <=? k then x else op x x)) v) as (w & W & L & P).
  { intros u i L Hi B Q. rewrite (vdata_nth u i x), (vdata_nth u k x) by lia. rewrite !bind_Ok, (Q i) by lia.
    destruct (Nat.leb_spec i k) as [C|C].
    - rewrite (Q k) by lia. rewrite Ek. reflexivity.
    - rewrite (B k) by lia. rewrite Nat.leb_refl, Ek. reflexivity. }
  exists w. split; [exact W|]. split; [exact L|]. intros i a Ea.
  assert (i < length v) by (apply nth_error_Some; congruence).
  rewrite (nth_error_nth' w x), P by lia. rewrite (nth_error_nth _ _ x Ea). reflexivity.
Qed.

(** [C73] Dividing a vector by its first entry does not divide the other entries by it. *)
Lemma own_entry_refuted_pf : exists (v : list Qc) (k : nat) (x : Qc) (w : list Qc), nth_error v k = Some x /\
  scalar_by_reference Qcdiv v (Entry k) = Ok w /\ ~ combined Qcdiv v x w.
Proof.
  exists [Q2Qc 2; Q2Qc 4], 0%nat, (Q2Qc 2), [Q2Qc 1; Q2Qc 4]. split; [reflexivity|]. split.
  - unfold scalar_by_reference. cbn [length seq foldM deref vdata nth_error bind upd].
    repeat f_equal; apply Qc_is_canon; reflexivity.
  - intros (_ & H). specialize (H 1%nat _ eq_refl). cbn in H. injection H as H. discriminate H.
Qed.

(** [C73] A vector may be added to or subtracted from itself. *)
Lemma self_update_pf : forall (A : Type) (op : A -> A -> A) (v : list A),
  vector_update op v Same = Ok (map (fun a => op a a) v) /\
  (forall w, length w = length v -> vector_update op v (Other w) = Ok (map (fun p => op (fst p) (snd p)) (combine v w))) /\
  (forall w, length w <> length v -> vector_update op v (Other w) = Throw invalid_argument).
Proof.
  intros A op v. unfold vector_update. cbn [rhs_size rhs_get]. split; [|split].
  - rewrite Nat.eqb_refl. cbn [negb]. destruct v as [|d v']; [reflexivity|]. set (v := d :: v') in *.
    destruct (loop_upd d (fun v i => a <- vdata v i ;; b <- vget v i ;; Ok (upd v i (op a b)))
                (fun i => op (nth i v d) (nth i v d)) v) as (w & W & L & P).
    { intros u i L Hi _ Q. rewrite (vdata_nth u i d), (vget_ok u i d) by lia. rewrite !bind_Ok, !Q by lia. reflexivity. }
    rewrite W. f_equal. apply (nth_ext _ _ d (op d d)); [rewrite map_length; exact L|]. intros i Hi.
    rewrite P by lia. rewrite (map_nth (fun a => op a a)). reflexivity.
  - intros w Lw. rewrite (proj2 (Nat.eqb_eq _ _) Lw). cbn [negb]. destruct v as [|d v'].
    + destruct w; [reflexivity|discriminate Lw].
    + set (v := d :: v') in *.
      destruct (loop_upd d (fun v i => a <- vdata v i ;; b <- vget w i ;; Ok (upd v i (op a b)))
                  (fun i => op (nth i v d) (nth i w d)) v) as (r & W & L & P).
      { intros u i L Hi _ Q. rewrite (vdata_nth u i d), (vget_ok w i d) by lia. rewrite !bind_Ok, !Q by lia. reflexivity. }
      rewrite W. f_equal. apply (nth_ext _ _ d (op (fst (d, d)) (snd (d, d)))).
      * rewrite map_length, combine_length. lia.
      * intros i Hi. rewrite P by lia. rewrite (map_nth (fun p => op (fst p) (snd p))).
        rewrite combine_nth by auto. reflexivity.
  - intros w Lw. apply Nat.eqb_neq in Lw. rewrite Lw. reflexivity.
Qed.

(** [C73] A copy has the entries of the original and nothing else of it; an assigned vector
    has the entries of the right-hand side and keeps the name it had. *)
Lemma copies_pf : forall (A : Type) (v t : vobj A),
  o_data (copy_vobj v) = o_data v /\ o_name (copy_vobj v) = txt "Vector" /\
  o_data (assign_vobj false t v) = o_data v /\ o_name (assign_vobj false t v) = o_name t /\
  assign_vobj true v v = v.
Proof. intros A v t. repeat split. Qed.

(** [C73] The name of a vector, under which it is written to files, is not copied. *)
Lemma copy_name_refuted_pf : exists v : vobj nat, o_name (copy_vobj v) <> o_name v.
Proof. exists (VObj [1%nat] (txt "u_soln") (txt "1") (txt "Float32")). discriminate. Qed.

(** [C73] A matrix made from r*c entries has them by rows. *)
Lemma matrix_from_data_pf : forall (A : Type) (r c : nat) (d : list A), length d = r * c ->
  exists m, matrix_from r c d = Ok m /\ nr m = r /\ nc m = c /\
    forall i j, i < r -> j < c -> exists a, mget m i j = Ok a /\ nth_error d (i * c + j) = Some a.
Proof.
  intros A r c d L. exists (Mat r c d). repeat split. intros i j Hi Hj.
  assert (H : i * c + j < length d) by (rewrite L; nia).
  destruct (nth_error d (i * c + j)) as [a|] eqn:E; [|apply nth_error_None in E; lia].
  exists a. split; [|reflexivity]. unfold mget, flattenIndex. cbn [nr nc dat].
  rewrite (proj2 (Nat.ltb_ge r i)) by lia. rewrite (proj2 (Nat.ltb_ge c j)) by lia. rewrite bind_Ok. unfold vdata. rewrite E. reflexivity.
Qed.

(** [C73] Other numbers of entries are accepted, too: reading an entry inside the matrix is
    then undefined. *)
Lemma matrix_from_refuted_pf : exists (r c : nat) (d : list nat) (m : matrix nat) (i j : nat),
  matrix_from r c d = Ok m /\ i < r /\ j < c /\ mget m i j = UB.
Proof. exists 2, 2, [1; 2; 3], (Mat 2 2 [1; 2; 3]), 1, 1. repeat split; lia. Qed.

Lemma scalar_update_example_expf :
  scalar_by_value Nat.add [1; 2; 3] (Entry 1) = Ok [3; 4; 5] /\
  scalar_by_reference Nat.sub [5; 2; 3] (Entry 1) = Ok [3; 0; 3] /\
  vector_update Nat.add [1; 2] Same = Ok [2; 4].
Proof. repeat split. Qed.
