(** Proofs about distributed vectors. *)
From Verif Require Import Base VectorModel MatrixModel PMatModel PMatSpec PMatProps DVecModel DVecSpec.

(** ** Rows *)
Lemma row_start_0 n p : row_start n p 0 = 0.
Proof. unfold row_start. lia. Qed.
Lemma row_start_S n p r : row_start n p (S r) = row_start n p r + row_count n p r.
Proof. unfold row_start, row_count. destruct (Nat.ltb_spec r (n mod p)); nia. Qed.
Lemma row_start_p n p : 0 < p -> row_start n p p = n.
Proof.
  intros Hp. unfold row_start. pose proof (Nat.div_mod n p ltac:(lia)) as E.
  pose proof (Nat.mod_upper_bound n p ltac:(lia)). rewrite Nat.min_r by lia. lia.
Qed.
Lemma row_start_mono n p r s : r <= s -> row_start n p r <= row_start n p s.
Proof. induction 1 as [|s H IH]; [lia|]. rewrite row_start_S. lia. Qed.

Lemma rows_one_owner n p : 0 < p -> one_owner n p (row_start n p) (row_count n p).
Proof.
  intros Hp k Hk.
  assert (H : forall q, k < row_start n p q -> exists r, r < q /\ row_start n p r <= k < row_start n p r + row_count n p r).
  { induction q as [|q IH]; intros H; [rewrite row_start_0 in H; lia|].
    destruct (Nat.lt_ge_cases k (row_start n p q)) as [L|L].
    - destruct (IH L) as (r & Hr & E). exists r. split; [lia|exact E].
    - exists q. rewrite row_start_S in H. lia. }
  destruct (H p) as (r & Hr & E); [rewrite row_start_p by exact Hp; exact Hk|].
  exists r. split; [exact Hr|]. split; [exact E|]. intros s Hs F.
  destruct (Nat.lt_trichotomy r s) as [L|[L|L]]; [|congruence|].
  - pose proof (row_start_mono n p (S r) s ltac:(lia)) as M. rewrite row_start_S in M. lia.
  - pose proof (row_start_mono n p (S s) r ltac:(lia)) as M. rewrite row_start_S in M. lia.
Qed.

Lemma owned_spec n p w r k : owned n p w r k = true <-> row_start n p r * w <= k < (row_start n p r + row_count n p r) * w.
Proof. unfold owned. rewrite andb_true_iff, Nat.leb_le, Nat.ltb_lt. reflexivity. Qed.

(** All entries, rank by rank. *)
Lemma global_rows n p w (f : nat -> Qc) : 0 < p ->
  concat (map (fun r => map f (seq (row_start n p r * w) (row_count n p r * w))) (seq 0 p)) = map f (seq 0 (n * w)).
Proof.
  intros Hp.
  assert (H : forall q, concat (map (fun r => map f (seq (row_start n p r * w) (row_count n p r * w))) (seq 0 q)) =
                        map f (seq 0 (row_start n p q * w))).
  { induction q as [|q IH]; [rewrite row_start_0; reflexivity|].
    rewrite seq_S, map_app, concat_app, IH. cbn [map concat plus]. rewrite app_nil_r.
    rewrite row_start_S, Nat.mul_add_distr_r, seq_app, map_app. reflexivity. }
  rewrite H, row_start_p by exact Hp. reflexivity.
Qed.

(** ** Writing *)
Lemma put_own_length n p w r own e : length (put_own n p w r own e) = length own.
Proof. unfold put_own. destruct (owned _ _ _ _ _); [apply upd_length|reflexivity]. Qed.
Lemma put_all_length n p w r l own : length (fold_left (put_own n p w r) l own) = length own.
Proof. revert own. induction l as [|e l IH]; intros own; [reflexivity|]. cbn. rewrite IH. apply put_own_length. Qed.

Lemma put_all_at n p w r (f : nat -> Qc) l own j :
  length own = row_count n p r * w -> j < row_count n p r * w ->
  (forall k v, In (k, v) l -> v = f k) ->
  ((exists v, In (row_start n p r * w + j, v) l) \/ nth j own 0%Qc = f (row_start n p r * w + j)) ->
  nth j (fold_left (put_own n p w r) l own) 0%Qc = f (row_start n p r * w + j).
Proof.
  revert own. induction l as [|[k v] l IH]; intros own Hl Hj Hv H; cbn [fold_left].
  - destruct H as [(v & [])|H]; exact H.
  - apply IH; [rewrite put_own_length; exact Hl|exact Hj|intros; apply Hv; now right|].
    unfold put_own. cbn [fst snd].
    destruct (Nat.eq_dec k (row_start n p r * w + j)) as [->|N].
    + right. assert (Ho : owned n p w r (row_start n p r * w + j) = true) by (apply owned_spec; nia).
      rewrite Ho. replace (row_start n p r * w + j - row_start n p r * w) with j by lia.
      rewrite nth_upd by lia. rewrite Nat.eqb_refl. apply Hv. now left.
    + destruct H as [(v' & [E|H])|H].
      * congruence.
      * left. eauto.
      * right. destruct (owned n p w r k) eqn:Ho; [|exact H]. apply owned_spec in Ho.
        rewrite nth_upd by lia. destruct (Nat.eqb_spec (k - row_start n p r * w) j); [lia|exact H].
Qed.

Definition away n p w r (l : list (nat * Qc)) := filter (fun e => negb (owned n p w r (fst e))) l.
Lemma set_all n p w r l x : (forall e, In e l -> fst e < n * w) ->
  foldM (set_entry n p w r) l x = Ok (VRank (fold_left (put_own n p w r) l (v_own x)) (v_stash x ++ away n p w r l)).
Proof.
  revert x. induction l as [|e l IH]; intros x H; cbn [foldM fold_left].
  - cbn. rewrite app_nil_r. destruct x; reflexivity.
  - unfold set_entry at 1. pose proof (H e (or_introl eq_refl)) as He.
    destruct (Nat.leb_spec (n * w) (fst e)); [lia|].
    unfold away. cbn [filter]. destruct (owned n p w r (fst e)) eqn:Ho; cbn [negb bind].
    + rewrite IH by (intros; apply H; now right). reflexivity.
    + rewrite IH by (intros; apply H; now right). cbn [v_own v_stash].
      unfold put_own at 3. rewrite Ho. rewrite <- app_assoc. reflexivity.
Qed.

Lemma fold_left_flat {A B C} (g : A -> B -> A) (h : C -> list B) l a :
  fold_left (fun a c => fold_left g (h c) a) l a = fold_left g (flat_map h l) a.
Proof. revert a. induction l as [|c l IH]; intros a; [reflexivity|]. cbn. rewrite fold_left_app. apply IH. Qed.

(** The ranks after each has written the entries [ws r]. *)
Definition written n p w (ws : nat -> list (nat * Qc)) : list vrank :=
  map (fun r => VRank (fold_left (put_own n p w r) (ws r) (repeat 0%Qc (row_count n p r * w))) (away n p w r (ws r))) (seq 0 p).

Lemma nth_map_seq_gen {A} (f : nat -> A) p r d : r < p -> nth r (map f (seq 0 p)) d = f r.
Proof.
  intros H. rewrite (nth_indep _ d (f 0)) by (rewrite map_length, seq_length; lia).
  rewrite map_nth, seq_nth by lia. reflexivity.
Qed.

Lemma list_as_map (l : list Qc) (f : nat -> Qc) a : (forall j, j < length l -> nth j l 0%Qc = f (a + j)) ->
  l = map f (seq a (length l)).
Proof.
  revert a. induction l as [|x l IH]; intros a H; [reflexivity|]. cbn [length seq map]. f_equal.
  - specialize (H 0 ltac:(cbn; lia)). cbn in H. rewrite Nat.add_0_r in H. exact H.
  - apply IH. intros j Hj. specialize (H (S j) ltac:(cbn; lia)). cbn in H. rewrite H. f_equal. lia.
Qed.

Section Agree.
Context (n p w : nat) (f : nat -> Qc) (ws : nat -> list (nat * Qc)).
Hypothesis Hp : 0 < p.
Hypothesis Hval : forall r k v, r < p -> In (k, v) (ws r) -> v = f k.

(** Before assembly, if every rank writes its own entries. *)
Lemma before_own : (forall r k, r < p -> owned n p w r k = true -> exists v, In (k, v) (ws r)) ->
  global (written n p w ws) = map f (seq 0 (n * w)).
Proof.
  intros H. unfold global, written. rewrite map_map. cbn [v_own]. rewrite <- (global_rows n p w f Hp). f_equal.
  apply map_ext_in. intros r Hr. apply in_seq in Hr.
  assert (Hl : length (fold_left (put_own n p w r) (ws r) (repeat 0%Qc (row_count n p r * w))) = row_count n p r * w)
    by (rewrite put_all_length, repeat_length; reflexivity).
  rewrite <- Hl at 2. apply list_as_map. intros j Hj. rewrite Hl in Hj.
  apply put_all_at; [apply repeat_length|exact Hj|intros k v Hi; apply (Hval r); [lia|exact Hi]|].
  left. apply H; [lia|]. apply owned_spec. nia.
Qed.

Lemma after_agree (order : nat -> list nat) : (forall r s, r < p -> In s (order r) -> s < p) ->
  (forall r k, r < p -> owned n p w r k = true ->
     (exists v, In (k, v) (ws r)) \/ (exists s v, s < p /\ In s (order r) /\ owned n p w s k = false /\ In (k, v) (ws s))) ->
  global (assemble n p w order (written n p w ws)) = map f (seq 0 (n * w)).
Proof.
  intros Hord H. unfold global, assemble. rewrite map_map. cbn [v_own].
  assert (Hlen : length (written n p w ws) = p) by (unfold written; rewrite map_length, seq_length; reflexivity).
  rewrite Hlen. rewrite <- (global_rows n p w f Hp). f_equal.
  apply map_ext_in. intros r Hr. apply in_seq in Hr.
  rewrite fold_left_flat.
  replace (v_own (nth r (written n p w ws) (VRank [] []))) with (fold_left (put_own n p w r) (ws r) (repeat 0%Qc (row_count n p r * w)))
    by (unfold written; rewrite nth_map_seq_gen by lia; reflexivity).
  rewrite <- fold_left_app.
  set (L := ws r ++ _).
  assert (Hl : length (fold_left (put_own n p w r) L (repeat 0%Qc (row_count n p r * w))) = row_count n p r * w)
    by (rewrite put_all_length, repeat_length; reflexivity).
  rewrite <- Hl at 2. apply list_as_map. intros j Hj. rewrite Hl in Hj.
  apply put_all_at; [apply repeat_length|exact Hj| |].
  - intros k v Hi. unfold L in Hi. apply in_app_iff in Hi as [Hi|Hi]; [apply (Hval r); [lia|exact Hi]|].
    apply in_flat_map in Hi as (s & Hs & Hi). pose proof (Hord r s ltac:(lia) Hs) as Hsp.
    unfold written in Hi. rewrite nth_map_seq_gen in Hi by exact Hsp. cbn [v_stash] in Hi.
    apply filter_In in Hi as (Hi & _). exact (Hval s _ _ Hsp Hi).
  - left. destruct (H r (row_start n p r * w + j)) as [(v & Hi)|(s & v & Hsp & Hs & Ho & Hi)]; [lia|apply owned_spec; nia| |].
    + exists v. unfold L. apply in_app_iff. auto.
    + exists v. unfold L. apply in_app_iff. right. apply in_flat_map. exists s. split; [exact Hs|].
      unfold written. rewrite nth_map_seq_gen by exact Hsp. cbn [v_stash]. apply filter_In. cbn [fst]. rewrite Ho. auto.
Qed.
End Agree.

Lemma set_ranks n p w ws : (forall r e, r < p -> In e (ws r) -> fst e < n * w) ->
  mapM (fun r => foldM (set_entry n p w r) (ws r) (fresh_rank n p w r)) (seq 0 p) = Ok (written n p w ws).
Proof.
  intros H. apply mapM_ok. intros r Hr. apply in_seq in Hr. rewrite set_all by (intros; apply (H r); [lia|assumption]). reflexivity.
Qed.

(** ** The calls as lists of entries *)
Definition vec_entries (idx : list Z) (vals : list Qc) : list (nat * Qc) :=
  map (fun e => (Z.to_nat (fst e), snd e)) (filter (fun e => negb (fst e <? 0)%Z) (combine idx vals)).
Lemma vec_set_values_entries n p r x idx vals : length idx <= length vals ->
  vec_set_values n p r x idx vals = foldM (set_entry n p 1 r) (vec_entries idx vals) x.
Proof.
  intros H. unfold vec_set_values. destruct (Nat.ltb_spec (length vals) (length idx)); [lia|].
  unfold vec_entries. generalize (combine idx vals). intros l. revert x.
  induction l as [|[i v] l IH]; intros x; [reflexivity|]. cbn [foldM filter fst snd].
  destruct (i <? 0)%Z; cbn [negb bind]; [apply IH|]. cbn [map foldM fst snd].
  destruct (set_entry n p 1 r x (Z.to_nat i, v)); cbn [bind]; auto.
Qed.

Definition mat_entries (w : nat) (rows cols : list Z) (vals : list Qc) : list (nat * Qc) :=
  flat_map (fun i => map (fun j => (Z.to_nat (nth i rows 0%Z) * w + Z.to_nat (nth j cols 0%Z), nth (i * length cols + j) vals 0%Qc))
                         (seq 0 (length cols))) (seq 0 (length rows)).
Lemma foldM_map {A B S} (g : S -> B -> res S) (h : A -> B) l s : foldM g (map h l) s = foldM (fun s a => g s (h a)) l s.
Proof. revert s. induction l as [|a l IH]; intros s; [reflexivity|]. cbn. destruct (g s (h a)); cbn; auto. Qed.
Lemma foldM_flat {A B S} (g : S -> B -> res S) (h : A -> list B) l s :
  foldM (fun s a => foldM g (h a) s) l s = foldM g (flat_map h l) s.
Proof. revert s. induction l as [|a l IH]; intros s; [reflexivity|]. cbn. rewrite foldM_app. destruct (foldM g (h a) s); cbn; auto. Qed.
Lemma mat_set_values_entries n p w r x rows cols vals :
  length rows * length cols <= length vals ->
  (forall i, In i rows -> (0 <= i < Z.of_nat n)%Z) -> (forall j, In j cols -> (0 <= j < Z.of_nat w)%Z) ->
  mat_set_values n p w r x rows cols vals = foldM (set_entry n p w r) (mat_entries w rows cols vals) x.
Proof.
  intros H Hr Hc. unfold mat_set_values. destruct (Nat.ltb_spec (length vals) (length rows * length cols)); [lia|].
  unfold mat_entries. rewrite <- foldM_flat. apply foldM_ext. intros s i Hi. apply in_seq in Hi.
  rewrite foldM_map. apply foldM_ext. intros s' j Hj. apply in_seq in Hj. cbn zeta.
  pose proof (Hr (nth i rows 0%Z) ltac:(apply nth_In; lia)). pose proof (Hc (nth j cols 0%Z) ltac:(apply nth_In; lia)).
  destruct (Z.ltb_spec (nth i rows 0%Z) 0); [lia|]. destruct (Z.ltb_spec (nth j cols 0%Z) 0); [lia|]. cbn [orb].
  destruct (Nat.leb_spec n (Z.to_nat (nth i rows 0%Z))); [lia|]. destruct (Nat.leb_spec w (Z.to_nat (nth j cols 0%Z))); [lia|]. reflexivity.
Qed.

Lemma range_ok n : vectorRange 0 (Z.of_nat n - 1) = Ok (map Z.of_nat (seq 0 n)).
Proof.
  unfold vectorRange. destruct (Z.ltb_spec (Z.of_nat n - 1 - 0 + 1) 0); [lia|].
  replace (Z.to_nat (Z.of_nat n - 1 - 0 + 1)) with n by lia. f_equal.
Qed.

(** ** Life of the objects *)
Definition to_p (st : vstate) : pstate :=
  PState (v_next st) (v_destroyed st) (fun o => option_map (fun x => PObj (v_vec x) (v_created x)) (v_objs st o)).
Lemma sound_ext st st' : p_next st = p_next st' -> p_destroyed st = p_destroyed st' ->
  (forall o, p_objs st o = p_objs st' o) -> sound st -> sound st'.
Proof.
  intros E1 E2 E3 (S1 & S2 & S3 & S4 & S5).
  assert (W : forall o m, owner st' o m <-> owner st o m) by (intros; unfold owner; rewrite E3; reflexivity).
  split; [|split; [|split; [|split] ] ].
  - intros o x. rewrite <- E3, <- E1. apply S1.
  - intros o o' m. rewrite !W. apply S2.
  - intros o m. rewrite W, <- E2. apply S3.
  - intros m. rewrite <- E1, <- E2. intros Hm. destruct (S4 m Hm) as [(o & Ho)|Ho]; [left; exists o; apply W; exact Ho|right; exact Ho].
  - intros m. rewrite <- E1, <- E2. apply S5.
Qed.
Lemma owns_to_p st o : owns (to_p st) o <-> has_vector st o.
Proof.
  unfold owns, has_vector, to_p. cbn [p_objs]. split.
  - intros (x & E & C). destruct (v_objs st o) as [y|] eqn:Ey; [|discriminate]. injection E as <-. exists y. auto.
  - intros (y & E & C). rewrite E. eexists. split; [reflexivity|exact C].
Qed.

Lemma single_step st c st' : sound (to_p st) -> single_owner st c -> v_step st c = Ok st' -> sound (to_p st').
Proof.
  intros S C E. destruct c as [o|o|o s|o s|o|o]; cbn [v_step single_owner] in *.
  - unfold v_new in E. destruct (v_objs st o) eqn:X; [discriminate|]. apply Ok_inj in E. subst st'.
    apply (sound_ext (p_put (to_p st) o (Some (PObj None false)))); try reflexivity.
    + intros o'. cbn. destruct (o =? o'); reflexivity.
    + apply sound_plain; [exact S|rewrite owns_to_p; intros (y & Q & _); congruence|]. intros y Q. injection Q as <-. reflexivity.
  - unfold v_new, v_fresh in E. cbn [v_objs] in E. destruct (v_objs st o) eqn:X; [discriminate|]. apply Ok_inj in E. subst st'.
    eapply sound_ext; [| | |apply (sound_fresh (to_p st) o S); left; cbn; rewrite X; reflexivity]; try reflexivity.
    intros o'. cbn. destruct (o =? o'); reflexivity.
  - apply bind_inv in E as (x & Ex & E). unfold v_obj in Ex. destruct (v_objs st s) as [x'|] eqn:Xs; [|discriminate]. apply Ok_inj in Ex. subst x'.
    unfold v_new in E. destruct (v_objs st o) eqn:X; [discriminate|]. apply Ok_inj in E. subst st'.
    apply (sound_ext (p_put (to_p st) o (Some (PObj (v_vec x) (v_created x))))); try reflexivity.
    + intros o'. cbn. destruct (o =? o'); reflexivity.
    + apply sound_plain; [exact S|rewrite owns_to_p; intros (y & Q & _); congruence|]. intros y Q. injection Q as <-. cbn.
      destruct (v_created x) eqn:Cx; [|reflexivity]. exfalso. apply C. exists x. auto.
  - apply bind_inv in E as (x & Ex & E). unfold v_obj in Ex. destruct (v_objs st s) as [x'|] eqn:Xs; [|discriminate]. apply Ok_inj in Ex. subst x'.
    apply bind_inv in E as (y & _ & E). apply Ok_inj in E. subst st'.
    destruct C as [->|(C1 & C2)].
    + apply (sound_ext (to_p st)); try reflexivity; [|exact S]. intros o'. cbn. destruct (Nat.eqb_spec s o') as [<-|]; [rewrite Xs|]; reflexivity.
    + apply (sound_ext (p_put (to_p st) o (Some (PObj (v_vec x) (v_created x))))); try reflexivity.
      * intros o'. cbn. destruct (o =? o'); reflexivity.
      * apply sound_plain; [exact S|rewrite owns_to_p; exact C1|]. intros z Q. injection Q as <-. cbn.
        destruct (v_created x) eqn:Cx; [|reflexivity]. exfalso. apply C2. exists x. auto.
  - apply bind_inv in E as (x & _ & E). apply Ok_inj in E. subst st'.
    eapply sound_ext; [| | |apply (sound_fresh (to_p st) o S); right; rewrite owns_to_p; exact C]; try reflexivity.
    intros o'. cbn. destruct (o =? o'); reflexivity.
  - apply bind_inv in E as (x & Ex & E). unfold v_obj in Ex. destruct (v_objs st o) as [x'|] eqn:Xo; [|discriminate]. apply Ok_inj in Ex. subst x'.
    apply Ok_inj in E. destruct (v_created x) eqn:Cx.
    + assert (Xp : p_objs (to_p st) o = Some (PObj (v_vec x) (v_created x))) by (cbn; rewrite Xo; reflexivity).
      destruct (proj1 S o _ Xp Cx) as (m & F & _). cbn in F. rewrite F in E. subst st'.
      eapply sound_ext; [| | |apply (sound_destroy (to_p st) o _ m S Xp); [exact Cx|exact F]]; try reflexivity.
      intros o'. cbn. destruct (o =? o'); reflexivity.
    + subst st'. eapply sound_ext; [| | |apply (sound_plain (to_p st) o None S); [|discriminate]]; try reflexivity.
      * intros o'. cbn. destruct (o =? o'); reflexivity.
      * rewrite owns_to_p. intros (y & Q & Cy). congruence.
Qed.
Lemma single_run cs : forall st st', sound (to_p st) -> single_owner_run st cs -> foldM v_step cs st = Ok st' -> sound (to_p st').
Proof.
  induction cs as [|c cs IH]; intros st st' S C E; cbn [foldM single_owner_run] in *; [apply Ok_inj in E; subst; exact S|].
  destruct C as [C1 C2]. apply bind_inv in E as (st1 & E1 & E). apply (IH st1); [exact (single_step _ _ _ S C1 E1)|exact (C2 _ E1)|exact E].
Qed.
Lemma sound_v_start : sound (to_p v_start).
Proof. apply (sound_ext p_start); try reflexivity. apply sound_start. Qed.

Lemma in_combine_some {A B} (l : list A) (m : list B) a : In a l -> length l <= length m -> exists b, In (a, b) (combine l m).
Proof.
  revert m. induction l as [|x l IH]; intros m Hi Hl; [destruct Hi|]. destruct m as [|b m]; cbn in Hl; [lia|].
  destruct Hi as [->|Hi]; [exists b; now left|]. destruct (IH m Hi ltac:(lia)) as (c & Hc). exists c. now right.
Qed.
Lemma mapM_ext_in {A B} (f g : A -> res B) l : (forall a, In a l -> f a = g a) -> mapM f l = mapM g l.
Proof.
  induction l as [|a l IH]; intros H; [reflexivity|]. cbn. rewrite (H a) by now left.
  destruct (g a); cbn; [|reflexivity|reflexivity]. rewrite IH; [reflexivity|]. intros; apply H; now right.
Qed.

(** Entries written somewhere. *)
Lemma entries_assembled n p w f ws order : 0 < p ->
  (forall r k v, r < p -> In (k, v) (ws r) -> v = f k) ->
  (forall k, k < n * w -> exists r v, r < p /\ In (k, v) (ws r)) ->
  (forall r s, r < p -> (In s (order r) <-> s < p)) ->
  global (assemble n p w order (written n p w ws)) = map f (seq 0 (n * w)).
Proof.
  intros Hp Hval Hall Hord. apply (after_agree n p w f ws Hp Hval).
  - intros r s Hr Hs. apply (Hord r s Hr). exact Hs.
  - intros r k Hr Ho. assert (Hn : k < n * w).
    { apply owned_spec in Ho. pose proof (row_start_mono n p (S r) p ltac:(lia)) as M. rewrite row_start_S, row_start_p in M by exact Hp. nia. }
    destruct (Hall k Hn) as (s & v & Hs & Hv).
    destruct (owned n p w s k) eqn:Eo.
    + left. assert (Hw : 0 < w) by nia. assert (Hk : k / w < n) by (apply Nat.div_lt_upper_bound; nia).
      destruct (rows_one_owner n p Hp (k / w) Hk) as (q & _ & _ & Hu). apply owned_spec in Eo. apply owned_spec in Ho.
      assert (Hq : forall t, row_start n p t * w <= k < (row_start n p t + row_count n p t) * w ->
                   row_start n p t <= k / w < row_start n p t + row_count n p t).
      { intros t Ht. split; [apply Nat.div_le_lower_bound; nia|apply Nat.div_lt_upper_bound; nia]. }
      assert (s = q) by (apply Hu; [exact Hs|apply Hq; exact Eo]). assert (r = q) by (apply Hu; [exact Hr|apply Hq; exact Ho]).
      subst. eauto.
    + right. exists s, v. split; [exact Hs|]. split; [apply Hord; [exact Hr|exact Hs]|]. auto.
Qed.
(** Entries written everywhere. *)
Lemma entries_everywhere n p w f ws order : 0 < p ->
  (forall r k v, r < p -> In (k, v) (ws r) -> v = f k) ->
  (forall r k, r < p -> k < n * w -> exists v, In (k, v) (ws r)) ->
  (forall r s, r < p -> In s (order r) -> s < p) ->
  global (written n p w ws) = map f (seq 0 (n * w)) /\
  global (assemble n p w order (written n p w ws)) = map f (seq 0 (n * w)).
Proof.
  intros Hp Hval Hall Hord.
  assert (Hown : forall r k, r < p -> owned n p w r k = true -> exists v, In (k, v) (ws r)).
  { intros r k Hr Ho. apply Hall; [exact Hr|].
    apply owned_spec in Ho. pose proof (row_start_mono n p (S r) p ltac:(lia)) as M. rewrite row_start_S, row_start_p in M by exact Hp. nia. }
  split; [apply before_own; assumption|]. apply after_agree; try assumption. intros r k Hr Ho. left. apply Hown; assumption.
Qed.

Lemma in_vec_entries idx vals k v : In (k, v) (vec_entries idx vals) <-> In (Z.of_nat k, v) (combine idx vals).
Proof.
  unfold vec_entries. rewrite in_map_iff. split.
  - intros ([i v'] & E & Hi). apply filter_In in Hi as (Hi & Hn). cbn [fst snd] in *. injection E as <- <-.
    destruct (Z.ltb_spec i 0); [discriminate|]. rewrite Z2Nat.id by lia. exact Hi.
  - intros Hi. exists (Z.of_nat k, v). cbn [fst snd]. rewrite Nat2Z.id. split; [reflexivity|]. apply filter_In.
    split; [exact Hi|]. cbn [fst]. destruct (Z.ltb_spec (Z.of_nat k) 0); [lia|reflexivity].
Qed.
Lemma in_mat_entries w rows cols vals k v : In (k, v) (mat_entries w rows cols vals) <->
  exists i j, i < length rows /\ j < length cols /\
    k = Z.to_nat (nth i rows 0%Z) * w + Z.to_nat (nth j cols 0%Z) /\ v = nth (i * length cols + j) vals 0%Qc.
Proof.
  unfold mat_entries. rewrite in_flat_map. split.
  - intros (i & Hi & H). apply in_map_iff in H as (j & E & Hj). apply in_seq in Hi. apply in_seq in Hj.
    injection E as <- <-. exists i, j. repeat split; lia.
  - intros (i & j & Hi & Hj & -> & ->). exists i. split; [apply in_seq; lia|]. apply in_map_iff. exists j.
    split; [reflexivity|apply in_seq; lia].
Qed.
Lemma nth_range n i : i < n -> nth i (map Z.of_nat (seq 0 n)) 0%Z = Z.of_nat i.
Proof. intros H. change 0%Z with (Z.of_nat 0). rewrite map_nth, seq_nth by lia. reflexivity. Qed.
Lemma nth_repeat_lt {A} (a d : A) n i : i < n -> nth i (repeat a n) d = a.
Proof. intros H. apply (repeat_spec n a). apply nth_In. rewrite repeat_length. exact H. Qed.
Lemma list_of_nth (l : list Qc) : map (fun k => nth k l 0%Qc) (seq 0 (length l)) = l.
Proof. symmetry. apply list_as_map. intros j _. reflexivity. Qed.
