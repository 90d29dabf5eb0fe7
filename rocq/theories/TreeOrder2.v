(** More about traversals: data callbacks, order of the leaves; more about the
    construction: where nodes come from, grids of leaves. *)
From Verif Require Import Base VectorModel MatrixModel HPSModel TreeModel TreeSpec TreeProofs TreeTile TreeCtor TreeOrder TreeMap.

(** ** Callbacks without communication *)
Section local.
Context {D S R : Type} (rank : nat).

Definition same_local (cb1 cb2 : @callback D S R) : Prop :=
  forall st q b, exists r : res (S * nmap D * bool), forall k,
  cb1 st q b k = lift r k /\ cb2 st q b k = lift r k.

Lemma lift_bind {A B} (x : res A) (y : A -> res B) (k : B -> cmd D R) :
  lift (bind x y) k = lift x (fun a => lift (y a) k).
Proof. destruct x; reflexivity. Qed.

Lemma lift_ext {A} (x : res A) (k k' : A -> cmd D R) : (forall a, k a = k' a) -> lift x k = lift x k'.
Proof. intros H. destruct x; cbn; auto. Qed.

Lemma no_callback_local : same_local no_callback no_callback.
Proof. intros st q b. exists (Ok (st, true)). intros k. split; reflexivity. Qed.

Lemma search_local pre1 post1 pre2 post2 f : same_local pre1 pre2 -> same_local post1 post2 ->
  forall q st, exists r : res (S * nmap D), forall k,
  search_reorder rank pre1 post1 f q st k = lift r k /\ search_reorder rank pre2 post2 f q st k = lift r k.
Proof.
  intros Hpre Hpost.
  induction f as [o|a IHa b IHb c IHc d IHd]; intros q st; cbn [search_reorder].
  - destruct (has_local rank (FLeaf o)); [|exists (Ok st); intros k; split; reflexivity].
    destruct (Hpre st q true) as (r & Hr).
    destruct r as [[st1 [|]]|e|].
    + destruct (Hpost st1 q true) as (r' & Hr').
      exists (x <- r' ;; Ok (fst x)). intros k. rewrite !(proj1 (Hr _)), !(proj2 (Hr _)). cbn [lift fst snd].
      rewrite !(proj1 (Hr' _)), !(proj2 (Hr' _)), lift_bind. cbn [lift]. auto.
    + exists (Ok st1). intros k. rewrite !(proj1 (Hr _)), !(proj2 (Hr _)). auto.
    + exists (Throw e). intros k. rewrite !(proj1 (Hr _)), !(proj2 (Hr _)). auto.
    + exists UB. intros k. rewrite !(proj1 (Hr _)), !(proj2 (Hr _)). auto.
  - destruct (has_local rank (FNode a b c d)); [|exists (Ok st); intros k; split; reflexivity].
    destruct (Hpre st q false) as (r & Hr).
    destruct r as [[st0 [|]]|e|].
    + destruct (IHa (qchild q 0) st0) as (ra & Ha).
      destruct ra as [st1|e|];
        [|exists (Throw e); intros k; rewrite !(proj1 (Hr _)), !(proj2 (Hr _)); cbn [lift fst snd]; rewrite !(proj1 (Ha _)), !(proj2 (Ha _)); auto
         |exists UB; intros k; rewrite !(proj1 (Hr _)), !(proj2 (Hr _)); cbn [lift fst snd]; rewrite !(proj1 (Ha _)), !(proj2 (Ha _)); auto].
      destruct (IHb (qchild q 1) st1) as (rb & Hb).
      destruct rb as [st2|e|];
        [|exists (Throw e)|exists UB];
        [|intros k; rewrite !(proj1 (Hr _)), !(proj2 (Hr _)); cbn [lift fst snd];
           rewrite !(proj1 (Ha _)), !(proj2 (Ha _)); cbn [lift]; rewrite !(proj1 (Hb _)), !(proj2 (Hb _)); auto ..].
      destruct (IHc (qchild q 2) st2) as (rc & Hc).
      destruct rc as [st3|e|];
        [|exists (Throw e)|exists UB];
        [|intros k; rewrite !(proj1 (Hr _)), !(proj2 (Hr _)); cbn [lift fst snd];
           rewrite !(proj1 (Ha _)), !(proj2 (Ha _)); cbn [lift]; rewrite !(proj1 (Hb _)), !(proj2 (Hb _)); cbn [lift];
           rewrite !(proj1 (Hc _)), !(proj2 (Hc _)); auto ..].
      destruct (IHd (qchild q 3) st3) as (rd & Hd).
      destruct rd as [st4|e|];
        [|exists (Throw e)|exists UB];
        [|intros k; rewrite !(proj1 (Hr _)), !(proj2 (Hr _)); cbn [lift fst snd];
           rewrite !(proj1 (Ha _)), !(proj2 (Ha _)); cbn [lift]; rewrite !(proj1 (Hb _)), !(proj2 (Hb _)); cbn [lift];
           rewrite !(proj1 (Hc _)), !(proj2 (Hc _)); cbn [lift]; rewrite !(proj1 (Hd _)), !(proj2 (Hd _)); auto ..].
      destruct (Hpost st4 q false) as (r' & Hr').
      exists (x <- r' ;; Ok (fst x)). intros k.
      rewrite !(proj1 (Hr _)), !(proj2 (Hr _)); cbn [lift fst snd];
        rewrite !(proj1 (Ha _)), !(proj2 (Ha _)); cbn [lift]; rewrite !(proj1 (Hb _)), !(proj2 (Hb _)); cbn [lift];
        rewrite !(proj1 (Hc _)), !(proj2 (Hc _)); cbn [lift]; rewrite !(proj1 (Hd _)), !(proj2 (Hd _)); cbn [lift].
      rewrite !(proj1 (Hr' _)), !(proj2 (Hr' _)), lift_bind. cbn [lift]. auto.
    + exists (Ok st0). intros k. rewrite !(proj1 (Hr _)), !(proj2 (Hr _)). auto.
    + exists (Throw e). intros k. rewrite !(proj1 (Hr _)), !(proj2 (Hr _)). auto.
    + exists UB. intros k. rewrite !(proj1 (Hr _)), !(proj2 (Hr _)). auto.
Qed.

(** A data callback as a node callback that returns 1. *)
Definition as_node_fn (fn : S -> D -> res (S * D)) : S -> qnode D -> res (S * D * bool) :=
  fun s n => r <- fn s (n_data n) ;; Ok (fst r, snd r, true).

Lemma data_local fn : same_local (search_visit_data rank fn) (search_visit rank (as_node_fn fn)).
Proof.
  intros [s m] q b. unfold search_visit_data, search_visit, mget, as_node_fn. cbn [fst snd].
  destruct (m (quadrant_path q)) as [n|]; [|exists (Ok ((s, m), true)); auto].
  destruct (in_range rank (n_pfirst n) (n_plast n)); [|exists (Ok ((s, m), true)); auto].
  destruct (fn s (n_data n)) as [[s' d]|e|]; cbn [bind lift fst snd];
    [eexists (Ok _)|exists (Throw e)|exists UB]; intros k; split; reflexivity.
Qed.
End local.

(** ** The order of the leaves *)
Lemma sorted_unique {A} (R : A -> A -> Prop) (l1 l2 : list A) :
  (forall x, ~ R x x) -> (forall x y, R x y -> ~ R y x) ->
  StronglySorted R l1 -> StronglySorted R l2 -> (forall x, In x l1 <-> In x l2) -> l1 = l2.
Proof.
  intros Irr Asym. revert l2; induction l1 as [|a l1 IH]; intros l2 S1 S2 H.
  - destruct l2 as [|b l2]; [reflexivity|]. destruct (proj2 (H b)); left; reflexivity.
  - destruct l2 as [|b l2]; [destruct (proj1 (H a)); left; reflexivity|].
    apply StronglySorted_inv in S1 as [S1 F1]. apply StronglySorted_inv in S2 as [S2 F2].
    rewrite Forall_forall in F1, F2.
    assert (E : a = b).
    { destruct (proj1 (H a) (or_introl eq_refl)) as [E|Ha]; [congruence|].
      destruct (proj2 (H b) (or_introl eq_refl)) as [E|Hb]; [congruence|].
      exfalso. exact (Asym _ _ (F1 b Hb) (F2 a Ha)). }
    subst b. f_equal. apply IH; auto. intros x. split; intros Hx.
    + destruct (proj1 (H x) (or_intror Hx)) as [<-|Hx']; auto. exfalso. exact (Irr _ (F1 _ Hx)).
    + destruct (proj2 (H x) (or_intror Hx)) as [<-|Hx']; auto. exfalso. exact (Irr _ (F2 _ Hx)).
Qed.

Lemma before_irr p : ~ before p p.
Proof.
  induction p as [|i p IH]; intros H; inversion H; subst; auto; lia.
Qed.
Lemma before_asym p q : before p q -> ~ before q p.
Proof.
  intros H. induction H; intros H'; inversion H'; subst; try lia; auto.
Qed.
Lemma before_post_irr p : ~ before_post p p.
Proof. induction p as [|i p IH]; intros H; inversion H; subst; auto; lia. Qed.

(** On leaves the two orders agree. *)
Lemma post_before_leaf f p q : In p (leaf_paths f) -> In q (leaf_paths f) -> before_post p q -> before p q.
Proof.
  rewrite !leaf_sub. intros (o & Hp) (o' & Hq) H. revert f Hp Hq.
  induction H as [i p|i j p q Hij|i p q H IH]; intros f Hp Hq.
  - cbn in Hq. injection Hq as ->. cbn in Hp. discriminate.
  - apply before_digit. exact Hij.
  - cbn [sub] in Hp, Hq. destruct (fchild f i) as [f'|]; [|discriminate]. apply before_cons. apply (IH f'); auto.
Qed.

Lemma leaf_paths_sorted f : StronglySorted before (leaf_paths f).
Proof.
  induction f as [o|a IHa b IHb c IHc d IHd]; cbn [leaf_paths]; [repeat constructor|].
  apply sorted_four; auto; intros; [apply before_cons|apply before_digit]; auto.
Qed.

Lemma sorted_filter {A} (R : A -> A -> Prop) (g : A -> bool) l : StronglySorted R l -> StronglySorted R (filter g l).
Proof.
  intros H; induction H as [|a l H IH F]; cbn; [constructor|]. destruct (g a); auto. constructor; auto.
  rewrite Forall_forall in *. intros x Hx. apply filter_In in Hx as [Hx _]. auto.
Qed.

Lemma sorted_impl {A} (R R' : A -> A -> Prop) l : (forall x y, In x l -> In y l -> R x y -> R' x y) ->
  StronglySorted R l -> StronglySorted R' l.
Proof.
  intros HR H; induction H as [|a l H IH F]; constructor.
  - apply IH. intros x y Hx Hy. apply HR; right; auto.
  - rewrite Forall_forall in *. intros x Hx. apply HR; [left; auto|right; auto|auto].
Qed.

(** Is the quadrant a leaf of the tree? *)
Definition leaf_path (f : forest) (ds : list nat) : bool :=
  match sub f ds with Some (FLeaf _) => true | _ => false end.
(** ... and owned by the rank? *)
Definition own_leaf (rank : nat) (f : forest) (ds : list nat) : bool :=
  match sub f ds with Some (FLeaf o) => Nat.eqb o rank | _ => false end.

Lemma leaf_path_iff f ds : leaf_path f ds = true <-> In ds (leaf_paths f).
Proof.
  rewrite leaf_sub. unfold leaf_path. destruct (sub f ds) as [[o|]|]; split; try discriminate; eauto;
    intros (o' & H); discriminate.
Qed.

Lemma own_leaf_iff rank f ds : own_leaf rank f ds = true <->
  leaf_path f ds = true /\ local_quadrant rank f ds.
Proof.
  unfold own_leaf, leaf_path, local_quadrant. destruct (sub f ds) as [[o|]|]; split;
    try discriminate; try (intros [H _]; discriminate).
  - intros H. split; [reflexivity|]. eexists. split; [reflexivity|]. cbn. left. apply Nat.eqb_eq. exact H.
  - intros (_ & f' & E & H). injection E as <-. cbn in H. destruct H as [H|[]]. apply Nat.eqb_eq. exact H.
Qed.

Lemma leaf_order rank f (l : list (list nat)) (R : list nat -> list nat -> Prop) :
  (forall p q, In p (leaf_paths f) -> In q (leaf_paths f) -> R p q -> before p q) ->
  StronglySorted R l -> (forall ds, leaf_path f ds = true -> In ds l <-> local_quadrant rank f ds) ->
  filter (leaf_path f) l = filter (own_leaf rank f) (leaf_paths f).
Proof.
  intros HR HS H. apply (sorted_unique before); try apply before_irr; try apply before_asym.
  - apply (sorted_impl R); [|apply sorted_filter; exact HS].
    intros x y Hx Hy. apply filter_In in Hx as [_ Hx]. apply filter_In in Hy as [_ Hy].
    apply HR; apply leaf_path_iff; auto.
  - apply sorted_filter, leaf_paths_sorted.
  - intros ds. rewrite !filter_In. rewrite own_leaf_iff. rewrite <- leaf_path_iff. split.
    + intros [H1 H2]. rewrite (H ds H2) in H1. auto.
    + intros (H1 & _ & H2). rewrite (H ds H1). auto.
Qed.

(** ** Construction: parents, grids *)
Section ctor.
Context {D : Type} (fac : factory D) (rank : nat).

Lemma chain_snoc n f ds i f' f'' : sub f ds = Some f' -> fchild f' i = Some f'' ->
  chain fac rank n f (ds ++ [i]) = child_node fac rank (chain fac rank n f ds) i f''.
Proof.
  revert n f; induction ds as [|j ds IH]; intros n f E1 E2; cbn [app chain sub] in *.
  - injection E1 as ->. rewrite E2. reflexivity.
  - destruct (fchild f j) as [g|]; [|discriminate]. apply IH; auto.
Qed.
End ctor.

Lemma pfirst_child a b c d : pfirst (FNode a b c d) = pfirst a.
Proof.
  unfold pfirst. cbn [owners]. pose proof (owners_nonempty a). destruct (owners a); [contradiction|reflexivity].
Qed.
Lemma plast_child a b c d : plast (FNode a b c d) = plast d.
Proof.
  unfold plast. cbn [owners]. rewrite !app_assoc. pose proof (owners_nonempty d) as H.
  destruct (exists_last H) as (l & x & E). rewrite E, !app_assoc, !last_last. reflexivity.
Qed.

Lemma child_ranges_ordered a b c d i j f1 f2 : contiguous (FNode a b c d) -> i < j ->
  fchild (FNode a b c d) i = Some f1 -> fchild (FNode a b c d) j = Some f2 -> plast f1 <= pfirst f2.
Proof.
  unfold contiguous. cbn [owners]. rewrite !ss_app. intros (_ & (_ & (_ & _ & C3) & C2) & C1) Hij E1 E2.
  pose proof (plast_in f1) as H1. pose proof (pfirst_in f2) as H2.
  destruct i as [|[|[|[|i]]]]; try discriminate; destruct j as [|[|[|[|j]]]]; try discriminate; try lia;
    cbn in E1, E2; injection E1 as ->; injection E2 as ->;
    first [solve [apply C1; rewrite ?in_app_iff; auto]|solve [apply C2; rewrite ?in_app_iff; auto]|apply C3; auto].
Qed.

Lemma own_range r o : in_range r o o = true <-> r = o.
Proof. unfold in_range. rewrite andb_true_iff, !Nat.leb_le. lia. Qed.

Lemma first_in_range f : contiguous f -> in_range (pfirst f) (pfirst f) (plast f) = true.
Proof.
  intros C. apply in_range_spec; auto. exists (pfirst f), (pfirst f). pose proof (pfirst_in f). auto.
Qed.
Lemma last_in_range f : contiguous f -> in_range (plast f) (pfirst f) (plast f) = true.
Proof.
  intros C. apply in_range_spec; auto. exists (plast f), (plast f). pose proof (plast_in f). auto.
Qed.

Lemma chain_grid' rank n f ds f' : sub f ds = Some f' ->
  pgrid (n_data (chain fv_factory rank n f ds)) = grid_at (pgrid (n_data n)) ds.
Proof.
  revert n f; induction ds as [|i ds IH]; intros n f E; cbn [chain sub] in *; [reflexivity|].
  destruct (fchild f i) as [g|]; [|discriminate]. rewrite (IH _ g E). reflexivity.
Qed.
