(** The path-keyed map behaves like the tree (one rank). *)
From Verif Require Import Base VectorModel MatrixModel HPSModel TreeModel TreeSpec TreeProofs TreeCtor TreeOrder.

(** ** Effects on the map *)
Lemma node_map_set {D} rank F (m : nmap D) p n d : node_map rank F m -> m p = Some n ->
  node_map rank F (mset m p (Some (set_ndata n d))).
Proof.
  intros H Hp ds f' E. specialize (H ds f' E). unfold mset.
  destruct (list_eq_dec Nat.eq_dec p (0 :: ds)) as [->|Hne].
  - rewrite path_eqb_refl. destruct (in_range rank (pfirst f') (plast f')); [|congruence].
    destruct H as (n' & H1 & H2). rewrite Hp in H1. injection H1 as <-. eexists. split; [reflexivity|]. exact H2.
  - rewrite path_eqb_neq by exact Hne. exact H.
Qed.

Lemma put_child_eq {D} (m : nmap D) p n d : m p = Some n -> put_child m p d p = Some (set_ndata n d).
Proof. intros H. unfold put_child, mget. rewrite H. apply mset_eq. Qed.
Lemma put_child_neq {D} (m : nmap D) p q d : p <> q -> put_child m p d q = m q.
Proof. intros H. unfold put_child, mget. destruct (m p); [apply mset_neq; exact H|reflexivity]. Qed.

Lemma node_map_put {D} rank F (m : nmap D) p d : node_map rank F m -> node_map rank F (put_child m p d).
Proof.
  intros H. unfold put_child, mget. destruct (m p) as [n|] eqn:E; [|exact H].
  apply node_map_set; auto.
Qed.

(** The map after a family visit. *)
Definition family_map {D} (m : nmap D) (p : path) (node : qnode D) (d : D) (ds : four D) : nmap D :=
  put_child (put_child (put_child (put_child (mset m p (Some (set_ndata node d)))
    (n_path node ++ [0]) (fa ds)) (n_path node ++ [1]) (fb ds)) (n_path node ++ [2]) (fc ds))
    (n_path node ++ [3]) (fd ds).

Lemma child_neq (p : path) i j : i <> j -> p ++ [i] <> p ++ [j].
Proof. intros H E. apply app_inv_head in E. congruence. Qed.
Lemma child_neq' (p : path) i : p ++ [i] <> p.
Proof. intros E. symmetry in E. exact (app_neq _ _ _ E). Qed.

Lemma family_map_self {D} (m : nmap D) p node d ds : n_path node = p ->
  family_map m p node d ds p = Some (set_ndata node d).
Proof.
  intros E. unfold family_map. rewrite E.
  rewrite !put_child_neq by apply child_neq'. apply mset_eq.
Qed.

Lemma family_map_child {D} (m : nmap D) p node d ds i n : n_path node = p -> m (p ++ [i]) = Some n ->
  i < 4 -> family_map m p node d ds (p ++ [i]) = Some (set_ndata n (nth i [fa ds; fb ds; fc ds; fd ds] d)).
Proof.
  intros E Hn Hi. unfold family_map. rewrite E.
  assert (N : p <> p ++ [i]) by apply app_neq.
  destruct i as [|[|[|[|i]]]]; [..|lia]; cbn [nth].
  - rewrite !(put_child_neq _ (p ++ [_])) by (apply child_neq; lia).
    apply put_child_eq. rewrite mset_neq by exact N. exact Hn.
  - rewrite (put_child_neq _ (p ++ [3])) by (apply child_neq; lia).
    rewrite (put_child_neq _ (p ++ [2])) by (apply child_neq; lia).
    apply put_child_eq. rewrite put_child_neq by (apply child_neq; lia). rewrite mset_neq by exact N. exact Hn.
  - rewrite (put_child_neq _ (p ++ [3])) by (apply child_neq; lia).
    apply put_child_eq. rewrite !put_child_neq by (apply child_neq; lia). rewrite mset_neq by exact N. exact Hn.
  - apply put_child_eq. rewrite !put_child_neq by (apply child_neq; lia). rewrite mset_neq by exact N. exact Hn.
Qed.

Lemma family_map_child_none {D} (m : nmap D) p node d ds i : n_path node = p -> m (p ++ [i]) = None ->
  family_map m p node d ds (p ++ [i]) = None.
Proof.
  intros E Hn. unfold family_map. rewrite E.
  assert (N : p <> p ++ [i]) by apply app_neq.
  assert (X : forall m' j x, m' (p ++ [i]) = None -> @put_child D m' (p ++ [j]) x (p ++ [i]) = None).
  { intros m' j x H. destruct (Nat.eq_dec j i) as [->|Hj].
    - unfold put_child, mget. rewrite H. exact H.
    - rewrite put_child_neq by (apply child_neq; lia). exact H. }
  do 4 apply X. rewrite mset_neq by exact N. exact Hn.
Qed.

Lemma family_map_other {D} (m : nmap D) p node d ds k : n_path node = p ->
  k <> p -> (forall i, k <> p ++ [i]) -> family_map m p node d ds k = m k.
Proof.
  intros E Hk Hi. unfold family_map. rewrite E.
  rewrite !put_child_neq by (intros H; symmetry in H; exact (Hi _ H)). apply mset_neq. congruence.
Qed.

Lemma node_map_family {D} rank F (m : nmap D) p node d ds : node_map rank F m -> m p = Some node ->
  node_map rank F (family_map m p node d ds).
Proof. intros H E. unfold family_map. do 4 apply node_map_put. apply node_map_set; auto. Qed.

(** ** The callbacks record what they visit *)
Section record.
Context {D S R : Type} (rank : nat) (F : forest).
Hypothesis HC : contiguous F.

Lemma node_of ds f' (m : nmap D) : sub F ds = Some f' -> has_local rank f' = true -> node_map rank F m ->
  exists n, m (0 :: ds) = Some n /\ n_path n = 0 :: ds /\ n_pfirst n = pfirst f' /\ n_plast n = plast f' /\
            in_range rank (n_pfirst n) (n_plast n) = true.
Proof.
  intros Es HL NM. specialize (NM ds f' Es).
  assert (C' : contiguous f') by (apply (contiguous_sub F ds); auto).
  rewrite (local_in_range rank f' C') in NM by (apply has_local_iff; exact HL).
  destruct NM as (n & E & Ep & _ & E1 & E2 & _). exists n. rewrite E1, E2.
  rewrite (local_in_range rank f' C') by (apply has_local_iff; exact HL). auto.
Qed.

Lemma visit_records (fn : S -> qnode D -> res (S * D * bool)) :
  records rank F (node_map rank F) (search_visit (R := R) rank (logged fn)).
Proof.
  intros ds f' q s lg m Es HL Ep NM.
  destruct (node_of ds f' m Es HL NM) as (n & E & En & _ & _ & Hr).
  exists (match fn s n with Ok (s', d, c) => Ok (s', mset m (0 :: ds) (Some (set_ndata n d)), c)
          | Throw e => Throw e | UB => UB end). split.
  - intros k. unfold search_visit, mget. cbn [fst snd]. rewrite Ep, E, Hr. unfold logged. cbn [fst snd].
    destruct (fn s n) as [[[s' d] c]|e|]; cbn [lift]; try reflexivity. cbn [fst snd]. rewrite En. reflexivity.
  - intros x Hx. destruct (fn s n) as [[[s' d] c]|e|]; try discriminate. injection Hx as <-. cbn [fst snd].
    apply node_map_set; auto.
Qed.

Lemma merge_split_records pol dflt (fn : S -> qnode D -> res (S * D * bool)) fam :
  depth F <= qmaxlevel -> pfirst F = rank -> plast F = rank ->
  records rank F (node_map rank F)
    (search_merge_split (R := R) rank pol dflt (logged fn) (logged_family fam)).
Proof.
  intros HD P1 P2 ds f' q s lg m Es HL Ep NM.
  destruct (node_of ds f' m Es HL NM) as (n & E & En & Ef & El & Hr).
  destruct (all_owned F rank ds f' HC P1 P2 Es) as [Q1 Q2].
  destruct f' as [o|a b c d].
  - exists (match fn s n with Ok (s', d, c) => Ok (s', mset m (0 :: ds) (Some (set_ndata n d)), c)
            | Throw e => Throw e | UB => UB end). split.
    + intros k. unfold search_merge_split, mget. cbn [fst snd flag]. rewrite Ep, E, Hr. unfold logged. cbn [fst snd].
      destruct (fn s n) as [[[s' d] c]|e|]; cbn [lift]; try reflexivity. cbn [fst snd]. rewrite En. reflexivity.
    + intros x Hx. destruct (fn s n) as [[[s' d] c]|e|]; try discriminate. injection Hx as <-. cbn [fst snd].
      apply node_map_set; auto.
  - set (f' := FNode a b c d) in *.
    assert (CH : forall i g, fchild f' i = Some g -> exists ni, m ((0 :: ds) ++ [i]) = Some ni).
    { intros i g Eg. assert (Es' : sub F (ds ++ [i]) = Some g) by (apply (sub_child _ _ _ _ _ Es Eg)).
      destruct (all_owned F rank (ds ++ [i]) g HC P1 P2 Es') as [G1 G2].
      specialize (NM (ds ++ [i]) g Es'). rewrite G1, G2 in NM. unfold in_range in NM.
      rewrite Nat.leb_refl in NM. cbn [andb] in NM. destruct NM as (ni & Hni & _). exists ni. exact Hni. }
    destruct (CH 0 a eq_refl) as (n0 & E0). destruct (CH 1 b eq_refl) as (n1 & E1).
    destruct (CH 2 c eq_refl) as (n2 & E2). destruct (CH 3 d eq_refl) as (n3 & E3).
    exists (match fam s n (Four n0 n1 n2 n3) with
            | Ok (s', x, xs, c) => Ok (s', family_map m (0 :: ds) n x xs, c)
            | Throw e => Throw e | UB => UB end). split.
    + intros k. unfold search_merge_split, mget. cbn [fst snd flag f']. rewrite Ep, E, Hr.
      rewrite Ef, El, Q1, Q2, Nat.eqb_refl. unfold local_children, mget. rewrite En, E0, E1, E2, E3.
      unfold visit_family, logged_family. cbn [fst snd].
      destruct (fam s n (Four n0 n1 n2 n3)) as [[[[s' x] xs] c']|e|]; cbn [lift]; try reflexivity.
      cbn [fst snd]. unfold family_map. rewrite En. reflexivity.
    + intros x Hx. destruct (fam s n (Four n0 n1 n2 n3)) as [[[[s' y] xs] c']|e|]; try discriminate.
      injection Hx as <-. cbn [fst snd]. apply node_map_family; auto.
Qed.

End record.

(** ** merge and split on a subtree owned by one rank *)
Section single.
Context {D S : Type} (rank : nat).

(** Node information in a tree of nodes owned by [rank] alone. *)
Definition good (p : path) (n : qnode D) : Prop :=
  n_path n = p /\ n_pfirst n = rank /\ n_plast n = rank.
Fixpoint located (p : path) (t : qtree (qnode D)) : Prop :=
  match t with
  | QL n => good p n
  | QN n t0 t1 t2 t3 =>
      good p n /\ located (p ++ [0]) t0 /\ located (p ++ [1]) t1 /\
      located (p ++ [2]) t2 /\ located (p ++ [3]) t3
  end.

Lemma good_set p n d : good p n -> good p (set_ndata n d).
Proof. intros H. exact H. Qed.

Lemma good_range p n : good p n -> in_range rank (n_pfirst n) (n_plast n) = true.
Proof. intros (_ & -> & ->). unfold in_range. rewrite Nat.leb_refl. reflexivity. Qed.

Lemma tree_in_label (m : nmap D) p t : tree_in m p t -> m p = Some (label t).
Proof. destruct t; cbn; [auto|intros (H & _); exact H]. Qed.

Lemma located_label p t : located p t -> good p (label t).
Proof. destruct t; cbn; [auto|intros (H & _); exact H]. Qed.

Lemma located_relabel p t n : located p t -> good p n -> located p (relabel t n).
Proof. destruct t; cbn; [auto|]. intros (_ & H) Hn. auto. Qed.

(** Maps that agree below [p]. *)
Lemma tree_in_ext (m m' : nmap D) p t : (forall ds, m' (p ++ ds) = m (p ++ ds)) -> tree_in m p t -> tree_in m' p t.
Proof.
  revert p; induction t as [n|n t0 IH0 t1 IH1 t2 IH2 t3 IH3]; intros p H; cbn [tree_in].
  - intros E. specialize (H []). rewrite app_nil_r in H. congruence.
  - intros (E & A0 & A1 & A2 & A3).
    assert (X : forall i ds, m' ((p ++ [i]) ++ ds) = m ((p ++ [i]) ++ ds)).
    { intros i ds. rewrite <- app_assoc. apply H. }
    split; [specialize (H []); rewrite app_nil_r in H; congruence|]. auto.
Qed.

(** Changing only the root label. *)
Lemma tree_in_relabel (m m' : nmap D) p t n : tree_in m p t -> m' p = Some n ->
  (forall i ds, m' (p ++ i :: ds) = m (p ++ i :: ds)) -> tree_in m' p (relabel t n).
Proof.
  intros H Hn Hs. destruct t as [n0|n0 t0 t1 t2 t3]; cbn [relabel tree_in] in *; [exact Hn|].
  destruct H as (_ & A0 & A1 & A2 & A3). split; [exact Hn|].
  assert (X : forall i ds, m' ((p ++ [i]) ++ ds) = m ((p ++ [i]) ++ ds)).
  { intros i ds. rewrite <- app_assoc. apply Hs. }
  split; [apply (tree_in_ext m); auto|]. split; [apply (tree_in_ext m); auto|].
  split; apply (tree_in_ext m); auto.
Qed.

Lemma tree_in_outside (m m' : nmap D) p q t : (forall k, outside q k -> m' k = m k) ->
  (forall ds, outside q (p ++ ds)) -> tree_in m p t -> tree_in m' p t.
Proof. intros H Ho. apply tree_in_ext. intros ds. apply H. apply Ho. Qed.

Lemma outside_sib p i j : i <> j -> forall ds, outside (p ++ [i]) ((p ++ [j]) ++ ds).
Proof. intros H ds. rewrite <- app_assoc. cbn. apply outside_sibling. exact H. Qed.

Lemma shape_rm {A} f (t : qtree A) a : same_shape f t -> same_shape f (relabel t a).
Proof. destruct f, t; cbn; auto. Qed.

Lemma all_rank_local f : pfirst f = rank -> has_local rank f = true.
Proof. intros H. apply has_local_iff. rewrite <- H. apply pfirst_in. Qed.

Lemma family_deep (m : nmap D) p n d ds i j l : n_path n = p ->
  family_map m p n d ds (p ++ i :: j :: l) = m (p ++ i :: j :: l).
Proof.
  intros E. apply family_map_other; auto.
  - intros H. symmetry in H. exact (app_neq _ _ _ H).
  - intros i' H. apply app_inv_head in H. discriminate.
Qed.

Lemma family_outside (m : nmap D) p n d ds k : n_path n = p -> outside p k ->
  family_map m p n d ds k = m k.
Proof.
  intros E H. apply family_map_other; [exact E| |].
  - intros ->. apply (H []). rewrite app_nil_r. reflexivity.
  - intros i ->. apply (H [i]). reflexivity.
Qed.

(** What a family visit does to the tree held by the map. *)
Lemma family_tree (m : nmap D) p n d ds t0 t1 t2 t3 : good p n ->
  m p = Some n -> tree_in m (p ++ [0]) t0 -> tree_in m (p ++ [1]) t1 ->
  tree_in m (p ++ [2]) t2 -> tree_in m (p ++ [3]) t3 ->
  let m' := family_map m p n d ds in
  tree_in m' (p ++ [0]) (relabel t0 (set_ndata (label t0) (fa ds))) /\
  tree_in m' (p ++ [1]) (relabel t1 (set_ndata (label t1) (fb ds))) /\
  tree_in m' (p ++ [2]) (relabel t2 (set_ndata (label t2) (fc ds))) /\
  tree_in m' (p ++ [3]) (relabel t3 (set_ndata (label t3) (fd ds))) /\
  m' p = Some (set_ndata n d).
Proof.
  intros (En & _) Hn T0 T1 T2 T3 m'.
  assert (X : forall i t x, i < 4 -> tree_in m (p ++ [i]) t -> x = nth i [fa ds; fb ds; fc ds; fd ds] d ->
              tree_in m' (p ++ [i]) (relabel t (set_ndata (label t) x))).
  { intros i t x Hi T ->. apply (tree_in_relabel m).
    - exact T.
    - unfold m'. apply family_map_child; auto. apply tree_in_label. exact T.
    - intros j l. rewrite <- app_assoc. cbn. apply family_deep. exact En. }
  split; [apply X; auto; lia|]. split; [apply X; auto; lia|]. split; [apply X; auto; lia|].
  split; [apply X; auto; lia|]. apply family_map_self. exact En.
Qed.

Section run.
Context {R : Type} (pol : policy) (dflt : D).
Variables (fn : S -> qnode D -> res (S * D * bool))
          (fam : S -> qnode D -> four (qnode D) -> res (S * D * four D * bool)).

Local Notation cb := (search_merge_split (R := R) rank pol dflt fn fam).

Lemma merge_leaf_cb s m q n p k : quadrant_path q = p -> good p n -> m p = Some n ->
  cb (s, m) q true k =
  match on_node fn s n with
  | Ok (s', n', c) => k ((s', mset m p (Some n')), c)
  | Throw e => Fin (Throw e)
  | UB => Fin UB
  end.
Proof.
  intros Ep G E. unfold search_merge_split, mget. cbn [snd]. rewrite Ep, E, (good_range p n G).
  unfold on_node. cbn [fst]. destruct (fn s n) as [[[s' d] c]|e|]; reflexivity.
Qed.

Lemma merge_node_cb s m q n p t0 t1 t2 t3 k : quadrant_path q = p -> good p n -> m p = Some n ->
  tree_in m (p ++ [0]) t0 -> tree_in m (p ++ [1]) t1 -> tree_in m (p ++ [2]) t2 -> tree_in m (p ++ [3]) t3 ->
  cb (s, m) q false k =
  match fam s n (Four (label t0) (label t1) (label t2) (label t3)) with
  | Ok (s', d, ds, c) => k ((s', family_map m p n d ds), c)
  | Throw e => Fin (Throw e)
  | UB => Fin UB
  end.
Proof.
  intros Ep G E T0 T1 T2 T3. unfold search_merge_split, mget. cbn [snd]. rewrite Ep, E, (good_range p n G).
  destruct G as (En & E1 & E2). rewrite E1, E2, Nat.eqb_refl. unfold local_children, mget. rewrite En.
  rewrite (tree_in_label _ _ _ T0), (tree_in_label _ _ _ T1), (tree_in_label _ _ _ T2), (tree_in_label _ _ _ T3).
  unfold visit_family. cbn [fst].
  destruct (fam s n _) as [[[[s' d] ds] c]|e|]; cbn [lift fst snd]; try reflexivity.
Qed.

(** Outcome of running the program on the map, compared with the recursion. *)
Definition agrees (p : path) (f : forest) (m : nmap D)
  (prog : (S * nmap D -> cmd D R) -> cmd D R) (r : res (S * qtree (qnode D))) : Prop :=
  match r with
  | Ok (s', t') => exists m', (forall k, prog k = k (s', m')) /\
      tree_in m' p t' /\ located p t' /\ same_shape f t' /\ (forall key, outside p key -> m' key = m key)
  | Throw e => forall k, prog k = Fin (Throw e)
  | UB => forall k, prog k = Fin UB
  end.

Lemma agrees_ok p f m prog r s' t' : agrees p f m prog r -> r = Ok (s', t') ->
  exists m', (forall k, prog k = k (s', m')) /\
      tree_in m' p t' /\ located p t' /\ same_shape f t' /\ (forall key, outside p key -> m' key = m key).
Proof. intros H ->. exact H. Qed.

Lemma merge_single f : forall q p s m t,
  contiguous f -> pfirst f = rank -> plast f = rank -> valid_quadrant q -> quadrant_path q = p ->
  qlevel q + depth f <= qmaxlevel -> same_shape f t -> located p t -> tree_in m p t ->
  agrees p f m (search_reorder rank no_callback cb f q (s, m)) (rec_merge (on_node fn) (on_family fam) s t).
Proof.
  induction f as [o|a IHa b IHb c IHc d IHd]; intros q p s m t C P1 P2 V Ep HL Sh Lo Ti;
    destruct t as [n|n t0 t1 t2 t3]; cbn [same_shape] in Sh; try contradiction.
  - cbn [located tree_in] in Lo, Ti. unfold agrees. cbn [rec_merge search_reorder].
    rewrite (all_rank_local (FLeaf o) P1).
    assert (E : forall k, no_callback (s, m) q true
       (fun r => if snd r then cb (fst r) q true (fun r' => k (fst r')) else k (fst r))
       = match on_node fn s n with
         | Ok (s', n', c) => k (s', mset m p (Some n'))
         | Throw e => Fin (Throw e) | UB => Fin UB end).
    { intros k. unfold no_callback. cbn [fst snd].
      rewrite (merge_leaf_cb s m q n p) by auto. destruct (on_node fn s n) as [[[s' n'] c]|e|]; reflexivity. }
    destruct (on_node fn s n) as [[[s' n'] c]|e|] eqn:En; cbn [bind fst snd]; [|exact E|exact E].
    exists (mset m p (Some n')). split; [exact E|]. cbn [tree_in located same_shape].
    split; [apply mset_eq|]. split.
    + unfold on_node in En. destruct (fn s n) as [[[s1 d1] c1]|e|]; try discriminate. injection En as <- <- <-.
      apply good_set. exact Lo.
    + split; [exact I|]. intros key Hk. apply mset_neq. intros ->. apply (Hk []). rewrite app_nil_r. reflexivity.
  - destruct Lo as (G & L0 & L1 & L2 & L3). destruct Ti as (Tn & T0 & T1 & T2 & T3).
    destruct Sh as (S0 & S1 & S2 & S3).
    pose proof (contiguous_children a b c d C) as (Ca & Cb & Cc & Cd).
    destruct (all_owned _ rank [0] a C P1 P2 eq_refl) as [Pa1 Pa2].
    destruct (all_owned _ rank [1] b C P1 P2 eq_refl) as [Pb1 Pb2].
    destruct (all_owned _ rank [2] c C P1 P2 eq_refl) as [Pc1 Pc2].
    destruct (all_owned _ rank [3] d C P1 P2 eq_refl) as [Pd1 Pd2].
    assert (HLq : qlevel q < qmaxlevel) by (cbn [depth] in HL; lia).
    assert (V' : forall i, i < 4 -> valid_quadrant (qchild q i)) by (intros; apply valid_child; auto).
    assert (EP : forall i, i < 4 -> quadrant_path (qchild q i) = p ++ [i]) by (intros; rewrite path_child by auto; congruence).
    cbn [search_reorder]. rewrite (all_rank_local (FNode a b c d) P1).
    unfold no_callback at 1. cbn [fst snd]. cbn [rec_merge].
    (* first child *)
    assert (A0 := IHa (qchild q 0) (p ++ [0]) s m t0 Ca Pa1 Pa2 (V' 0 ltac:(lia)) (EP 0 ltac:(lia))
                   ltac:(cbn [depth qlevel qchild] in *; lia) S0 L0 T0).
    destruct (rec_merge (on_node fn) (on_family fam) s t0) as [[s0 t0']|e|]; cbn [bind fst snd];
      [|intros k; rewrite A0; reflexivity|intros k; rewrite A0; reflexivity].
    destruct A0 as (m0 & E0 & T0' & L0' & S0' & O0).
    assert (T1' : tree_in m0 (p ++ [1]) t1) by (apply (tree_in_outside m m0 _ _ t1 O0); [apply outside_sib; lia|exact T1]).
    assert (T2' : tree_in m0 (p ++ [2]) t2) by (apply (tree_in_outside m m0 _ _ t2 O0); [apply outside_sib; lia|exact T2]).
    assert (T3' : tree_in m0 (p ++ [3]) t3) by (apply (tree_in_outside m m0 _ _ t3 O0); [apply outside_sib; lia|exact T3]).
    clear T0 T1 T2 T3.
    (* second child *)
    assert (A1 := IHb (qchild q 1) (p ++ [1]) s0 m0 t1 Cb Pb1 Pb2 (V' 1 ltac:(lia)) (EP 1 ltac:(lia))
                   ltac:(cbn [depth qlevel qchild] in *; lia) S1 L1 T1').
    destruct (rec_merge (on_node fn) (on_family fam) s0 t1) as [[s1 t1']|e|]; cbn [bind fst snd];
      [|intros k; rewrite E0, A1; reflexivity|intros k; rewrite E0, A1; reflexivity].
    destruct A1 as (m1 & E1 & T1 & L1' & S1' & O1).
    assert (T0 : tree_in m1 (p ++ [0]) t0') by (apply (tree_in_outside m0 m1 _ _ t0' O1); [apply outside_sib; lia|exact T0']).
    assert (T2 : tree_in m1 (p ++ [2]) t2) by (apply (tree_in_outside m0 m1 _ _ t2 O1); [apply outside_sib; lia|exact T2']).
    assert (T3 : tree_in m1 (p ++ [3]) t3) by (apply (tree_in_outside m0 m1 _ _ t3 O1); [apply outside_sib; lia|exact T3']).
    clear T0' T1' T2' T3'.
    (* third child *)
    assert (A2 := IHc (qchild q 2) (p ++ [2]) s1 m1 t2 Cc Pc1 Pc2 (V' 2 ltac:(lia)) (EP 2 ltac:(lia))
                   ltac:(cbn [depth qlevel qchild] in *; lia) S2 L2 T2).
    destruct (rec_merge (on_node fn) (on_family fam) s1 t2) as [[s2 t2']|e|]; cbn [bind fst snd];
      [|intros k; rewrite E0, E1, A2; reflexivity|intros k; rewrite E0, E1, A2; reflexivity].
    destruct A2 as (m2 & E2 & T2' & L2' & S2' & O2).
    assert (T0' : tree_in m2 (p ++ [0]) t0') by (apply (tree_in_outside m1 m2 _ _ t0' O2); [apply outside_sib; lia|exact T0]).
    assert (T1' : tree_in m2 (p ++ [1]) t1') by (apply (tree_in_outside m1 m2 _ _ t1' O2); [apply outside_sib; lia|exact T1]).
    assert (T3' : tree_in m2 (p ++ [3]) t3) by (apply (tree_in_outside m1 m2 _ _ t3 O2); [apply outside_sib; lia|exact T3]).
    clear T0 T1 T2 T3.
    (* fourth child *)
    assert (A3 := IHd (qchild q 3) (p ++ [3]) s2 m2 t3 Cd Pd1 Pd2 (V' 3 ltac:(lia)) (EP 3 ltac:(lia))
                   ltac:(cbn [depth qlevel qchild] in *; lia) S3 L3 T3').
    destruct (rec_merge (on_node fn) (on_family fam) s2 t3) as [[s3 t3']|e|]; cbn [bind fst snd];
      [|intros k; rewrite E0, E1, E2, A3; reflexivity|intros k; rewrite E0, E1, E2, A3; reflexivity].
    destruct A3 as (m3 & E3 & T3 & L3' & S3' & O3).
    assert (T0 : tree_in m3 (p ++ [0]) t0') by (apply (tree_in_outside m2 m3 _ _ t0' O3); [apply outside_sib; lia|exact T0']).
    assert (T1 : tree_in m3 (p ++ [1]) t1') by (apply (tree_in_outside m2 m3 _ _ t1' O3); [apply outside_sib; lia|exact T1']).
    assert (T2 : tree_in m3 (p ++ [2]) t2') by (apply (tree_in_outside m2 m3 _ _ t2' O3); [apply outside_sib; lia|exact T2']).
    clear T0' T1' T2' T3'.
    assert (N3 : m3 p = Some n).
    { rewrite O3, O2, O1, O0 by apply outside_self. exact Tn. }
    assert (EF := merge_node_cb s3 m3 q n p t0' t1' t2' t3').
    unfold on_family.
    set (ch := Four (label t0') (label t1') (label t2') (label t3')) in *.
    destruct (fam s3 n ch) as [[[[s4 dd] dds] cc]|e|] eqn:Ef; cbn [bind fst snd].
    + destruct (family_tree m3 p n dd dds t0' t1' t2' t3' G N3 T0 T1 T2 T3) as (U0 & U1 & U2 & U3 & Un).
      exists (family_map m3 p n dd dds). split.
      * intros k. rewrite E0, E1, E2, E3. rewrite EF by auto. reflexivity.
      * cbn [tree_in located same_shape fa fb fc fd ch]. split; [auto|]. split.
        -- split; [apply good_set; exact G|].
           split; [apply located_relabel; [exact L0'|apply good_set, located_label; exact L0']|].
           split; [apply located_relabel; [exact L1'|apply good_set, located_label; exact L1']|].
           split; [apply located_relabel; [exact L2'|apply good_set, located_label; exact L2']|].
           apply located_relabel; [exact L3'|apply good_set, located_label; exact L3'].
        -- split; [split; [apply shape_rm; exact S0'|split; [apply shape_rm; exact S1'|split; apply shape_rm; assumption]]|].
           intros key Hk. rewrite family_outside by (auto; apply G).
           rewrite O3, O2, O1, O0 by (apply outside_child; exact Hk). reflexivity.
    + intros k. rewrite E0, E1, E2, E3. rewrite EF by auto. reflexivity.
    + intros k. rewrite E0, E1, E2, E3. rewrite EF by auto. reflexivity.
Qed.

Lemma rec_split_relabel leaf fam' (s : S) (t : qtree (qnode D)) x a :
  rec_split leaf fam' s (relabel t x) a = rec_split leaf fam' s t a.
Proof. destruct t; reflexivity. Qed.
Lemma label_relabel {A} (t : qtree A) x : label (relabel t x) = x.
Proof. destruct t; reflexivity. Qed.

Lemma split_single f : forall q p s m t,
  contiguous f -> pfirst f = rank -> plast f = rank -> valid_quadrant q -> quadrant_path q = p ->
  qlevel q + depth f <= qmaxlevel -> same_shape f t -> located p t -> tree_in m p t ->
  agrees p f m (search_reorder rank cb no_callback f q (s, m))
         (rec_split (on_node fn) (on_family fam) s t (label t)).
Proof.
  induction f as [o|a IHa b IHb c IHc d IHd]; intros q p s m t C P1 P2 V Ep HL Sh Lo Ti;
    destruct t as [n|n t0 t1 t2 t3]; cbn [same_shape] in Sh; try contradiction.
  - cbn [located tree_in] in Lo, Ti. unfold agrees. cbn [rec_split search_reorder label].
    rewrite (all_rank_local (FLeaf o) P1).
    assert (E : forall k, cb (s, m) q true
       (fun r => if snd r then no_callback (fst r) q true (fun r' => k (fst r')) else k (fst r))
       = match on_node fn s n with
         | Ok (s', n', c) => k (s', mset m p (Some n'))
         | Throw e => Fin (Throw e) | UB => Fin UB end).
    { intros k. rewrite (merge_leaf_cb s m q n p) by auto.
      destruct (on_node fn s n) as [[[s' n'] c]|e|]; try reflexivity. unfold no_callback. cbn [fst snd].
      destruct c; reflexivity. }
    destruct (on_node fn s n) as [[[s' n'] c]|e|] eqn:En; cbn [bind fst snd]; [|exact E|exact E].
    exists (mset m p (Some n')). split; [exact E|]. cbn [tree_in located same_shape].
    split; [apply mset_eq|]. split.
    + unfold on_node in En. destruct (fn s n) as [[[s1 d1] c1]|e|]; try discriminate. injection En as <- <- <-.
      apply good_set. exact Lo.
    + split; [exact I|]. intros key Hk. apply mset_neq. intros ->. apply (Hk []). rewrite app_nil_r. reflexivity.
  - destruct Lo as (G & L0 & L1 & L2 & L3). destruct Ti as (Tn & T0 & T1 & T2 & T3).
    destruct Sh as (S0 & S1 & S2 & S3).
    pose proof (contiguous_children a b c d C) as (Ca & Cb & Cc & Cd).
    destruct (all_owned _ rank [0] a C P1 P2 eq_refl) as [Pa1 Pa2].
    destruct (all_owned _ rank [1] b C P1 P2 eq_refl) as [Pb1 Pb2].
    destruct (all_owned _ rank [2] c C P1 P2 eq_refl) as [Pc1 Pc2].
    destruct (all_owned _ rank [3] d C P1 P2 eq_refl) as [Pd1 Pd2].
    assert (HLq : qlevel q < qmaxlevel) by (cbn [depth] in HL; lia).
    assert (V' : forall i, i < 4 -> valid_quadrant (qchild q i)) by (intros; apply valid_child; auto).
    assert (EP : forall i, i < 4 -> quadrant_path (qchild q i) = p ++ [i]) by (intros; rewrite path_child by auto; congruence).
    cbn [search_reorder label]. rewrite (all_rank_local (FNode a b c d) P1). cbn [rec_split].
    assert (EF := fun k => merge_node_cb s m q n p t0 t1 t2 t3 k Ep G Tn T0 T1 T2 T3).
    unfold on_family at 1.
    set (ch := Four (label t0) (label t1) (label t2) (label t3)) in *.
    destruct (fam s n ch) as [[[[sf dd] dds] cc]|e|] eqn:Ef; cbn [bind fst snd];
      [|intros k; rewrite EF; reflexivity|intros k; rewrite EF; reflexivity].
    destruct (family_tree m p n dd dds t0 t1 t2 t3 G Tn T0 T1 T2 T3) as (U0 & U1 & U2 & U3 & Un).
    assert (OF : forall key, outside p key -> family_map m p n dd dds key = m key).
    { intros key Hk. apply family_outside; auto. apply G. }
    set (mf := family_map m p n dd dds) in *. clearbody mf.
    cbn [fa fb fc fd ch].
    assert (LR : forall i t x, located (p ++ [i]) t -> located (p ++ [i]) (relabel t (set_ndata (label t) x))).
    { intros i t x H. apply located_relabel; [exact H|]. apply good_set, located_label. exact H. }
    apply (LR 0 t0 (fa dds)) in L0. apply (LR 1 t1 (fb dds)) in L1.
    apply (LR 2 t2 (fc dds)) in L2. apply (LR 3 t3 (fd dds)) in L3.
    apply (shape_rm _ _ (set_ndata (label t0) (fa dds))) in S0.
    apply (shape_rm _ _ (set_ndata (label t1) (fb dds))) in S1.
    apply (shape_rm _ _ (set_ndata (label t2) (fc dds))) in S2.
    apply (shape_rm _ _ (set_ndata (label t3) (fd dds))) in S3.
    destruct cc.
    2:{ exists mf. split; [intros k; rewrite EF; reflexivity|]. cbn [tree_in located same_shape].
        split; [auto|]. split; [split; [apply good_set; exact G|auto]|]. split; [auto|exact OF]. }
    rewrite <- (rec_split_relabel _ _ sf t0 (set_ndata (label t0) (fa dds)) (set_ndata (label t0) (fa dds))).
    clear T0 T1 T2 T3.
    set (u0 := relabel t0 (set_ndata (label t0) (fa dds))) in *.
    set (u1 := relabel t1 (set_ndata (label t1) (fb dds))) in *.
    set (u2 := relabel t2 (set_ndata (label t2) (fc dds))) in *.
    set (u3 := relabel t3 (set_ndata (label t3) (fd dds))) in *.
    assert (A0 := IHa (qchild q 0) (p ++ [0]) sf mf u0 Ca Pa1 Pa2 (V' 0 ltac:(lia)) (EP 0 ltac:(lia))
                   ltac:(cbn [depth qlevel qchild] in *; lia) S0 L0 U0).
    replace (label u0) with (set_ndata (label t0) (fa dds)) in A0 by (symmetry; apply label_relabel).
    destruct (rec_split (on_node fn) (on_family fam) sf u0 (set_ndata (label t0) (fa dds))) as [[s0 t0']|e|]; cbn [bind fst snd];
      [|intros k; rewrite EF; cbn [fst snd]; rewrite A0; reflexivity|intros k; rewrite EF; cbn [fst snd]; rewrite A0; reflexivity].
    destruct A0 as (m0 & E0 & T0 & L0' & S0' & O0).
    assert (T1' : tree_in m0 (p ++ [1]) u1) by (apply (tree_in_outside mf m0 _ _ u1 O0); [apply outside_sib; lia|exact U1]).
    assert (T2' : tree_in m0 (p ++ [2]) u2) by (apply (tree_in_outside mf m0 _ _ u2 O0); [apply outside_sib; lia|exact U2]).
    assert (T3' : tree_in m0 (p ++ [3]) u3) by (apply (tree_in_outside mf m0 _ _ u3 O0); [apply outside_sib; lia|exact U3]).
    clear U0 U1 U2 U3.
    rewrite <- (rec_split_relabel _ _ s0 t1 (set_ndata (label t1) (fb dds)) (set_ndata (label t1) (fb dds))). fold u1.
    assert (A1 := IHb (qchild q 1) (p ++ [1]) s0 m0 u1 Cb Pb1 Pb2 (V' 1 ltac:(lia)) (EP 1 ltac:(lia))
                   ltac:(cbn [depth qlevel qchild] in *; lia) S1 L1 T1').
    replace (label u1) with (set_ndata (label t1) (fb dds)) in A1 by (symmetry; apply label_relabel).
    destruct (rec_split (on_node fn) (on_family fam) s0 u1 (set_ndata (label t1) (fb dds))) as [[s1 t1']|e|]; cbn [bind fst snd];
      [|intros k; rewrite EF; cbn [fst snd]; rewrite E0, A1; reflexivity|intros k; rewrite EF; cbn [fst snd]; rewrite E0, A1; reflexivity].
    destruct A1 as (m1 & E1 & T1 & L1' & S1' & O1).
    assert (T0' : tree_in m1 (p ++ [0]) t0') by (apply (tree_in_outside m0 m1 _ _ t0' O1); [apply outside_sib; lia|exact T0]).
    assert (T2 : tree_in m1 (p ++ [2]) u2) by (apply (tree_in_outside m0 m1 _ _ u2 O1); [apply outside_sib; lia|exact T2']).
    assert (T3 : tree_in m1 (p ++ [3]) u3) by (apply (tree_in_outside m0 m1 _ _ u3 O1); [apply outside_sib; lia|exact T3']).
    clear T0 T1' T2' T3'.
    rewrite <- (rec_split_relabel _ _ s1 t2 (set_ndata (label t2) (fc dds)) (set_ndata (label t2) (fc dds))). fold u2.
    assert (A2 := IHc (qchild q 2) (p ++ [2]) s1 m1 u2 Cc Pc1 Pc2 (V' 2 ltac:(lia)) (EP 2 ltac:(lia))
                   ltac:(cbn [depth qlevel qchild] in *; lia) S2 L2 T2).
    replace (label u2) with (set_ndata (label t2) (fc dds)) in A2 by (symmetry; apply label_relabel).
    destruct (rec_split (on_node fn) (on_family fam) s1 u2 (set_ndata (label t2) (fc dds))) as [[s2 t2']|e|]; cbn [bind fst snd];
      [|intros k; rewrite EF; cbn [fst snd]; rewrite E0, E1, A2; reflexivity|intros k; rewrite EF; cbn [fst snd]; rewrite E0, E1, A2; reflexivity].
    destruct A2 as (m2 & E2 & T2' & L2' & S2' & O2).
    assert (T0 : tree_in m2 (p ++ [0]) t0') by (apply (tree_in_outside m1 m2 _ _ t0' O2); [apply outside_sib; lia|exact T0']).
    assert (T1' : tree_in m2 (p ++ [1]) t1') by (apply (tree_in_outside m1 m2 _ _ t1' O2); [apply outside_sib; lia|exact T1]).
    assert (T3' : tree_in m2 (p ++ [3]) u3) by (apply (tree_in_outside m1 m2 _ _ u3 O2); [apply outside_sib; lia|exact T3]).
    clear T0' T1 T2 T3.
    rewrite <- (rec_split_relabel _ _ s2 t3 (set_ndata (label t3) (fd dds)) (set_ndata (label t3) (fd dds))). fold u3.
    assert (A3 := IHd (qchild q 3) (p ++ [3]) s2 m2 u3 Cd Pd1 Pd2 (V' 3 ltac:(lia)) (EP 3 ltac:(lia))
                   ltac:(cbn [depth qlevel qchild] in *; lia) S3 L3 T3').
    replace (label u3) with (set_ndata (label t3) (fd dds)) in A3 by (symmetry; apply label_relabel).
    destruct (rec_split (on_node fn) (on_family fam) s2 u3 (set_ndata (label t3) (fd dds))) as [[s3 t3']|e|]; cbn [bind fst snd];
      [|intros k; rewrite EF; cbn [fst snd]; rewrite E0, E1, E2, A3; reflexivity|intros k; rewrite EF; cbn [fst snd]; rewrite E0, E1, E2, A3; reflexivity].
    destruct A3 as (m3 & E3 & T3 & L3' & S3' & O3).
    exists m3. split; [intros k; rewrite EF; cbn [fst snd]; rewrite E0, E1, E2, E3; reflexivity|].
    cbn [tree_in located same_shape]. split; [|split; [|split]].
    + split; [rewrite O3, O2, O1, O0 by apply outside_self; exact Un|].
      split; [apply (tree_in_outside m2 m3 _ _ t0' O3); [apply outside_sib; lia|exact T0]|].
      split; [apply (tree_in_outside m2 m3 _ _ t1' O3); [apply outside_sib; lia|exact T1']|].
      split; [apply (tree_in_outside m2 m3 _ _ t2' O3); [apply outside_sib; lia|exact T2']|exact T3].
    + split; [apply good_set; exact G|auto].
    + auto.
    + intros key Hk. rewrite O3, O2, O1, O0 by (apply outside_child; exact Hk). apply OF. exact Hk.
Qed.

End run.
End single.

(** ** Trees of nodes in a map of a single rank *)
Section whole.
Context {D : Type} (rank : nat).

Lemma tree_exists (F : forest) (m : nmap D) : contiguous F -> pfirst F = rank -> plast F = rank -> node_map rank F m ->
  forall f ds, sub F ds = Some f ->
  exists t, tree_in m (0 :: ds) t /\ same_shape f t.
Proof.
  intros C P1 P2 NM f. induction f as [o|a IHa b IHb c IHc d IHd]; intros ds Es.
  - pose proof (NM ds _ Es) as H. destruct (all_owned F rank ds _ C P1 P2 Es) as [Q1 Q2].
    rewrite Q1, Q2 in H. unfold in_range in H. rewrite Nat.leb_refl in H. cbn [andb] in H.
    destruct H as (n & E & _). exists (QL n). split; [exact E|exact I].
  - pose proof (NM ds _ Es) as H. destruct (all_owned F rank ds _ C P1 P2 Es) as [Q1 Q2].
    rewrite Q1, Q2 in H. unfold in_range in H. rewrite Nat.leb_refl in H. cbn [andb] in H.
    destruct H as (n & E & _).
    destruct (IHa (ds ++ [0])) as (t0 & T0 & S0); [apply (sub_child _ _ _ _ _ Es); reflexivity|].
    destruct (IHb (ds ++ [1])) as (t1 & T1 & S1); [apply (sub_child _ _ _ _ _ Es); reflexivity|].
    destruct (IHc (ds ++ [2])) as (t2 & T2 & S2); [apply (sub_child _ _ _ _ _ Es); reflexivity|].
    destruct (IHd (ds ++ [3])) as (t3 & T3 & S3); [apply (sub_child _ _ _ _ _ Es); reflexivity|].
    exists (QN n t0 t1 t2 t3). split; [split; [exact E|auto]|cbn; auto].
Qed.

Lemma node_map_located (F : forest) (m : nmap D) : contiguous F -> pfirst F = rank -> plast F = rank -> node_map rank F m ->
  forall f ds t, sub F ds = Some f -> same_shape f t -> tree_in m (0 :: ds) t -> located rank (0 :: ds) t.
Proof.
  intros C P1 P2 NM f. induction f as [o|a IHa b IHb c IHc d IHd]; intros ds t Es Sh Ti;
    destruct t as [n|n t0 t1 t2 t3]; cbn [same_shape] in Sh; try contradiction.
  - cbn [tree_in located] in *. pose proof (NM ds _ Es) as H. destruct (all_owned F rank ds _ C P1 P2 Es) as [Q1 Q2].
    rewrite Q1, Q2 in H. unfold in_range in H. rewrite Nat.leb_refl in H. cbn [andb] in H.
    destruct H as (n' & E & E1 & _ & E3 & E4 & _). rewrite Ti in E. injection E as <-.
    split; [exact E1|]. split; congruence.
  - cbn [tree_in located] in *. destruct Ti as (Tn & T0 & T1 & T2 & T3). destruct Sh as (S0 & S1 & S2 & S3).
    pose proof (NM ds _ Es) as H. destruct (all_owned F rank ds _ C P1 P2 Es) as [Q1 Q2].
    rewrite Q1, Q2 in H. unfold in_range in H. rewrite Nat.leb_refl in H. cbn [andb] in H.
    destruct H as (n' & E & E1 & _ & E3 & E4 & _). rewrite Tn in E. injection E as <-.
    split; [split; [exact E1|split; congruence]|].
    split; [apply (IHa (ds ++ [0])); auto; apply (sub_child _ _ _ _ _ Es); reflexivity|].
    split; [apply (IHb (ds ++ [1])); auto; apply (sub_child _ _ _ _ _ Es); reflexivity|].
    split; [apply (IHc (ds ++ [2])); auto; apply (sub_child _ _ _ _ _ Es); reflexivity|].
    apply (IHd (ds ++ [3])); auto; apply (sub_child _ _ _ _ _ Es); reflexivity.
Qed.

End whole.

(** ** The stages of the direct solver on the map *)

(** Tree of patches under a tree of nodes. *)
Fixpoint patches (t : qtree (qnode patch)) : tree :=
  match t with
  | QL n => Leaf (n_data n)
  | QN n a b c d => Node (n_data n) (patches a) (patches b) (patches c) (patches d)
  end.

Lemma patches_label t : data (patches t) = n_data (label t).
Proof. destruct t; reflexivity. Qed.
Lemma patches_relabel t d : patches (relabel t (set_ndata (label t) d)) = set_data (patches t) d.
Proof. destruct t; reflexivity. Qed.

(** Callbacks of the direct solver as callbacks on nodes (they return 1). *)
Definition leaf_cb {St} (leaf : St -> patch -> res (St * patch)) : St -> qnode patch -> res (St * patch * bool) :=
  fun s n => r <- leaf s (n_data n) ;; Ok (fst r, snd r, true).
Definition fam_cb {St} (fam : patch -> four patch -> res (patch * four patch))
  : St -> qnode patch -> four (qnode patch) -> res (St * patch * four patch * bool) :=
  fun s n ch => r <- fam (n_data n) (fmap n_data ch) ;; Ok (s, fst r, snd r, true).

Lemma rec_merge_patches {St} (leaf : St -> patch -> res (St * patch)) fam s t :
  (r <- rec_merge (on_node (leaf_cb leaf)) (on_family (fam_cb fam)) s t ;; Ok (fst r, patches (snd r)))
  = tmerge leaf fam s (patches t).
Proof.
  revert s; induction t as [n|n t0 IH0 t1 IH1 t2 IH2 t3 IH3]; intros s; cbn [rec_merge tmerge patches].
  - unfold on_node, leaf_cb. destruct (leaf s (n_data n)) as [[s' p]|e|]; reflexivity.
  - rewrite <- IH0. destruct (rec_merge _ _ s t0) as [[s0 u0]|e|]; cbn [bind fst snd]; try reflexivity.
    rewrite <- IH1. destruct (rec_merge _ _ s0 t1) as [[s1 u1]|e|]; cbn [bind fst snd]; try reflexivity.
    rewrite <- IH2. destruct (rec_merge _ _ s1 t2) as [[s2 u2]|e|]; cbn [bind fst snd]; try reflexivity.
    rewrite <- IH3. destruct (rec_merge _ _ s2 t3) as [[s3 u3]|e|]; cbn [bind fst snd]; try reflexivity.
    rewrite !patches_label. unfold on_family, fam_cb, fmap. cbn [fa fb fc fd].
    destruct (fam (n_data n) _) as [[p ps]|e|]; cbn [bind fst snd]; try reflexivity.
    cbn [patches fa fb fc fd n_data set_ndata]. rewrite !patches_relabel. reflexivity.
Qed.

Lemma rec_split_patches (leaf : patch -> res patch) fam (t : qtree (qnode patch)) a :
  (r <- rec_split (S := unit) (on_node (leaf_cb (fun s p => q <- leaf p ;; Ok (s, q)))) (on_family (fam_cb fam)) tt t a ;;
     Ok (patches (snd r)))
  = tsplit leaf fam (patches t) (n_data a).
Proof.
  revert a; induction t as [n|n t0 IH0 t1 IH1 t2 IH2 t3 IH3]; intros a; cbn [rec_split tsplit patches].
  - unfold on_node, leaf_cb. destruct (leaf (n_data a)) as [p|e|]; reflexivity.
  - unfold on_family at 1. unfold fam_cb at 1. rewrite !patches_label. unfold fmap. cbn [fa fb fc fd].
    destruct (fam (n_data a) _) as [[p ps]|e|]; cbn [bind fst snd]; try reflexivity.
    cbn [fa fb fc fd].
    specialize (IH0 (set_ndata (label t0) (fa ps))). specialize (IH1 (set_ndata (label t1) (fb ps))).
    specialize (IH2 (set_ndata (label t2) (fc ps))). specialize (IH3 (set_ndata (label t3) (fd ps))).
    cbn [n_data set_ndata] in IH0, IH1, IH2, IH3. rewrite <- IH0.
    destruct (rec_split _ _ tt t0 _) as [[[] u0]|e|]; cbn [bind fst snd]; try reflexivity.
    rewrite <- IH1. destruct (rec_split _ _ tt t1 _) as [[[] u1]|e|]; cbn [bind fst snd]; try reflexivity.
    rewrite <- IH2. destruct (rec_split _ _ tt t2 _) as [[[] u2]|e|]; cbn [bind fst snd]; try reflexivity.
    rewrite <- IH3. destruct (rec_split _ _ tt t3 _) as [[[] u3]|e|]; cbn [bind fst snd]; reflexivity.
Qed.
