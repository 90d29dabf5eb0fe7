(** Properties of the resources of quadtrees. *)
From Verif Require Import Base VectorModel MatrixModel HPSModel TreeModel TreeSpec TreeProofs TreeCtor
  TreeOrder TreeMap ParCtor ResModel ResSpec ResProofs.

(** [C74] Constructing a quadtree allocates one node and one communicator for each
    quadrant whose range of ranks contains the rank, no more and no fewer. *)
Lemma construction_allocates_pf : forall {D} (fac : factory D) rd rank s h q F, factory_ok fac ->
  contiguous F -> depth F <= qmaxlevel ->
  exists m, node_map rank F m /\
    run_qop false fac rd rank (s, h) (QConstruct q F) =
      Ok (qset s q (Some (F, m)),
          Held (live_nodes h + owned_count rank F) (live_comms h + owned_count rank F)).
Proof.
  intros D fac rd rank s h q F FO C HL.
  destruct (construct_node_map fac rank rd F FO C HL) as (m & E & NM). exists m. split; [exact NM|].
  cbn [run_qop]. unfold construct_resources. rewrite visits_count, (counted_search rank F C). cbn [bind].
  rewrite E. reflexivity.
Qed.

(** [C74] A merge or split traversal leaves one unreachable node behind for each child
    without leaves of this rank of a branch with leaves of this rank. *)
Lemma traversal_resources_pf : forall {D} (fac : factory D) rd strict rank (s : qvars) h q F m,
  s q = Some (F, m) -> contiguous F -> depth F <= qmaxlevel -> node_map rank F m ->
  run_qop strict fac rd rank (s, h) (QMerge q) =
    Ok (s, Held (live_nodes h + foreign_children rank F) (live_comms h)) /\
  run_qop strict fac rd rank (s, h) (QSplit q) =
    Ok (s, Held (live_nodes h + foreign_children rank F) (live_comms h)).
Proof.
  intros D fac rd strict rank s h q F m E C HL NM. cbn [run_qop]. rewrite E, (merge_count rank F m C HL NM). auto.
Qed.

(** [C74] On a single rank no traversal leaves a node behind. *)
Lemma serial_traversal_resources_pf : forall rank F, (forall o, In o (owners F) -> o = rank) ->
  foreign_children rank F = 0.
Proof. exact foreign_zero. Qed.

(** [C74] That traversals give back what they allocate is refuted whenever a rank with
    leaves is not alone: every merge and every split leaves at least one node. *)
Lemma traversal_release_refuted_pf : forall {D} (fac : factory D) rd rank (s : qvars) h q F m o,
  s q = Some (F, m) -> contiguous F -> depth F <= qmaxlevel -> node_map rank F m ->
  In rank (owners F) -> In o (owners F) -> o <> rank ->
  exists h', run_qop false fac rd rank (s, h) (QMerge q) = Ok (s, h') /\ live_nodes h < live_nodes h'.
Proof.
  intros D fac rd rank s h q F m o E C HL NM Hr Ho N.
  destruct (traversal_resources_pf fac rd false rank s h q F m E C HL NM) as [H _].
  eexists. split; [exact H|]. cbn [live_nodes]. pose proof (foreign_pos rank F o Hr Ho N). lia.
Qed.

(** [C74] No program of constructions, moves, destructions and traversals ever gives a
    node or a communicator back. *)
Lemma nothing_released_pf : forall {D} strict (fac : factory D) rd rank ops s h s' h',
  run_qops strict fac rd rank (s, h) ops = Ok (s', h') ->
  live_nodes h <= live_nodes h' /\ live_comms h <= live_comms h'.
Proof.
  intros D strict fac rd rank ops. unfold run_qops.
  induction ops as [|op ops IH]; intros s h s' h' E; cbn [foldM] in E.
  - apply Ok_inj in E. injection E as _ <-. lia.
  - apply bind_inv in E as ([s1 h1] & E1 & E). apply IH in E. apply qop_mono in E1. lia.
Qed.

(** [C74] Solving on a sequence of meshes, each a temporary moved into the mesh and
    destroyed, followed by build (merge), upwards (merge) and solve (split): the
    communicators and nodes of all the meshes are held at the end. *)
Lemma remesh_resources_pf : forall {D} (fac : factory D) rd rank Fs h s, factory_ok fac ->
  Forall (fun F => contiguous F /\ depth F <= qmaxlevel) Fs ->
  exists s', run_qops false fac rd rank (s, h)
      (flat_map (fun F => [QConstruct 1 F; QMove 0 1; QDestroy 1; QMerge 0; QMerge 0; QSplit 0]) Fs ++ [QDestroy 0]) =
    Ok (s', Held (live_nodes h + list_sum (map (fun F => owned_count rank F + 3 * foreign_children rank F) Fs))
                 (live_comms h + list_sum (map (owned_count rank) Fs))) /\
    s' 0 = None.
Proof.
  intros D fac rd rank Fs h s FO H. revert h s.
  induction H as [|F Fs [C HL] _ IH]; intros h s.
  - cbn. eexists. split; [rewrite !Nat.add_0_r; destruct h; reflexivity|]. reflexivity.
  - cbn [flat_map]. rewrite <- app_assoc. unfold run_qops. rewrite foldM_app. cbn [foldM].
    destruct (construction_allocates_pf fac rd rank s h 1 F FO C HL) as (m & NM & E). rewrite E. cbn [bind].
    set (h1 := Held (live_nodes h + owned_count rank F) (live_comms h + owned_count rank F)).
    set (s1 := qset (qset (qset s 1 (Some (F, m))) 0 (Some (F, m))) 1 None).
    replace (run_qop false fac rd rank (qset s 1 (Some (F, m)), h1) (QMove 0 1)) with (Ok (s1, h1)) by reflexivity.
    cbn [bind]. set (s2 := qset s1 1 None).
    replace (run_qop false fac rd rank (s1, h1) (QDestroy 1)) with (Ok (s2, h1)) by reflexivity. cbn [bind].
    assert (T : forall h, run_qop false fac rd rank (s2, h) (QMerge 0) =
        Ok (s2, Held (live_nodes h + foreign_children rank F) (live_comms h)) /\
      run_qop false fac rd rank (s2, h) (QSplit 0) =
        Ok (s2, Held (live_nodes h + foreign_children rank F) (live_comms h))).
    { intros h0. apply (traversal_resources_pf fac rd false rank s2 h0 0 F m); auto. }
    rewrite (proj1 (T h1)). cbn [bind]. rewrite (proj1 (T _)). cbn [bind]. rewrite (proj2 (T _)). cbn [bind].
    cbn [live_nodes live_comms h1].
    destruct (IH (Held (live_nodes h1 + foreign_children rank F + foreign_children rank F + foreign_children rank F)
      (live_comms h1)) s2) as (s' & E' & Z).
    exists s'. split; [|exact Z]. unfold run_qops in E'. cbn [live_nodes live_comms h1] in E'. rewrite E'.
    cbn [map list_sum fold_right].
    f_equal. f_equal. f_equal; [|unfold list_sum; lia]. unfold list_sum. lia.
Qed.

(** [C74] That the destructor gives back what the constructor allocated is refuted:
    on every rank with leaves nodes and communicators remain. *)
Lemma destructor_release_refuted_pf : forall {D} (fac : factory D) rd rank F s, factory_ok fac ->
  contiguous F -> depth F <= qmaxlevel -> In rank (owners F) ->
  exists s' h', run_qops false fac rd rank (s, Held 0 0) [QConstruct 0 F; QDestroy 0] = Ok (s', h') /\
    s' 0 = None /\ 0 < live_nodes h' /\ 0 < live_comms h'.
Proof.
  intros D fac rd rank F s FO C HL Hr.
  destruct (construction_allocates_pf fac rd rank s (Held 0 0) 0 F FO C HL) as (m & _ & E).
  unfold run_qops. cbn [foldM]. rewrite E. cbn [bind]. eexists. eexists. split; [reflexivity|].
  split; [reflexivity|]. cbn [live_nodes live_comms].
  assert (X : 0 < owned_count rank F).
  { pose proof (local_in_range rank F C Hr) as R. destruct F; cbn [owned_count]; rewrite R; lia. }
  lia.
Qed.

(** [C74] Naming the null communicator: when that is an error, as in the MPI standard,
    the constructor runs exactly on the ranks that own every leaf. *)
Lemma null_communicator_pf : forall rank F h,
  (exists h', construct_resources true rank F h = Ok h') <-> (forall o, In o (owners F) -> o = rank).
Proof.
  intros rank F h. split.
  - intros (h' & E) o Ho. destruct (Nat.eq_dec o rank) as [|N]; [assumption|].
    unfold construct_resources in E.
    rewrite (strict_ub rank _ (not_alone_visits rank F o Ho N root_quadrant)) in E. discriminate.
  - intros A. unfold construct_resources. rewrite (strict_ok rank _ (alone_visits rank F A root_quadrant)), visits_count.
    eexists. reflexivity.
Qed.

(** [C74] That construction in parallel is free of erroneous calls is refuted: with
    leaves on two ranks every rank names the null communicator. *)
Lemma null_communicator_refuted_pf : forall F o1 o2 rank h, In o1 (owners F) -> In o2 (owners F) -> o1 <> o2 ->
  construct_resources true rank F h = UB.
Proof.
  intros F o1 o2 rank h H1 H2 N. unfold construct_resources.
  destruct (Nat.eq_dec o1 rank) as [->|N1].
  - apply strict_ub, (not_alone_visits rank F o2 H2). congruence.
  - apply strict_ub, (not_alone_visits rank F o1 H1 N1).
Qed.

(** Sixteen leaves, the first five on rank 0 and the others on rank 1: rank 0 holds
    the root, two branches and five leaves; each traversal leaves two nodes of the
    root and three of the second branch. *)
Definition res_tree : forest :=
  let n a b c d := FNode (FLeaf a) (FLeaf b) (FLeaf c) (FLeaf d) in
  FNode (n 0 0 0 0) (n 0 1 1 1) (n 1 1 1 1) (n 1 1 1 1).
Lemma resources_example_expf :
  contiguous res_tree /\ depth res_tree <= qmaxlevel /\ In 0 (owners res_tree) /\ In 1 (owners res_tree) /\
  owned_count 0 res_tree = 8 /\ foreign_children 0 res_tree = 5 /\
  owned_count 1 res_tree = 15 /\ foreign_children 1 res_tree = 2 /\
  construct_resources true 0 (FNode (FLeaf 0) (FLeaf 0) (FLeaf 0) (FLeaf 0)) (Held 0 0) = Ok (Held 5 5) /\
  construct_resources true 0 res_tree (Held 0 0) = UB /\
  construct_resources false 0 res_tree (Held 0 0) = Ok (Held 8 8).
Proof.
  repeat split; try reflexivity.
  - unfold contiguous. cbn. repeat constructor.
  - cbn. unfold qmaxlevel. lia.
  - cbn. auto 10.
  - cbn. auto 10.
Qed.
