(** Property theorems.  Proofs are in ResProps.v; this file only restates the
    statements.  Written by tools/gen_thm.py. *)
From Verif Require Import Base VectorModel MatrixModel HPSModel TreeModel TreeSpec TreeProofs TreeCtor
  TreeOrder TreeMap ParCtor ResModel ResSpec ResProofs.
From Verif Require Import ResProps.

(** [C74] Constructing a quadtree allocates one node and one communicator for each
    quadrant whose range of ranks contains the rank, no more and no fewer. *)
Theorem construction_allocates : forall {D} (fac : factory D) rd rank s h q F, factory_ok fac ->
  contiguous F -> depth F <= qmaxlevel ->
  exists m, node_map rank F m /\
    run_qop false fac rd rank (s, h) (QConstruct q F) =
      Ok (qset s q (Some (F, m)),
          Held (live_nodes h + owned_count rank F) (live_comms h + owned_count rank F)).
Proof. exact @construction_allocates_pf. Qed.
Print Assumptions construction_allocates.

(** [C74] A merge or split traversal leaves one unreachable node behind for each child
    without leaves of this rank of a branch with leaves of this rank. *)
Theorem traversal_resources : forall {D} (fac : factory D) rd strict rank (s : qvars) h q F m,
  s q = Some (F, m) -> contiguous F -> depth F <= qmaxlevel -> node_map rank F m ->
  run_qop strict fac rd rank (s, h) (QMerge q) =
    Ok (s, Held (live_nodes h + foreign_children rank F) (live_comms h)) /\
  run_qop strict fac rd rank (s, h) (QSplit q) =
    Ok (s, Held (live_nodes h + foreign_children rank F) (live_comms h)).
Proof. exact @traversal_resources_pf. Qed.
Print Assumptions traversal_resources.

(** [C74] On a single rank no traversal leaves a node behind. *)
Theorem serial_traversal_resources : forall rank F, (forall o, In o (owners F) -> o = rank) ->
  foreign_children rank F = 0.
Proof. exact @serial_traversal_resources_pf. Qed.
Print Assumptions serial_traversal_resources.

(** [C74] That traversals give back what they allocate is refuted whenever a rank with
    leaves is not alone: every merge and every split leaves at least one node. *)
Theorem traversal_release_refuted : forall {D} (fac : factory D) rd rank (s : qvars) h q F m o,
  s q = Some (F, m) -> contiguous F -> depth F <= qmaxlevel -> node_map rank F m ->
  In rank (owners F) -> In o (owners F) -> o <> rank ->
  exists h', run_qop false fac rd rank (s, h) (QMerge q) = Ok (s, h') /\ live_nodes h < live_nodes h'.
Proof. exact @traversal_release_refuted_pf. Qed.
Print Assumptions traversal_release_refuted.

(** [C74] No program of constructions, moves, destructions and traversals ever gives a
    node or a communicator back. *)
Theorem nothing_released : forall {D} strict (fac : factory D) rd rank ops s h s' h',
  run_qops strict fac rd rank (s, h) ops = Ok (s', h') ->
  live_nodes h <= live_nodes h' /\ live_comms h <= live_comms h'.
Proof. exact @nothing_released_pf. Qed.
Print Assumptions nothing_released.

(** [C74] Solving on a sequence of meshes, each a temporary moved into the mesh and
    destroyed, followed by build (merge), upwards (merge) and solve (split): the
    communicators and nodes of all the meshes are held at the end. *)
Theorem remesh_resources : forall {D} (fac : factory D) rd rank Fs h s, factory_ok fac ->
  Forall (fun F => contiguous F /\ depth F <= qmaxlevel) Fs ->
  exists s', run_qops false fac rd rank (s, h)
      (flat_map (fun F => [QConstruct 1 F; QMove 0 1; QDestroy 1; QMerge 0; QMerge 0; QSplit 0]) Fs ++ [QDestroy 0]) =
    Ok (s', Held (live_nodes h + list_sum (map (fun F => owned_count rank F + 3 * foreign_children rank F) Fs))
                 (live_comms h + list_sum (map (owned_count rank) Fs))) /\
    s' 0 = None.
Proof. exact @remesh_resources_pf. Qed.
Print Assumptions remesh_resources.

(** [C74] That the destructor gives back what the constructor allocated is refuted:
    on every rank with leaves nodes and communicators remain. *)
Theorem destructor_release_refuted : forall {D} (fac : factory D) rd rank F s, factory_ok fac ->
  contiguous F -> depth F <= qmaxlevel -> In rank (owners F) ->
  exists s' h', run_qops false fac rd rank (s, Held 0 0) [QConstruct 0 F; QDestroy 0] = Ok (s', h') /\
    s' 0 = None /\ 0 < live_nodes h' /\ 0 < live_comms h'.
Proof. exact @destructor_release_refuted_pf. Qed.
Print Assumptions destructor_release_refuted.

(** [C74] Naming the null communicator: when that is an error, as in the MPI standard,
    the constructor runs exactly on the ranks that own every leaf. *)
Theorem null_communicator : forall rank F h,
  (exists h', construct_resources true rank F h = Ok h') <-> (forall o, In o (owners F) -> o = rank).
Proof. exact @null_communicator_pf. Qed.
Print Assumptions null_communicator.

(** [C74] That construction in parallel is free of erroneous calls is refuted: with
    leaves on two ranks every rank names the null communicator. *)
Theorem null_communicator_refuted : forall F o1 o2 rank h, In o1 (owners F) -> In o2 (owners F) -> o1 <> o2 ->
  construct_resources true rank F h = UB.
Proof. exact @null_communicator_refuted_pf. Qed.
Print Assumptions null_communicator_refuted.

Example resources_example :
  contiguous res_tree /\ depth res_tree <= qmaxlevel /\ In 0 (owners res_tree) /\ In 1 (owners res_tree) /\
  owned_count 0 res_tree = 8 /\ foreign_children 0 res_tree = 5 /\
  owned_count 1 res_tree = 15 /\ foreign_children 1 res_tree = 2 /\
  construct_resources true 0 (FNode (FLeaf 0) (FLeaf 0) (FLeaf 0) (FLeaf 0)) (Held 0 0) = Ok (Held 5 5) /\
  construct_resources true 0 res_tree (Held 0 0) = UB /\
  construct_resources false 0 res_tree (Held 0 0) = Ok (Held 8 8).
Proof. exact @resources_example_expf. Qed.
