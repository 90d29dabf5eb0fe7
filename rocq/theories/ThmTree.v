(** Property theorems.  Proofs are in TreeProps.v; this file only restates the
    statements.  Written by tools/gen_thm.py. *)
From Verif Require Import Base VectorModel MatrixModel HPSModel TreeModel TreeSpec.
From Verif Require Import TreeProofs TreeTile TreeCtor TreeOrder TreeMap TreeOrder2.
From Verif Require Import TreeProps.

(** [C32] The leaf nodes of the constructed tree (over all ranks) have rectangles
    with the root's cell counts whose areas add up to the root's area; interiors
    are disjoint; every point of the root rectangle lies in a leaf; leaves that
    meet along an edge do so on a common line, with one edge containing the
    other, and with equal edges if the leaves are of equal level. *)
Theorem leaves_tile_domain : forall f root, contiguous f -> depth f <= qmaxlevel ->
  proper_rect (pgrid root) ->
  exists leaves : list (list nat * grid),
    NoDup (map fst leaves) /\
    (forall ds G, In (ds, G) leaves <-> leaf_with_grid f root ds G) /\
    (forall ds G, In (ds, G) leaves -> gnx G = gnx (pgrid root) /\ gny G = gny (pgrid root) /\ proper_rect G) /\
    Qcsum (map (fun l => area (snd l)) leaves) = area (pgrid root) /\
    (forall ds G ds' G' x y, In (ds, G) leaves -> In (ds', G') leaves -> ds <> ds' ->
       interior G x y -> interior G' x y -> False) /\
    (forall x y, inside (pgrid root) x y <-> exists ds G, In (ds, G) leaves /\ inside G x y) /\
    (forall ds G ds' G', In (ds, G) leaves -> In (ds', G') leaves -> ds <> ds' -> meet_x G G' ->
       (gxu G = gxl G' \/ gxu G' = gxl G) /\ nested (gyl G) (gyu G) (gyl G') (gyu G') /\
       (length ds = length ds' -> gyl G = gyl G' /\ gyu G = gyu G')) /\
    (forall ds G ds' G', In (ds, G) leaves -> In (ds', G') leaves -> ds <> ds' -> meet_y G G' ->
       (gyu G = gyl G' \/ gyu G' = gyl G) /\ nested (gxl G) (gxu G) (gxl G') (gxu G') /\
       (length ds = length ds' -> gxl G = gxl G' /\ gxu G = gxu G')).
Proof. exact @leaves_tile_domain_pf. Qed.
Print Assumptions leaves_tile_domain.

(** The grid of the leaf 13 of the example tree: [3/4,1] x [1/4,1/2]. *)
Example leaves_tile_domain_example :
  leaf_with_grid ex_forest ex_root [1; 3]
    (Grid 4 4 (Q2Qc (3 # 4)) 1%Qc (Q2Qc (1 # 4)) (Q2Qc (1 # 2))) /\ contiguous ex_forest /\
  depth ex_forest <= qmaxlevel /\ proper_rect (pgrid ex_root).
Proof. exact @leaves_tile_domain_example_expf. Qed.

(** [C33] createParentNode undoes createChildNode: grid, path, level. *)
Theorem parent_inverts_children : forall n pf pl,
  let ch := Four (createChildNode n 0 pf pl) (createChildNode n 1 pf pl)
                 (createChildNode n 2 pf pl) (createChildNode n 3 pf pl) in
  let p := createParentNode ch (n_pfirst n) (n_plast n) in
  pgrid (n_data p) = pgrid (n_data n) /\ n_path p = n_path n /\ n_level p = n_level n.
Proof. exact @parent_inverts_children_pf. Qed.
Print Assumptions parent_inverts_children.

(** A node at level 2 with an anisotropic grid; the parent's grid is not the one of
    a child. *)
Example parent_inverts_children_example :
  let n := createNode (new_patch (Grid 3 5 0%Qc 1%Qc (Qcopp 1%Qc) 1%Qc)) [0; 2; 1] 2 0 0 in
  map this [gxl (pgrid (n_data (createChildNode n 3 0 0))); gyl (pgrid (n_data (createChildNode n 3 0 0)))]
    = [1 # 2; 0 # 1]%Q /\
  n_path (createChildNode n 3 0 0) = [0; 2; 1; 3].
Proof. exact @parent_inverts_children_example_expf. Qed.

(** [C34] Paths: length, injectivity, paths of children, every list of digits is
    the path of exactly one quadrant; the p4est child is the square of half the
    side; the path stored by the constructor in the node of a quadrant is the
    path computed from the quadrant's coordinates. *)
Theorem paths_identify_quadrants :
  (forall q, length (quadrant_path q) = qlevel q + 1) /\
  (forall q q', valid_quadrant q -> valid_quadrant q' -> quadrant_path q = quadrant_path q' -> q = q') /\
  (forall q i, valid_quadrant q -> qlevel q < qmaxlevel -> i < 4 ->
     valid_quadrant (qchild q i) /\ is_child q i (qchild q i) /\
     quadrant_path (qchild q i) = quadrant_path q ++ [i]) /\
  (forall ds, Forall (fun i => i < 4) ds -> length ds <= qmaxlevel ->
     exists q, valid_quadrant q /\ quadrant_path q = 0 :: ds).
Proof. exact @paths_identify_quadrants_pf. Qed.
Print Assumptions paths_identify_quadrants.

(** [C34] The path built by the node factory is the key computed from the
    coordinates. *)
Theorem factory_path : forall fac rank (root_data : patch) f q m n,
  factory_ok fac -> contiguous f -> depth f <= qmaxlevel ->
  construct fac rank root_data f = Ok m -> valid_quadrant q -> m (quadrant_path q) = Some n ->
  n_path n = quadrant_path q /\ n_level n = qlevel q.
Proof. exact @factory_path_pf. Qed.
Print Assumptions factory_path.

(** The quadrant with corner (3/4, 1/4) at level 2. *)
Example paths_identify_quadrants_example :
  quadrant_path (Quad (3 * 2 ^ 28) (2 ^ 28) 2) = [0; 1; 3] /\ valid_quadrant (Quad (3 * 2 ^ 28) (2 ^ 28) 2) /\
  match construct fv_factory 1 ex_root ex_forest with
  | Ok m => match m (quadrant_path (Quad (3 * 2 ^ 28) (2 ^ 28) 2)) with
            | Some n => n_path n = [0; 1; 3] /\ n_level n = 2 /\ n_leaf n = true
            | None => False
            end
  | _ => False
  end.
Proof. exact @paths_identify_quadrants_example_expf. Qed.

(** [C39] On every rank the constructor succeeds and leaves a node exactly for the
    quadrants whose range of owning ranks contains the rank; there are no other
    entries. *)
Theorem ownership : forall {D} (fac : factory D) rank root_data f,
  factory_ok fac -> contiguous f -> depth f <= qmaxlevel ->
  exists m, construct fac rank root_data f = Ok m /\ node_map rank f m /\
    (forall ds, (exists n, m (0 :: ds) = Some n) <-> owned_quadrant rank f ds) /\
    (forall k, (forall ds, k <> 0 :: ds) -> m k = None).
Proof. exact @ownership_pf. Qed.
Print Assumptions ownership.

(** [C39] Every node below the root was made by the factory's createChildNode from
    the node of its parent, which is in the same map. *)
Theorem created_from_parent : forall {D} (fac : factory D) rank root_data f m ds i n,
  factory_ok fac -> contiguous f -> depth f <= qmaxlevel ->
  construct fac rank root_data f = Ok m -> m (0 :: ds ++ [i]) = Some n ->
  exists par, m (0 :: ds) = Some par /\
    n = set_nleaf (f_child fac par i (n_pfirst n) (n_plast n)) (n_leaf n).
Proof. exact @created_from_parent_pf. Qed.
Print Assumptions created_from_parent.

(** [C39] The range of a node with children runs from the first rank of child 0 to
    the last rank of child 3, and the ranges of the children follow each other in
    order; the nodes are found on the ranks at the ends of the range. *)
Theorem parent_range_spanned : forall {D} (fac : factory D) root_data f ds f',
  factory_ok fac -> contiguous f -> depth f <= qmaxlevel ->
  sub f ds = Some f' -> ~ is_leaf f' ->
  (forall rank m n, construct fac rank root_data f = Ok m -> m (0 :: ds) = Some n ->
     (exists m0 c0, construct fac (n_pfirst n) root_data f = Ok m0 /\ m0 (0 :: ds ++ [0]) = Some c0 /\
        n_pfirst c0 = n_pfirst n) /\
     (exists m3 c3, construct fac (n_plast n) root_data f = Ok m3 /\ m3 (0 :: ds ++ [3]) = Some c3 /\
        n_plast c3 = n_plast n)) /\
  (forall r1 r2 m1 m2 i j c1 c2, construct fac r1 root_data f = Ok m1 -> construct fac r2 root_data f = Ok m2 ->
     m1 (0 :: ds ++ [i]) = Some c1 -> m2 (0 :: ds ++ [j]) = Some c2 -> i < j ->
     n_pfirst c1 <= n_plast c1 /\ n_plast c1 <= n_pfirst c2).
Proof. exact @parent_range_spanned_pf. Qed.
Print Assumptions parent_range_spanned.

(** [C39] Every leaf has exactly one rank that has a node for it, and there the
    node is marked as a leaf; marked nodes are leaves. *)
Theorem leaf_owned_once : forall {D} (fac : factory D) root_data f ds,
  factory_ok fac -> contiguous f -> depth f <= qmaxlevel ->
  (In ds (leaf_paths f) ->
   exists o, forall rank, exists m, construct fac rank root_data f = Ok m /\
     (rank = o -> exists n, m (0 :: ds) = Some n /\ n_leaf n = true) /\
     (rank <> o -> m (0 :: ds) = None)) /\
  (forall rank m n, construct fac rank root_data f = Ok m -> m (0 :: ds) = Some n -> n_leaf n = true ->
     In ds (leaf_paths f)).
Proof. exact @leaf_owned_once_pf. Qed.
Print Assumptions leaf_owned_once.

(** Rank 1 of the example: it has the root, the refined quadrant and its leaves 1,
    2, 3, nothing else. *)
Example ownership_example :
  factory_ok fv_factory /\
  match construct fv_factory 1 ex_root ex_forest with
  | Ok m => map (fun p => match m p with Some n => [n_pfirst n; n_plast n] | None => [] end)
                [[0]; [0;0]; [0;1]; [0;2]; [0;3]; [0;1;0]; [0;1;1]; [0;1;2]; [0;1;3]]
            = [[0;2]; []; [0;1]; []; []; []; [1;1]; [1;1]; [1;1]]
  | _ => False
  end.
Proof. exact @ownership_example_expf. Qed.

(** [C35] Pre-order traversal on any rank, with any callback (which may stop the
    descent, change data and its own state, or fail): the record of the visits
    lists the quadrants that contain a leaf of the rank and below which the
    callback did not stop, once each, parents before children, siblings in the
    order 0,1,2,3.  Post-order: all quadrants that contain a leaf of the rank,
    once each, children before parents.  Neither communicates. *)
Theorem traversal_order_partial : forall {D S} rank F (m : nmap D) (fn : S -> qnode D -> res (S * D * bool)) s,
  contiguous F -> depth F <= qmaxlevel -> node_map rank F m ->
  (exists r, traversePreOrder rank (logged fn) F ((s, []), m) finish = Fin r /\
     forall s' L m', r = Ok ((s', L), m') -> preorder_log rank F L /\ node_map rank F m') /\
  (exists r, traversePostOrder rank (logged fn) F ((s, []), m) finish = Fin r /\
     forall s' L m', r = Ok ((s', L), m') -> postorder_log rank F L /\ node_map rank F m').
Proof. exact @traversal_order_partial_pf. Qed.
Print Assumptions traversal_order_partial.

(** [C35] merge and split on a rank that owns the whole tree (serial run): post-order
    and pre-order. *)
Theorem merge_split_order_partial : forall {D S} rank F (m : nmap D) pol dflt
  (fn : S -> qnode D -> res (S * D * bool)) (fam : S -> qnode D -> four (qnode D) -> res (S * D * four D * bool)) s,
  contiguous F -> depth F <= qmaxlevel -> node_map rank F m -> pfirst F = rank -> plast F = rank ->
  (exists r, merge rank pol dflt (logged fn) (logged_family fam) F ((s, []), m) finish = Fin r /\
     forall s' L m', r = Ok ((s', L), m') -> postorder_log rank F L /\ node_map rank F m') /\
  (exists r, split rank pol dflt (logged fn) (logged_family fam) F ((s, []), m) finish = Fin r /\
     forall s' L m', r = Ok ((s', L), m') -> preorder_log rank F L /\ node_map rank F m').
Proof. exact @merge_split_order_partial_pf. Qed.
Print Assumptions merge_split_order_partial.

(** [C35] The traversals with a callback on data are the traversals with the
    callback on nodes that applies it to the node's data and returns 1. *)
Theorem data_traversals : forall {D S} rank F (fn : S -> D -> res (S * D)) (st : S * nmap D),
  traversePreOrder_data rank fn F st finish
  = traversePreOrder rank (fun s n => r <- fn s (n_data n) ;; Ok (fst r, snd r, true)) F st finish /\
  traversePostOrder_data rank fn F st finish
  = traversePostOrder rank (fun s n => r <- fn s (n_data n) ;; Ok (fst r, snd r, true)) F st finish.
Proof. exact @data_traversals_pf. Qed.
Print Assumptions data_traversals.

(** [C35] The leaves appear in the same order, that of the space-filling curve, in
    every post-order record and in every pre-order record without a stop above
    them. *)
Theorem leaves_same_order : forall rank F,
  (forall L, postorder_log rank F L ->
     filter (fun p => leaf_path F (tl p)) (map fst L) = map (cons 0) (filter (own_leaf rank F) (leaf_paths F))) /\
  (forall L, preorder_log rank F L -> (forall p c, In (p, c) L -> leaf_path F (tl p) = false -> c = true) ->
     filter (fun p => leaf_path F (tl p)) (map fst L) = map (cons 0) (filter (own_leaf rank F) (leaf_paths F))).
Proof. exact @leaves_same_order_pf. Qed.
Print Assumptions leaves_same_order.

(** [C35] A rank that owns at least one leaf has a node exactly for the quadrants
    that contain one of its leaves; so its traversals visit every node it owns. *)
Theorem traversals_visit_owned_partial : forall rank F ds, contiguous F -> In rank (owners F) ->
  (owned_quadrant rank F ds <-> local_quadrant rank F ds).
Proof. exact @traversals_visit_owned_partial_pf. Qed.
Print Assumptions traversals_visit_owned_partial.

(** [C35] A rank without leaves whose number lies between those of ranks with leaves
    owns nodes (it has an object for them), but its traversals visit nothing. *)
Theorem traversal_visits_every_owned_node_refuted :
  exists rank F (m : nmap patch), contiguous F /\ depth F <= qmaxlevel /\
    construct fv_factory rank ex_root F = Ok m /\ owned_quadrant rank F [] /\ (exists n, m [0] = Some n) /\
    forall (fn : unit -> qnode patch -> res (unit * patch * bool)),
      traversePreOrder rank (logged fn) F ((tt, []), m) finish = Fin (Ok ((tt, []), m)) /\
      traversePostOrder rank (logged fn) F ((tt, []), m) finish = Fin (Ok ((tt, []), m)).
Proof. exact @traversal_visits_every_owned_node_refuted_pf. Qed.
Print Assumptions traversal_visits_every_owned_node_refuted.

Example traversal_order_example :
  match construct fv_factory 1 ex_root ex_forest with
  | Ok m => match traversePreOrder 1 (logged count_fn) ex_forest ((0, []), m) finish,
                  traversePostOrder 1 (logged count_fn) ex_forest ((0, []), m) finish with
            | Fin (Ok (p, _)), Fin (Ok (q, _)) =>
                p = (5, [([0], true); ([0;1], true); ([0;1;1], true); ([0;1;2], true); ([0;1;3], true)]) /\
                q = (5, [([0;1;1], true); ([0;1;2], true); ([0;1;3], true); ([0;1], true); ([0], true)])
            | _, _ => False
            end
  | _ => False
  end.
Proof. exact @traversal_order_example_expf. Qed.

(** [C36] A rank that owns the whole tree: the map holds a tree of nodes of the
    shape of the forest, and merge (split) on the map computes the recursive
    merge (split) of that tree, whatever the callbacks do (change data and state,
    stop the descent, throw). *)
Theorem map_behaves_like_tree : forall {D S} rank F (m : nmap D) pol dflt
  (fn : S -> qnode D -> res (S * D * bool)) (fam : S -> qnode D -> four (qnode D) -> res (S * D * four D * bool)) s,
  contiguous F -> depth F <= qmaxlevel -> node_map rank F m -> pfirst F = rank -> plast F = rank ->
  exists t, tree_in m [0] t /\ same_shape F t /\
    on_map_as_tree F m (merge rank pol dflt fn fam F (s, m) finish) (rec_merge (on_node fn) (on_family fam) s t) /\
    on_map_as_tree F m (split rank pol dflt fn fam F (s, m) finish) (rec_split (on_node fn) (on_family fam) s t (label t)).
Proof. exact @map_behaves_like_tree_pf. Qed.
Print Assumptions map_behaves_like_tree.

(** [C36] The three stages of the direct solver on the map are the stages on the
    tree of patches. *)
Theorem stages_on_map : forall rank F (m : nmap patch) pol dflt sv gesv cache hom load g st,
  contiguous F -> depth F <= qmaxlevel -> node_map rank F m -> pfirst F = rank -> plast F = rank ->
  exists t, tree_in m [0] t /\ same_shape F t /\
    match buildStage sv gesv cache st (patches t) with
    | Ok (st', T) => exists m' t',
        merge rank pol dflt (leaf_cb (build_leaf sv cache)) (fam_cb (merge4to1 gesv)) F (st, m) finish = Fin (Ok (st', m'))
        /\ tree_in m' [0] t' /\ patches t' = T
    | Throw e => merge rank pol dflt (leaf_cb (build_leaf sv cache)) (fam_cb (merge4to1 gesv)) F (st, m) finish = Fin (Throw e)
    | UB => merge rank pol dflt (leaf_cb (build_leaf sv cache)) (fam_cb (merge4to1 gesv)) F (st, m) finish = Fin UB
    end /\
    match upwardsStage sv gesv hom load (patches t) with
    | Ok T => exists m' t',
        merge rank pol dflt (leaf_cb (up_leaf sv load)) (fam_cb (upwards4to1 gesv hom)) F (tt, m) finish = Fin (Ok (tt, m'))
        /\ tree_in m' [0] t' /\ patches t' = T
    | Throw e => merge rank pol dflt (leaf_cb (up_leaf sv load)) (fam_cb (upwards4to1 gesv hom)) F (tt, m) finish = Fin (Throw e)
    | UB => merge rank pol dflt (leaf_cb (up_leaf sv load)) (fam_cb (upwards4to1 gesv hom)) F (tt, m) finish = Fin UB
    end /\
    match solveStage sv hom g (patches t) with
    | Ok T => exists m' t',
        split rank pol dflt (leaf_cb (fun s p => q <- leafSolve sv hom p ;; Ok (s, q))) (fam_cb (split1to4 hom)) F
          (tt, put_child m [0] (set_g (data (patches t)) g)) finish = Fin (Ok (tt, m'))
        /\ tree_in m' [0] t' /\ patches t' = T
    | Throw e => split rank pol dflt (leaf_cb (fun s p => q <- leafSolve sv hom p ;; Ok (s, q))) (fam_cb (split1to4 hom)) F
          (tt, put_child m [0] (set_g (data (patches t)) g)) finish = Fin (Throw e)
    | UB => split rank pol dflt (leaf_cb (fun s p => q <- leafSolve sv hom p ;; Ok (s, q))) (fam_cb (split1to4 hom)) F
          (tt, put_child m [0] (set_g (data (patches t)) g)) finish = Fin UB
    end.
Proof. exact @stages_on_map_pf. Qed.
Print Assumptions stages_on_map.

Example map_behaves_like_tree_example :
  match construct nat_factory 0 0 one_rank with
  | Ok m => match merge 0 BROADCAST 0 size_leaf size_fam one_rank (tt, m) finish with
            | Fin (Ok (_, m')) =>
                map (fun p => match m' p with Some n => n_data n | None => 99 end)
                    [[0]; [0;0]; [0;1]; [0;1;0]; [0;1;3]; [0;3]; [1]] = [9; 1; 5; 1; 10; 10; 99]
            | _ => False
            end
  | _ => False
  end /\ contiguous one_rank /\ pfirst one_rank = 0 /\ plast one_rank = 0.
Proof. exact @map_behaves_like_tree_example_expf. Qed.
