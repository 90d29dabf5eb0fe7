(** Model of src/P4est.cpp, src/Patches/FiniteVolume/FiniteVolumeNodeFactory.cpp,
    src/QuadNode.hpp and src/Quadtree.hpp: quadrants and their paths, the node
    factory, construction of the path-keyed map of nodes, and the traversals,
    on one rank of a parallel run (a serial run is the case of one rank).

    Assumptions about p4est (not part of /repo, stated in DESIGN.md): the forest
    has one tree; every rank owns a contiguous range of leaves in Morton order;
    p4est_search_all and p4est_search_reorder visit the quadrants described at
    [search_all] and [search_reorder].  Pointers to nodes are modelled by the
    entries of the map; a missing key and a null pointer are identified
    (operator[] of std::map inserts a null pointer for a missing key). *)
From Verif Require Import Base VectorModel MatrixModel HPSModel.

(** ** Quadrants (p4est) *)

(** p4est.h: P4EST_MAXLEVEL, P4EST_QMAXLEVEL, P4EST_QUADRANT_LEN. *)
Definition maxlevel : nat := 30.
Definition qmaxlevel : nat := 29.
Definition qlen (l : nat) : Z := (2 ^ Z.of_nat (maxlevel - l))%Z.

(** p4est_quadrant_t: integer coordinates of the lower left corner, level. *)
Record quadrant : Type := Quad { qx : Z; qy : Z; qlevel : nat }.
Definition root_quadrant : quadrant := Quad 0 0 0.

(** p4est_quadrant_child. *)
Definition qchild (q : quadrant) (i : nat) : quadrant :=
  let len := qlen (S (qlevel q)) in
  Quad (if Nat.odd i then Z.lor (qx q) len else qx q)
       (if Nat.odd (i / 2) then Z.lor (qy q) len else qy q) (S (qlevel q)).

(** p4est_quadrant_ancestor_id and p4est_quadrant_child_id. *)
Definition ancestor_id (q : quadrant) (l : nat) : nat :=
  if Nat.eqb l 0 then 0
  else (if Z.eqb (Z.land (qx q) (qlen l)) 0 then 0 else 1)
     + (if Z.eqb (Z.land (qy q) (qlen l)) 0 then 0 else 2).
Definition child_id (q : quadrant) : nat := ancestor_id q (qlevel q).

(** A path is a std::string of digits, modelled by the list of its digits; every
    digit is at most 3, so std::to_string gives one character. *)
Definition path := list nat.
Definition path_eqb (p q : path) : bool := if list_eq_dec Nat.eq_dec p q then true else false.

(** P4est.cpp:35-43 p4est_quadrant_path: the loop for (l = level; l != 0; l--)
    appends digits, then the string is reversed and "0" put in front. *)
Fixpoint path_loop (q : quadrant) (l : nat) (s : path) : path :=
  match l with
  | O => s
  | S l' => path_loop q l' (s ++ [ancestor_id q l])
  end.
Definition quadrant_path (q : quadrant) : path := 0 :: rev (path_loop q (qlevel q) []).

(** ** Nodes *)

(** QuadNode.hpp:13-61.  The node's communicator is determined by path and range
    of ranks, see [comm]. *)
Record qnode (D : Type) : Type := QNode {
  n_data : D; n_path : path; n_level : nat; n_pfirst : nat; n_plast : nat; n_leaf : bool }.
Arguments QNode {D} _ _ _ _ _ _.
Arguments n_data {D} _.
Arguments n_path {D} _.
Arguments n_level {D} _.
Arguments n_pfirst {D} _.
Arguments n_plast {D} _.
Arguments n_leaf {D} _.

Definition set_ndata {D} (n : qnode D) (d : D) : qnode D :=
  QNode d (n_path n) (n_level n) (n_pfirst n) (n_plast n) (n_leaf n).
Definition set_nleaf {D} (n : qnode D) (b : bool) : qnode D :=
  QNode (n_data n) (n_path n) (n_level n) (n_pfirst n) (n_plast n) b.

(** AbstractNodeFactory.hpp:8-45. *)
Record factory (D : Type) : Type := Factory {
  f_node : D -> path -> nat -> nat -> nat -> qnode D;
  f_child : qnode D -> nat -> nat -> nat -> qnode D }.
Arguments Factory {D} _ _.
Arguments f_node {D} _ _ _ _ _ _.
Arguments f_child {D} _ _ _ _ _.

(** FiniteVolumePatch.cpp:14-17: a patch with the given grid and no data. *)
Definition empty_matrix : matrix Qc := Mat 0 0 [].
Definition new_patch (G : grid) : patch :=
  Patch G empty_matrix empty_matrix empty_matrix empty_matrix [] [] [] [] [] 0.

(** FiniteVolumeGrid.hpp: a default constructed grid (sibling id outside 0..3). *)
Definition default_grid : grid := Grid 0 0 0%Qc 0%Qc 0%Qc 0%Qc.

(** FiniteVolumeNodeFactory.cpp:20-57: the grid of a child. *)
Definition child_grid (G : grid) (sibling_id : nat) : grid :=
  let x_mid := ((gxl G + gxu G) / q2)%Qc in
  let y_mid := ((gyl G + gyu G) / q2)%Qc in
  match sibling_id with
  | 0 => Grid (gnx G) (gny G) (gxl G) x_mid (gyl G) y_mid
  | 1 => Grid (gnx G) (gny G) x_mid (gxu G) (gyl G) y_mid
  | 2 => Grid (gnx G) (gny G) (gxl G) x_mid y_mid (gyu G)
  | 3 => Grid (gnx G) (gny G) x_mid (gxu G) y_mid (gyu G)
  | _ => default_grid
  end.

(** FiniteVolumeNodeFactory.cpp:11-13 createNode. *)
Definition createNode (data : patch) (p : path) (level pfirst plast : nat) : qnode patch :=
  QNode data p level pfirst plast false.

(** FiniteVolumeNodeFactory.cpp:15-67 createChildNode. *)
Definition createChildNode (parent : qnode patch) (sibling_id pfirst plast : nat) : qnode patch :=
  QNode (new_patch (child_grid (pgrid (n_data parent)) sibling_id))
        (n_path parent ++ [sibling_id]) (n_level parent + 1) pfirst plast false.

(** FiniteVolumeNodeFactory.cpp:69-93 createParentNode.  The level of children is
    at least 1; level - 1 is computed on natural numbers here. *)
Definition createParentNode (ch : four (qnode patch)) (pfirst plast : nat) : qnode patch :=
  let g0 := pgrid (n_data (fa ch)) in
  let g1 := pgrid (n_data (fb ch)) in
  let g2 := pgrid (n_data (fc ch)) in
  QNode (new_patch (Grid (gnx g0) (gny g0) (gxl g0) (gxu g1) (gyl g0) (gyu g2)))
        (removelast (n_path (fa ch))) (n_level (fa ch) - 1) pfirst plast false.

Definition fv_factory : factory patch := Factory createNode createChildNode.

(** ** The distributed forest *)

(** The refined tree with the rank owning each leaf. *)
Inductive forest : Type :=
| FLeaf (owner : nat)
| FNode (a b c d : forest).

(** Owners of the leaves in Morton order. *)
Fixpoint owners (f : forest) : list nat :=
  match f with
  | FLeaf o => [o]
  | FNode a b c d => owners a ++ owners b ++ owners c ++ owners d
  end.

(** First and last rank owning a part of the quadrant, as p4est passes them to the
    callback of p4est_search_all. *)
Definition pfirst (f : forest) : nat := hd 0 (owners f).
Definition plast (f : forest) : nat := last (owners f) 0.

(** Does the rank own a leaf of this subtree? *)
Definition has_local (rank : nat) (f : forest) : bool := existsb (Nat.eqb rank) (owners f).

(** The test pfirst <= rank && rank <= plast of Quadtree.hpp:151, 391, 418, 447. *)
Definition in_range (rank lo hi : nat) : bool := Nat.leb lo rank && Nat.leb rank hi.

(** ** Programs of one rank

    A rank's program runs local code and takes part in collective operations on
    the communicator of a node (identified by the node's path and its range of
    ranks) or in the creation of a communicator for a range of ranks.
    Programs are written in continuation-passing style: [k] is the rest of the
    program. *)
Record comm : Type := Comm { c_path : path; c_lo : nat; c_hi : nat }.

Inductive cmd (D A : Type) : Type :=
| Fin (r : res A)
| Allreduce (c : comm) (v : nat) (k : nat -> cmd D A)
| Bcast (c : comm) (root : nat) (n : qnode D) (k : qnode D -> cmd D A)
| Group (lo hi : nat) (k : cmd D A).
Arguments Fin {D A} _.
Arguments Allreduce {D A} _ _ _.
Arguments Bcast {D A} _ _ _ _.
Arguments Group {D A} _ _ _.

(** Local code followed by the rest of the program. *)
Definition lift {D A B} (m : res A) (k : A -> cmd D B) : cmd D B :=
  match m with
  | Ok a => k a
  | Throw e => Fin (Throw e)
  | UB => Fin UB
  end.

(** ** The map of nodes *)
Definition nmap (D : Type) := path -> option (qnode D).
Definition mget {D} (m : nmap D) (p : path) : option (qnode D) := m p.
Definition mset {D} (m : nmap D) (p : path) (n : option (qnode D)) : nmap D :=
  fun q => if path_eqb p q then n else m q.
Definition mempty {D} : nmap D := fun _ => None.

(** ** Construction *)

(** What the callback of p4est_search_all gets. *)
Record visit : Type := Visit { v_quad : quadrant; v_pfirst : nat; v_plast : nat; v_local : bool }.

(** p4est_search_all: every rank walks the global tree from the root, parents
    before children, children in Morton order, and descends into every branch
    that is not wholly owned by a single other rank; the last flag says whether
    the quadrant is a leaf owned by the calling rank (local_num >= 0). *)
Fixpoint search_all (rank : nat) (f : forest) (q : quadrant) : list visit :=
  match f with
  | FLeaf o => [Visit q o o (Nat.eqb o rank)]
  | FNode a b c d =>
      Visit q (pfirst f) (plast f) false ::
      (if Nat.eqb (pfirst f) (plast f) && negb (Nat.eqb (pfirst f) rank) then []
       else search_all rank a (qchild q 0) ++ search_all rank b (qchild q 1)
         ++ search_all rank c (qchild q 2) ++ search_all rank d (qchild q 3))
  end.

(** Quadtree.hpp:133-188, the callback of the constructor without the creation of
    the communicator. *)
Definition ctor_visit {D} (fac : factory D) (rank : nat) (root_data : D)
  (m : nmap D) (v : visit) : res (nmap D) :=
  let p := quadrant_path (v_quad v) in
  if in_range rank (v_pfirst v) (v_plast v) then
    n <- (if Nat.eqb (qlevel (v_quad v)) 0
          then Ok (f_node fac root_data p (qlevel (v_quad v)) (v_pfirst v) (v_plast v))
          else match mget m (removelast p) with
               | None => UB
               | Some parent =>
                   Ok (f_child fac parent (child_id (v_quad v)) (v_pfirst v) (v_plast v))
               end) ;;
    Ok (mset m p (Some (set_nleaf n (v_local v))))
  else Ok (mset m p None).

(** Quadtree.hpp:118-196 constructor, on one rank, without communication. *)
Definition construct {D} (fac : factory D) (rank : nat) (root_data : D) (f : forest) : res (nmap D) :=
  foldM (ctor_visit fac rank root_data) (search_all rank f root_quadrant) mempty.

(** Quadtree.hpp:118-196 with line 148: a communicator is created for the range of
    every visited quadrant (MPI.cpp:7-38 communicatorSubsetRange).
    MPI_Comm_create_group is collective over the ranks of the group; the other
    callers get a null communicator at once.  Naming that null communicator
    (MPI.cpp:33-36) is assumed to have no effect. *)
Fixpoint construct_prog {D} (fac : factory D) (rank : nat) (root_data : D)
  (vs : list visit) (m : nmap D) : cmd D (nmap D) :=
  match vs with
  | [] => Fin (Ok m)
  | v :: vs' =>
      let rest := lift (ctor_visit fac rank root_data m v)
                       (fun m' => construct_prog fac rank root_data vs' m') in
      if in_range rank (v_pfirst v) (v_plast v)
      then Group (v_pfirst v) (v_plast v) rest else rest
  end.

(** ** Traversals *)

Section traversal.
Context {D S R : Type}.

(** State of a traversal on one rank: what the callbacks captured, and the map. *)
Definition state := (S * nmap D)%type.
(** A callback of p4est_search_reorder: state, quadrant, "is a local leaf". *)
Definition callback := state -> quadrant -> bool -> (state * bool -> cmd D R) -> cmd D R.

Definition no_callback : callback := fun st _ _ k => k (st, true).

(** p4est_search_reorder with skip_levels = 0 and no reordering: visits from the
    root every quadrant that contains a leaf of the calling rank; a pre-callback
    that returns 0 stops the descent into the quadrant (and its post-callback is
    not called); the value of the post-callback is ignored. *)
Fixpoint search_reorder (rank : nat) (pre post : callback) (f : forest) (q : quadrant)
  (st : state) (k : state -> cmd D R) : cmd D R :=
  if has_local rank f then
    match f with
    | FLeaf _ =>
        pre st q true (fun r =>
        if snd r then post (fst r) q true (fun r' => k (fst r')) else k (fst r))
    | FNode a b c d =>
        pre st q false (fun r =>
        if snd r then
          search_reorder rank pre post a (qchild q 0) (fst r) (fun st1 =>
          search_reorder rank pre post b (qchild q 1) st1 (fun st2 =>
          search_reorder rank pre post c (qchild q 2) st2 (fun st3 =>
          search_reorder rank pre post d (qchild q 3) st3 (fun st4 =>
          post st4 q false (fun r' => k (fst r'))))))
        else k (fst r))
    end
  else k st.

(** User callbacks on nodes: they may change what they captured and the data of
    the node, and return an int that is zero or not.  Callbacks are assumed not
    to reach other nodes. *)
Definition node_fn := S -> qnode D -> res (S * D * bool).
Definition data_fn := S -> D -> res (S * D).
Definition family_fn := S -> qnode D -> four (qnode D) -> res (S * D * four D * bool).

(** Quadtree.hpp:383-397 p4est_search_visit. *)
Definition search_visit (rank : nat) (fn : node_fn) : callback :=
  fun st q _ k =>
  let p := quadrant_path q in
  match mget (snd st) p with
  | None => k (st, true)
  | Some n =>
      if in_range rank (n_pfirst n) (n_plast n) then
        lift (fn (fst st) n) (fun r =>
        k ((fst (fst r), mset (snd st) p (Some (set_ndata n (snd (fst r))))), snd r))
      else k (st, true)
  end.

(** Quadtree.hpp:411-424 p4est_search_visit_data. *)
Definition search_visit_data (rank : nat) (fn : data_fn) : callback :=
  fun st q _ k =>
  let p := quadrant_path q in
  match mget (snd st) p with
  | None => k (st, true)
  | Some n =>
      if in_range rank (n_pfirst n) (n_plast n) then
        lift (fn (fst st) (n_data n)) (fun r =>
        k ((fst r, mset (snd st) p (Some (set_ndata n (snd r)))), true))
      else k (st, true)
  end.

(** Quadtree.hpp:36-39. *)
Inductive policy : Type := BROADCAST | STRIPE.

(** Quadtree.hpp:475-495, one child: agree on the broadcasting rank, then
    broadcast the child.  A rank without the child allocates a new node (contents
    [dflt], never entered into the map); on a rank that has the child the received
    content overwrites the node (QuadNode.hpp:190-199). *)
Definition gather_child (rank : nat) (dflt : D) (node : qnode D) (i : nat) (m : nmap D)
  (k : nmap D * qnode D -> cmd D R) : cmd D R :=
  let key := n_path node ++ [i] in
  let c := Comm (n_path node) (n_pfirst node) (n_plast node) in
  let nodeRank := rank - n_pfirst node in
  match mget m key with
  | Some child =>
      Allreduce c nodeRank (fun pnode =>
      Bcast c pnode child (fun ch => k (mset m key (Some ch), ch)))
  | None =>
      Allreduce c 0 (fun pnode =>
      Bcast c pnode (QNode dflt [] 0 0 0 false) (fun ch => k (m, ch)))
  end.

(** The loop over the four children. *)
Definition gather (rank : nat) (dflt : D) (node : qnode D) (m : nmap D)
  (k : nmap D * four (qnode D) -> cmd D R) : cmd D R :=
  gather_child rank dflt node 0 m (fun r0 =>
  gather_child rank dflt node 1 (fst r0) (fun r1 =>
  gather_child rank dflt node 2 (fst r1) (fun r2 =>
  gather_child rank dflt node 3 (fst r2) (fun r3 =>
  k (fst r3, Four (snd r0) (snd r1) (snd r2) (snd r3)))))).

(** Quadtree.hpp:464-469: all children are on this rank. *)
Definition local_children (node : qnode D) (m : nmap D) : four (option (qnode D)) :=
  Four (mget m (n_path node ++ [0])) (mget m (n_path node ++ [1]))
       (mget m (n_path node ++ [2])) (mget m (n_path node ++ [3])).

(** What the family callback did to a child reaches the map if the child is the
    object the map points to. *)
Definition put_child (m : nmap D) (key : path) (d : D) : nmap D :=
  match mget m key with
  | Some n => mset m key (Some (set_ndata n d))
  | None => m
  end.

(** Quadtree.hpp:504-506. *)
Definition visit_family (fn : family_fn) (p : path) (s : S) (m : nmap D) (node : qnode D)
  (ch : four (qnode D)) (k : state * bool -> cmd D R) : cmd D R :=
  lift (fn s node ch) (fun r =>
  let d := snd (fst (fst r)) in
  let ds := snd (fst r) in
  let m1 := mset m p (Some (set_ndata node d)) in
  let m2 := put_child m1 (n_path node ++ [0]) (fa ds) in
  let m3 := put_child m2 (n_path node ++ [1]) (fb ds) in
  let m4 := put_child m3 (n_path node ++ [2]) (fc ds) in
  let m5 := put_child m4 (n_path node ++ [3]) (fd ds) in
  k ((fst (fst (fst r)), m5), snd r)).

(** Quadtree.hpp:438-511 p4est_search_merge_split.  The node is dereferenced
    before the test for a null pointer.  A null child handed to the family
    callback is dereferenced by it. *)
Definition search_merge_split (rank : nat) (pol : policy) (dflt : D)
  (fn : node_fn) (fam : family_fn) : callback :=
  fun st q local k =>
  let p := quadrant_path q in
  let m := snd st in
  match mget m p with
  | None => Fin UB
  | Some node =>
      let owned := in_range rank (n_pfirst node) (n_plast node) in
      if local then
        if owned then
          lift (fn (fst st) node) (fun r =>
          k ((fst (fst r), mset m p (Some (set_ndata node (snd (fst r))))), snd r))
        else k (st, true)
      else if owned then
        if Nat.eqb (n_pfirst node) (n_plast node) then
          match local_children node m with
          | Four (Some a) (Some b) (Some c) (Some d) =>
              visit_family fam p (fst st) m node (Four a b c d) k
          | _ => Fin UB
          end
        else
          match pol with
          | STRIPE => Fin (Throw runtime_error)
          | BROADCAST =>
              gather rank dflt node m (fun r =>
              visit_family fam p (fst st) (fst r) node (snd r) k)
          end
      else k (st, true)
  end.

(** Quadtree.hpp:236-314. *)
Definition traversePreOrder (rank : nat) (fn : node_fn) (f : forest) (st : state)
  (k : state -> cmd D R) : cmd D R :=
  search_reorder rank (search_visit rank fn) no_callback f root_quadrant st k.
Definition traversePreOrder_data (rank : nat) (fn : data_fn) (f : forest) (st : state)
  (k : state -> cmd D R) : cmd D R :=
  search_reorder rank (search_visit_data rank fn) no_callback f root_quadrant st k.
Definition traversePostOrder (rank : nat) (fn : node_fn) (f : forest) (st : state)
  (k : state -> cmd D R) : cmd D R :=
  search_reorder rank no_callback (search_visit rank fn) f root_quadrant st k.
Definition traversePostOrder_data (rank : nat) (fn : data_fn) (f : forest) (st : state)
  (k : state -> cmd D R) : cmd D R :=
  search_reorder rank no_callback (search_visit_data rank fn) f root_quadrant st k.

(** Quadtree.hpp:322-337 merge. *)
Definition merge (rank : nat) (pol : policy) (dflt : D) (fn : node_fn) (fam : family_fn)
  (f : forest) (st : state) (k : state -> cmd D R) : cmd D R :=
  search_reorder rank no_callback (search_merge_split rank pol dflt fn fam) f root_quadrant st k.

(** Quadtree.hpp:345-360 split. *)
Definition split (rank : nat) (pol : policy) (dflt : D) (fn : node_fn) (fam : family_fn)
  (f : forest) (st : state) (k : state -> cmd D R) : cmd D R :=
  search_reorder rank (search_merge_split rank pol dflt fn fam) no_callback f root_quadrant st k.

End traversal.
