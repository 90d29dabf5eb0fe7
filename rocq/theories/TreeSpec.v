(** Specifications for quadrants, paths, tilings, ownership and traversal order.
    Nothing here refers to the traversal or construction code. *)
From Coq Require Export Sorted.
From Verif Require Import Base VectorModel MatrixModel HPSModel TreeModel.

(** ** Quadrants *)

(** A quadrant of the unit tree: level at most the maximum, the corner is a
    multiple of the side length inside the root square. *)
Definition valid_quadrant (q : quadrant) : Prop :=
  qlevel q <= qmaxlevel /\
  (0 <= qx q < 2 ^ 30)%Z /\ (0 <= qy q < 2 ^ 30)%Z /\
  (qlen (qlevel q) | qx q)%Z /\ (qlen (qlevel q) | qy q)%Z.

(** The [i]-th child as a square: half the side, shifted by half the side. *)
Definition is_child (q : quadrant) (i : nat) (c : quadrant) : Prop :=
  qlevel c = S (qlevel q) /\
  qx c = (qx q + Z.of_nat (i mod 2) * qlen (S (qlevel q)))%Z /\
  qy c = (qy q + Z.of_nat (i / 2) * qlen (S (qlevel q)))%Z.

(** ** Trees *)

(** The subtree reached by a list of child numbers. *)
Definition fchild (f : forest) (i : nat) : option forest :=
  match f with
  | FLeaf _ => None
  | FNode a b c d =>
      match i with 0 => Some a | 1 => Some b | 2 => Some c | 3 => Some d | _ => None end
  end.
Fixpoint sub (f : forest) (ds : list nat) : option forest :=
  match ds with
  | [] => Some f
  | i :: ds' => match fchild f i with Some f' => sub f' ds' | None => None end
  end.

Fixpoint depth (f : forest) : nat :=
  match f with
  | FLeaf _ => 0
  | FNode a b c d => S (Nat.max (Nat.max (depth a) (depth b)) (Nat.max (depth c) (depth d)))
  end.

Definition is_leaf (f : forest) : Prop := exists o, f = FLeaf o.

(** Leaves are given to ranks in contiguous ranges of Morton order. *)
Definition contiguous (f : forest) : Prop := StronglySorted le (owners f).

(** Paths of the leaves in Morton order. *)
Fixpoint leaf_paths (f : forest) : list (list nat) :=
  match f with
  | FLeaf _ => [[]]
  | FNode a b c d =>
      map (cons 0) (leaf_paths a) ++ map (cons 1) (leaf_paths b)
      ++ map (cons 2) (leaf_paths c) ++ map (cons 3) (leaf_paths d)
  end.

(** ** Rectangles *)
Definition inside (G : grid) (x y : Qc) : Prop :=
  (gxl G <= x)%Qc /\ (x <= gxu G)%Qc /\ (gyl G <= y)%Qc /\ (y <= gyu G)%Qc.
Definition interior (G : grid) (x y : Qc) : Prop :=
  (gxl G < x)%Qc /\ (x < gxu G)%Qc /\ (gyl G < y)%Qc /\ (y < gyu G)%Qc.
Definition area (G : grid) : Qc := ((gxu G - gxl G) * (gyu G - gyl G))%Qc.
Definition Qcsum (l : list Qc) : Qc := fold_right Qcplus 0%Qc l.
Definition proper_rect (G : grid) : Prop := (gxl G < gxu G)%Qc /\ (gyl G < gyu G)%Qc.

(** One interval contains the other. *)
Definition nested (a b c d : Qc) : Prop :=
  ((a <= c)%Qc /\ (d <= b)%Qc) \/ ((c <= a)%Qc /\ (b <= d)%Qc).

(** ** Orders on paths *)

(** Parents before children, siblings by number (lower left, lower right, upper
    left, upper right). *)
Inductive before : list nat -> list nat -> Prop :=
| before_prefix i p : before [] (i :: p)
| before_digit i j p q : i < j -> before (i :: p) (j :: q)
| before_cons i p q : before p q -> before (i :: p) (i :: q).

(** Children before parents, siblings by number. *)
Inductive before_post : list nat -> list nat -> Prop :=
| bpost_prefix i p : before_post (i :: p) []
| bpost_digit i j p q : i < j -> before_post (i :: p) (j :: q)
| bpost_cons i p q : before_post p q -> before_post (i :: p) (i :: q).

(** [l] lists exactly the elements of [P], each once, in the order [R]. *)
Definition lists_in_order {A} (R : A -> A -> Prop) (P : A -> Prop) (l : list A) : Prop :=
  StronglySorted R l /\ (forall x, In x l <-> P x).

(** ** Maps of nodes *)

(** The flag "is a leaf of this rank". *)
Definition leaf_here (rank : nat) (f : forest) : bool :=
  match f with FLeaf o => Nat.eqb o rank | FNode _ _ _ _ => false end.

(** The map of one rank for the distributed tree: a node with the right path,
    level, range and leaf flag for every quadrant whose range contains the rank,
    no node for the other quadrants of the tree. *)
Definition node_map {D} (rank : nat) (f : forest) (m : nmap D) : Prop :=
  forall ds f', sub f ds = Some f' ->
  if in_range rank (pfirst f') (plast f')
  then exists n, m (0 :: ds) = Some n /\ n_path n = 0 :: ds /\ n_level n = length ds /\
                 n_pfirst n = pfirst f' /\ n_plast n = plast f' /\ n_leaf n = leaf_here rank f'
  else m (0 :: ds) = None.

(** ** Recording what a traversal visits: path of the node, value returned. *)
Definition log := list (path * bool).
Definition logged {D S} (fn : S -> qnode D -> res (S * D * bool))
  : S * log -> qnode D -> res ((S * log) * D * bool) :=
  fun s n => match fn (fst s) n with
             | Ok (s', d, c) => Ok ((s', snd s ++ [(n_path n, c)]), d, c)
             | Throw e => Throw e
             | UB => UB
             end.
Definition logged_family {D S} (fn : S -> qnode D -> four (qnode D) -> res (S * D * four D * bool))
  : S * log -> qnode D -> four (qnode D) -> res ((S * log) * D * four D * bool) :=
  fun s n ch => match fn (fst s) n ch with
             | Ok (s', d, ds, c) => Ok ((s', snd s ++ [(n_path n, c)]), d, ds, c)
             | Throw e => Throw e
             | UB => UB
             end.

(** The quadrant at [ds] exists and contains a leaf of the rank. *)
Definition local_quadrant (rank : nat) (f : forest) (ds : list nat) : Prop :=
  exists f', sub f ds = Some f' /\ In rank (owners f').

(** The quadrant at [ds] exists and its range of ranks contains the rank. *)
Definition owned_quadrant (rank : nat) (f : forest) (ds : list nat) : Prop :=
  exists f' o1 o2, sub f ds = Some f' /\ In o1 (owners f') /\ In o2 (owners f') /\ o1 <= rank <= o2.

(** A pre-order record: in order, and a quadrant is visited exactly when it is
    local and the callback asked to continue at all its ancestors. *)
Definition preorder_log (rank : nat) (f : forest) (L : log) : Prop :=
  exists l, L = map (fun e => (0 :: fst e, snd e)) l /\
  StronglySorted before (map fst l) /\
  forall ds, In ds (map fst l) <->
    local_quadrant rank f ds /\ (forall ds1 i ds2, ds = ds1 ++ i :: ds2 -> In (ds1, true) l).

(** A post-order record: in order, every local quadrant. *)
Definition postorder_log (rank : nat) (f : forest) (L : log) : Prop :=
  exists l, L = map (fun e => (0 :: fst e, snd e)) l /\
  lists_in_order before_post (local_quadrant rank f) (map fst l).

(** What a node factory has to provide about path, level and range. *)
Definition factory_ok {D} (fac : factory D) : Prop :=
  (forall d p l pf pl, let n := f_node fac d p l pf pl in
     n_data n = d /\ n_path n = p /\ n_level n = l /\ n_pfirst n = pf /\ n_plast n = pl) /\
  (forall par i pf pl, let n := f_child fac par i pf pl in
     n_path n = n_path par ++ [i] /\ n_level n = S (n_level par) /\ n_pfirst n = pf /\ n_plast n = pl).

(** ** Recursion over a tree of labels: the meaning of merge and split *)
Inductive qtree (A : Type) : Type :=
| QL (a : A)
| QN (a : A) (t0 t1 t2 t3 : qtree A).
Arguments QL {A} _.
Arguments QN {A} _ _ _ _ _.

Definition label {A} (t : qtree A) : A := match t with QL a => a | QN a _ _ _ _ => a end.
Definition relabel {A} (t : qtree A) (a : A) : qtree A :=
  match t with QL _ => QL a | QN _ x y z w => QN a x y z w end.

(** Bottom up: the leaf function on leaves; at a node with its four finished
    subtrees, the family function updates the node's label and the labels at the
    roots of the subtrees. *)
Fixpoint rec_merge {A S} (leaf : S -> A -> res (S * A * bool))
  (fam : S -> A -> four A -> res (S * A * four A * bool)) (s : S) (t : qtree A) : res (S * qtree A) :=
  match t with
  | QL a => r <- leaf s a ;; Ok (fst (fst r), QL (snd (fst r)))
  | QN a t0 t1 t2 t3 =>
      r0 <- rec_merge leaf fam s t0 ;;
      r1 <- rec_merge leaf fam (fst r0) t1 ;;
      r2 <- rec_merge leaf fam (fst r1) t2 ;;
      r3 <- rec_merge leaf fam (fst r2) t3 ;;
      r <- fam (fst r3) a (Four (label (snd r0)) (label (snd r1)) (label (snd r2)) (label (snd r3))) ;;
      Ok (fst (fst (fst r)),
          QN (snd (fst (fst r))) (relabel (snd r0) (fa (snd (fst r)))) (relabel (snd r1) (fb (snd (fst r))))
             (relabel (snd r2) (fc (snd (fst r)))) (relabel (snd r3) (fd (snd (fst r)))))
  end.

(** Top down: the family function updates a node and its children, then, unless it
    returned 0, the subtrees are processed. *)
Fixpoint rec_split {A S} (leaf : S -> A -> res (S * A * bool))
  (fam : S -> A -> four A -> res (S * A * four A * bool)) (s : S) (t : qtree A) (a : A) : res (S * qtree A) :=
  match t with
  | QL _ => r <- leaf s a ;; Ok (fst (fst r), QL (snd (fst r)))
  | QN _ t0 t1 t2 t3 =>
      r <- fam s a (Four (label t0) (label t1) (label t2) (label t3)) ;;
      let s' := fst (fst (fst r)) in
      let a' := snd (fst (fst r)) in
      let ch := snd (fst r) in
      if snd r then
        r0 <- rec_split leaf fam s' t0 (fa ch) ;;
        r1 <- rec_split leaf fam (fst r0) t1 (fb ch) ;;
        r2 <- rec_split leaf fam (fst r1) t2 (fc ch) ;;
        r3 <- rec_split leaf fam (fst r2) t3 (fd ch) ;;
        Ok (fst r3, QN a' (snd r0) (snd r1) (snd r2) (snd r3))
      else Ok (s', QN a' (relabel t0 (fa ch)) (relabel t1 (fb ch)) (relabel t2 (fc ch)) (relabel t3 (fd ch)))
  end.

(** The map holds the tree of nodes below path [p]. *)
Fixpoint tree_in {D} (m : nmap D) (p : path) (t : qtree (qnode D)) : Prop :=
  match t with
  | QL n => m p = Some n
  | QN n t0 t1 t2 t3 =>
      m p = Some n /\ tree_in m (p ++ [0]) t0 /\ tree_in m (p ++ [1]) t1 /\
      tree_in m (p ++ [2]) t2 /\ tree_in m (p ++ [3]) t3
  end.

(** The tree of labels has the shape of the forest. *)
Fixpoint same_shape {A} (f : forest) (t : qtree A) : Prop :=
  match f, t with
  | FLeaf _, QL _ => True
  | FNode a b c d, QN _ t0 t1 t2 t3 =>
      same_shape a t0 /\ same_shape b t1 /\ same_shape c t2 /\ same_shape d t3
  | _, _ => False
  end.

(** User callbacks acting on nodes: only the data of a node changes. *)
Definition on_node {D S} (fn : S -> qnode D -> res (S * D * bool))
  : S -> qnode D -> res (S * qnode D * bool) :=
  fun s n => match fn s n with
             | Ok (s', d, c) => Ok (s', set_ndata n d, c)
             | Throw e => Throw e
             | UB => UB
             end.
Definition on_family {D S} (fn : S -> qnode D -> four (qnode D) -> res (S * D * four D * bool))
  : S -> qnode D -> four (qnode D) -> res (S * qnode D * four (qnode D) * bool) :=
  fun s n ch => match fn s n ch with
             | Ok (s', d, ds, c) =>
                 Ok (s', set_ndata n d,
                     Four (set_ndata (fa ch) (fa ds)) (set_ndata (fb ch) (fb ds))
                          (set_ndata (fc ch) (fc ds)) (set_ndata (fd ch) (fd ds)), c)
             | Throw e => Throw e
             | UB => UB
             end.

(** ** Leaves of the constructed tree *)

(** The leaf at [ds] exists on some rank and has the grid [G]. *)
Definition leaf_with_grid (f : forest) (root : patch) (ds : list nat) (G : grid) : Prop :=
  exists rank m n, construct fv_factory rank root f = Ok m /\ m (0 :: ds) = Some n /\
    n_leaf n = true /\ pgrid (n_data n) = G.

(** Two rectangles touch or overlap along an edge parallel to the y axis (x axis). *)
Definition meet_x (A B : grid) : Prop :=
  (gxl A <= gxu B)%Qc /\ (gxl B <= gxu A)%Qc /\
  exists y, (gyl A < y)%Qc /\ (y < gyu A)%Qc /\ (gyl B < y)%Qc /\ (y < gyu B)%Qc.
Definition meet_y (A B : grid) : Prop :=
  (gyl A <= gyu B)%Qc /\ (gyl B <= gyu A)%Qc /\
  exists x, (gxl A < x)%Qc /\ (x < gxu A)%Qc /\ (gxl B < x)%Qc /\ (x < gxu B)%Qc.

(** The end of a program that runs on its own. *)
Definition finish {D A} (a : A) : cmd D A := Fin (Ok a).
