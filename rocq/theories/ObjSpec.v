(** Specification: traversals of quadtree objects operate on their own object. *)
From Verif Require Import Base VectorModel MatrixModel HPSModel TreeModel ObjModel.

(** A program can end normally with a given value, for some answers of the
    communication. *)
Inductive ret {D A} : cmd D A -> A -> Prop :=
| ret_fin a : ret (Fin (Ok a)) a
| ret_allreduce c v k n a : ret (k n) a -> ret (Allreduce c v k) a
| ret_bcast c r x k n a : ret (k n) a -> ret (Bcast c r x k) a
| ret_group lo hi k a : ret k a -> ret (Group lo hi k) a.

(** The traversal that an operation names, as a program on a given forest and map. *)
Definition traversal {D S R} (rank : nat) (dflt : D) (o : @op D S)
  : option (nat * (forest -> S * nmap D -> (S * nmap D -> cmd D R) -> cmd D R)) :=
  match o with
  | PreNode i fn => Some (i, fun f st k => traversePreOrder rank fn f st k)
  | PreData i fn => Some (i, fun f st k => traversePreOrder_data rank fn f st k)
  | PostNode i fn => Some (i, fun f st k => traversePostOrder rank fn f st k)
  | PostData i fn => Some (i, fun f st k => traversePostOrder_data rank fn f st k)
  | Merge i fn fam => Some (i, fun f st k => merge rank BROADCAST dflt fn fam f st k)
  | Split i fn fam => Some (i, fun f st k => split rank BROADCAST dflt fn fam f st k)
  | _ => None
  end.

(** The operation runs its traversal on the map of its own object, with the
    functions it was given, and changes no other object. *)
Definition operates_on_itself {D S R} (rank : nat) (dflt : D) (w : @world D S) (o : @op D S) : Prop :=
  match traversal (R := R) rank dflt o with
  | None => True
  | Some (i, run) =>
      exists obj p f, w_obj w i = Some obj /\ o_p4est obj = Some p /\ w_forest w p = Some f /\
      exists w1 : S * nmap D -> world,
        (forall k, step rank dflt w o k = run f (w_s w, o_map obj) (fun st => k (w1 st))) /\
        (forall st, w_s (w1 st) = fst st) /\
        (forall st, exists obj', w_obj (w1 st) i = Some obj' /\ o_p4est obj' = Some p /\ o_map obj' = snd st) /\
        (forall st j, j <> i -> w_obj (w1 st) j = w_obj w j) /\
        (forall st, w_forest (w1 st) = w_forest w)
  end.

(** [i] is a constructed quadtree on the existing forest [p], and the only one on it. *)
Definition alone {D S} (w : @world D S) (i p : nat) : Prop :=
  (exists obj, w_obj w i = Some obj /\ o_p4est obj = Some p) /\ (exists f, w_forest w p = Some f) /\
  (forall j obj, j <> i -> w_obj w j = Some obj -> o_p4est obj <> Some p).

(** Operations that leave object [i] and its forest [p] in place: anything except
    replacing, moving from or destroying [i], recreating the forest, or putting
    another quadtree on it.  All traversals of all objects are allowed. *)
Definition keeps {D S} (i p : nat) (o : @op D S) : Prop :=
  match o with
  | NewForest p' _ _ => p' <> p
  | Default i' => i' <> i
  | Construct i' p' _ _ => i' <> i /\ p' <> p
  | Assign i' j' => i' <> i /\ j' <> i
  | Destroy i' => i' <> i
  | _ => True
  end.

(** Mesh.hpp:111-180 refineByFunction as far as the quadtree member [i] of the mesh
    is concerned: a new forest whose user pointer is the mesh, a temporary
    quadtree [tmp] on it, move assignment, end of the temporary, and the
    traversal of setMeshFromQuadtree. *)
Definition refine_ops {D S} (i p tmp : nat) (f : forest) (fac : factory D) (root : D)
  (fn : @node_fn D S) : list (@op D S) :=
  [NewForest p f PForeign; Construct tmp p fac root; Assign i tmp; Destroy tmp; PreNode i fn].
