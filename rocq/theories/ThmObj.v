(** Property theorems.  Proofs are in ObjProps.v; this file only restates the
    statements.  Written by tools/gen_thm.py. *)
From Verif Require Import Base VectorModel MatrixModel HPSModel TreeModel ObjModel ObjSpec ObjProofs.
From Verif Require Import ObjProps.

(** [C40] A traversal called on a constructed quadtree works on that quadtree if the
    user pointer of its forest refers to it, and the pre-order traversal with a
    node callback always does.  Partial: for the other five traversals the
    pointer has to be right already. *)
Theorem traversal_operates_partial : forall {D S R} rank dflt (w : @world D S) o i p obj f,
  option_map fst (traversal (R := R) rank dflt o) = Some i ->
  w_obj w i = Some obj -> o_p4est obj = Some p -> w_forest w p = Some f ->
  w_ptr w p = PTree i \/ (exists fn, o = PreNode i fn) ->
  operates_on_itself (R := R) rank dflt w o.
Proof. exact @traversal_operates_partial_pf. Qed.
Print Assumptions traversal_operates_partial.

(** [C40] Once the pre-order traversal with a node callback has been called on a
    quadtree that is alone on its forest, every later traversal of it works on
    it, whatever is done in between with other objects, and whatever traversals
    are run. *)
Theorem traversals_after_preorder_partial : forall {D S R} rank dflt (w w' : @world D S) i p fn ops o,
  alone w i p -> Forall (keeps i p) ops ->
  ret (steps rank dflt w (PreNode i fn :: ops) (fun x => Fin (Ok x))) w' ->
  option_map fst (traversal (R := R) rank dflt o) = Some i ->
  operates_on_itself (R := R) rank dflt w' o.
Proof. exact @traversals_after_preorder_partial_pf. Qed.
Print Assumptions traversals_after_preorder_partial.

(** [C40] The quadtree of a mesh after refineByFunction: every traversal works on it,
    as long as the quadtree is not replaced, moved from or destroyed and no other
    quadtree is put on its forest. *)
Theorem refined_mesh_traversals : forall {D S R} rank dflt (w w' : @world D S) i p tmp f fac root fn ops o,
  (exists obj, w_obj w i = Some obj) -> i <> tmp ->
  (forall j obj, w_obj w j = Some obj -> o_p4est obj <> Some p) ->
  Forall (keeps i p) ops ->
  ret (steps rank dflt w (refine_ops i p tmp f fac root fn ++ ops) (fun x => Fin (Ok x))) w' ->
  option_map fst (traversal (R := R) rank dflt o) = Some i ->
  operates_on_itself (R := R) rank dflt w' o.
Proof. exact @refined_mesh_traversals_pf. Qed.
Print Assumptions refined_mesh_traversals.

(** [C40] Refuted: the five other traversals, called on a quadtree that was
    constructed correctly, have undefined behaviour (the user pointer still is
    what the creator of the forest left there). *)
Theorem traversal_after_construction_refuted :
  exists (start : list (@op nat (list nat))),
    match steps 0 0 nothing start (fun x => Fin (Ok x)) with
    | Fin (Ok w) => match w_obj w 1 with
                    | Some obj => o_p4est obj = Some 0 /\ w_forest w 0 = Some four_leaves /\
                                  option_map n_data (o_map obj [0; 2]) = Some 72
                    | None => False
                    end
    | _ => False
    end /\
    Forall (fun o => option_map fst (traversal (R := @world nat (list nat)) 0 0 o) = Some 1 /\
                     steps 0 0 nothing (start ++ [o]) (fun x => Fin (Ok x)) = Fin UB)
           [PreData 1 note_data; PostNode 1 note; PostData 1 note_data; Merge 1 note note_family; Split 1 note note_family].
Proof. exact @traversal_after_construction_refuted_pf. Qed.
Print Assumptions traversal_after_construction_refuted.

(** [C40] Refuted: two quadtrees on one forest; a post-order traversal of the second
    visits the nodes of the first. *)
Theorem traversal_of_second_quadtree_refuted :
  exists start : list (@op nat (list nat)),
    end_state (steps 0 0 nothing start (fun x => Fin (Ok x))) = Ok [7; 70; 71; 72; 73] /\
    (* called on object 2, whose root data are 8, but the nodes of object 1 are seen *)
    end_state (steps 0 0 nothing (start ++ [PostNode 2 note]) (fun x => Fin (Ok x)))
      = Ok [7; 70; 71; 72; 73; 70; 71; 72; 73; 7] /\
    end_state (steps 0 0 nothing (start ++ [PreNode 2 note]) (fun x => Fin (Ok x)))
      = Ok [7; 70; 71; 72; 73; 8; 80; 81; 82; 83].
Proof. exact @traversal_of_second_quadtree_refuted_pf. Qed.
Print Assumptions traversal_of_second_quadtree_refuted.

(** [C40] Refuted: after a move assignment the traversals (except pre-order with a
    node callback) of the target go to the emptied source. *)
Theorem traversal_after_move_refuted :
  exists start : list (@op nat (list nat)),
    end_state (steps 0 0 nothing start (fun x => Fin (Ok x))) = Ok [7; 70; 71; 72; 73] /\
    end_state (steps 0 0 nothing (start ++ [PostData 2 note_data]) (fun x => Fin (Ok x))) = Ok [7; 70; 71; 72; 73] /\
    steps 0 0 nothing (start ++ [Merge 2 note note_family]) (fun x => Fin (Ok x)) = Fin UB /\
    end_state (steps 0 0 nothing (start ++ [PreNode 2 note]) (fun x => Fin (Ok x)))
      = Ok [7; 70; 71; 72; 73; 7; 70; 71; 72; 73].
Proof. exact @traversal_after_move_refuted_pf. Qed.
Print Assumptions traversal_after_move_refuted.

(** A refined mesh (object 2), another quadtree on another forest traversed in
    between, then merge and split on the mesh's quadtree. *)
Example refined_mesh_traversals_example :
  end_state (steps 0 0 nothing
    ([Default 2] ++ refine_ops 2 0 5 four_leaves num_factory 7 note ++
     [NewForest 1 (FLeaf 0) PNull; Construct 3 1 num_factory 9; PreNode 3 note;
      Merge 2 note note_family; Split 2 note note_family; PostData 2 note_data])
    (fun x => Fin (Ok x)))
  = Ok ([7; 70; 71; 72; 73] ++ [9] ++ [70; 71; 72; 73; 7] ++ [7; 70; 71; 72; 73] ++ [70; 71; 72; 73; 7]).
Proof. exact @refined_mesh_traversals_example_expf. Qed.
