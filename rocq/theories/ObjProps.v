(** Properties of quadtree objects. *)
From Verif Require Import Base VectorModel MatrixModel HPSModel TreeModel ObjModel ObjSpec ObjProofs.

(** [C40] A traversal called on a constructed quadtree works on that quadtree if the
    user pointer of its forest refers to it, and the pre-order traversal with a
    node callback always does.  Partial: for the other five traversals the
    pointer has to be right already. *)
Lemma traversal_operates_partial_pf : forall {D S R} rank dflt (w : @world D S) o i p obj f,
  option_map fst (traversal (R := R) rank dflt o) = Some i ->
  w_obj w i = Some obj -> o_p4est obj = Some p -> w_forest w p = Some f ->
  w_ptr w p = PTree i \/ (exists fn, o = PreNode i fn) ->
  operates_on_itself (R := R) rank dflt w o.
Proof. intros D S R. exact operates. Qed.

(** [C40] Once the pre-order traversal with a node callback has been called on a
    quadtree that is alone on its forest, every later traversal of it works on
    it, whatever is done in between with other objects, and whatever traversals
    are run. *)
Lemma traversals_after_preorder_partial_pf : forall {D S R} rank dflt (w w' : @world D S) i p fn ops o,
  alone w i p -> Forall (keeps i p) ops ->
  ret (steps rank dflt w (PreNode i fn :: ops) (fun x => Fin (Ok x))) w' ->
  option_map fst (traversal (R := R) rank dflt o) = Some i ->
  operates_on_itself (R := R) rank dflt w' o.
Proof.
  intros D S R rank dflt w w' i p fn ops o A F H Ht. cbn [steps] in H.
  apply (pre_points rank dflt w i p) in H as (w1 & P1 & H); auto.
  apply (steps_pointed rank dflt ops w1 i p) in H as (w2 & P2 & H); auto.
  inversion H; subst. apply (pointed_operates rank dflt w' i p); auto.
Qed.

(** [C40] The quadtree of a mesh after refineByFunction: every traversal works on it,
    as long as the quadtree is not replaced, moved from or destroyed and no other
    quadtree is put on its forest. *)
Lemma refined_mesh_traversals_pf : forall {D S R} rank dflt (w w' : @world D S) i p tmp f fac root fn ops o,
  (exists obj, w_obj w i = Some obj) -> i <> tmp ->
  (forall j obj, w_obj w j = Some obj -> o_p4est obj <> Some p) ->
  Forall (keeps i p) ops ->
  ret (steps rank dflt w (refine_ops i p tmp f fac root fn ++ ops) (fun x => Fin (Ok x))) w' ->
  option_map fst (traversal (R := R) rank dflt o) = Some i ->
  operates_on_itself (R := R) rank dflt w' o.
Proof.
  intros D S R rank dflt w w' i p tmp f fac root fn ops o (oi & Ei) Hne Fresh F H Ht.
  cbn [refine_ops app] in H. cbn [steps] in H. cbn [step] in H.
  cbn [w_forest w_obj w_ptr w_s] in H. rewrite upd_eq in H.
  apply ret_lift in H as (m & H). cbn [set_obj w_obj w_forest w_ptr w_s] in H.
  rewrite (upd_neq (w_obj w) tmp i) in H by congruence. rewrite Ei, upd_eq in H.
  destruct (Nat.eqb_spec i tmp) as [E|_]; [contradiction|].
  match type of H with ret (match _ with Some _ => _ | None => _ end) _ => idtac end.
  match type of H with ret ?c _ => change c with
    (step rank dflt
      (World (upd (w_forest w) p (Some f)) (upd (w_ptr w) p PForeign)
       (upd (upd (upd (upd (w_obj w) tmp (Some (QObj (Some p) m (o_visit empty_obj) (o_data empty_obj) (o_family empty_obj)))) i
          (Some (QObj (Some p) m (o_visit oi) (o_data oi) (o_family oi)))) tmp
          (Some (set_omap (QObj (Some p) m (o_visit empty_obj) (o_data empty_obj) (o_family empty_obj)) mempty))) tmp None) (w_s w))
      (PreNode i fn) (fun w'0 => steps rank dflt w'0 ops (fun x => Fin (Ok x)))) in H end.
  match type of H with ret (step _ _ ?w0 _ _) _ =>
    assert (A : alone w0 i p) end.
  { split; [|split]; cbn.
    - rewrite upd_neq by congruence. rewrite upd_neq by congruence. rewrite upd_eq. eauto.
    - rewrite upd_eq. eauto.
    - intros j obj Hj. destruct (Nat.eq_dec tmp j) as [<-|Hj']; [rewrite upd_eq; discriminate|].
      rewrite !upd_neq by congruence. apply Fresh. }
  apply (pre_points rank dflt _ i p) in H as (w1 & P1 & H); auto.
  apply (steps_pointed rank dflt ops w1 i p) in H as (w2 & P2 & H); auto.
  inversion H; subst. apply (pointed_operates rank dflt w' i p); auto.
Qed.

(** A small world: data are numbers, a tree with four leaves on rank 0. *)
Definition num_factory : factory nat :=
  Factory (fun d p l a b => QNode d p l a b false)
          (fun par i a b => QNode (10 * n_data par + i) (n_path par ++ [i]) (S (n_level par)) a b false).
Definition four_leaves : forest := FNode (FLeaf 0) (FLeaf 0) (FLeaf 0) (FLeaf 0).
Definition nothing : @world nat (list nat) := World (fun _ => None) (fun _ => PNull) (fun _ => None) [].
(** Callbacks that note the data they see. *)
Definition note : @node_fn nat (list nat) := fun s n => Ok (s ++ [n_data n], n_data n, true).
Definition note_data : @data_fn nat (list nat) := fun s d => Ok (s ++ [d], d).
Definition note_family : @family_fn nat (list nat) :=
  fun s n ch => Ok (s ++ [n_data n], n_data n, Four (n_data (fa ch)) (n_data (fb ch)) (n_data (fc ch)) (n_data (fd ch)), true).
Definition end_state (c : cmd nat (@world nat (list nat))) : res (list nat) :=
  match c with Fin (Ok w) => Ok (w_s w) | Fin (Throw e) => Throw e | _ => UB end.

(** [C40] Refuted: the five other traversals, called on a quadtree that was
    constructed correctly, have undefined behaviour (the user pointer still is
    what the creator of the forest left there). *)
Lemma traversal_after_construction_refuted_pf :
  exists (start : list (@op nat (list nat))),
    match steps 0 0 nothing start (fun x => Fin (Ok x)) with
    | Fin (Ok w) => match w_obj w 1 with
                    | Some obj => o_p4est obj = Some 0 /\ w_forest w 0 = Some four_leaves /\
                                  option_map n_data (o_map obj [0; 2]) = Some 72
                    | None => False
                    end
    | _ => False
    end /\
    Forall (fun o => option_map fst (traversal (R := @world nat (list nat)) 0 0 o) = Some 1 /\
                     steps 0 0 nothing (start ++ [o]) (fun x => Fin (Ok x)) = Fin UB)
           [PreData 1 note_data; PostNode 1 note; PostData 1 note_data; Merge 1 note note_family; Split 1 note note_family].
Proof.
  exists [NewForest 0 four_leaves PNull; Construct 1 0 num_factory 7].
  split; [vm_compute; auto|]. repeat constructor; vm_compute; reflexivity.
Qed.

(** [C40] Refuted: two quadtrees on one forest; a post-order traversal of the second
    visits the nodes of the first. *)
Lemma traversal_of_second_quadtree_refuted_pf :
  exists start : list (@op nat (list nat)),
    end_state (steps 0 0 nothing start (fun x => Fin (Ok x))) = Ok [7; 70; 71; 72; 73] /\
    (* called on object 2, whose root data are 8, but the nodes of object 1 are seen *)
    end_state (steps 0 0 nothing (start ++ [PostNode 2 note]) (fun x => Fin (Ok x)))
      = Ok [7; 70; 71; 72; 73; 70; 71; 72; 73; 7] /\
    end_state (steps 0 0 nothing (start ++ [PreNode 2 note]) (fun x => Fin (Ok x)))
      = Ok [7; 70; 71; 72; 73; 8; 80; 81; 82; 83].
Proof.
  exists [NewForest 0 four_leaves PNull; Construct 1 0 num_factory 7; Construct 2 0 num_factory 8; PreNode 1 note].
  vm_compute. auto.
Qed.

(** [C40] Refuted: after a move assignment the traversals (except pre-order with a
    node callback) of the target go to the emptied source. *)
Lemma traversal_after_move_refuted_pf :
  exists start : list (@op nat (list nat)),
    end_state (steps 0 0 nothing start (fun x => Fin (Ok x))) = Ok [7; 70; 71; 72; 73] /\
    end_state (steps 0 0 nothing (start ++ [PostData 2 note_data]) (fun x => Fin (Ok x))) = Ok [7; 70; 71; 72; 73] /\
    steps 0 0 nothing (start ++ [Merge 2 note note_family]) (fun x => Fin (Ok x)) = Fin UB /\
    end_state (steps 0 0 nothing (start ++ [PreNode 2 note]) (fun x => Fin (Ok x)))
      = Ok [7; 70; 71; 72; 73; 7; 70; 71; 72; 73].
Proof.
  exists [NewForest 0 four_leaves PNull; Default 2; Construct 1 0 num_factory 7; PreNode 1 note; Assign 2 1].
  vm_compute. auto.
Qed.

(** A refined mesh (object 2), another quadtree on another forest traversed in
    between, then merge and split on the mesh's quadtree. *)
Lemma refined_mesh_traversals_example_expf :
  end_state (steps 0 0 nothing
    ([Default 2] ++ refine_ops 2 0 5 four_leaves num_factory 7 note ++
     [NewForest 1 (FLeaf 0) PNull; Construct 3 1 num_factory 9; PreNode 3 note;
      Merge 2 note note_family; Split 2 note note_family; PostData 2 note_data])
    (fun x => Fin (Ok x)))
  = Ok ([7; 70; 71; 72; 73] ++ [9] ++ [70; 71; 72; 73; 7] ++ [7; 70; 71; 72; 73] ++ [70; 71; 72; 73; 7]).
Proof. vm_compute. reflexivity. Qed.
