(** Model of quadtree objects and the p4est user pointer (src/Quadtree.hpp:104-360,
    src/Mesh.hpp:111-180): which object the callbacks of a traversal work on.

    p4est forests and quadtree objects are named by numbers.  The callbacks given
    to p4est_search_reorder are static functions that find the quadtree through
    p4est->user_pointer; a pointer to something that is not a live quadtree is
    cast to a quadtree pointer and dereferenced, which is undefined behaviour. *)
From Verif Require Import Base VectorModel MatrixModel HPSModel TreeModel.

Section objects.
Context {D S R : Type} (rank : nat) (dflt : D).

(** What p4est->user_pointer can hold. *)
Inductive pointer : Type := PNull | PForeign | PTree (i : nat).

(** Members of a quadtree object (Quadtree.hpp:50-98): p4est (uninitialised after
    the default constructor), map, the three stored functions.  Calling an empty
    std::function throws. *)
Record qobj : Type := QObj {
  o_p4est : option nat; o_map : nmap D;
  o_visit : @node_fn D S; o_data : @data_fn D S; o_family : @family_fn D S }.

Definition empty_obj : qobj :=
  QObj None mempty (fun _ _ => Throw runtime_error) (fun _ _ => Throw runtime_error) (fun _ _ _ => Throw runtime_error).

Definition set_omap (o : qobj) (m : nmap D) : qobj := QObj (o_p4est o) m (o_visit o) (o_data o) (o_family o).
Definition set_visit (o : qobj) (fn : @node_fn D S) : qobj := QObj (o_p4est o) (o_map o) fn (o_data o) (o_family o).
Definition set_datafn (o : qobj) (fn : @data_fn D S) : qobj := QObj (o_p4est o) (o_map o) (o_visit o) fn (o_family o).
Definition set_family (o : qobj) (fn : @family_fn D S) : qobj := QObj (o_p4est o) (o_map o) (o_visit o) (o_data o) fn.

(** The world of one rank: forests, user pointers, live objects, what the callbacks
    captured. *)
Record world : Type := World {
  w_forest : nat -> option forest; w_ptr : nat -> pointer; w_obj : nat -> option qobj; w_s : S }.

Definition upd {A} (f : nat -> A) (i : nat) (a : A) : nat -> A := fun j => if Nat.eqb i j then a else f j.
Definition set_obj (w : world) (i : nat) (o : option qobj) : world :=
  World (w_forest w) (w_ptr w) (upd (w_obj w) i o) (w_s w).
Definition set_ptr (w : world) (p : nat) (x : pointer) : world :=
  World (w_forest w) (upd (w_ptr w) p x) (w_obj w) (w_s w).
Definition set_s (w : world) (s : S) : world := World (w_forest w) (w_ptr w) (w_obj w) s.

Inductive op : Type :=
| NewForest (p : nat) (f : forest) (x : pointer)       (* p4est created, user pointer set by its creator *)
| Default (i : nat)                                     (* Quadtree.hpp:104-108 *)
| Construct (i p : nat) (fac : factory D) (root : D)    (* Quadtree.hpp:118-196 *)
| Assign (i j : nat)                                    (* Quadtree.hpp:217-229, i = std::move(j) *)
| Destroy (i : nat)                                     (* Quadtree.hpp:202-209 *)
| PreNode (i : nat) (fn : @node_fn D S)                 (* Quadtree.hpp:236-251 *)
| PreData (i : nat) (fn : @data_fn D S)                 (* Quadtree.hpp:258-272 *)
| PostNode (i : nat) (fn : @node_fn D S)                (* Quadtree.hpp:279-293 *)
| PostData (i : nat) (fn : @data_fn D S)                (* Quadtree.hpp:300-314 *)
| Merge (i : nat) (fn : @node_fn D S) (fam : @family_fn D S)   (* Quadtree.hpp:322-337 *)
| Split (i : nat) (fn : @node_fn D S) (fam : @family_fn D S).  (* Quadtree.hpp:345-360 *)

(** p4est_search_reorder on the p4est of object [i]: the callbacks look up the
    quadtree through the user pointer.  Without local leaves no callback runs and
    nothing changes (object [i] is written back as it is). *)
Definition search_through (w : world) (i : nat) (pre post : qobj -> @callback D S R)
  (k : world -> cmd D R) : cmd D R :=
  match w_obj w i with
  | None => Fin UB
  | Some o =>
      match o_p4est o with
      | None => Fin UB
      | Some p =>
          match w_forest w p with
          | None => Fin UB
          | Some f =>
              if has_local rank f then
                match w_ptr w p with
                | PTree j =>
                    match w_obj w j with
                    | Some oj =>
                        search_reorder rank (pre oj) (post oj) f root_quadrant (w_s w, o_map oj) (fun st =>
                        k (set_s (set_obj w j (Some (set_omap oj (snd st)))) (fst st)))
                    | None => Fin UB
                    end
                | _ => Fin UB
                end
              else k (set_obj w i (Some o))
          end
      end
  end.

(** Storing a function in the object on which the traversal was called. *)
Definition with_obj (w : world) (i : nat) (g : qobj -> qobj) : world :=
  match w_obj w i with Some o => set_obj w i (Some (g o)) | None => w end.

Definition none_cb : qobj -> @callback D S R := fun _ => no_callback.
Definition visit_cb : qobj -> @callback D S R := fun o => search_visit rank (o_visit o).
Definition data_cb : qobj -> @callback D S R := fun o => search_visit_data rank (o_data o).
Definition merge_cb : qobj -> @callback D S R :=
  fun o => search_merge_split rank BROADCAST dflt (o_visit o) (o_family o).

Definition step (w : world) (o : op) (k : world -> cmd D R) : cmd D R :=
  match o with
  | NewForest p f x => k (World (upd (w_forest w) p (Some f)) (upd (w_ptr w) p x) (w_obj w) (w_s w))
  | Default i => k (set_obj w i (Some empty_obj))
  | Construct i p fac root =>
      match w_forest w p with
      | None => Fin UB
      | Some f => lift (construct fac rank root f) (fun m =>
          (* the user pointer is saved and restored *)
          k (set_obj w i (Some (QObj (Some p) m (o_visit empty_obj) (o_data empty_obj) (o_family empty_obj)))))
      end
  | Assign i j =>
      match w_obj w i, w_obj w j with
      | Some oi, Some oj =>
          if Nat.eqb i j then k w
          else k (set_obj (set_obj w i (Some (QObj (o_p4est oj) (o_map oj) (o_visit oi) (o_data oi) (o_family oi))))
                          j (Some (set_omap oj mempty)))
      | _, _ => Fin UB
      end
  | Destroy i => k (set_obj w i None)
  | PreNode i fn =>
      match w_obj w i with
      | Some o' => match o_p4est o' with
                  | Some p => search_through (with_obj (set_ptr w p (PTree i)) i (fun x => set_visit x fn)) i visit_cb none_cb k
                  | None => Fin UB
                  end
      | None => Fin UB
      end
  | PreData i fn => search_through (with_obj w i (fun x => set_datafn x fn)) i data_cb none_cb k
  | PostNode i fn => search_through (with_obj w i (fun x => set_visit x fn)) i none_cb visit_cb k
  | PostData i fn => search_through (with_obj w i (fun x => set_datafn x fn)) i none_cb data_cb k
  | Merge i fn fam => search_through (with_obj w i (fun x => set_family (set_visit x fn) fam)) i none_cb merge_cb k
  | Split i fn fam => search_through (with_obj w i (fun x => set_family (set_visit x fn) fam)) i merge_cb none_cb k
  end.

(** A sequence of operations. *)
Fixpoint steps (w : world) (ops : list op) (k : world -> cmd D R) : cmd D R :=
  match ops with
  | [] => k w
  | o :: ops' => step w o (fun w' => steps w' ops' k)
  end.

End objects.
