(** What a quadtree allocates and releases: nodes on the heap and communicators. *)
From Verif Require Import Base VectorModel MatrixModel HPSModel TreeModel.

(** Number of nodes made with new (Quadtree.hpp:160-171 through the node factory,
    487 in the callback of merge and split) and not deleted, and of
    communicators created (MPI.cpp:19) and not freed, on one rank. *)
Record held : Type := Held { live_nodes : nat; live_comms : nat }.

(** Quadtree.hpp:133-188, one visit of the constructor, resources only.
    MPI.cpp:7-38: MPI_Comm_create_group gives a communicator to the ranks of the
    range and MPI_COMM_NULL to the others; MPI_Comm_set_name (line 33) is then
    called in both cases.  [strict]: naming a null communicator is an error, as the
    MPI standard has it; otherwise it has no effect.  The groups made in MPI.cpp
    are freed there and not counted. *)
Definition visit_resources (strict : bool) (rank : nat) (h : held) (v : visit) : res held :=
  if in_range rank (v_pfirst v) (v_plast v) then Ok (Held (S (live_nodes h)) (S (live_comms h)))
  else if strict then UB else Ok h.

(** Quadtree.hpp:118-195. *)
Definition construct_resources (strict : bool) (rank : nat) (f : forest) (h : held) : res held :=
  foldM (visit_resources strict rank) (search_all rank f root_quadrant) h.

Section nodes.
Context {D : Type}.

(** Quadtree.hpp:460-494 (p4est_search_merge_split): a branch of several ranks, visited by a rank
    in its range, gets a new node for every child with no node in the map.  The new
    nodes are stored in the local vector [children] only. *)
Definition new_here (rank : nat) (m : nmap D) (q : quadrant) : nat :=
  match mget m (quadrant_path q) with
  | None => 0
  | Some n =>
      if Nat.eqb (n_pfirst n) (n_plast n) then 0
      else if in_range rank (n_pfirst n) (n_plast n)
      then length (filter (fun i => match mget m (n_path n ++ [i]) with None => true | Some _ => false end)
                          [0; 1; 2; 3])
      else 0
  end.

(** Quadtree.hpp:322-360: p4est_search_reorder calls the
    callback on every quadrant with a local leaf (as in [merge_prog], [split_prog]);
    the callbacks of the solver let the traversal go on (HPSAlgorithm.hpp, all
    stages return 1). *)
Fixpoint new_children (rank : nat) (m : nmap D) (f : forest) (q : quadrant) : nat :=
  if has_local rank f then
    match f with
    | FLeaf _ => 0
    | FNode a b c d =>
        new_here rank m q + (new_children rank m a (qchild q 0) + new_children rank m b (qchild q 1)
        + new_children rank m c (qchild q 2) + new_children rank m d (qchild q 3))
    end
  else 0.

(** ** Programs on quadtree variables *)

Inductive qop : Type :=
| QConstruct (q : nat) (f : forest)   (* Quadtree.hpp:118-195 *)
| QMove (q from : nat)                (* Quadtree.hpp:217-231; Mesh.hpp:173 *)
| QDestroy (q : nat)                  (* Quadtree.hpp:202-209, the body is a comment *)
| QMerge (q : nat)                    (* Quadtree.hpp:322-337 *)
| QSplit (q : nat).                   (* Quadtree.hpp:345-360 *)

(** The quadtrees in use, by variable.  The data in the nodes are those of the
    constructor: traversals change the data, not which nodes there are. *)
Definition qvars : Type := nat -> option (forest * nmap D).
Definition qset (s : qvars) (q : nat) (x : option (forest * nmap D)) : qvars :=
  fun i => if Nat.eqb i q then x else s i.

Definition run_qop (strict : bool) (fac : factory D) (rd : D) (rank : nat) (st : qvars * held) (op : qop)
  : res (qvars * held) :=
  let '(s, h) := st in
  match op with
  | QConstruct q f =>
      h' <- construct_resources strict rank f h ;;
      m <- construct fac rank rd f ;;
      Ok (qset s q (Some (f, m)), h')
  | QMove q from =>
      if Nat.eqb q from then Ok (s, h)
      else match s from with
           | None => UB
           | Some x => Ok (qset (qset s q (Some x)) from None, h)
           end
  | QDestroy q => Ok (qset s q None, h)
  | QMerge q | QSplit q =>
      match s q with
      | None => UB
      | Some (f, m) => Ok (s, Held (live_nodes h + new_children rank m f root_quadrant) (live_comms h))
      end
  end.

Definition run_qops (strict : bool) (fac : factory D) (rd : D) (rank : nat) (st : qvars * held) (ops : list qop)
  : res (qvars * held) :=
  foldM (run_qop strict fac rd rank) ops st.
End nodes.
