(** Patches as they are constructed, before any stage. *)
From Verif Require Import Base MatrixModel HPSModel HPSSpec.

(** FiniteVolumePatch.cpp:14-17: a patch is constructed from its grid; all matrices
    and vectors are default constructed (Patch.hpp, FiniteVolumePatch.hpp:13-100) and
    n_coarsens is 0.  FiniteVolumeNodeFactory.cpp:60, 87 make every node this way. *)
Definition new_patch (G : grid) : patch :=
  let e := Mat 0 0 [] in Patch G e e e e [] [] [] [] [] 0.
Fixpoint new_tree (t : tree) : Prop :=
  match t with
  | Leaf p => p = new_patch (pgrid p)
  | Node p a b c d => p = new_patch (pgrid p) /\ new_tree a /\ new_tree b /\ new_tree c /\ new_tree d
  end.

(** The mesh consists of more than one leaf. *)
Definition divided (s : qtree) : Prop := match s with QLeaf _ _ => False | QNode _ _ _ _ => True end.

(** The leaf that a post-order traversal visits first. *)
Fixpoint first_leaf (t : tree) : patch :=
  match t with Leaf p => p | Node _ a _ _ _ => first_leaf a end.

(** Every leaf has a grid with [Q]. *)
Fixpoint leaves_have (Q : grid -> Prop) (t : tree) : Prop :=
  match t with
  | Leaf p => Q (pgrid p)
  | Node _ a b c d => leaves_have Q a /\ leaves_have Q b /\ leaves_have Q c /\ leaves_have Q d
  end.

(** The leaf is [m] cells wide and the solver finds the flux of its load. *)
Definition h_known (sv : solver) (load : grid -> list Qc) (m : nat) (G : grid) : Prop :=
  gnx G = m /\ exists h, sv_h sv G (load G) = Ok h.

