(** What the solver keeps in memory on a quadtree of leaves with m x m cells. *)
From Verif Require Import Base VectorModel MatrixModel LinSpec HPSModel HPSSpec.

(** Patches and leaves of a quadtree, and the length of its longest branch. *)
Fixpoint patch_count (s : qtree) : nat :=
  match s with
  | QLeaf _ _ => 1
  | QNode a b c d => 1 + patch_count a + patch_count b + patch_count c + patch_count d
  end.
Fixpoint leaf_count (s : qtree) : nat :=
  match s with
  | QLeaf _ _ => 1
  | QNode a b c d => leaf_count a + leaf_count b + leaf_count c + leaf_count d
  end.
Fixpoint tree_height (s : qtree) : nat :=
  match s with
  | QLeaf _ _ => 0
  | QNode a b c d => 1 + Nat.max (Nat.max (tree_height a) (tree_height b)) (Nat.max (tree_height c) (tree_height d))
  end.

(** Numbers held by the patches of a quadtree whose root is coarsened [k] times
    for its siblings.  A leaf holds its operator, solution, load and the data and
    flux on its boundary.  An interior patch whose children meet with [n] cells
    per side holds the interface matrix (4n x 4n), the two maps between
    boundary and interfaces (4n x 8n and 8n x 4n), its operator at the resolution
    of its siblings, its boundary data at full resolution, the interface part
    and its flux. *)
Fixpoint stored (m k : nat) (s : qtree) : nat :=
  match s with
  | QLeaf _ _ => (4 * m) * (4 * m) + m * m + m * m + 4 * m + 4 * m
  | QNode a b c d =>
      let l := min_level a b c d in
      let n := m * 2 ^ l in
      let c' := m * 2 ^ (S l - k) in
      (4 * n) * (4 * n) + (4 * n) * (8 * n) + (8 * n) * (4 * n) + (4 * c') * (4 * c')
      + 8 * n + 4 * n + 4 * c'
      + stored m (level a - l) a + stored m (level b - l) b
      + stored m (level c - l) c + stored m (level d - l) d
  end.

(** A patch as the node factory leaves it: nothing but a grid. *)
Definition blank_patch (p : patch) : Prop :=
  nr (pX p) = 0 /\ nr (pH p) = 0 /\ nr (pS p) = 0 /\ nr (pT p) = 0 /\
  pu p = [] /\ pg p = [] /\ pf p = [] /\ ph p = [] /\ pw p = [].
Fixpoint blank_tree (t : tree) : Prop :=
  match t with
  | Leaf p => blank_patch p
  | Node p a b c d => blank_patch p /\ blank_tree a /\ blank_tree b /\ blank_tree c /\ blank_tree d
  end.

(** One value per cell from the leaf solver, on every leaf. *)
Fixpoint cell_values (m : nat) (sv : solver) (s : qtree) : Prop :=
  match s with
  | QLeaf G _ => forall g f u, length g = 4 * m -> length f = m * m -> sv_solve sv G g f = Ok u -> length u = m * m
  | QNode a b c d => cell_values m sv a /\ cell_values m sv b /\ cell_values m sv c /\ cell_values m sv d
  end.

(** A load has one value per cell of every leaf. *)
Fixpoint load_fits (m : nat) (load : grid -> list Qc) (s : qtree) : Prop :=
  match s with
  | QLeaf G _ => length (load G) = m * m
  | QNode a b c d => load_fits m load a /\ load_fits m load b /\ load_fits m load c /\ load_fits m load d
  end.
