(** Moved and enlarged domains. *)
From Verif Require Import Base VectorModel MatrixModel LinSpec HPSModel HPSSpec FVModel FVSpec.

(** The rectangle enlarged by the factor [s], with the origin moved to (X, Y). *)
Definition moved_grid (s X Y : Qc) (G : grid) : grid :=
  Grid (gnx G) (gny G) (X + s * gxl G)%Qc (X + s * gxu G)%Qc (Y + s * gyl G)%Qc (Y + s * gyu G)%Qc.

(** The quadtree over the moved domain; the loads are multiplied by [k]. *)
Fixpoint moved_tree (k s X Y : Qc) (q : qtree) : qtree :=
  match q with
  | QLeaf G f => QLeaf (moved_grid s X Y G) (vscale k f)
  | QNode a b c d => QNode (moved_tree k s X Y a) (moved_tree k s X Y b) (moved_tree k s X Y c) (moved_tree k s X Y d)
  end.

(** The equation on the moved domain: k times the equation at the point that was
    moved.  Derivatives become smaller by the factor [s]. *)
Definition moved_coefs (k s X Y : Qc) (c c' : coefs) : Prop :=
  forall x y, let x' := (X + s * x)%Qc in let y' := (Y + s * y)%Qc in
    c_alpha c' x' y' = (k * (s * s) * c_alpha c x y)%Qc /\ c_beta c' x' y' = c_beta c x y /\
    c_lambda c' x' y' = (k * c_lambda c x y)%Qc.

(** A matrix multiplied by a number. *)
Definition scaled_matrix (k : Qc) (T T' : matrix Qc) : Prop :=
  nr T' = nr T /\ nc T' = nc T /\ forall i j, i < nr T -> j < nc T -> val T' i j = (k * val T i j)%Qc.
