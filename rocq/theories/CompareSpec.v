(** Order between discrete problems, and values at the cells of all leaves. *)
From Verif Require Import Base VectorModel MatrixModel LinSpec HPSModel HPSSpec FVModel FVSpec GlobalSpec AdaptSpec.

(** Boundary data below other boundary data. *)
Definition data_le (G : grid) (g1 g2 : list Qc) : Prop :=
  forall k, k < 2 * gny G + 2 * gnx G -> (vval g1 k <= vval g2 k)%Qc.

(** f2 / alpha is at most f1 / alpha in every cell. *)
Definition load_ge (c : coefs) (G : grid) (f1 f2 : list Qc) : Prop :=
  forall i j, i < gnx G -> j < gny G ->
    (c_alpha c (mid_x G i) (mid_y G j) * cell G f2 i j <= c_alpha c (mid_x G i) (mid_y G j) * cell G f1 i j)%Qc.

(** A statement about position and value, in every cell. *)
Definition each_cell (P : Qc -> Qc -> Qc -> Prop) (G : grid) (u : list Qc) : Prop :=
  forall i j, i < gnx G -> j < gny G -> P (mid_x G i) (mid_y G j) (cell G u i j).
Definition each_leaf_cell (P : Qc -> Qc -> Qc -> Prop) (s : qtree) (us : list (list Qc)) : Prop :=
  Forall2 (fun z u => each_cell P (fst z) u) (leaves s) us.
