(** Specification of refinement, exported arrays and mesh functions. *)
From Verif Require Import Base VectorModel MatrixModel HPSModel TreeModel TreeSpec MeshModel.

(** ** Refinement *)

(** Position of the lower left corner of the quadrant at [ds] in the unit square:
    every digit halves the square. *)
Definition bit_x (i : nat) : Qc := if Nat.odd i then 1%Qc else 0%Qc.
Definition bit_y (i : nat) : Qc := if Nat.odd (i / 2) then 1%Qc else 0%Qc.
Fixpoint left_of (ds : list nat) : Qc :=
  match ds with [] => 0%Qc | i :: ds' => ((bit_x i + left_of ds') / q2)%Qc end.
Fixpoint bottom_of (ds : list nat) : Qc :=
  match ds with [] => 0%Qc | i :: ds' => ((bit_y i + bottom_of ds') / q2)%Qc end.
Fixpoint side_of (ds : list nat) : Qc :=
  match ds with [] => 1%Qc | _ :: ds' => (side_of ds' / q2)%Qc end.

(** Centre of the cell (i,j) of the quadrant at [ds] of the domain [G]. *)
Definition centre_x (G : grid) (ds : list nat) (i : nat) : Qc :=
  (gxl G + (gxu G - gxl G) * (left_of ds + side_of ds * (Qc_of_nat (2 * i + 1) / Qc_of_nat (2 * gnx G))))%Qc.
Definition centre_y (G : grid) (ds : list nat) (j : nat) : Qc :=
  (gyl G + (gyu G - gyl G) * (bottom_of ds + side_of ds * (Qc_of_nat (2 * j + 1) / Qc_of_nat (2 * gny G))))%Qc.
Definition holds_at_centre (fn : Qc -> Qc -> bool) (G : grid) (ds : list nat) : Prop :=
  exists i j, i < gnx G /\ j < gny G /\ fn (centre_x G ds i) (centre_y G ds j) = true.

Definition is_node (f : forest) (ds : list nat) : Prop := exists a b c d, sub f ds = Some (FNode a b c d).

(** p4est_balance only refines, and not below the deepest level present;
    p4est_partition changes owners only. *)
Definition refines (f f' : forest) : Prop :=
  (forall ds, sub f ds <> None -> sub f' ds <> None) /\ depth f' <= depth f.
Definition same_quadrants (f f' : forest) : Prop := forall ds, sub f ds <> None <-> sub f' ds <> None.

(** ** Cells *)
Record cell : Type := Cell { cx0 : Qc; cx1 : Qc; cy0 : Qc; cy1 : Qc }.
Definition cell_of (G : grid) (i j : nat) : cell :=
  let w := ((gxu G - gxl G) / Qc_of_nat (gnx G))%Qc in
  let h := ((gyu G - gyl G) / Qc_of_nat (gny G))%Qc in
  Cell (gxl G + Qc_of_nat i * w)%Qc (gxl G + Qc_of_nat (S i) * w)%Qc
       (gyl G + Qc_of_nat j * h)%Qc (gyl G + Qc_of_nat (S j) * h)%Qc.
(** The cells of a patch column by column. *)
Definition cells_of (G : grid) : list cell :=
  flat_map (fun i => map (cell_of G i) (seq 0 (gny G))) (seq 0 (gnx G)).
(** Corners from the lower left one. *)
Definition corner (c : cell) (l : nat) : Qc * Qc :=
  match l with 0 => (cx0 c, cy0 c) | 1 => (cx1 c, cy0 c) | 2 => (cx1 c, cy1 c) | _ => (cx0 c, cy1 c) end.
Definition cell_centre (c : cell) : Qc * Qc := (((cx0 c + cx1 c) / q2)%Qc, ((cy0 c + cy1 c) / q2)%Qc).
(** The turn at [b] on the way from [a] to [c] is to the left. *)
Definition left_turn (a b c : Qc * Qc) : Prop :=
  (0 < (fst b - fst a) * (snd c - snd b) - (snd b - snd a) * (fst c - fst b))%Qc.
Definition counter_clockwise (p : nat -> Qc * Qc) : Prop :=
  left_turn (p 0) (p 1) (p 2) /\ left_turn (p 1) (p 2) (p 3) /\
  left_turn (p 2) (p 3) (p 0) /\ left_turn (p 3) (p 0) (p 1).

(** The part of the domain [G] covered by the quadrant at [ds], with the cells of [G]. *)
Definition quadrant_grid (G : grid) (ds : list nat) : grid :=
  Grid (gnx G) (gny G)
    (gxl G + (gxu G - gxl G) * left_of ds)%Qc (gxl G + (gxu G - gxl G) * (left_of ds + side_of ds))%Qc
    (gyl G + (gyu G - gyl G) * bottom_of ds)%Qc (gyl G + (gyu G - gyl G) * (bottom_of ds + side_of ds))%Qc.

(** ** Leaves of a rank *)
Definition owned_leaves (rank : nat) (f : forest) : list (list nat) :=
  filter (fun ds => match sub f ds with Some (FLeaf o) => Nat.eqb o rank | _ => false end) (leaf_paths f).
(** The patches in the nodes of the leaves of the rank, in Morton order. *)
Definition leaf_patches (rank : nat) (f : forest) (m : nmap patch) (ps : list patch) : Prop :=
  Forall2 (fun ds p => exists n, m (0 :: ds) = Some n /\ n_data n = p) (owned_leaves rank f) ps.
(** Cells of the leaves of a rank of a refined domain [G]. *)
Definition owned_cells (rank : nat) (f : forest) (G : grid) : list cell :=
  flat_map (fun ds => cells_of (quadrant_grid G ds)) (owned_leaves rank f).
Definition all_cells (ps : list patch) : list cell := flat_map (fun p => cells_of (pgrid p)) ps.

(** ** What the arrays of an unstructured grid have to be (VTK file format) *)

(** Four points per cell; point p has three coordinates; the vertices of cell k are
    the four entries of connectivity that begin at 4k, the corners of the cell
    counted from the lower left one. *)
Definition points_describe (cells : list cell) (M : mesh) : Prop :=
  ncells M = length cells /\ npoints M = 4 * length cells /\
  length (mpoints M) = 3 * npoints M /\ length (connectivity M) = 4 * length cells /\
  forall k c l, nth_error cells k = Some c -> l < 4 ->
  exists p, nth_error (connectivity M) (4 * k + l) = Some p /\
    nth_error (mpoints M) (3 * p) = Some (fst (corner c l)) /\
    nth_error (mpoints M) (3 * p + 1) = Some (snd (corner c l)) /\
    nth_error (mpoints M) (3 * p + 2) = Some 0%Qc.
(** One offset per cell, the end of its part of connectivity; one type per cell, 9. *)
Definition offsets_describe (cells : list cell) (M : mesh) : Prop :=
  offsets M = map (fun k => 4 * S k) (seq 0 (length cells)) /\
  mtypes M = repeat 9 (length cells).
Definition describes (cells : list cell) (M : mesh) : Prop := points_describe cells M /\ offsets_describe cells M.
