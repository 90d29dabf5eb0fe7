(** Accuracy of the discrete solution: how far a function is from solving the
    discrete problem, and functions with bounded difference quotients. *)
From Verif Require Import Base VectorModel MatrixModel LinSpec HPSModel HPSSpec FVModel FVSpec GlobalSpec AdaptSpec CompareSpec.

Definition within (b x : Qc) : Prop := (- b <= x)%Qc /\ (x <= b)%Qc.

(** Second differences with step d. *)
Definition second_x (V : Qc -> Qc -> Qc) (d x y : Qc) : Qc := (V (x + d) y + V (x - d) y - (V x y + V x y))%Qc.
Definition second_y (V : Qc -> Qc -> Qc) (d x y : Qc) : Qc := (V x (y + d) + V x (y - d) - (V x y + V x y))%Qc.

(** Mean over the two points half a cell to either side of a face. *)
Definition across_x (V : Qc -> Qc -> Qc) (G : grid) (x y : Qc) : Qc :=
  let d := (width_x G / (1 + 1))%Qc in ((V (x - d) y + V (x + d) y) / (1 + 1))%Qc.
Definition across_y (V : Qc -> Qc -> Qc) (G : grid) (x y : Qc) : Qc :=
  let d := (width_y G / (1 + 1))%Qc in ((V x (y - d) + V x (y + d)) / (1 + 1))%Qc.

(** [D (boundary value) x y] for every boundary face. *)
Definition each_face (DX DY : Qc -> Qc -> Qc -> Prop) (G : grid) (g : list Qc) : Prop :=
  (forall j, j < gny G -> DX (west G g j) (gxl G) (mid_y G j) /\ DX (east G g j) (gxu G) (mid_y G j)) /\
  (forall i, i < gnx G -> DY (south G g i) (mid_x G i) (gyl G) /\ DY (north G g i) (mid_x G i) (gyu G)).

(** The residual of [V] in the discrete equation with beta = 1, divided by alpha. *)
Definition residual (c : coefs) (V : Qc -> Qc -> Qc) (G : grid) (x y f : Qc) : Qc :=
  ((f - c_lambda c x y * V x y) / c_alpha c x y
   - (second_x V (width_x G) x y / (width_x G * width_x G) + second_y V (width_y G) x y / (width_y G * width_y G)))%Qc.

(** Second differences in the rectangle: at most M2 d^2, and within M4 d^4 of
    d^2 times Vxx or Vyy, for steps up to a cell width. *)
Definition tame (V Vxx Vyy : Qc -> Qc -> Qc) (M2 M4 : Qc) (G : grid) : Prop :=
  forall x y d, (gxl G <= x)%Qc -> (x <= gxu G)%Qc -> (gyl G <= y)%Qc -> (y <= gyu G)%Qc -> (0 < d)%Qc ->
    ((d <= width_x G)%Qc -> within (M2 * (d * d)) (second_x V d x y) /\
       within (M4 * (d * d * (d * d))) (second_x V d x y - d * d * Vxx x y)) /\
    ((d <= width_y G)%Qc -> within (M2 * (d * d)) (second_y V d x y) /\
       within (M4 * (d * d * (d * d))) (second_y V d x y - d * d * Vyy x y)).

(** The error bound on a mesh of 2^l by 2^l leaves of m by m cells: boundary data
    within eg, loads within ef, difference quotients as in [tame]. *)
Definition bound (m l : nat) (xl xu yl yu M2 M4 eg ef : Qc) : Qc :=
  let hx := ((xu - xl) / Qc_of_nat m)%Qc in
  let hy := ((yu - yl) / Qc_of_nat m)%Qc in
  let eight := ((1 + 1) * (1 + 1) * (1 + 1))%Qc in
  let reach := (((xu - xl) * (xu - xl) + hx * hx) / eight)%Qc in
  (eg + ef * reach + (M2 * (hx * hx + hy * hy) / eight + M4 * (hx * hx + hy * hy) * reach) / Qc_of_nat (4 ^ l))%Qc.
