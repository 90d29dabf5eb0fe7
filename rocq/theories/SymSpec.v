(** Work of a boundary flux on boundary data, and of a load on cell values. *)
From Verif Require Import Base VectorModel MatrixModel LinSpec HPSModel HPSSpec FVModel FVSpec.

(** The integral of g beta du/dn over the boundary of the rectangle; [h] is the flux in
    the positive coordinate directions. *)
Definition boundary_work (c : coefs) (G : grid) (h g : list Qc) : Qc :=
  (sum (gny G) (fun j => let y := mid_y G j in width_y G *
     (c_beta c (gxu G) y * east G h j * east G g j - c_beta c (gxl G) y * west G h j * west G g j)) +
   sum (gnx G) (fun i => let x := mid_x G i in width_x G *
     (c_beta c x (gyu G) * north G h i * north G g i - c_beta c x (gyl G) * south G h i * south G g i)))%Qc.

(** The integral of v f / alpha over the cells. *)
Definition load_work (c : coefs) (G : grid) (f v : list Qc) : Qc :=
  sum (gnx G) (fun i => sum (gny G) (fun j =>
    width_x G * width_y G * (cell G f i j / c_alpha c (mid_x G i) (mid_y G j)) * cell G v i j))%Qc.

(** A Dirichlet-to-Neumann operator behaves as in the continuous problem: it is
    symmetric and positive in the inner product of the boundary; raising one boundary
    value lowers the outward flux everywhere else and raises it there; equal boundary
    values push a nonnegative flux out, none at all when lambda = 0. *)
Definition outward_at (N k : nat) : Qc := if (k <? N) || ((2 * N <=? k) && (k <? 3 * N)) then (- (1))%Qc else 1%Qc.
Definition well_behaved (c : coefs) (N : nat) (G : grid) (T : matrix Qc) : Prop :=
  (forall g g', length g = 4 * N -> length g' = 4 * N ->
     boundary_work c G (apply_op T g) g' = boundary_work c G (apply_op T g') g) /\
  (forall g, length g = 4 * N -> (0 <= boundary_work c G (apply_op T g) g)%Qc) /\
  (forall i j, i < 4 * N -> j < 4 * N ->
     (i <> j -> (outward_at N i * val T i j <= 0)%Qc) /\ (0 <= outward_at N i * val T i i)%Qc) /\
  (forall i, i < 4 * N -> (0 <= outward_at N i * vval (apply_op T (repeat 1%Qc (4 * N))) i)%Qc) /\
  ((forall x y, c_lambda c x y = 0%Qc) -> apply_op T (repeat 1%Qc (4 * N)) = zeros (4 * N)).
