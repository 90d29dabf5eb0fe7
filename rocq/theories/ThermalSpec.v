(** The heat equation du/dt = div(beta grad u) + q, discretised by backward Euler. *)
From Verif Require Import Base VectorModel MatrixModel LinSpec HPSModel HPSSpec FVModel FVSpec GlobalSpec AdaptSpec.

(** div(beta grad u) *)
Definition diffusion (beta : Qc -> Qc -> Qc) : coefs := Coefs (fun _ _ => 1%Qc) beta (fun _ _ => 0%Qc).

(** One step of length dt from [old] to [new] with source q, values uW and uE in the
    west and in the east, and derivatives vS and vN in the direction of y in the south
    and in the north. *)
Definition heat_step (beta : Qc -> Qc -> Qc) (dt : Qc) (G : grid) (uW uE vS vN q : Qc -> Qc -> Qc)
  (old new : list Qc) : Prop :=
  length new = gnx G * gny G /\
  exists g, length g = 2 * gny G + 2 * gnx G /\
    (forall E, ghosts G g new E -> forall i j, i < gnx G -> j < gny G ->
       ((cell G new i j - cell G old i j) / dt = elliptic (diffusion beta) G E i j + q (mid_x G i) (mid_y G j))%Qc) /\
    (forall j, j < gny G -> west G g j = uW (gxl G) (mid_y G j) /\ east G g j = uE (gxu G) (mid_y G j)) /\
    (forall i, i < gnx G ->
       ((cell G new i 0 - south G g i) / (width_y G / (1 + 1)) = vS (mid_x G i) (gyl G))%Qc /\
       ((north G g i - cell G new i (gny G - 1)) / (width_y G / (1 + 1)) = vN (mid_x G i) (gyu G))%Qc).

(** The state after n steps; step number n is taken by [step n]. *)
Inductive after {A} (step : nat -> A -> A -> Prop) (start : A) : nat -> A -> Prop :=
| after_none : after step start 0 start
| after_next : forall n old new, after step start n old -> step n old new -> after step start (S n) new.

(** All values of a vector lie between two bounds. *)
Definition between (lo hi : Qc) (_ _ u : Qc) : Prop := (lo <= u <= hi)%Qc.

(** ** Meshes that are refined in places *)

(** A state is a quadtree with the values of every leaf.  One step on one leaf: g is
    its boundary data at the new time, h the flux through its boundary. *)
Definition heat_leaf (beta : Qc -> Qc -> Qc) (dt : Qc) (q : Qc -> Qc -> Qc) : leaf_relation := fun G old g new h =>
  length new = gnx G * gny G /\
  (forall E, ghosts G g new E -> forall i j, i < gnx G -> j < gny G ->
     ((cell G new i j - cell G old i j) / dt = elliptic (diffusion beta) G E i j + q (mid_x G i) (mid_y G j))%Qc) /\
  h = boundary_flux G g new.

(** The leaves of [s] with the values of [U]. *)
Fixpoint valued (s : qtree) (U : solution) : qtree :=
  match s, U with
  | QLeaf G _, SLeaf _ u => QLeaf G u
  | QNode a b c d, SNode _ Ua Ub Uc Ud => QNode (valued a Ua) (valued b Ub) (valued c Uc) (valued d Ud)
  | _, _ => s
  end.
(** All values zero. *)
Fixpoint cold (m : nat) (s : qtree) : qtree :=
  match s with
  | QLeaf G _ => QLeaf G (zeros (m * m))
  | QNode a b c d => QNode (cold m a) (cold m b) (cold m c) (cold m d)
  end.

(** Values in the west and the east, derivatives in the direction of y in the south and
    the north, in the middle of the faces of the root, which has n by n cells. *)
Definition root_conditions (n : nat) (G : grid) (uW uE vS vN : Qc -> Qc -> Qc) (g h : list Qc) : Prop :=
  let B := rect n G in
  forall i, i < n ->
    west B g i = uW (gxl B) (mid_y B i) /\ east B g i = uE (gxu B) (mid_y B i) /\
    south B h i = vS (mid_x B i) (gyl B) /\ north B h i = vN (mid_x B i) (gyu B).

(** One step on the rectangle of [G]; the leaves are glued together. *)
Definition refined_step (beta : Qc -> Qc -> Qc) (dt : Qc) (m : nat) (G : grid) (uW uE vS vN q : Qc -> Qc -> Qc)
  (old new : qtree) : Prop :=
  exists U g h, glued m (heat_leaf beta dt q) old g h U /\ new = valued old U /\
    root_conditions (m * 2 ^ level old) G uW uE vS vN g h.

(** Without source, from zero and with zero conditions there are no boundary values
    other than zero. *)
Definition heat_posed (beta : Qc -> Qc -> Qc) (dt : Qc) (m : nat) (G : grid) (s : qtree) : Prop :=
  let zero := fun _ _ : Qc => 0%Qc in
  forall U g h, glued m (heat_leaf beta dt zero) (cold m s) g h U ->
    root_conditions (m * 2 ^ level s) G zero zero zero zero g h -> g = zeros (4 * (m * 2 ^ level s)).
