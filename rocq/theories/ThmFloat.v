(** Property theorems.  Proofs are in FloatProps.v; this file only restates the
    statements.  Written by tools/gen_thm.py. *)
From Coq Require Import Reals Lra Qreals.
From Flocq Require Import Core Binary Bits.
From Verif Require Import Base VectorModel MatrixModel HPSModel TreeModel TreeSpec FloatModel FloatSpec.
From Verif Require Import TreeProofs TreeTile TreeCtor TreeOrder TreeOrder2 TreeProps FloatProofs FloatProofs2 FloatProofs3 FloatProofs4.
Local Open Scope R_scope.
From Verif Require Import FloatProps.

(** [C71] In double arithmetic the leaf nodes of the constructed tree (over all ranks)
    tile the root rectangle without gap or overlap: cell counts as the root, finite
    bounds in order, exact areas that add up to the root's exact area, disjoint
    interiors, every point in a leaf; leaves that meet along an edge share the very
    same coordinate there, with one edge containing the other, and with the same
    doubles at its ends if the leaves are of equal level. *)
Theorem double_leaves_tile : forall f root, contiguous f -> (depth f <= qmaxlevel)%nat -> rect root ->
  exists leaves : list (list nat * dgrid),
    NoDup (map fst leaves) /\
    (forall ds G, In (ds, G) leaves <-> dleaf f root ds G) /\
    (forall ds G, In (ds, G) leaves -> dnx G = dnx root /\ dny G = dny root /\ rect G) /\
    Rsum (map (fun l => darea (snd l)) leaves) = darea root /\
    (forall ds G ds' G' x y, In (ds, G) leaves -> In (ds', G') leaves -> ds <> ds' ->
       dinterior G x y -> dinterior G' x y -> False) /\
    (forall x y, dinside root x y <-> exists ds G, In (ds, G) leaves /\ dinside G x y) /\
    (forall ds G ds' G', In (ds, G) leaves -> In (ds', G') leaves -> ds <> ds' -> dmeet_x G G' ->
       (val (dxu G) = val (dxl G') \/ val (dxu G') = val (dxl G)) /\
       rnested (val (dyl G)) (val (dyu G)) (val (dyl G')) (val (dyu G')) /\
       (length ds = length ds' -> dyl G = dyl G' /\ dyu G = dyu G')) /\
    (forall ds G ds' G', In (ds, G) leaves -> In (ds', G') leaves -> ds <> ds' -> dmeet_y G G' ->
       (val (dyu G) = val (dyl G') \/ val (dyu G') = val (dyl G)) /\
       rnested (val (dxl G)) (val (dxu G)) (val (dxl G')) (val (dxu G')) /\
       (length ds = length ds' -> dxl G = dxl G' /\ dxu G = dxu G')).
Proof. exact @double_leaves_tile_pf. Qed.
Print Assumptions double_leaves_tile.

(** [C71] In doubles, too, the grid of a parent made from its four children is the grid
    the children were made from, bit for bit. *)
Theorem double_parent : forall G,
  dparent (Four (dchild G 0) (dchild G 1) (dchild G 2) (dchild G 3)) = G.
Proof. exact @double_parent_pf. Qed.
Print Assumptions double_parent.

(** [C71] The bounds of the leaves differ from those of exact arithmetic by at most 2^-46
    of the size [M] of the root's bounds, the widths and heights by at most 2^-50 of it;
    a root that is not thinner than 2^-20 of [M] has leaves of positive width and height. *)
Theorem double_leaves_accurate : forall f D root M, contiguous f -> (depth f <= qmaxlevel)%nat ->
  rect D -> same_rect D (pgrid root) -> bpow radix2 (-900) <= M ->
  Rabs (val (dxl D)) <= M -> Rabs (val (dxu D)) <= M -> Rabs (val (dyl D)) <= M -> Rabs (val (dyu D)) <= M ->
  forall ds D' G', dleaf f D ds D' -> leaf_with_grid f root ds G' ->
    Rabs (val (dxl D') - qval (gxl G')) <= bpow radix2 (-46) * M /\
    Rabs (val (dxu D') - qval (gxu G')) <= bpow radix2 (-46) * M /\
    Rabs (val (dyl D') - qval (gyl G')) <= bpow radix2 (-46) * M /\
    Rabs (val (dyu D') - qval (gyu G')) <= bpow radix2 (-46) * M /\
    Rabs ((val (dxu D') - val (dxl D')) - (qval (gxu G') - qval (gxl G'))) <= bpow radix2 (-50) * M /\
    Rabs ((val (dyu D') - val (dyl D')) - (qval (gyu G') - qval (gyl G'))) <= bpow radix2 (-50) * M /\
    (bpow radix2 (-20) * M <= val (dxu D) - val (dxl D) -> val (dxl D') < val (dxu D')) /\
    (bpow radix2 (-20) * M <= val (dyu D) - val (dyl D) -> val (dyl D') < val (dyu D')).
Proof. exact @double_leaves_accurate_pf. Qed.
Print Assumptions double_leaves_accurate.

(** [C71] If the bounds of the root are multiples of 2^E of size at most 2^(E+B) and
    B plus the depth is at most 52, nothing is rounded: every leaf has exactly the
    rectangle of exact arithmetic.  If the number of cells is 2^k and B plus the depth
    plus k is at most 50, spacing and cell centres are those of exact arithmetic, too. *)
Theorem double_leaves_exact : forall f D root E B, contiguous f -> (depth f <= qmaxlevel)%nat ->
  same_rect D (pgrid root) -> val (dxl D) <= val (dxu D) -> val (dyl D) <= val (dyu D) ->
  dyadic E B (dxl D) -> dyadic E B (dxu D) -> dyadic E B (dyl D) -> dyadic E B (dyu D) ->
  (0 <= B)%Z -> (B + Z.of_nat (depth f) <= 52)%Z -> (-900 <= E)%Z -> (E + B <= 1020)%Z ->
  forall ds D' G', dleaf f D ds D' -> leaf_with_grid f root ds G' ->
    same_rect D' G' /\
    forall k, (B + Z.of_nat (depth f) + Z.of_nat k <= 50)%Z ->
      (dnx D = (2 ^ k)%nat -> val (ddx D') = qval (gdx G') /\
         forall i, (i < dnx D)%nat -> finite (dx_at D' i) /\ val (dx_at D' i) = qval (gx G' i)) /\
      (dny D = (2 ^ k)%nat -> val (ddy D') = qval (gdy G') /\
         forall j, (j < dny D)%nat -> finite (dy_at D' j) /\ val (dy_at D' j) = qval (gy G' j)).
Proof. exact @double_leaves_exact_pf. Qed.
Print Assumptions double_leaves_exact.

(** [C71] The cell centres of every grid are exact up to 2^-48 of the size of the bounds;
    they are in increasing order and inside the rectangle if the cells are wider than
    2^-47 of it. *)
Theorem double_cells : forall G M, rect G -> bpow radix2 (-900) <= M <= bpow radix2 1020 ->
  Rabs (val (dxl G)) <= M -> Rabs (val (dxu G)) <= M -> Rabs (val (dyl G)) <= M -> Rabs (val (dyu G)) <= M ->
  (0 < Z.of_nat (dnx G) < 2 ^ 31)%Z -> (0 < Z.of_nat (dny G) < 2 ^ 31)%Z ->
  centres (val (dxl G)) (val (dxu G)) M (dnx G) (dx_at G) /\
  centres (val (dyl G)) (val (dyu G)) M (dny G) (dy_at G).
Proof. exact @double_cells_pf. Qed.
Print Assumptions double_cells.

Example double_leaves_example :
  rect ex_double /\ same_rect ex_double (pgrid ex_double_root) /\
  dyadic 0 0 (dxl ex_double) /\ dyadic 0 0 (dxu ex_double) /\ dyadic 0 0 (dyl ex_double) /\ dyadic 0 0 (dyu ex_double) /\
  bpow radix2 (-20) * 1 <= val (dxu ex_double) - val (dxl ex_double) /\
  exists D', dleaf ex_forest ex_double [1%nat; 3%nat] D' /\
    val (dxl D') = / 2 /\ val (dxu D') = 1 /\ val (dyl D') = - / 2 /\ val (dyu D') = 0.
Proof. exact @double_leaves_example_expf. Qed.

(** [C71] The condition on the shape is needed.  The interval from 1 to the next double has
    its middle at 1: a leaf has no width and its spacing is zero. *)
Theorem double_thin_zero_width : exists D D', rect D /\ val (dxl D) < val (dxu D) /\ val (dyl D) < val (dyu D) /\
  dleaf (FNode (FLeaf 0) (FLeaf 0) (FLeaf 0) (FLeaf 0)) D [0%nat] D' /\
  val (dxl D') = val (dxu D') /\ val (ddx D') = 0.
Proof. exact @double_thin_zero_width_pf. Qed.
Print Assumptions double_thin_zero_width.

(** [C71] Beyond half of the range of doubles the sum of the bounds overflows: a leaf has an
    infinite bound. *)
Theorem double_overflow_infinite : exists D D', finite (dxl D) /\ finite (dxu D) /\ val (dxl D) < val (dxu D) /\
  dleaf (FNode (FLeaf 0) (FLeaf 0) (FLeaf 0) (FLeaf 0)) D [0%nat] D' /\ ~ finite (dxu D').
Proof. exact @double_overflow_infinite_pf. Qed.
Print Assumptions double_overflow_infinite.
