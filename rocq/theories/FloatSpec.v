(** Specifications for rectangles whose bounds are doubles: the bounds are compared as
    real numbers. *)
From Coq Require Import Reals.
From Flocq Require Import Core Binary Bits.
From Verif Require Import Base VectorModel MatrixModel HPSModel TreeModel TreeSpec FloatModel.

Local Open Scope R_scope.

(** The real number a double stands for. *)
Definition val (x : double) : R := Binary.B2R 53 1024 x.
Definition finite (x : double) : Prop := Binary.is_finite 53 1024 x = true.

(** The four bounds are finite, in order, and below half of the range of doubles. *)
Definition moderate (x : double) : Prop := finite x /\ Rabs (val x) < bpow radix2 1023.
Definition rect (G : dgrid) : Prop :=
  moderate (dxl G) /\ moderate (dxu G) /\ moderate (dyl G) /\ moderate (dyu G) /\
  val (dxl G) <= val (dxu G) /\ val (dyl G) <= val (dyu G).

Definition dinside (G : dgrid) (x y : R) : Prop :=
  val (dxl G) <= x <= val (dxu G) /\ val (dyl G) <= y <= val (dyu G).
Definition dinterior (G : dgrid) (x y : R) : Prop :=
  val (dxl G) < x < val (dxu G) /\ val (dyl G) < y < val (dyu G).
Definition darea (G : dgrid) : R := (val (dxu G) - val (dxl G)) * (val (dyu G) - val (dyl G)).
Definition Rsum (l : list R) : R := fold_right Rplus 0 l.
Definition rnested (a b c d : R) : Prop := (a <= c /\ d <= b) \/ (c <= a /\ b <= d).
Definition dmeet_x (A B : dgrid) : Prop :=
  val (dxl A) <= val (dxu B) /\ val (dxl B) <= val (dxu A) /\
  exists y, val (dyl A) < y < val (dyu A) /\ val (dyl B) < y < val (dyu B).
Definition dmeet_y (A B : dgrid) : Prop :=
  val (dyl A) <= val (dyu B) /\ val (dyl B) <= val (dyu A) /\
  exists x, val (dxl A) < x < val (dxu A) /\ val (dxl B) < x < val (dxu B).

(** The leaf at [ds] exists on some rank and has the grid [G]. *)
Definition dleaf (f : forest) (root : dgrid) (ds : list nat) (G : dgrid) : Prop :=
  exists rank m n, construct dfactory rank root f = Ok m /\ m (0%nat :: ds) = Some n /\
    n_leaf n = true /\ n_data n = G.

(** A rational number as a real number. *)
Definition qval (x : Qc) : R := Q2R (this x).

(** The double grid has exactly the bounds of the rational one. *)
Definition same_rect (D : dgrid) (G : grid) : Prop :=
  dnx D = gnx G /\ dny D = gny G /\
  finite (dxl D) /\ finite (dxu D) /\ finite (dyl D) /\ finite (dyu D) /\
  val (dxl D) = qval (gxl G) /\ val (dxu D) = qval (gxu G) /\
  val (dyl D) = qval (gyl G) /\ val (dyu D) = qval (gyu G).

(** A multiple of 2^E that is at most 2^(E+B) in size. *)
Definition dyadic (E B : Z) (x : double) : Prop :=
  finite x /\ exists m, val x = IZR m * bpow radix2 E /\ (Z.abs m <= 2 ^ B)%Z.

(** The centres of [n] cells between [l] and [u]: close to the exact ones; in order and
    inside unless the cells are thinner than the rounding. *)
Definition centres (l u M : R) (n : nat) (c : nat -> double) : Prop :=
  (forall i, (i < n)%nat -> finite (c i) /\
     Rabs (val (c i) - (l + (IZR (Z.of_nat i) + / 2) * ((u - l) / IZR (Z.of_nat n)))) <= bpow radix2 (-48) * M) /\
  (bpow radix2 (-47) * M < (u - l) / IZR (Z.of_nat n) ->
     (forall i, (i < n)%nat -> l < val (c i) < u) /\
     (forall i j, (i < j < n)%nat -> val (c i) < val (c j))).
