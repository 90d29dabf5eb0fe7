(** Smooth functions of two real variables, and the accuracy of rational values. *)
From Coq Require Import Reals.
From Verif Require Import Base VectorModel MatrixModel HPSModel FloatSpec.
Local Open Scope R_scope.

(** f1 to f4 are the first four derivatives of f on the segment. *)
Definition four_times (f f1 f2 f3 f4 : R -> R) (a b : R) : Prop :=
  forall t, a <= t <= b ->
    derivable_pt_lim f t (f1 t) /\ derivable_pt_lim f1 t (f2 t) /\
    derivable_pt_lim f2 t (f3 t) /\ derivable_pt_lim f3 t (f4 t).

(** U has four derivatives in x on every horizontal line through the rectangle and four
    in y on every vertical one, with a margin of mx and my beyond its sides; Uxx and Uyy
    are the second ones, bounded by M2, and the fourth ones are bounded by M4. *)
Definition smooth (U Uxx Uyy : R -> R -> R) (M2 M4 xl xu yl yu mx my : R) : Prop :=
  (forall y, yl <= y <= yu -> exists f1 f3 f4,
     four_times (fun t => U t y) f1 (fun t => Uxx t y) f3 f4 (xl - mx) (xu + mx) /\
     forall t, xl - mx <= t <= xu + mx -> Rabs (Uxx t y) <= M2 /\ Rabs (f4 t) <= M4) /\
  (forall x, xl <= x <= xu -> exists f1 f3 f4,
     four_times (fun t => U x t) f1 (fun t => Uyy x t) f3 f4 (yl - my) (yu + my) /\
     forall t, yl - my <= t <= yu + my -> Rabs (Uyy x t) <= M2 /\ Rabs (f4 t) <= M4).

(** A rational within e of the value of a real function at a rational point. *)
Definition near_fun (e : R) (U : R -> R -> R) (v x y : Qc) : Prop := Rabs (qval v - U (qval x) (qval y)) <= e.

(** The error bound on n by n cells: boundary data within eg, loads within ef. *)
Definition rbound (n : nat) (xl xu yl yu M2 M4 eg ef : R) : R :=
  let hx := (xu - xl) / INR n in let hy := (yu - yl) / INR n in
  let reach := ((xu - xl) * (xu - xl) + hx * hx) / 8 in
  eg + ef * reach + (hx * hx + hy * hy) * (M2 / 8 + M4 / 12 * reach).
