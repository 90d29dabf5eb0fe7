(** The rectangles of the nodes and the cells of a grid in IEEE double arithmetic.
    [double] is the binary64 format of the Flocq library, every operation rounds to
    nearest, ties to even.  Contraction to fused operations and extended precision
    are left out. *)
From Coq Require Import Reals.
From Flocq Require Import Core Binary Bits.
From Verif Require Import Base VectorModel MatrixModel HPSModel TreeModel.

Definition double : Type := binary64.
Definition dadd : double -> double -> double := b64_plus BinarySingleNaN.mode_NE.
Definition dsub : double -> double -> double := b64_minus BinarySingleNaN.mode_NE.
Definition dmul : double -> double -> double := b64_mult BinarySingleNaN.mode_NE.
Definition ddiv : double -> double -> double := b64_div BinarySingleNaN.mode_NE.

(** Conversion of an integer (the literal 2.0, an index, a number of cells). *)
Definition dint (n : Z) : double := Binary.binary_normalize 53 1024 eq_refl eq_refl BinarySingleNaN.mode_NE n 0 false.

(** FiniteVolumeGrid.hpp:187-193: the stored bounds and numbers of cells. *)
Record dgrid : Type := DGrid { dnx : nat; dny : nat; dxl : double; dxu : double; dyl : double; dyu : double }.

(** FiniteVolumeNodeFactory.cpp:25, 28: the middle of an interval. *)
Definition dmid (a b : double) : double := ddiv (dadd a b) (dint 2).

(** FiniteVolumeNodeFactory.cpp:20-57: the grid of a child. *)
Definition dchild (G : dgrid) (sibling_id : nat) : dgrid :=
  let x_mid := dmid (dxl G) (dxu G) in
  let y_mid := dmid (dyl G) (dyu G) in
  match sibling_id with
  | 0 => DGrid (dnx G) (dny G) (dxl G) x_mid (dyl G) y_mid
  | 1 => DGrid (dnx G) (dny G) x_mid (dxu G) (dyl G) y_mid
  | 2 => DGrid (dnx G) (dny G) (dxl G) x_mid y_mid (dyu G)
  | 3 => DGrid (dnx G) (dny G) x_mid (dxu G) y_mid (dyu G)
  | _ => DGrid 0 0 (dint 0) (dint 0) (dint 0) (dint 0)
  end.

(** FiniteVolumeNodeFactory.cpp:11-67 with the patch reduced to its grid. *)
Definition dfactory : factory dgrid :=
  Factory (fun G p level pfirst plast => QNode G p level pfirst plast false)
          (fun parent sibling_id pfirst plast =>
             QNode (dchild (n_data parent) sibling_id) (n_path parent ++ [sibling_id]) (n_level parent + 1)
                   pfirst plast false).

(** FiniteVolumeNodeFactory.cpp:71-78: the grid of a parent. *)
Definition dparent (ch : four dgrid) : dgrid :=
  DGrid (dnx (fa ch)) (dny (fa ch)) (dxl (fa ch)) (dxu (fb ch)) (dyl (fa ch)) (dyu (fc ch)).

(** FiniteVolumeGrid.cpp:9-19: the spacings. *)
Definition ddx (G : dgrid) : double := ddiv (dsub (dxu G) (dxl G)) (dint (Z.of_nat (dnx G))).
Definition ddy (G : dgrid) : double := ddiv (dsub (dyu G) (dyl G)) (dint (Z.of_nat (dny G))).

(** FiniteVolumeGrid.cpp:24-36 point: the cell centres. *)
Definition dx_at (G : dgrid) (i : nat) : double :=
  dadd (dadd (dxl G) (ddiv (ddx G) (dint 2))) (dmul (dint (Z.of_nat i)) (ddx G)).
Definition dy_at (G : dgrid) (j : nat) : double :=
  dadd (dadd (dyl G) (ddiv (ddy G) (dint 2))) (dmul (dint (Z.of_nat j)) (ddy G)).
