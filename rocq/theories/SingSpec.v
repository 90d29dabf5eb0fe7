(** The flux beta du/dn out of a rectangle when beta varies. *)
From Verif Require Import Base VectorModel MatrixModel LinSpec HPSModel HPSSpec FVModel FVSpec.

(** Integrated over the boundary: beta in the middle of every boundary face times
    the difference quotient there, east minus west, north minus south. *)
Definition weighted_flux (c : coefs) (G : grid) (h : list Qc) : Qc :=
  (sum (gny G) (fun j => width_y G * (c_beta c (gxu G) (mid_y G j) * east G h j - c_beta c (gxl G) (mid_y G j) * west G h j)) +
   sum (gnx G) (fun i => width_x G * (c_beta c (mid_x G i) (gyu G) * north G h i - c_beta c (mid_x G i) (gyl G) * south G h i)))%Qc.
