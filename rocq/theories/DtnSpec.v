(** When the four sides of a patch look the same. *)
From Verif Require Import Base HPSModel FVModel FVSpec.

(** The patch is a square divided into n by n cells. *)
Definition square_patch (n : nat) (G : grid) : Prop :=
  gnx G = n /\ gny G = n /\ (gxu G - gxl G = gyu G - gyl G)%Qc.

(** A coefficient does not change when the square is reflected in its vertical centre
    line or in its diagonal. *)
Definition reflected (G : grid) (k : Qc -> Qc -> Qc) : Prop :=
  (forall x y, k (gxl G + gxu G - x)%Qc y = k x y) /\
  (forall x y, k (gxl G + (y - gyl G))%Qc (gyl G + (x - gxl G))%Qc = k x y).

(** All coefficients, and the diffusion coefficient is constant along a side. *)
Definition symmetric_coefs (G : grid) (c : coefs) : Prop :=
  reflected G (c_alpha c) /\ reflected G (c_beta c) /\ reflected G (c_lambda c) /\
  forall y, c_beta c (gxl G) y = c_beta c (gxl G) (gyl G).
