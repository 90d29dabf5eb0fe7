(** Mixed boundary conditions a u + b du/dn = r. *)
From Verif Require Import Base VectorModel MatrixModel LinSpec HPSModel HPSSpec FVModel FVSpec StageSpec GlobalSpec.

(** The boundary flux is the derivative in the direction of x or y; it points out of
    the rectangle in the east and north only. *)
Definition outward (n : nat) : Qc := match n with 0 | 2 => (- (1))%Qc | _ => 1%Qc end.

(** Conditions of Dirichlet, Neumann and Robin type on every boundary face: a and the
    coefficient of the outward derivative do not have opposite signs and are not both
    zero; not a pure Neumann problem with lambda = 0. *)
Definition admissible (c : coefs) (N : nat) (G : grid) (a b : nat -> Qc -> Qc -> Qc) : Prop :=
  (forall n i, n < 4 -> i < N ->
     (0 <= outward n * (at_side G a n i * at_side G b n i))%Qc /\
     (at_side G a n i <> 0%Qc \/ at_side G b n i <> 0%Qc)) /\
  ((exists n i, n < 4 /\ i < N /\ at_side G a n i <> 0%Qc) \/
   (exists i j, i < gnx G /\ j < gny G /\ c_lambda c (mid_x G i) (mid_y G j) <> 0%Qc)).
