(** Scalar product of two lists and the unit matrix. *)
From Verif Require Import Base VectorModel MatrixModel LinSpec.

Fixpoint dot (v w : list Qc) : Qc :=
  match v, w with
  | x :: v', y :: w' => (x * y + dot v' w')%Qc
  | _, _ => 0%Qc
  end.

(** Multiplication by [m] from either side changes nothing. *)
Definition neutral (n : nat) (m : matrix Qc) : Prop :=
  well_formed m /\ nr m = n /\ nc m = n /\
  (forall x y, length x = n -> (is_product_mv m x y <-> y = x)) /\
  (forall a, well_formed a -> nr a = n -> is_product_mm m a a) /\
  (forall a, well_formed a -> nc a = n -> is_product_mm a m a).
