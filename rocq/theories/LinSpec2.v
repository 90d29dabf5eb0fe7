(** Words used in the statements about vectors and matrices. *)
From Coq Require Import Permutation.
From Verif Require Import Base VectorModel MatrixModel LinSpec.

(** The call raised a C++ exception. *)
Definition raises {A} (r : res A) : Prop := exists e, r = Throw e.

(** [k] is a permutation of the block numbers 0 .. n-1. *)
Definition is_perm (I : list nat) (n : nat) : Prop := Permutation I (seq 0 n).

(** [J] is the inverse of [I]. *)
Definition inverse_perm (I J : list nat) : Prop :=
  length I = length J /\
  (forall a, a < length I -> nth (nth a I 0) J 0 = a) /\
  (forall a, a < length I -> nth (nth a J 0) I 0 = a).

(** Where block [k] starts when blocks of the given sizes are laid out one after
    the other. *)
Fixpoint block_start (sizes : list nat) (k : nat) : nat :=
  match k, sizes with
  | O, _ => 0
  | S k', s :: sizes' => s + block_start sizes' k'
  | S _, [] => 0
  end.

(** The list of sizes after the blocks have been rearranged by [I]. *)
Definition rearranged (sizes I : list nat) : list nat := map (fun b => nth b sizes 0) I.

(** Centre of cell [i] of a row of cells of width [h] starting at [x0]. *)
Definition centre (x0 h : Qc) (i : nat) : Qc := (x0 + (Qc_of_nat i + Q2Qc (1 # 2)) * h)%Qc.
(** Values of [f] at the centres of [n] cells. *)
Definition at_centres (f : Qc -> Qc) (x0 h : Qc) (n : nat) : list Qc :=
  map (fun i => f (centre x0 h i)) (seq 0 n).
Definition linear (a b : Qc) : Qc -> Qc := fun x => (a + b * x)%Qc.
Definition quadratic (a b c : Qc) : Qc -> Qc := fun x => (a + b * x + c * x * x)%Qc.

(** Sum of the entries of a vector. *)
Definition total (v : list Qc) : Qc := sum (length v) (vval v).

(** Results computed entry by entry. *)
Definition entrywise_v (op : Qc -> Qc -> Qc) (v w r : list Qc) : Prop :=
  length r = length v /\ forall i, i < length v -> vval r i = op (vval v i) (vval w i).
Definition entrywise_m (op : Qc -> Qc -> Qc) (a b r : matrix Qc) : Prop :=
  well_formed r /\ nr r = nr a /\ nc r = nc a /\
  forall i j, i < nr a -> j < nc a -> val r i j = op (val a i j) (val b i j).

Definition two : Qc := Q2Qc (2 # 1).
