(** Specification of the resources of a quadtree: counts on the tree itself, with
    no reference to the order of visits or to the maps. *)
From Verif Require Import Base VectorModel MatrixModel HPSModel TreeModel.

(** Quadrants whose range of ranks contains the rank. *)
Fixpoint owned_count (rank : nat) (f : forest) : nat :=
  (if in_range rank (pfirst f) (plast f) then 1 else 0) +
  match f with
  | FLeaf _ => 0
  | FNode a b c d => owned_count rank a + owned_count rank b + owned_count rank c + owned_count rank d
  end.

(** Pairs of a branch in which the rank has leaves and a child of it in which the
    rank has none. *)
Definition foreign (rank : nat) (f : forest) : nat := if has_local rank f then 0 else 1.
Fixpoint foreign_children (rank : nat) (f : forest) : nat :=
  match f with
  | FLeaf _ => 0
  | FNode a b c d =>
      (if has_local rank f then foreign rank a + foreign rank b + foreign rank c + foreign rank d else 0) +
      (foreign_children rank a + foreign_children rank b + foreign_children rank c + foreign_children rank d)
  end.
