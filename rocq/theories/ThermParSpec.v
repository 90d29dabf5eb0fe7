(** The mesh of a distributed forest and the values that the ranks hold on it. *)
From Verif Require Import Base VectorModel MatrixModel LinSpec HPSModel HPSSpec FVModel GlobalSpec AdaptSpec TreeModel TreeSpec.

(** The rectangle of [G] divided as the forest says, m by m cells per leaf. *)
Fixpoint mesh (m : nat) (F : forest) (G : grid) : HPSSpec.qtree :=
  match F with
  | FLeaf _ => QLeaf (rect m G) (zeros (m * m))
  | FNode a b c d =>
      HPSSpec.QNode (mesh m a (quarter m G false false)) (mesh m b (quarter m G true false))
                    (mesh m c (quarter m G false true)) (mesh m d (quarter m G true true))
  end.

(** All leaves are at level [l]. *)
Fixpoint all_at (l : nat) (F : forest) : Prop :=
  match l, F with
  | 0, FLeaf _ => True
  | S l', FNode a b c d => all_at l' a /\ all_at l' b /\ all_at l' c /\ all_at l' d
  | _, _ => False
  end.

(** [v] lists the solutions on the leaves in tree order; the map holds those of the
    leaves that belong to rank [r]. *)
Definition has_values (r : nat) (F : forest) (m : nmap patch) (v : list (list Qc)) : Prop :=
  Forall2 (fun ds u => sub F ds = Some (FLeaf r) -> exists n, m (0 :: ds) = Some n /\ pu (n_data n) = u) (leaf_paths F) v.
