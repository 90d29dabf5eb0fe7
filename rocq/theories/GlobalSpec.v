(** A uniformly refined quadtree over a rectangle, and the cells of the whole
    rectangle seen leaf by leaf. *)
From Verif Require Import Base VectorModel MatrixModel LinSpec HPSModel HPSSpec FVModel FVSpec.

(** A quarter of the rectangle of [G], divided into n by n cells. *)
Definition quarter (n : nat) (G : grid) (east north : bool) : grid :=
  let xm := ((gxl G + gxu G) / (1 + 1))%Qc in let ym := ((gyl G + gyu G) / (1 + 1))%Qc in
  Grid n n (if east then xm else gxl G) (if east then gxu G else xm)
           (if north then ym else gyl G) (if north then gyu G else ym).

(** The cells of one quarter, of a vector with 2n by 2n cells. *)
Definition block (n : nat) (u : list Qc) (east north : bool) : list Qc :=
  map (fun k => let i := k / n + (if east then n else 0) in let j := k mod n + (if north then n else 0) in
                vval u (j + i * (2 * n))) (seq 0 (n * n)).

(** The quadtree that divides the rectangle of [G] [l] times into quarters; its
    leaves have m by m cells. *)
Fixpoint uniform (m l : nat) (G : grid) (s : qtree) : Prop :=
  match l, s with
  | 0, QLeaf G' f => G' = G
  | S l', QNode a b c d =>
      let n := m * 2 ^ l' in
      uniform m l' (quarter n G false false) a /\ uniform m l' (quarter n G true false) b /\
      uniform m l' (quarter n G false true) c /\ uniform m l' (quarter n G true true) d
  | _, _ => False
  end.

(** A vector on the whole rectangle, cut into the vectors of the leaves. *)
Fixpoint scatter (m l : nat) (u : list Qc) : list (list Qc) :=
  match l with
  | 0 => [u]
  | S l' =>
      let n := m * 2 ^ l' in
      scatter m l' (block n u false false) ++ scatter m l' (block n u true false) ++
      scatter m l' (block n u false true) ++ scatter m l' (block n u true true)
  end.
Fixpoint leaf_loads (s : qtree) : list (list Qc) :=
  match s with
  | QLeaf _ f => [f]
  | QNode a b c d => leaf_loads a ++ leaf_loads b ++ leaf_loads c ++ leaf_loads d
  end.

(** A function at the cell centres. *)
Definition sampled (rhs : Qc -> Qc -> Qc) (G : grid) : list Qc :=
  map (fun k => rhs (mid_x G (k / gny G)) (mid_y G (k mod gny G))) (seq 0 (gnx G * gny G)).

(** The whole rectangle with m * 2^l cells per side. *)
Definition whole (m l : nat) (xl xu yl yu : Qc) : grid := Grid (m * 2 ^ l) (m * 2 ^ l) xl xu yl yu.
