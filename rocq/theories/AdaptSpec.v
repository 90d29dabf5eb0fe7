(** Locally refined quadtrees over a rectangle, functions sampled on them, and the
    balance of fluxes and sources. *)
From Verif Require Import Base VectorModel MatrixModel LinSpec HPSModel HPSSpec FVModel FVSpec GlobalSpec.

(** The rectangle of [G] divided into n by n cells. *)
Definition rect (n : nat) (G : grid) : grid := Grid n n (gxl G) (gxu G) (gyl G) (gyu G).

(** A quadtree of any shape that divides the rectangle of [G]; its leaves have m by
    m cells. *)
Fixpoint tiled (m : nat) (G : grid) (s : qtree) : Prop :=
  match s with
  | QLeaf G' f => G' = rect m G /\ length f = m * m
  | QNode a b c d =>
      tiled m (quarter m G false false) a /\ tiled m (quarter m G true false) b /\
      tiled m (quarter m G false true) c /\ tiled m (quarter m G true true) d
  end.

(** The leaves with their loads, in tree order. *)
Fixpoint leaves (s : qtree) : list (grid * list Qc) :=
  match s with
  | QLeaf G f => [(G, f)]
  | QNode a b c d => leaves a ++ leaves b ++ leaves c ++ leaves d
  end.

(** A function in the middle of the boundary faces. *)
Definition on_boundary (F : Qc -> Qc -> Qc) (G : grid) : list Qc :=
  map (fun j => F (gxl G) (mid_y G j)) (seq 0 (gny G)) ++ map (fun j => F (gxu G) (mid_y G j)) (seq 0 (gny G)) ++
  map (fun i => F (mid_x G i) (gyl G)) (seq 0 (gnx G)) ++ map (fun i => F (mid_x G i) (gyu G)) (seq 0 (gnx G)).

(** Flux out of a rectangle, integrated over its boundary: east minus west, north
    minus south. *)
Definition net_flux (G : grid) (h : list Qc) : Qc :=
  (sum (gny G) (fun j => width_y G * (east G h j - west G h j)) +
   sum (gnx G) (fun i => width_x G * (north G h i - south G h i)))%Qc.

(** What alpha div(beta grad u) + lambda u = f leaves for div(beta grad u),
    integrated over the cells of one leaf. *)
Definition leaf_source (c : coefs) (G : grid) (f u : list Qc) : Qc :=
  sum (gnx G) (fun i => sum (gny G) (fun j =>
    let x := mid_x G i in let y := mid_y G j in
    width_x G * width_y G * ((cell G f i j - c_lambda c x y * cell G u i j) / c_alpha c x y)))%Qc.
Definition total_source (c : coefs) (l : list (grid * list Qc)) (us : list (list Qc)) : Qc :=
  fold_right Qcplus 0%Qc (map (fun z => leaf_source c (fst (fst z)) (snd (fst z)) (snd z)) (combine l us)).
