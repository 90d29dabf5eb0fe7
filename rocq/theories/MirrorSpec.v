(** The mirrored problem, and the problem with x and y exchanged. *)
From Verif Require Import Base VectorModel MatrixModel LinSpec HPSModel HPSSpec FVModel FVSpec AdaptSpec.

(** [Mirror]: x becomes -x.  [Swap]: x and y change places. *)
Inductive symmetry : Type := Mirror | Swap.

(** Boundary data of a patch with side [n], listed west, east, south, north. *)
Definition sym_data (s : symmetry) (n : nat) (g : list Qc) : list Qc :=
  match s with
  | Mirror => piece n g 1 ++ piece n g 0 ++ rev (piece n g 2) ++ rev (piece n g 3)
  | Swap => piece n g 2 ++ piece n g 3 ++ piece n g 0 ++ piece n g 1
  end.
(** Fluxes point in the positive directions, so in x they change sign. *)
Definition sym_flux (s : symmetry) (n : nat) (h : list Qc) : list Qc :=
  match s with
  | Mirror => vscale (- (1)) (piece n h 1) ++ vscale (- (1)) (piece n h 0) ++ rev (piece n h 2) ++ rev (piece n h 3)
  | Swap => piece n h 2 ++ piece n h 3 ++ piece n h 0 ++ piece n h 1
  end.
(** The cell (i, j) of n by n cells is entry j + i n. *)
Definition sym_cells (s : symmetry) (n : nat) (u : list Qc) : list Qc :=
  map (fun k => vval u (match s with Mirror => k mod n + (n - 1 - k / n) * n | Swap => k / n + (k mod n) * n end)) (seq 0 (n * n)).
Definition sym_grid (s : symmetry) (G : grid) : grid :=
  match s with
  | Mirror => Grid (gnx G) (gny G) (- gxu G)%Qc (- gxl G)%Qc (gyl G) (gyu G)
  | Swap => Grid (gny G) (gnx G) (gyl G) (gyu G) (gxl G) (gxu G)
  end.
Definition sym_point (s : symmetry) (x y : Qc) : Qc * Qc := match s with Mirror => (- x, y)%Qc | Swap => (y, x) end.
(** The second coefficients at the image of a point are the first ones at the point. *)
Definition sym_coefs (s : symmetry) (c c' : coefs) : Prop :=
  forall x y, let p := sym_point s x y in
    c_alpha c' (fst p) (snd p) = c_alpha c x y /\ c_beta c' (fst p) (snd p) = c_beta c x y /\
    c_lambda c' (fst p) (snd p) = c_lambda c x y.

(** The four quarters lower left, lower right, upper left, upper right. *)
Definition sym_four {A} (s : symmetry) (x : four A) : four A :=
  match s with Mirror => Four (fb x) (fa x) (fd x) (fc x) | Swap => Four (fa x) (fc x) (fb x) (fd x) end.

(** The quadtree with [m] by [m] cells per leaf. *)
Fixpoint sym_tree (s : symmetry) (m : nat) (q : qtree) : qtree :=
  match q with
  | QLeaf G f => QLeaf (sym_grid s G) (sym_cells s m f)
  | QNode a b c d =>
      let x := sym_four s (Four (sym_tree s m a) (sym_tree s m b) (sym_tree s m c) (sym_tree s m d)) in
      QNode (fa x) (fb x) (fc x) (fd x)
  end.

(** Boundary data and cell values of all leaves in the order of the tree [q], in the order
    of the image. *)
Fixpoint sym_values (s : symmetry) (m : nat) (q : qtree) (v : list (list Qc * list Qc)) : list (list Qc * list Qc) :=
  match q with
  | QLeaf _ _ => map (fun z => (sym_data s m (fst z), sym_cells s m (snd z))) v
  | QNode a b c d =>
      let na := length (leaves a) in let nb := length (leaves b) in let nc := length (leaves c) in
      let v1 := skipn na v in let v2 := skipn nb v1 in let v3 := skipn nc v2 in
      let x := sym_four s (Four (sym_values s m a (firstn na v)) (sym_values s m b (firstn nb v1))
                                (sym_values s m c (firstn nc v2)) (sym_values s m d v3)) in
      fa x ++ fb x ++ fc x ++ fd x
  end.
