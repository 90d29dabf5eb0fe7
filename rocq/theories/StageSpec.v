(** What the stages are supposed to do with boundary conditions, loads and
    several calls, stated without reference to how they do it. *)
From Verif Require Import Base VectorModel MatrixModel LinSpec HPSModel HPSSpec.

(** The middle of cell number [i] on side [n] (west, east, south, north) of a
    rectangle divided into nx by ny cells. *)
Definition side_point (G : grid) (n i : nat) : Qc * Qc :=
  let odd k := (Qc_of_nat k + Qc_of_nat k + 1)%Qc in
  let x := (gxl G + odd i * (gxu G - gxl G) / (Qc_of_nat (gnx G) + Qc_of_nat (gnx G)))%Qc in
  let y := (gyl G + odd i * (gyu G - gyl G) / (Qc_of_nat (gny G) + Qc_of_nat (gny G)))%Qc in
  match n with 0 => (gxl G, y) | 1 => (gxu G, y) | 2 => (x, gyl G) | _ => (x, gyu G) end.
Definition at_side (G : grid) (f : nat -> Qc -> Qc -> Qc) (n i : nat) : Qc :=
  f n (fst (side_point G n i)) (snd (side_point G n i)).

(** The mixed boundary condition a g + b h = r, entry by entry; the data and the
    flux are listed side after side. *)
Definition mixed_condition (N : nat) (G : grid) (a b r : nat -> Qc -> Qc -> Qc) (g h : list Qc) : Prop :=
  forall n i, n < 4 -> i < N ->
    (at_side G a n i * vval g (n * N + i) + at_side G b n i * vval h (n * N + i) = at_side G r n i)%Qc.

(** The boundary system is nonsingular. *)
Definition mixed_unique (N : nat) (G : grid) (T : matrix Qc) (a b : nat -> Qc -> Qc -> Qc) : Prop :=
  forall g, length g = 4 * N ->
    mixed_condition N G a b (fun _ _ _ => 0%Qc) g (apply_op T g) -> g = zeros (4 * N).

(** No load anywhere, and the patch solver sees no flux then. *)
Fixpoint at_rest (m : nat) (sv : solver) (s : qtree) : Prop :=
  match s with
  | QLeaf G f => f = zeros (m * m) /\ sv_h sv G f = Ok (zeros (4 * m))
  | QNode a b c d => at_rest m sv a /\ at_rest m sv b /\ at_rest m sv c /\ at_rest m sv d
  end.

(** v + c w. *)
Definition lin (c : Qc) (v w : list Qc) : list Qc := vplus v (vscale c w).

(** A patch solver whose solution and flux depend linearly on load and boundary
    data together. *)
Definition linear_solver (m : nat) (sv : solver) (G : grid) : Prop :=
  forall c f1 g1 f2 g2 u1 h1 u2 h2,
    length f1 = m * m -> length f2 = m * m -> length g1 = 4 * m -> length g2 = 4 * m ->
    sv_solve sv G g1 f1 = Ok u1 -> sv_map sv G g1 f1 = Ok h1 ->
    sv_solve sv G g2 f2 = Ok u2 -> sv_map sv G g2 f2 = Ok h2 ->
    sv_solve sv G (lin c g1 g2) (lin c f1 f2) = Ok (lin c u1 u2) /\
    sv_map sv G (lin c g1 g2) (lin c f1 f2) = Ok (lin c h1 h2).

(** The quadtree of a freshly created tree of patches, with the loads of [load]. *)
Fixpoint problem (load : grid -> list Qc) (t : tree) : qtree :=
  match t with
  | Leaf p => QLeaf (pgrid p) (load (pgrid p))
  | Node _ a b c d => QNode (problem load a) (problem load b) (problem load c) (problem load d)
  end.
Fixpoint not_coarsened (t : tree) : Prop :=
  match t with
  | Leaf p => pnc p = 0
  | Node p a b c d => pnc p = 0 /\ not_coarsened a /\ not_coarsened b /\ not_coarsened c /\ not_coarsened d
  end.
Fixpoint leaf_grids (t : tree) : list grid :=
  match t with
  | Leaf p => [pgrid p]
  | Node _ a b c d => leaf_grids a ++ leaf_grids b ++ leaf_grids c ++ leaf_grids d
  end.

(** Leaf by leaf combination of two lists of boundary data and solutions. *)
Definition lin_values (c : Qc) (v w : list (list Qc * list Qc)) : list (list Qc * list Qc) :=
  map (fun xy => (lin c (fst (fst xy)) (fst (snd xy)), lin c (snd (fst xy)) (snd (snd xy)))) (combine v w).

(** The operators and resolutions left by buildStage agree on every patch. *)
Fixpoint same_operators (t t' : tree) : Prop :=
  match t, t' with
  | Leaf p, Leaf p' => pgrid p = pgrid p' /\ pnc p = pnc p' /\ pT p = pT p'
  | Node p a b c d, Node p' a' b' c' d' =>
      (pgrid p = pgrid p' /\ pnc p = pnc p' /\ pT p = pT p' /\ pS p = pS p' /\ pH p = pH p' /\ pX p = pX p') /\
      same_operators a a' /\ same_operators b b' /\ same_operators c c' /\ same_operators d d'
  | _, _ => False
  end.

(** Two runs with the same outcome: both return, with results related by [R], or
    both fail in the same way. *)
Definition same {A B} (R : A -> B -> Prop) (x : res A) (y : res B) : Prop :=
  match x, y with
  | Ok a, Ok b => R a b
  | Throw e, Throw e' => e = e'
  | UB, UB => True
  | _, _ => False
  end.

(** A sequence of calls after the build, every call under its own setting of
    homogeneous-rhs. *)
Inductive call : Type :=
| Up (load : grid -> list Qc)
| Solve (g : list Qc).
Definition run_call (sv : solver) (gesv : gesv_t) (hom : bool) (c : call) (t : tree) : res tree :=
  match c with
  | Up load => upwardsStage sv gesv hom load t
  | Solve g => solveStage sv hom g t
  end.
Definition run (sv : solver) (gesv : gesv_t) (cs : list (bool * call)) (t : tree) : res tree :=
  foldM (fun t c => run_call sv gesv (fst c) (snd c) t) cs t.
