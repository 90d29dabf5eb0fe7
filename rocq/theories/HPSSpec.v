(** What the direct solver is supposed to compute, stated without reference to
    the merge formulas: four patches side by side, and a quadtree of patches,
    glued along their interfaces. *)
From Verif Require Import Base VectorModel MatrixModel LinSpec HPSModel.

(** ** Vectors and operators *)

(** Stretch number [k] of length [n] of a vector. *)
Definition piece (n : nat) (v : list Qc) (k : nat) : list Qc := firstn n (skipn (k * n) v).

Definition zeros (n : nat) : list Qc := repeat 0%Qc n.

(** The matrix-vector product. *)
Definition apply_op (T : matrix Qc) (g : list Qc) : list Qc :=
  map (fun i => sum (nc T) (fun j => val T i j * vval g j)%Qc) (seq 0 (nr T)).

Definition vplus (v w : list Qc) : list Qc :=
  map (fun i => (vval v i + vval w i)%Qc) (seq 0 (length v)).
Definition vscale (c : Qc) (v : list Qc) : list Qc := map (fun x => (c * x)%Qc) v.

Definition square (n : nat) (T : matrix Qc) : Prop := well_formed T /\ nr T = n /\ nc T = n.

(** ** Four patches side by side

    Boundary data and fluxes of a patch are listed west, east, south, north; on
    the boundary of the union the lower or left half comes first.  The interface
    values [z] are listed alpha/gamma, beta/omega, alpha/beta, gamma/omega. *)

(** The boundary data of the four children when the union has boundary data [g]
    and the interfaces carry the values [z]. *)
Definition children_data (n : nat) (g z : list Qc) : four (list Qc) :=
  Four (piece n g 0 ++ piece n z 2 ++ piece n g 4 ++ piece n z 0)
       (piece n z 2 ++ piece n g 2 ++ piece n g 5 ++ piece n z 1)
       (piece n g 1 ++ piece n z 3 ++ piece n z 0 ++ piece n g 6)
       (piece n z 3 ++ piece n g 3 ++ piece n z 1 ++ piece n g 7).

(** Fluxes point in the positive coordinate directions on both sides, so they
    are continuous when they are equal: north of alpha = south of gamma, and so
    on. *)
Definition continuous (n : nat) (h : four (list Qc)) : Prop :=
  piece n (fa h) 3 = piece n (fc h) 2 /\
  piece n (fb h) 3 = piece n (fd h) 2 /\
  piece n (fa h) 1 = piece n (fb h) 0 /\
  piece n (fc h) 1 = piece n (fd h) 0.

(** The fluxes on the boundary of the union. *)
Definition outer_flux (n : nat) (h : four (list Qc)) : list Qc :=
  piece n (fa h) 0 ++ piece n (fc h) 0 ++ piece n (fb h) 1 ++ piece n (fd h) 1 ++
  piece n (fa h) 2 ++ piece n (fb h) 2 ++ piece n (fc h) 3 ++ piece n (fd h) 3.

(** The children's fluxes for given boundary data, without and with load. *)
Definition fluxes (T : four (matrix Qc)) (x : four (list Qc)) : four (list Qc) :=
  Four (apply_op (fa T) (fa x)) (apply_op (fb T) (fb x))
       (apply_op (fc T) (fc x)) (apply_op (fd T) (fd x)).
Definition total_fluxes (T : four (matrix Qc)) (h x : four (list Qc)) : four (list Qc) :=
  Four (vplus (apply_op (fa T) (fa x)) (fa h)) (vplus (apply_op (fb T) (fb x)) (fb h))
       (vplus (apply_op (fc T) (fc x)) (fc h)) (vplus (apply_op (fd T) (fd x)) (fd h)).

Definition all4 {A} (P : A -> Prop) (x : four A) : Prop := P (fa x) /\ P (fb x) /\ P (fc x) /\ P (fd x).

(** The interface system is nonsingular: with zero data outside and no load, only
    zero interface values give continuous fluxes. *)
Definition interface_unique (n : nat) (T : four (matrix Qc)) : Prop :=
  forall z, length z = 4 * n ->
    continuous n (fluxes T (children_data n (zeros (8 * n)) z)) -> z = zeros (4 * n).

(** ** Change of resolution along a side *)

(** From [c] to 2c values: two fine cells per coarse cell, linear interpolation of
    neighbouring coarse values, quadratic extrapolation at both ends. *)
Definition fine_value (c : nat) (v : list Qc) (i : nat) : Qc :=
  let three_quarters := Q2Qc (3 # 4) in let quarter := Q2Qc (1 # 4) in
  let e0 := Q2Qc (45 # 32) in let e1 := Q2Qc (-9 # 16) in let e2 := Q2Qc (5 # 32) in
  (if Nat.eqb i 0 then e0 * vval v 0%nat + e1 * vval v 1%nat + e2 * vval v 2%nat
  else if Nat.eqb i (2 * c - 1) then
    e0 * vval v (c - 1)%nat + e1 * vval v (c - 2)%nat + e2 * vval v (c - 3)%nat
  else if Nat.odd i then three_quarters * vval v (i / 2)%nat + quarter * vval v (i / 2 + 1)%nat
  else three_quarters * vval v (i / 2)%nat + quarter * vval v (i / 2 - 1)%nat)%Qc.
Definition refine_side (c : nat) (v : list Qc) : list Qc := map (fine_value c v) (seq 0 (2 * c)).

(** From 2c to [c] values: averages of pairs. *)
Definition coarsen_side (c : nat) (v : list Qc) : list Qc :=
  map (fun i => (Q2Qc (1 # 2) * (vval v (2 * i)%nat + vval v (2 * i + 1)%nat))%Qc) (seq 0 c).

(** The same on all four sides. *)
Definition refine4 (c : nat) (g : list Qc) : list Qc :=
  concat (map (fun k => refine_side c (piece c g k)) [0; 1; 2; 3]).
Definition coarsen4 (c : nat) (h : list Qc) : list Qc :=
  concat (map (fun k => coarsen_side c (piece (2 * c) h k)) [0; 1; 2; 3]).

(** From side [c] to side [c * 2^k] and back. *)
Fixpoint refine_by (k c : nat) (g : list Qc) : list Qc :=
  match k with O => g | S k' => refine_by k' (2 * c) (refine4 c g) end.
Fixpoint coarsen_by (k c : nat) (h : list Qc) : list Qc :=
  match k with O => h | S k' => coarsen4 c (coarsen_by k' (2 * c) h) end.

(** The operator [T] of a patch with side c * 2^k seen at the resolution [c]. *)
Definition resolved (k c : nat) (T Tc : matrix Qc) : Prop :=
  square (4 * c) Tc /\
  forall g, length g = 4 * c -> apply_op Tc g = coarsen_by k c (apply_op T (refine_by k c g)).

(** Four siblings may be [k] times finer than the side [n] at which they meet; the
    coarsest one sets [n].  The interpolation needs three values per side. *)
Definition levels_ok (n : nat) (k : four nat) : Prop :=
  Nat.min (Nat.min (fa k) (fb k)) (Nat.min (fc k) (fd k)) = 0 /\
  (3 <= n \/ (fa k = 0 /\ fb k = 0 /\ fc k = 0 /\ fd k = 0)).

(** A patch with side n * 2^k, not coarsened yet. *)
Definition child_ok (n : nat) (p : patch) (k : nat) : Prop :=
  pnc p = 0 /\ gnx (pgrid p) = n * 2 ^ k /\ square (4 * (n * 2 ^ k)) (pT p).
Definition children_ok (n : nat) (ch : four patch) (k : four nat) : Prop :=
  child_ok n (fa ch) (fa k) /\ child_ok n (fb ch) (fb k) /\
  child_ok n (fc ch) (fc k) /\ child_ok n (fd ch) (fd k).
Definition resolved4 (k : four nat) (n : nat) (T Tc : four (matrix Qc)) : Prop :=
  resolved (fa k) n (fa T) (fa Tc) /\ resolved (fb k) n (fb T) (fb Tc) /\
  resolved (fc k) n (fc T) (fc Tc) /\ resolved (fd k) n (fd T) (fd Tc).

(** ** The glued problem on a quadtree *)

(** A quadtree; every leaf has a grid and a load. *)
Inductive qtree : Type :=
| QLeaf (G : grid) (f : list Qc)
| QNode (a b c d : qtree).

(** Boundary data and solution on every leaf, interface values at every interior
    node. *)
Inductive solution : Type :=
| SLeaf (g u : list Qc)
| SNode (z : list Qc) (a b c d : solution).

(** Number of levels by which the patch is uniformly refined: the resolution of
    its side is m * 2^(level). *)
Fixpoint level (s : qtree) : nat :=
  match s with
  | QLeaf _ _ => 0
  | QNode a b c d => 1 + Nat.min (Nat.min (level a) (level b)) (Nat.min (level c) (level d))
  end.
Definition min_level (a b c d : qtree) : nat :=
  Nat.min (Nat.min (level a) (level b)) (Nat.min (level c) (level d)).

(** What a leaf with grid [G] and load [f] does with boundary data [g]: solution
    [u] and boundary flux [h]. *)
Definition leaf_relation : Type := grid -> list Qc -> list Qc -> list Qc -> list Qc -> Prop.

(** [glued m L s g h U]: [U] solves the glued problem on [s] with boundary data
    [g], and [h] is its flux through the boundary.  At an interior node the four
    children meet at the resolution [n] of the coarsest one: data is refined on
    its way to a finer child, fluxes are averaged on the way back. *)
Fixpoint glued (m : nat) (L : leaf_relation) (s : qtree) (g h : list Qc) (U : solution) : Prop :=
  match s, U with
  | QLeaf G f, SLeaf g' u => g' = g /\ length g = 4 * m /\ L G f g u h
  | QNode a b c d, SNode z Ua Ub Uc Ud =>
      let l := min_level a b c d in
      let n := m * 2 ^ l in
      let x := children_data n g z in
      length g = 8 * n /\ length z = 4 * n /\
      exists H : four (list Qc),
        glued m L a (refine_by (level a - l) n (fa x)) (fa H) Ua /\
        glued m L b (refine_by (level b - l) n (fb x)) (fb H) Ub /\
        glued m L c (refine_by (level c - l) n (fc x)) (fc H) Uc /\
        glued m L d (refine_by (level d - l) n (fd x)) (fd H) Ud /\
        let h' := Four (coarsen_by (level a - l) n (fa H)) (coarsen_by (level b - l) n (fb H))
                       (coarsen_by (level c - l) n (fc H)) (coarsen_by (level d - l) n (fd H)) in
        continuous n h' /\ h = outer_flux n h'
  | _, _ => False
  end.

(** The leaf relation of a patch solver, and its linear part. *)
Definition solver_leaf (sv : solver) : leaf_relation := fun G f g u h =>
  sv_solve sv G g f = Ok u /\ sv_map sv G g f = Ok h.
Definition linear_leaf (sv : solver) : leaf_relation := fun G _ g _ h =>
  exists T, sv_build sv G = Ok T /\ h = apply_op T g.

(** Leaf data and solutions in tree order. *)
Fixpoint leaf_values (U : solution) : list (list Qc * list Qc) :=
  match U with
  | SLeaf g u => [(g, u)]
  | SNode _ a b c d => leaf_values a ++ leaf_values b ++ leaf_values c ++ leaf_values d
  end.
Fixpoint tree_leaves (t : tree) : list patch :=
  match t with
  | Leaf p => [p]
  | Node _ a b c d => tree_leaves a ++ tree_leaves b ++ tree_leaves c ++ tree_leaves d
  end.
Definition computed_values (t : tree) : list (list Qc * list Qc) :=
  map (fun p => (pg p, pu p)) (tree_leaves t).

(** All subtrees. *)
Fixpoint subtree (s t : qtree) : Prop :=
  s = t \/
  match t with
  | QLeaf _ _ => False
  | QNode a b c d => subtree s a \/ subtree s b \/ subtree s c \/ subtree s d
  end.

(** Uniquely solvable: on no part of the tree does the problem without load and
    with zero boundary data have nonzero interface values. *)
Definition well_posed (m : nat) (sv : solver) (s : qtree) : Prop :=
  forall a b c d, subtree (QNode a b c d) s ->
  forall h z Ua Ub Uc Ud,
    glued m (linear_leaf sv) (QNode a b c d) (zeros (8 * (m * 2 ^ min_level a b c d))) h
          (SNode z Ua Ub Uc Ud) ->
    z = zeros (4 * (m * 2 ^ min_level a b c d)).

(** A patch solver on m x m leaves whose flux is affine in the boundary data:
    buildD2N returns the linear part, particularNeumannData the constant part. *)
Record affine_solver (m : nat) (sv : solver) (G : grid) : Prop := {
  af_nx : gnx G = m;
  af_ny : gny G = m;
  af_T : exists T, sv_build sv G = Ok T /\ square (4 * m) T /\
    forall f, length f = m * m ->
      exists h, sv_h sv G f = Ok h /\ length h = 4 * m /\
      forall g, length g = 4 * m ->
        is_ok (sv_solve sv G g f) /\ sv_map sv G g f = Ok (vplus (apply_op T g) h) }.

(** Every leaf of the quadtree has a load of the right length and a grid the
    solver handles. *)
Fixpoint good_leaves (m : nat) (sv : solver) (s : qtree) : Prop :=
  match s with
  | QLeaf G f => affine_solver m sv G /\ length f = m * m
  | QNode a b c d =>
      good_leaves m sv a /\ good_leaves m sv b /\ good_leaves m sv c /\ good_leaves m sv d
  end.

(** Siblings are refined equally at every node: no change of resolution. *)
Fixpoint equal_levels (s : qtree) : Prop :=
  match s with
  | QLeaf _ _ => True
  | QNode a b c d =>
      level a = level b /\ level b = level c /\ level c = level d /\
      equal_levels a /\ equal_levels b /\ equal_levels c /\ equal_levels d
  end.

(** The freshly created tree of patches: nothing has been coarsened.  The load
    callback returns the loads of [s]. *)
Fixpoint fresh (load : grid -> list Qc) (s : qtree) (t : tree) : Prop :=
  match s, t with
  | QLeaf G f, Leaf p => pgrid p = G /\ pnc p = 0 /\ load G = f
  | QNode a b c d, Node p ta tb tc td =>
      pnc p = 0 /\ fresh load a ta /\ fresh load b tb /\ fresh load c tc /\ fresh load d td
  | _, _ => False
  end.
