(** Model of src/Mesh.hpp: refinement by a function, the exported arrays, loops over
    patches and cells, mesh functions.

    Simplifications: exact rational numbers instead of double; the counters of type
    int (index, npoints, ncells, i) are natural numbers, so overflow for 2^29 and more
    points on one rank is not modelled.  Names, types and the number of components of
    the arrays (Mesh.hpp:188-195) are fixed strings and left out.  p4est is
    described by the relations below. *)
From Verif Require Import Base VectorModel MatrixModel HPSModel TreeModel.

(** ** Refinement *)

(** P4est.cpp:7-33 and p4est_qcoord_to_vertex: bilinear interpolation of the four
    vertices of the square domain. *)
Definition root_len : Qc := Qc_of_Z (2 ^ 30).
Definition qcoord_to_vertex (G : grid) (x y : Z) : Qc * Qc :=
  let wx1 := (Qc_of_Z x / root_len)%Qc in
  let wx0 := (1 - wx1)%Qc in
  let wy1 := (Qc_of_Z y / root_len)%Qc in
  let wy0 := (1 - wy1)%Qc in
  ((wy0 * wx0 * gxl G + wy0 * wx1 * gxu G + wy1 * wx0 * gxl G + wy1 * wx1 * gxu G)%Qc,
   (wy0 * wx0 * gyl G + wy0 * wx1 * gyl G + wy1 * wx0 * gyu G + wy1 * wx1 * gyu G)%Qc).

(** Mesh.hpp:134-164, the callback of p4est_refine.  The threshold (124) is stored and
    never used. *)
Definition refine_callback (fn : Qc -> Qc -> bool) (max_level : Z) (G : grid) (q : quadrant) : bool :=
  if (max_level <=? Z.of_nat (qlevel q))%Z then false
  else
    let '(xlower, ylower) := qcoord_to_vertex G (qx q) (qy q) in
    let '(xupper, yupper) := qcoord_to_vertex G (qx q + qlen (qlevel q)) (qy q + qlen (qlevel q)) in
    let dx := ((xupper - xlower) / Qc_of_nat (gnx G))%Qc in
    let dy := ((yupper - ylower) / Qc_of_nat (gny G))%Qc in
    existsb (fun i => existsb (fun j =>
      fn (xlower + (Qc_of_nat i + Q2Qc (1 # 2)) * dx)%Qc (ylower + (Qc_of_nat j + Q2Qc (1 # 2)) * dy)%Qc)
      (seq 0 (gny G))) (seq 0 (gnx G)).

(** p4est_new_ext with min_level and fill_uniform (Mesh.hpp:120). *)
Fixpoint uniform (n : nat) (f : forest) : Prop :=
  match n, f with
  | O, FLeaf _ => True
  | S n', FNode a b c d => uniform n' a /\ uniform n' b /\ uniform n' c /\ uniform n' d
  | _, _ => False
  end.

(** p4est_refine with refine_recursive = 1 (Mesh.hpp:131-166): the callback is asked
    for every quadrant, also for the new ones; a quadrant of the finest level p4est
    supports is not refined.  New quadrants belong to the rank of the old one.  A
    relation, because whether the recursion ends is a question. *)
Inductive refine_quadrant (cb : quadrant -> bool) (o : nat) : quadrant -> forest -> Prop :=
| refine_stop q : cb q && (qlevel q <? qmaxlevel) = false -> refine_quadrant cb o q (FLeaf o)
| refine_go q a b c d : cb q && (qlevel q <? qmaxlevel) = true ->
    refine_quadrant cb o (qchild q 0) a -> refine_quadrant cb o (qchild q 1) b ->
    refine_quadrant cb o (qchild q 2) c -> refine_quadrant cb o (qchild q 3) d ->
    refine_quadrant cb o q (FNode a b c d).
Fixpoint refine_forest (cb : quadrant -> bool) (q : quadrant) (f f' : forest) : Prop :=
  match f with
  | FLeaf o => refine_quadrant cb o q f'
  | FNode a b c d =>
      match f' with
      | FNode a' b' c' d' =>
          refine_forest cb (qchild q 0) a a' /\ refine_forest cb (qchild q 1) b b' /\
          refine_forest cb (qchild q 2) c c' /\ refine_forest cb (qchild q 3) d d'
      | FLeaf _ => False
      end
  end.

(** ** Exported arrays *)

(** Mesh.hpp:22-55: npoints, ncells, points, connectivity, offsets, types. *)
Record mesh : Type := MkMesh {
  npoints : nat; ncells : nat; mpoints : list Qc; connectivity : list nat; offsets : list nat; mtypes : list nat }.
Definition empty_mesh : mesh := MkMesh 0 0 [] [] [] [].

(** Mesh.hpp:215-260, one cell; the state is index and the mesh. *)
Definition add_cell (G : grid) (i j : nat) (st : nat * mesh) : nat * mesh :=
  let index := fst st in
  let M := snd st in
  let x0 := (gxl G + Qc_of_nat i * gdx G)%Qc in
  let y0 := (gyl G + Qc_of_nat j * gdy G)%Qc in
  let x1 := (gxl G + Qc_of_nat (i + 1) * gdx G)%Qc in
  let y1 := (gyl G + Qc_of_nat j * gdy G)%Qc in
  let x2 := (gxl G + Qc_of_nat (i + 1) * gdx G)%Qc in
  let y2 := (gyl G + Qc_of_nat (j + 1) * gdy G)%Qc in
  let x3 := (gxl G + Qc_of_nat i * gdx G)%Qc in
  let y3 := (gyl G + Qc_of_nat (j + 1) * gdy G)%Qc in
  (index + 4,
   MkMesh (npoints M + 4) (ncells M + 1)
     (vappend (mpoints M) [x0; y0; 0%Qc; x1; y1; 0%Qc; x2; y2; 0%Qc; x3; y3; 0%Qc])
     (vappend (connectivity M) [index + 0; index + 1; index + 2; index + 3])
     (vappend (offsets M) [(index + 1) * 4; (index + 2) * 4; (index + 3) * 4; (index + 4) * 4])
     (vappend (mtypes M) [9; 9; 9; 9])).
(** Mesh.hpp:213-262, one patch. *)
Definition add_patch (G : grid) (st : nat * mesh) : nat * mesh :=
  fold_left (fun st i => fold_left (fun st j => add_cell G i j st) (seq 0 (gny G)) st) (seq 0 (gnx G)) st.

Section loops.
Context {R : Type}.

(** Mesh.hpp:316-324 iteratePatches. *)
Definition iteratePatches {S} (rank : nat) (fn : S -> patch -> res (S * patch)) (F : forest)
  (st : S * nmap patch) (k : S * nmap patch -> cmd patch R) : cmd patch R :=
  traversePreOrder rank
    (fun s n => if n_leaf n then r <- fn s (n_data n) ;; Ok (fst r, snd r, true) else Ok (s, n_data n, true)) F st k.

(** Mesh.hpp:186-267 setMeshFromQuadtree: index starts at 0, the arrays are kept. *)
Definition setMeshFromQuadtree (rank : nat) (F : forest) (M : mesh) (m : nmap patch)
  (k : mesh * nmap patch -> cmd patch R) : cmd patch R :=
  traversePreOrder rank
    (fun s n => Ok (if n_leaf n then add_patch (pgrid (n_data n)) s else s, n_data n, true))
    F ((0, M), m) (fun st => k (snd (fst st), snd st)).

(** Mesh.hpp:331-350 iterateCells. *)
Definition iterateCells {S} (rank : nat) (fn : S -> Qc -> Qc -> res S) (F : forest)
  (st : S * nmap patch) (k : S * nmap patch -> cmd patch R) : cmd patch R :=
  traversePreOrder rank
    (fun s n =>
       if n_leaf n then
         let G := pgrid (n_data n) in
         s' <- foldM (fun s i => let xc := gx G i in
                 foldM (fun s j => let yc := gy G j in fn s xc yc) (seq 0 (gny G)) s) (seq 0 (gnx G)) s ;;
         Ok (s', n_data n, true)
       else Ok (s, n_data n, true)) F st k.

(** Mesh.hpp:365-382 addMeshFunction: the vector pushed to mesh_functions. *)
Definition addMeshFunction (rank : nat) (f : Qc -> Qc -> Qc) (F : forest) (m : nmap patch)
  (k : list Qc * nmap patch -> cmd patch R) : cmd patch R :=
  iteratePatches rank (fun n p => Ok (n + gnx (pgrid p) * gny (pgrid p), p)) F (0, m) (fun st =>
  iterateCells rank (fun s xc yc => v <- vset (snd s) (fst s) (f xc yc) ;; Ok (S (fst s), v)) F
    ((0, repeat 0%Qc (fst st)), snd st) (fun st' => k (snd (fst st'), snd st'))).

(** examples/elliptic-single/main.cpp:231-240, elliptic-multiple/main.cpp:298-307: the
    solution gathered leaf by leaf, the vectors vectorU one after the other.  The
    callback is the one iteratePatches passes to traversePreOrder. *)
Definition gatherSolution (rank : nat) (F : forest) (m : nmap patch) (k : list Qc * nmap patch -> cmd patch R) : cmd patch R :=
  iteratePatches rank (fun v p => Ok (vappend v (pu p), p)) F ([], m) k.
End loops.
