(** Property theorems.  Proofs are in MeshProps.v; this file only restates the
    statements.  Written by tools/gen_thm.py. *)
From Coq Require Import Lqa.
From Verif Require Import Base VectorModel MatrixModel HPSModel TreeModel TreeSpec MeshModel MeshSpec.
From Verif Require Import TreeProofs TreeTile TreeCtor TreeOrder TreeMap TreeOrder2 TreeProps FVMax MeshProofs MeshRefine.
From Verif Require Import MeshProps.

(** [C41] For every predicate, domain, number of cells, levels: p4est_refine ends and
    has one result F1; a quadrant of F1 is refined exactly if it is above min_level
    (uniform start) or it is below max_level (and the finest level of p4est) and the
    predicate holds at a centre of a cell.  After balancing (F2) and partitioning (F),
    no leaf is above min_level or deeper than max_level, and leaves not made by
    balancing whose level is below the maximum have no centre where the predicate holds. *)
Theorem refinement_by_function : forall (fn : Qc -> Qc -> bool) (G : grid) (min_level max_level : Z) (F0 : forest),
  Z.to_nat min_level <= qmaxlevel -> uniform (Z.to_nat min_level) F0 ->
  exists F1, refine_forest (refine_callback fn max_level G) root_quadrant F0 F1 /\
  (forall F1', refine_forest (refine_callback fn max_level G) root_quadrant F0 F1' -> F1' = F1) /\
  (forall ds, sub F1 ds <> None ->
     (is_node F1 ds <-> (Z.of_nat (length ds) < min_level)%Z \/
        (Z.of_nat (length ds) < max_level)%Z /\ length ds < qmaxlevel /\ holds_at_centre fn G ds)) /\
  forall F2 F, refines F1 F2 -> same_quadrants F2 F ->
  forall ds, In ds (leaf_paths F) ->
    (min_level <= Z.of_nat (length ds))%Z /\ length ds <= qmaxlevel /\
    ((0 <= max_level)%Z -> (min_level <= max_level)%Z -> (Z.of_nat (length ds) <= max_level)%Z) /\
    (In ds (leaf_paths F1) -> (Z.of_nat (length ds) < max_level)%Z -> length ds < qmaxlevel ->
     ~ holds_at_centre fn G ds).
Proof. exact @refinement_by_function_pf. Qed.
Print Assumptions refinement_by_function.

Example refinement_example :
  Z.to_nat 1 <= qmaxlevel /\ uniform (Z.to_nat 1) ex_level1 /\
  refine_forest (refine_callback near_origin 2 ex_square) root_quadrant ex_level1 ex_corner /\
  refines ex_corner ex_corner /\ same_quadrants ex_corner ex_corner.
Proof. exact @refinement_example_expf. Qed.

(** [C42] Partial: after the first refinement, on every rank and every tree, the mesh has
    one quadrilateral per cell of the leaves of the rank, in Morton order and column by
    column within a leaf: number of cells and points, coordinates and connectivity are
    right, corners are counter-clockwise.  offsets and types have four entries per cell;
    only the first ncells entries are what the format asks for.  Missing: one offset
    and one type per cell. *)
Theorem exported_arrays_partial : forall rank root F, contiguous F -> depth F <= qmaxlevel ->
  exists m M m', construct fv_factory rank root F = Ok m /\
  setMeshFromQuadtree rank F empty_mesh m finish = Fin (Ok (M, m')) /\ (forall p, m' p = m p) /\
  let cells := owned_cells rank F (pgrid root) in
  length cells = length (owned_leaves rank F) * (gnx (pgrid root) * gny (pgrid root)) /\
  points_describe cells M /\
  (proper_rect (pgrid root) -> forall c, In c cells -> counter_clockwise (corner c)) /\
  firstn (length cells) (offsets M) = map (fun k => 4 * S k) (seq 0 (length cells)) /\
  firstn (length cells) (mtypes M) = repeat 9 (length cells) /\
  length (offsets M) = 4 * length cells /\ length (mtypes M) = 4 * length cells.
Proof. exact @exported_arrays_partial_pf. Qed.
Print Assumptions exported_arrays_partial.

(** [C42] For every tree, on every rank that has a cell, the offsets and the types are
    not the ones of the format. *)
Theorem exported_offsets_wrong : forall rank root F m M m', contiguous F -> depth F <= qmaxlevel ->
  owned_leaves rank F <> [] -> gnx (pgrid root) <> 0 -> gny (pgrid root) <> 0 ->
  construct fv_factory rank root F = Ok m ->
  setMeshFromQuadtree rank F empty_mesh m finish = Fin (Ok (M, m')) ->
  length (offsets M) <> ncells M /\ length (mtypes M) <> ncells M /\
  ~ describes (owned_cells rank F (pgrid root)) M.
Proof. exact @exported_offsets_wrong_pf. Qed.
Print Assumptions exported_offsets_wrong.

(** [C42] Refuted: one leaf with one cell gives four offsets and four types. *)
Theorem exported_arrays_describe_cells_refuted : exists rank root F m M m',
  contiguous F /\ depth F <= qmaxlevel /\ proper_rect (pgrid root) /\
  construct fv_factory rank root F = Ok m /\
  setMeshFromQuadtree rank F empty_mesh m finish = Fin (Ok (M, m')) /\
  ncells M = 1 /\ offsets M = [4; 8; 12; 16] /\ mtypes M = [9; 9; 9; 9] /\
  ~ describes (owned_cells rank F (pgrid root)) M.
Proof. exact @exported_arrays_describe_cells_refuted_pf. Qed.
Print Assumptions exported_arrays_describe_cells_refuted.

(** Three ranks, seven leaves of 4 x 4 cells: rank 1 has three leaves, 48 cells. *)
Example exported_arrays_example :
  contiguous ex_forest /\ depth ex_forest <= qmaxlevel /\ proper_rect (pgrid ex_root) /\
  length (owned_cells 1 ex_forest (pgrid ex_root)) = 48 /\
  match construct fv_factory 1 ex_root ex_forest with
  | Ok m => match setMeshFromQuadtree 1 ex_forest empty_mesh m finish with
            | Fin (Ok (M, _)) => ncells M = 48 /\ map this (firstn 6 (mpoints M)) = [3#4; 0#1; 0#1; 13#16; 0#1; 0#1]%Q
            | _ => False
            end
  | _ => False
  end.
Proof. exact @exported_arrays_example_expf. Qed.

(** [C43] Partial: whatever the mesh held before, the arrays are the old entries followed
    by the new ones with indices from 0, and the numbers of cells and points are added up.
    The points and cells describe the new mesh alone exactly if there was no cell
    before on this rank.  Missing: the old entries are not removed. *)
Theorem refine_again_partial : forall rank root F m M m' root2 F2,
  contiguous F -> depth F <= qmaxlevel -> contiguous F2 -> depth F2 <= qmaxlevel ->
  construct fv_factory rank root F = Ok m ->
  setMeshFromQuadtree rank F empty_mesh m finish = Fin (Ok (M, m')) ->
  exists m2 M2 N2 m2' m2'', construct fv_factory rank root2 F2 = Ok m2 /\
  setMeshFromQuadtree rank F2 M m2 finish = Fin (Ok (M2, m2')) /\
  setMeshFromQuadtree rank F2 empty_mesh m2 finish = Fin (Ok (N2, m2'')) /\
  points_describe (owned_cells rank F2 (pgrid root2)) N2 /\
  npoints M2 = npoints M + npoints N2 /\ ncells M2 = ncells M + ncells N2 /\
  mpoints M2 = mpoints M ++ mpoints N2 /\ connectivity M2 = connectivity M ++ connectivity N2 /\
  offsets M2 = offsets M ++ offsets N2 /\ mtypes M2 = mtypes M ++ mtypes N2 /\
  (points_describe (owned_cells rank F2 (pgrid root2)) M2 <-> owned_cells rank F (pgrid root) = []).
Proof. exact @refine_again_partial_pf. Qed.
Print Assumptions refine_again_partial.

(** [C43] Refuted: refining the same one-cell mesh twice gives two cells. *)
Theorem refine_again_replaces_refuted : exists rank root F m M m1 M2 m2,
  contiguous F /\ depth F <= qmaxlevel /\ construct fv_factory rank root F = Ok m /\
  setMeshFromQuadtree rank F empty_mesh m finish = Fin (Ok (M, m1)) /\
  setMeshFromQuadtree rank F M m finish = Fin (Ok (M2, m2)) /\
  length (owned_cells rank F (pgrid root)) = 1 /\ ncells M2 = 2 /\ connectivity M2 = [0; 1; 2; 3; 0; 1; 2; 3] /\
  ~ points_describe (owned_cells rank F (pgrid root)) M2.
Proof. exact @refine_again_replaces_refuted_pf. Qed.
Print Assumptions refine_again_replaces_refuted.

(** [C44] On every rank and tree the k-th value of a mesh function is the function at the
    centre of the k-th cell of the exported mesh.  After any computation that keeps the
    grids of the leaves and leaves one value per cell in the solutions (map m2), the
    k-th entry of the gathered solution is the entry j + i*ny of the solution of the
    leaf whose cell (i,j) is the k-th exported cell. *)
Theorem mesh_functions_line_up : forall rank root F, contiguous F -> depth F <= qmaxlevel ->
  exists m M m1, construct fv_factory rank root F = Ok m /\
  setMeshFromQuadtree rank F empty_mesh m finish = Fin (Ok (M, m1)) /\
  let G := pgrid root in
  let cells := owned_cells rank F G in
  points_describe cells M /\
  (forall f, exists v m2, addMeshFunction rank f F m1 finish = Fin (Ok (v, m2)) /\ length v = ncells M /\
    forall k c, nth_error cells k = Some c ->
    nth_error v k = Some (f (fst (cell_centre c)) (snd (cell_centre c)))) /\
  (forall m2, node_map rank F m2 ->
    (forall ds n, In ds (owned_leaves rank F) -> m2 (0 :: ds) = Some n ->
       pgrid (n_data n) = quadrant_grid G ds /\ length (pu (n_data n)) = gnx G * gny G) ->
    exists u m3, gatherSolution rank F m2 finish = Fin (Ok (u, m3)) /\ length u = ncells M /\
    forall k c, nth_error cells k = Some c ->
    exists ds n i j, sub F ds = Some (FLeaf rank) /\ m2 (0 :: ds) = Some n /\ i < gnx G /\ j < gny G /\
      c = cell_of (quadrant_grid G ds) i j /\ nth_error u k = nth_error (pu (n_data n)) (j + i * gny G)).
Proof. exact @mesh_functions_line_up_pf. Qed.
Print Assumptions mesh_functions_line_up.

(** A function with different values in all cells, on rank 1 of the example. *)
Example mesh_functions_example :
  match construct fv_factory 1 ex_root ex_forest with
  | Ok m => match addMeshFunction 1 (fun x y => (x + Qc_of_nat 100 * y)%Qc) ex_forest m finish with
            | Fin (Ok (v, m')) => length v = 48 /\ map this (firstn 2 v) = [125 # 32; 325 # 32]%Q
            | _ => False
            end
  | _ => False
  end.
Proof. exact @mesh_functions_example_expf. Qed.

Example gathered_solution_example :
  match construct fv_factory 1 ex_root ex_forest with
  | Ok m => node_map 1 ex_forest (filled_map m) /\
      (forall ds n, In ds (owned_leaves 1 ex_forest) -> filled_map m (0 :: ds) = Some n ->
         length (pu (n_data n)) = gnx (pgrid ex_root) * gny (pgrid ex_root)) /\
      match gatherSolution 1 ex_forest (filled_map m) finish with
      | Fin (Ok (u, m')) => length u = 48 /\ map this (firstn 3 (skipn 21 u)) = [101; 102; 103]%Q
      | _ => False
      end
  | _ => False
  end.
Proof. exact @gathered_solution_example_expf. Qed.
