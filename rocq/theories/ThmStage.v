(** Property theorems.  Proofs are in StageProps.v; this file only restates the
    statements.  Written by tools/gen_thm.py. *)
From Verif Require Import Base VectorModel MatrixModel LinSpec HPSModel HPSSpec StageSpec.
From Verif Require Import MatProofs MatProofs2 LinProofs Gauss LinProps BlockProofs.
From Verif Require Import HPSProofs HPSProofs2 HPSProofs3 HPSProofs4 HPSTree HPSTree2 HPSCert.
From Verif Require Import HPSSizes HPSHistory HPSRebuild HPSStage HPSStage2 HPSProps.
From Verif Require Import StageProps.

(** [C21] After the build, any calls [pre], then an upwardsStage with load [load],
    then any solves: one more solve with data [g] gives the leaves the same data
    and solutions (or fails in the same way) as upwardsStage and solveStage called
    directly on the freshly built tree. *)
Theorem history_independent : forall sv gesv hom pre load gs g t t1 t2,
  run sv gesv pre t = Ok t1 ->
  run sv gesv ((hom, Up load) :: map (fun g => (hom, Solve g)) gs) t1 = Ok t2 ->
  same (fun r r' => computed_values r = computed_values r')
    (solveStage sv hom g t2) (run sv gesv [(hom, Up load); (hom, Solve g)] t).
Proof. exact @history_independent_pf. Qed.
Print Assumptions history_independent.

(** Another load and two other solves come first; the result is not trivial. *)
Example history_example :
  match buildStage (toy 1) gauss_gesv false None (fresh_tree (quad 1)) with
  | Ok (_, t) =>
      match run (toy 1) gauss_gesv [(false, Up (fun _ => ones 1)); (false, Solve (ones 8)); (true, Solve (zeros 8))] t with
      | Ok t1 =>
          match run (toy 1) gauss_gesv [(false, Up (ex_load 1)); (false, Solve (ones 8))] t1 with
          | Ok t2 =>
              match solveStage (toy 1) false (basis 8 0) t2 with
              | Ok t3 => map (fun x => map this (snd x)) (computed_values t3) = [[7 # 12]; [17 # 16]; [37 # 16]; [73 # 24]]%Q
              | _ => False
              end
          | _ => False
          end
      | _ => False
      end
  | _ => False
  end.
Proof. exact @history_example_expf. Qed.

(** [C22] Building once more on a mesh with a locally refined quarter, nothing
    changed: the second build runs out of bounds.  The coarsening counters of the
    first build are still set, so the siblings' operators differ in size. *)
Theorem rebuild_refuted : exists m sv gesv s t st1 t1,
  3 <= m /\ gesv_contract gesv /\ fresh (ex_load m) s t /\ good_leaves m sv s /\ well_posed m sv s /\
  buildStage sv gesv false None t = Ok (st1, t1) /\
  is_ok (upwardsStage sv gesv false (ex_load m) t1) /\
  buildStage sv gesv false st1 t1 = UB.
Proof. exact @rebuild_refuted_pf. Qed.
Print Assumptions rebuild_refuted.

(** [C22] A second build with other coefficients [sv'] leaves the same operators as
    building once with them, or fails in the same way, if the siblings are refined
    equally everywhere and operators are not cached.  Missing: other meshes, see
    [rebuild_refuted], and the cache, see [rebuild_cached_refuted]. *)
Theorem rebuild_partial : forall sv sv' gesv st st1 load m t t1,
  buildStage sv gesv false st t = Ok (st1, t1) ->
  m <> 0 -> not_coarsened t -> (forall G, In G (leaf_grids t) -> gnx G = m) -> equal_levels (problem load t) ->
  same (fun r r' => same_operators (snd r) (snd r'))
    (buildStage sv' gesv false st1 t1) (buildStage sv' gesv false st t).
Proof. exact @rebuild_partial_pf. Qed.
Print Assumptions rebuild_partial.

Example rebuild_example :
  not_coarsened (fresh_tree (quad 1)) /\ (forall G, In G (leaf_grids (fresh_tree (quad 1))) -> gnx G = 1) /\
  equal_levels (problem (ex_load 1) (fresh_tree (quad 1))) /\
  match buildStage (place_solver 1 1) gauss_gesv false None (fresh_tree (quad 1)) with
  | Ok (st1, t1) =>
      match buildStage (place_solver two_Qc 1) gauss_gesv false st1 t1 with
      | Ok (_, t2) => map this (apply_op (pT (data t2)) (basis 8 0)) = [-271 # 36; 11 # 36; -4 # 9; -1 # 9; 89 # 36; 4 # 9; -11 # 36; -1 # 9]%Q
      | _ => False
      end
  | _ => False
  end.
Proof. exact @rebuild_example_expf. Qed.

(** [C22] With the option cache-operators the second build keeps the leaf operator of the
    first one: doubling the coefficients changes nothing. *)
Theorem rebuild_cached_refuted : exists sv sv' gesv t st1 t1 st2 t2 st3 t3,
  gesv_contract gesv /\ not_coarsened t /\ equal_levels (problem (ex_load 1) t) /\
  (forall G, In G (leaf_grids t) -> affine_solver 1 sv G /\ affine_solver 1 sv' G) /\
  buildStage sv gesv true None t = Ok (st1, t1) /\
  buildStage sv' gesv true st1 t1 = Ok (st2, t2) /\
  buildStage sv' gesv true None t = Ok (st3, t3) /\
  pT (data t2) = pT (data t1) /\ pT (data t2) <> pT (data t3).
Proof. exact @rebuild_cached_refuted_pf. Qed.
Print Assumptions rebuild_cached_refuted.

(** [C23] The cache hands the operator of the first leaf to all leaves; with a
    coefficient that varies in space the result differs. *)
Theorem cache_refuted : exists sv gesv t st1 t1 st2 t2,
  gesv_contract gesv /\ not_coarsened t /\
  (forall G, In G (leaf_grids t) -> affine_solver 1 sv G) /\
  buildStage sv gesv false None t = Ok (st1, t1) /\ buildStage sv gesv true None t = Ok (st2, t2) /\
  pT (data t1) <> pT (data t2).
Proof. exact @cache_refuted_pf. Qed.
Print Assumptions cache_refuted.

(** [C23] If the solver's operator is the same on all leaves, the cache (empty or
    already filled with that operator) changes nothing: same tree, or the same
    failure.  Missing: solvers whose operator depends on the leaf, see
    [cache_refuted]. *)
Theorem cache_partial : forall sv gesv T0 t,
  (forall G, In G (leaf_grids t) -> sv_build sv G = Ok T0) ->
  forall st, st = None \/ st = Some T0 ->
  same (fun r r' => snd r = snd r')
    (buildStage sv gesv true st t) (buildStage sv gesv false None t).
Proof. exact @cache_partial_pf. Qed.
Print Assumptions cache_partial.

Example cache_example :
  (forall G, In G (leaf_grids (fresh_tree (ex_tree 3))) -> sv_build (toy 3) G = Ok (toy_T 3)) /\
  length (leaf_grids (fresh_tree (ex_tree 3))) = 7 /\
  is_ok (buildStage (toy 3) gauss_gesv true None (fresh_tree (ex_tree 3))).
Proof. exact @cache_example_expf. Qed.

(** [C24] On every freshly created quadtree with leaf side m >= 3 and a solver
    returning results of the right sizes, all three stages run through, with any
    option settings.  After the build any four siblings have the same resolution,
    the smallest of their four sides, and their operators have that size; leaves
    are not coarsened. *)
Theorem coarsening_sizes : forall m sv gesv load s t cache hom g,
  3 <= m -> gesv_contract gesv -> fresh load s t -> sized_leaves m sv s ->
  length g = 4 * (m * 2 ^ level s) ->
  exists st1 t1 t2 t3,
    buildStage sv gesv cache None t = Ok (st1, t1) /\ siblings_meet t1 /\
    gnx (pgrid (data t1)) = m * 2 ^ level s /\
    upwardsStage sv gesv hom load t1 = Ok t2 /\ solveStage sv hom g t2 = Ok t3.
Proof. exact @coarsening_sizes_pf. Qed.
Print Assumptions coarsening_sizes.

Example coarsening_example :
  fresh (ex_load 3) (ex_tree 3) (fresh_tree (ex_tree 3)) /\ sized_leaves 3 (toy 3) (ex_tree 3) /\
  level (ex_tree 3) = 1 /\
  match buildStage (toy 3) gauss_gesv false None (fresh_tree (ex_tree 3)) with
  | Ok (_, Node p a b c d) => (pnc (data a), gnx (pgrid (data a)), psize (data a)) = (1, 6, 3) /\
      (pnc (data b), gnx (pgrid (data b)), psize (data b)) = (0, 3, 3)
  | _ => False
  end.
Proof. exact @coarsening_example_expf. Qed.

(** [C25] The data g that solveStage computes from a, b, r satisfies
    a g + b (T g + h) = r at the middle of every boundary cell of the root. *)
Theorem mixed_boundary : forall gesv a b r p N,
  gesv_contract gesv -> N <> 0 -> gnx (pgrid p) = N -> gny (pgrid p) = N ->
  square (4 * N) (pT p) -> length (ph p) = 4 * N -> mixed_unique N (pgrid p) (pT p) a b ->
  exists g, root_data gesv a b r p = Ok g /\ length g = 4 * N /\
    mixed_condition N (pgrid p) a b r g (vplus (apply_op (pT p) g) (ph p)).
Proof. exact @mixed_boundary_pf. Qed.
Print Assumptions mixed_boundary.

(** [C25] With a = 1 and b = 0 the data is r itself. *)
Theorem dirichlet_boundary : forall gesv r p N,
  gesv_contract gesv -> N <> 0 -> gnx (pgrid p) = N -> gny (pgrid p) = N ->
  square (4 * N) (pT p) -> length (ph p) = 4 * N ->
  exists g, root_data gesv (fun _ _ _ => 1%Qc) (fun _ _ _ => 0%Qc) r p = Ok g /\ length g = 4 * N /\
    forall n i, n < 4 -> i < N -> vval g (n * N + i) = at_side (pgrid p) r n i.
Proof. exact @dirichlet_boundary_pf. Qed.
Print Assumptions dirichlet_boundary.

(** [C25] The whole solver with mixed boundary conditions: it returns the solution of
    the glued problem whose boundary data and boundary flux satisfy them. *)
Theorem mixed_solution : forall m sv gesv load s t st a b r,
  1 <= m -> gesv_contract gesv -> fresh load s t -> good_leaves m sv s -> well_posed m sv s ->
  3 <= m \/ equal_levels s ->
  let N := m * 2 ^ level s in
  exists st1 t1 t2,
    buildStage sv gesv false st t = Ok (st1, t1) /\ upwardsStage sv gesv false load t1 = Ok t2 /\
    (mixed_unique N (pgrid (data t2)) (pT (data t2)) a b ->
     exists t3 U g h, solveStage_fn sv gesv false a b r t2 = Ok t3 /\
       glued m (solver_leaf sv) s g h U /\ computed_values t3 = leaf_values U /\
       mixed_condition N (pgrid (data t2)) a b r g h).
Proof. exact @mixed_solution_pf. Qed.
Print Assumptions mixed_solution.

(** A boundary system with a = 1, b = 1 on one patch of side 1. *)
Example mixed_example :
  let p := ex_patch (ex_grid 1 0 0 1) (toy_T 1) (ones 4) in
  square 4 (pT p) /\ length (ph p) = 4 /\
  mixed_unique 1 (pgrid p) (pT p) (fun n _ _ => Qc_of_nat n) (fun _ _ _ => 1%Qc) /\
  match root_data gauss_gesv (fun n _ _ => Qc_of_nat n) (fun _ _ _ => 1%Qc) (fun _ x y => (x + y)%Qc) p with
  | Ok g => map this g = [4 # 7; 10 # 21; 20 # 21; 5 # 14]%Q
  | _ => False
  end.
Proof. exact @mixed_example_expf. Qed.

(** [C26] With homogeneous-rhs the stages give the same data and solutions on the leaves as without
    the option and with zero load, when solveStage is given the boundary data.
    [load'] is whatever load the callback supplies under the option.  Missing:
    solveStage with boundary functions, see [homogeneous_refuted]. *)
Theorem homogeneous_partial : forall m sv gesv load load' s t st g,
  m <> 0 -> gesv_contract gesv -> fresh load s t -> good_leaves m sv s -> well_posed m sv s ->
  3 <= m \/ equal_levels s -> at_rest m sv s -> (forall G, length (load' G) = gnx G * gny G) ->
  length g = 4 * (m * 2 ^ level s) ->
  exists st1 t1 t2 t3 t2' t3',
    buildStage sv gesv false st t = Ok (st1, t1) /\
    upwardsStage sv gesv false load t1 = Ok t2 /\ solveStage sv false g t2 = Ok t3 /\
    upwardsStage sv gesv true load' t1 = Ok t2' /\ solveStage sv true g t2' = Ok t3' /\
    computed_values t3' = computed_values t3.
Proof. exact @homogeneous_partial_pf. Qed.
Print Assumptions homogeneous_partial.

(** [C26] With boundary functions, even for plain Dirichlet data, the stage throws
    on a refined mesh: under the option the root has no flux vector. *)
Theorem homogeneous_refuted : exists m sv gesv t r,
  gesv_contract gesv /\ not_coarsened t /\
  (forall G, In G (leaf_grids t) -> affine_solver m sv G /\ sv_h sv G (zeros (m * m)) = Ok (zeros (4 * m))) /\
  (exists st1 t1 t2 t3, buildStage sv gesv false None t = Ok (st1, t1) /\
     upwardsStage sv gesv false (fun G => zeros (gnx G * gny G)) t1 = Ok t2 /\
     solveStage_fn sv gesv false (fun _ _ _ => 1%Qc) (fun _ _ _ => 0%Qc) r t2 = Ok t3) /\
  (exists st1 t1 t2, buildStage sv gesv false None t = Ok (st1, t1) /\
     upwardsStage sv gesv true (fun G => zeros (gnx G * gny G)) t1 = Ok t2 /\
     solveStage_fn sv gesv true (fun _ _ _ => 1%Qc) (fun _ _ _ => 0%Qc) r t2 = Throw invalid_argument).
Proof. exact @homogeneous_refuted_pf. Qed.
Print Assumptions homogeneous_refuted.

Example homogeneous_example :
  let s := problem (fun G => zeros 9) (fresh_tree (ex_tree 3)) in
  fresh (fun G => zeros 9) s (fresh_tree (ex_tree 3)) /\ good_leaves 3 (toy 3) s /\ well_posed 3 (toy 3) s /\
  at_rest 3 (toy 3) s.
Proof. exact @homogeneous_example_expf. Qed.

(** [C55] Solving with the loads l1 + c l2 and the data g1 + c g2 gives, on every
    leaf, the data and solution of the first problem plus c times those of the
    second. *)
Theorem superposition : forall m sv gesv c l1 l2 t st g1 g2,
  let l3 := fun G => lin c (l1 G) (l2 G) in
  m <> 0 -> gesv_contract gesv -> not_coarsened t ->
  (forall G, In G (leaf_grids t) -> affine_solver m sv G /\ linear_solver m sv G /\
     length (l1 G) = m * m /\ length (l2 G) = m * m) ->
  well_posed m sv (problem l1 t) -> 3 <= m \/ equal_levels (problem l1 t) ->
  length g1 = 4 * (m * 2 ^ level (problem l1 t)) -> length g2 = length g1 ->
  exists st1 t0 a1 a2 a3 b1 b2 b3,
    buildStage sv gesv false st t = Ok (st1, t0) /\
    upwardsStage sv gesv false l1 t0 = Ok a1 /\ solveStage sv false g1 a1 = Ok b1 /\
    upwardsStage sv gesv false l2 t0 = Ok a2 /\ solveStage sv false g2 a2 = Ok b2 /\
    upwardsStage sv gesv false l3 t0 = Ok a3 /\ solveStage sv false (lin c g1 g2) a3 = Ok b3 /\
    length (computed_values b1) = length (leaf_grids t) /\ length (computed_values b2) = length (leaf_grids t) /\
    computed_values b3 = lin_values c (computed_values b1) (computed_values b2).
Proof. exact @superposition_pf. Qed.
Print Assumptions superposition.

Example superposition_example :
  not_coarsened (fresh_tree (ex_tree 3)) /\
  (forall G, In G (leaf_grids (fresh_tree (ex_tree 3))) ->
     affine_solver 3 (toy 3) G /\ linear_solver 3 (toy 3) G /\ length (ex_load 3 G) = 9 /\ length (ones 9) = 9) /\
  well_posed 3 (toy 3) (problem (ex_load 3) (fresh_tree (ex_tree 3))).
Proof. exact @superposition_example_expf. Qed.
