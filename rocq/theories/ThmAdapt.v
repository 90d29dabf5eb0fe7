(** Property theorems.  Proofs are in AdaptProps.v; this file only restates the
    statements.  Written by tools/gen_thm.py. *)
From Verif Require Import Base VectorModel MatrixModel LinSpec HPSModel HPSSpec FVModel FVSpec GlobalSpec StageSpec AdaptSpec.
From Verif Require Import MatProofs MatProofs2 LinProofs Gauss LinProps HPSProofs HPSProofs3 HPSProofs4 HPSTree HPSTree2 HPSStage2 HPSProps.
From Verif Require Import FVProofs FVProofs2 FVProofs3 FVMax FVJoin FVGlobal FVFish FVProps AdaptCert AdaptProofs AdaptPlane AdaptEnd.
From Coq Require Import Lia.
From Verif Require Import AdaptProps.

(** [C60] Five-point patch solver, quadtree of any shape on which the glued problem is
    well posed.  When the boundary data are a linear function p + q x + r y in the
    middle of the root's boundary faces and the loads are the operator applied to it,
    the stages return that function on the boundary and in the cells of every leaf, and
    the flux at the root is q on west and east and r on south and north. *)
Theorem linear_exact : forall m lu c gesv G load s t st p q r,
  2 <= m -> lu_contract lu -> gesv_contract gesv -> right_signs c -> oriented (rect m G) -> tiled m G s ->
  fresh load s t -> well_posed m (fv_solver lu c) s -> 3 <= m \/ equal_levels s ->
  (forall G' f, In (G', f) (leaves s) -> plane_load c G' p q r f) ->
  let N := m * 2 ^ level s in
  let g := on_boundary (plane p q r) (rect N G) in
  exists st1 t1 t2 t3,
    buildStage (fv_solver lu c) gesv false st t = Ok (st1, t1) /\
    upwardsStage (fv_solver lu c) gesv false load t1 = Ok t2 /\
    solveStage (fv_solver lu c) false g t2 = Ok t3 /\
    computed_values t3 = map (fun z => (on_boundary (plane p q r) (fst z), sampled (plane p q r) (fst z))) (leaves s) /\
    vplus (apply_op (pT (data t2)) g) (ph (data t2)) = repeat q N ++ repeat q N ++ repeat r N ++ repeat r N.
Proof. exact @linear_exact_pf. Qed.
Print Assumptions linear_exact.

(** [C60] The same with FISHPACK. *)
Theorem linear_exact_fish : forall m hst c lam gesv G load s t st p q r,
  3 <= m -> hst_contract hst -> gesv_contract gesv ->
  (forall x y, c_alpha c x y = 1%Qc /\ c_beta c x y = 1%Qc /\ c_lambda c x y = lam) -> (lam <= 0)%Qc ->
  oriented (rect m G) -> tiled m G s -> fresh load s t -> well_posed m (fish_solver hst c) s ->
  (forall G' f, In (G', f) (leaves s) -> plane_load c G' p q r f) ->
  let N := m * 2 ^ level s in
  let g := on_boundary (plane p q r) (rect N G) in
  exists st1 t1 t2 t3,
    buildStage (fish_solver hst c) gesv false st t = Ok (st1, t1) /\
    upwardsStage (fish_solver hst c) gesv false load t1 = Ok t2 /\
    solveStage (fish_solver hst c) false g t2 = Ok t3 /\
    computed_values t3 = map (fun z => (on_boundary (plane p q r) (fst z), sampled (plane p q r) (fst z))) (leaves s) /\
    vplus (apply_op (pT (data t2)) g) (ph (data t2)) = repeat q N ++ repeat q N ++ repeat r N ++ repeat r N.
Proof. exact @linear_exact_fish_pf. Qed.
Print Assumptions linear_exact_fish.

(** [C61] Five-point patch solver, constant beta, quadtree of any shape on which the
    glued problem is well posed.  For all boundary data and loads, beta times the flux
    out of the root, integrated over its boundary faces, is the integral of
    (f - lambda u) / alpha over all cells of all leaves. *)
Theorem flux_balance : forall m lu c gesv G load s t st g b,
  2 <= m -> lu_contract lu -> gesv_contract gesv -> right_signs c -> (forall x y, c_beta c x y = b) ->
  oriented (rect m G) -> tiled m G s ->
  fresh load s t -> well_posed m (fv_solver lu c) s -> 3 <= m \/ equal_levels s ->
  length g = 4 * (m * 2 ^ level s) ->
  exists st1 t1 t2 t3,
    buildStage (fv_solver lu c) gesv false st t = Ok (st1, t1) /\
    upwardsStage (fv_solver lu c) gesv false load t1 = Ok t2 /\
    solveStage (fv_solver lu c) false g t2 = Ok t3 /\
    length (computed_values t3) = length (leaves s) /\
    (b * net_flux (rect (m * 2 ^ level s) G) (vplus (apply_op (pT (data t2)) g) (ph (data t2))))%Qc =
    total_source c (leaves s) (map snd (computed_values t3)).
Proof. exact @flux_balance_pf. Qed.
Print Assumptions flux_balance.

(** [C61] The same with FISHPACK. *)
Theorem flux_balance_fish : forall m hst c lam gesv G load s t st g,
  3 <= m -> hst_contract hst -> gesv_contract gesv ->
  (forall x y, c_alpha c x y = 1%Qc /\ c_beta c x y = 1%Qc /\ c_lambda c x y = lam) -> (lam <= 0)%Qc ->
  oriented (rect m G) -> tiled m G s -> fresh load s t -> well_posed m (fish_solver hst c) s ->
  length g = 4 * (m * 2 ^ level s) ->
  exists st1 t1 t2 t3,
    buildStage (fish_solver hst c) gesv false st t = Ok (st1, t1) /\
    upwardsStage (fish_solver hst c) gesv false load t1 = Ok t2 /\
    solveStage (fish_solver hst c) false g t2 = Ok t3 /\
    length (computed_values t3) = length (leaves s) /\
    net_flux (rect (m * 2 ^ level s) G) (vplus (apply_op (pT (data t2)) g) (ph (data t2))) =
    total_source c (leaves s) (map snd (computed_values t3)).
Proof. exact @flux_balance_fish_pf. Qed.
Print Assumptions flux_balance_fish.

Example adapted_example : forall rhs,
  lu_contract lu_gauss /\ hst_contract hst_gauss /\ gesv_contract gauss_gesv /\ right_signs (helmholtz 0) /\
  oriented (rect 3 unit_square) /\
  tiled 3 unit_square (adapted rhs 3 unit_square) /\
  fresh (sampled rhs) (adapted rhs 3 unit_square) (fresh_tree (adapted rhs 3 unit_square)) /\
  well_posed 3 (fv_solver lu_gauss (helmholtz 0)) (adapted rhs 3 unit_square) /\
  well_posed 3 (fish_solver hst_gauss (helmholtz 0)) (adapted rhs 3 unit_square) /\
  level (adapted rhs 3 unit_square) = 1 /\ length (leaves (adapted rhs 3 unit_square)) = 7.
Proof. exact @adapted_example_expf. Qed.

Example adapted_loads : forall p q r G f,
  In (G, f) (leaves (adapted (fun _ _ => 0%Qc) 3 unit_square)) -> plane_load (helmholtz 0) G p q r f.
Proof. exact @adapted_loads_expf. Qed.
