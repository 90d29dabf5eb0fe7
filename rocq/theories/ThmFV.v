(** Property theorems.  Proofs are in FVProps.v; this file only restates the
    statements.  Written by tools/gen_thm.py. *)
From Verif Require Import Base VectorModel MatrixModel LinSpec HPSModel HPSSpec StageSpec FVModel FVSpec GlobalSpec.
From Verif Require Import MatProofs MatProofs2 LinProofs Gauss LinProps BlockProofs.
From Verif Require Import HPSProofs HPSProofs2 HPSProofs3 HPSProofs4 HPSTree HPSTree2 HPSProps HPSStage2.
From Coq Require Import Lqa Lia.
From Verif Require Import FVProofs FVProofs2 FVProofs3 FVMax FVJoin FVGlobal FVFish FVRect FVEnd.
From Verif Require Import FVProps.

(** [C27] Row j + i*n of the assembled system applied to any cell values [u] is the
    discrete operator at the cell (i,j), with ghost cells around [u], minus the
    load. *)
Theorem five_point_system : forall c G n g f,
  proper G -> gnx G = n -> gny G = n -> 2 <= n -> length g = 4 * n -> length f = n * n ->
  exists A F, fv_system c G g f = Ok (A, F) /\ square (n * n) A /\ length F = n * n /\
  forall u E i j, length u = n * n -> ghosts G g u E -> i < n -> j < n ->
    (sum (n * n) (fun J => val A (j + i * n)%nat J * vval u J) - vval F (j + i * n)%nat
     = elliptic c G E i j - cell G f i j)%Qc.
Proof. exact @five_point_system_pf. Qed.
Print Assumptions five_point_system.

(** [C27] Every extension by ghost cells exists: any cell values and boundary values
    have one. *)
Theorem ghost_cells_exist : forall G g u,
  gnx G <> 0 -> gny G <> 0 -> exists E, ghosts G g u E.
Proof. exact @ghost_cells_exist_pf. Qed.
Print Assumptions ghost_cells_exist.

(** [C27] The returned solution is the solution of the discrete problem. *)
Theorem five_point_solution : forall lu c G n g f,
  lu_contract lu -> proper G -> fv_unique c G -> gnx G = n -> gny G = n -> 2 <= n ->
  length g = 4 * n -> length f = n * n ->
  exists u, fv_solve lu c G g f = Ok u /\ fv_solution c G g f u /\
  forall u', fv_solution c G g f u' -> u' = u.
Proof. exact @five_point_solution_pf. Qed.
Print Assumptions five_point_solution.

Example five_point_example :
  proper ex_patch /\ lu_contract lu_gauss /\
  match fv_system ex_coefs ex_patch ex_g ex_f with
  | Ok (A, F) => map this (dat A) = [-5747 # 256; 561 # 256; 51 # 8; 0; 561 # 256; -14451 # 256; 0; 119 # 8;
                                    75 # 8; 0; -12131 # 256; 1025 # 256; 0; 175 # 8; 1025 # 256; -24931 # 256]%Q /\
                   map this F = [-2677 # 128; -16711 # 128; -7275 # 64; -5593 # 16]%Q
  | _ => False
  end.
Proof. exact @five_point_example_expf. Qed.

(** [C28] The flux for data [g] and load [f] is buildD2N * g + particularNeumannData,
    for the five-point stencil. *)
Theorem flux_affine : forall lu c G n,
  lu_contract lu -> proper G -> fv_unique c G -> gnx G = n -> gny G = n -> 2 <= n ->
  exists T, fv_build (fv_map (fv_solve lu c)) G = Ok T /\ square (4 * n) T /\
  forall f, length f = n * n ->
    exists h, fv_h (fv_map (fv_solve lu c)) G f = Ok h /\ length h = 4 * n /\
    forall g, length g = 4 * n -> fv_map (fv_solve lu c) G g f = Ok (vplus (apply_op T g) h).
Proof. exact @flux_affine_pf. Qed.
Print Assumptions flux_affine.

(** [C28] The same for FISHPACK, with the equation it solves. *)
Theorem flux_affine_fish : forall hst c G n,
  hst_contract hst -> oriented G -> fv_unique (helmholtz (c_lambda c 0%Qc 0%Qc)) G -> gnx G = n -> gny G = n -> 3 <= n ->
  exists T, fv_build (fv_map (fish_solve hst c)) G = Ok T /\ square (4 * n) T /\
  forall f, length f = n * n ->
    exists h, fv_h (fv_map (fish_solve hst c)) G f = Ok h /\ length h = 4 * n /\
    forall g, length g = 4 * n -> fv_map (fish_solve hst c) G g f = Ok (vplus (apply_op T g) h).
Proof. exact @flux_affine_fish_pf. Qed.
Print Assumptions flux_affine_fish.

(** The hypotheses hold for the coefficients and the patch above; the flux depends
    on data and load. *)
Example flux_affine_example :
  lu_contract lu_gauss /\ hst_contract hst_gauss /\ oriented ex_patch /\ fv_unique ex_coefs ex_patch /\
  fv_unique (helmholtz (- (1))%Qc) ex_patch /\
  match fv_map (fv_solve lu_gauss ex_coefs) ex_patch ex_g ex_f with
  | Ok h => nth 0 (map this h) 0%Q = (1651898622767874 # 345476785802449)%Q
  | _ => False
  end.
Proof. exact @flux_affine_example_expf. Qed.

(** [C29] The flux is the one-sided difference in the positive coordinate direction
    on all four sides, whatever the patch solver. *)
Theorem flux_direction : forall solve G n g f u,
  gnx G = n -> gny G = n -> n <> 0 -> length g = 4 * n -> solve G g f = Ok u -> length u = n * n ->
  fv_map solve G g f = Ok (boundary_flux G g u).
Proof. exact @flux_direction_pf. Qed.
Print Assumptions flux_direction.

(** [C29] A face seen from both sides: two patches [L] and [R] with the same cell
    width share the values on L's east and R's west side.  Their fluxes agree there
    exactly if the shared value is the mean of the two neighbouring cells, and then
    both are the difference of these cells over the cell width. *)
Theorem shared_face : forall L R gl gr ul ur j,
  gny L = gny R -> j < gny L -> width_x L = width_x R -> width_x L <> 0%Qc -> east L gl j = west R gr j ->
  let a := cell L ul (gnx L - 1) j in let b := cell R ur 0 j in
  (vval (boundary_flux L gl ul) (gny L + j) = vval (boundary_flux R gr ur) j <-> east L gl j = ((a + b) / (1 + 1))%Qc) /\
  (east L gl j = ((a + b) / (1 + 1))%Qc -> vval (boundary_flux L gl ul) (gny L + j)%nat = ((b - a) / width_x L)%Qc).
Proof. exact @shared_face_pf. Qed.
Print Assumptions shared_face.

(** [C29] The same for a face between a lower and an upper patch. *)
Theorem shared_face_vertical : forall L U gl gu ul uu i,
  gnx L = gnx U -> i < gnx L -> width_y L = width_y U -> width_y L <> 0%Qc -> north L gl i = south U gu i ->
  let a := cell L ul i (gny L - 1) in let b := cell U uu i 0 in
  (vval (boundary_flux L gl ul) (2 * gny L + gnx L + i) = vval (boundary_flux U gu uu) (2 * gny U + i) <->
   north L gl i = ((a + b) / (1 + 1))%Qc) /\
  (north L gl i = ((a + b) / (1 + 1))%Qc ->
   vval (boundary_flux L gl ul) (2 * gny L + gnx L + i)%nat = ((b - a) / width_y L)%Qc).
Proof. exact @shared_face_vertical_pf. Qed.
Print Assumptions shared_face_vertical.

(** [C29] On a linear solution the flux is the exact derivative on all sides. *)
Theorem flux_exact_linear : forall lu c G n p q r g f,
  lu_contract lu -> proper G -> fv_unique c G -> gnx G = n -> gny G = n -> 2 <= n ->
  length g = 4 * n -> length f = n * n -> plane_data G p q r g -> plane_load c G p q r f ->
  (exists u, fv_solve lu c G g f = Ok u /\ forall i j, i < n -> j < n -> cell G u i j = plane p q r (mid_x G i) (mid_y G j)) /\
  fv_map (fv_solve lu c) G g f = Ok (repeat q n ++ repeat q n ++ repeat r n ++ repeat r n).
Proof. exact @flux_exact_linear_pf. Qed.
Print Assumptions flux_exact_linear.

Example flux_linear_example :
  proper ex_patch /\
  match fv_map (fv_solve lu_gauss lin_coefs) ex_patch lin_g lin_f with
  | Ok h => map this h = [2; 2; 2; 2; 3; 3; 3; 3]%Q
  | _ => False
  end.
Proof. exact @flux_linear_example_expf. Qed.

(** [C30] alpha = beta = 1 and constant lambda: both patch solvers return the same
    vector, the solution of the discrete problem. *)
Theorem solvers_agree_partial : forall lu hst c lam G n g f,
  lu_contract lu -> hst_contract hst ->
  (forall x y, c_alpha c x y = 1%Qc /\ c_beta c x y = 1%Qc /\ c_lambda c x y = lam) ->
  oriented G -> fv_unique c G -> gnx G = n -> gny G = n -> 3 <= n -> length g = 4 * n -> length f = n * n ->
  exists u, fv_solve lu c G g f = Ok u /\ fish_solve hst c G g f = Ok u /\ fv_solution c G g f u.
Proof. exact @solvers_agree_partial_pf. Qed.
Print Assumptions solvers_agree_partial.

(** [C30] Diffusion 2 instead of 1: the FISHPACK branch returns a vector that does not
    solve the equation, whatever routine is behind it. *)
Theorem solvers_agree_refuted : exists c G g f,
  oriented G /\ gnx G = gny G /\ 3 <= gnx G /\ right_signs c /\ length g = 4 * gnx G /\ length f = gnx G * gnx G /\
  forall hst, hst_contract hst ->
    exists u, fish_solve hst c G g f = Ok u /\ ~ fv_solution c G g f u.
Proof. exact @solvers_agree_refuted_pf. Qed.
Print Assumptions solvers_agree_refuted.

(** [C30] So does a lambda that is not constant: only its value at the origin counts. *)
Theorem solvers_agree_lambda_refuted : exists c G g f,
  oriented G /\ gnx G = gny G /\ 3 <= gnx G /\ right_signs c /\
  (forall x y, c_alpha c x y = 1%Qc /\ c_beta c x y = 1%Qc) /\ length g = 4 * gnx G /\ length f = gnx G * gnx G /\
  forall hst, hst_contract hst ->
    exists u, fish_solve hst c G g f = Ok u /\ ~ fv_solution c G g f u.
Proof. exact @solvers_agree_lambda_refuted_pf. Qed.
Print Assumptions solvers_agree_lambda_refuted.

(** [C31] Square patches, with different cell widths in x and y, are solved; this is
    what is left of the claim. *)
Theorem rectangular_partial : forall lu c G g f,
  lu_contract lu -> proper G -> fv_unique c G -> gnx G = gny G -> 2 <= gnx G ->
  length g = 2 * gny G + 2 * gnx G -> length f = gnx G * gny G ->
  exists u h, fv_solve lu c G g f = Ok u /\ fv_solution c G g f u /\
              fv_map (fv_solve lu c) G g f = Ok h /\ h = boundary_flux G g u.
Proof. exact @rectangular_partial_pf. Qed.
Print Assumptions rectangular_partial.

(** [C31] Every patch whose sides have different numbers of cells is rejected with an
    exception (more cells in x) or read past the end of the boundary data (more
    cells in y). *)
Theorem rectangular_refuted : forall nx ny, 2 <= nx -> 2 <= ny -> nx <> ny ->
  exists G g f, gnx G = nx /\ gny G = ny /\ proper G /\ length g = 2 * ny + 2 * nx /\ length f = nx * ny /\
  forall lu c, fv_solve lu c G g f = (if ny <? nx then Throw out_of_range else UB).
Proof. exact @rectangular_refuted_pf. Qed.
Print Assumptions rectangular_refuted.

(** [C31] The same for every such patch and all data. *)
Theorem rectangular_rejected : forall lu c G g f,
  2 <= gnx G -> 2 <= gny G -> gnx G <> gny G -> length g = 2 * gny G + 2 * gnx G -> length f = gnx G * gny G ->
  fv_solve lu c G g f = (if gny G <? gnx G then Throw out_of_range else UB).
Proof. exact @rectangular_rejected_pf. Qed.
Print Assumptions rectangular_rejected.

(** [C57] The discrete problem on a rectangle has at most one solution when beta > 0,
    alpha does not vanish and alpha * lambda <= 0. *)
Theorem unique_by_signs : forall c G, proper G -> right_signs c -> fv_unique c G.
Proof. exact @unique_by_signs_pf. Qed.
Print Assumptions unique_by_signs.

(** [C57] So the five-point patch solver always finds it. *)
Theorem solvable_by_signs : forall lu c G n g f,
  lu_contract lu -> proper G -> right_signs c -> gnx G = n -> gny G = n -> 2 <= n ->
  length g = 4 * n -> length f = n * n ->
  exists u, fv_solve lu c G g f = Ok u /\ fv_solution c G g f u /\ forall u', fv_solution c G g f u' -> u' = u.
Proof. exact @solvable_by_signs_pf. Qed.
Print Assumptions solvable_by_signs.

(** A sign condition is needed: 2 by 2 cells on the unit square, lambda = 16. *)
Example unique_by_signs_example :
  right_signs ex_coefs /\
  exists u, fv_solution (helmholtz (Qc_of_nat 16)) (Grid 2 2 0 1 0 1)%Qc (zeros 8) (zeros 4) u /\ u <> zeros 4.
Proof. exact @unique_by_signs_example_expf. Qed.

(** [C58] The direct solver with the five-point patch solver on a uniformly refined
    rectangle: all stages succeed, the leaf solutions are the blocks of the one
    solution of the discrete problem on the whole rectangle, and operator and flux at
    the root are those of the whole rectangle. *)
Theorem direct_solver_exact : forall m l lu c gesv rhs xl xu yl yu s t st g,
  2 <= m -> lu_contract lu -> gesv_contract gesv -> right_signs c -> (xl < xu)%Qc -> (yl < yu)%Qc ->
  let G := whole m l xl xu yl yu in
  uniform m l G s -> fresh (sampled rhs) s t -> length g = 4 * (m * 2 ^ l) ->
  exists st1 t1 t2 t3 u,
    buildStage (fv_solver lu c) gesv false st t = Ok (st1, t1) /\
    upwardsStage (fv_solver lu c) gesv false (sampled rhs) t1 = Ok t2 /\
    solveStage (fv_solver lu c) false g t2 = Ok t3 /\
    map snd (computed_values t3) = scatter m l u /\
    fv_solution c G g (sampled rhs G) u /\ (forall u', fv_solution c G g (sampled rhs G) u' -> u' = u) /\
    boundary_flux G g u = vplus (apply_op (pT (data t2)) g) (ph (data t2)).
Proof. exact @direct_solver_exact_pf. Qed.
Print Assumptions direct_solver_exact.

(** [C58] The same with FISHPACK, for alpha = beta = 1 and a constant lambda <= 0. *)
Theorem direct_solver_exact_fish : forall m l hst c lam gesv rhs xl xu yl yu s t st g,
  3 <= m -> hst_contract hst -> gesv_contract gesv ->
  (forall x y, c_alpha c x y = 1%Qc /\ c_beta c x y = 1%Qc /\ c_lambda c x y = lam) -> (lam <= 0)%Qc -> (xl < xu)%Qc -> (yl < yu)%Qc ->
  let G := whole m l xl xu yl yu in
  uniform m l G s -> fresh (sampled rhs) s t -> length g = 4 * (m * 2 ^ l) ->
  exists st1 t1 t2 t3 u,
    buildStage (fish_solver hst c) gesv false st t = Ok (st1, t1) /\
    upwardsStage (fish_solver hst c) gesv false (sampled rhs) t1 = Ok t2 /\
    solveStage (fish_solver hst c) false g t2 = Ok t3 /\
    map snd (computed_values t3) = scatter m l u /\
    fv_solution c G g (sampled rhs G) u /\ (forall u', fv_solution c G g (sampled rhs G) u' -> u' = u) /\
    boundary_flux G g u = vplus (apply_op (pT (data t2)) g) (ph (data t2)).
Proof. exact @direct_solver_exact_fish_pf. Qed.
Print Assumptions direct_solver_exact_fish.

Example direct_solver_exact_example : forall l,
  let rhs := fun x y : Qc => (x + y)%Qc in let G := whole 2 l 0 1 0 (1 + 1)%Qc in
  lu_contract lu_gauss /\ hst_contract hst_gauss /\ gesv_contract gauss_gesv /\ right_signs ex_coefs /\
  uniform 2 l G (divided rhs 2 l G) /\ fresh (sampled rhs) (divided rhs 2 l G) (fresh_tree (divided rhs 2 l G)).
Proof. exact @direct_solver_exact_example_expf. Qed.

(** The hypotheses of the agreement of the two solvers. *)
Example solvers_agree_example :
  lu_contract lu_gauss /\ hst_contract hst_gauss /\ oriented (Grid 3 3 0 1 0 1)%Qc /\
  fv_unique (helmholtz (- (1))%Qc) (Grid 3 3 0 1 0 1)%Qc.
Proof. exact @solvers_agree_example_expf. Qed.
