(** Property theorems.  Proofs are in ConvProps.v; this file only restates the
    statements.  Written by tools/gen_thm.py. *)
From Coq Require Import Lqa Qround.
From Verif Require Import Base VectorModel MatrixModel LinSpec HPSModel HPSSpec FVModel FVSpec StageSpec GlobalSpec AdaptSpec CompareSpec ConvSpec.
From Verif Require Import MatProofs MatProofs2 LinProofs Gauss LinProps HPSProofs HPSProofs3 HPSProofs4 HPSStage2 HPSTree HPSTree2 HPSProps.
From Verif Require Import FVProofs FVProofs2 FVProofs3 FVMax FVJoin FVGlobal FVFish FVProps FVCompare CompareProps ConvProofs.
From Coq Require Import Lia.
From Verif Require Import ConvProps.

(** [C64] The error of a discrete solution is bounded by its residual. *)
Theorem error_by_residual : forall c G V K F g f u,
  oriented G -> right_signs c -> (forall x y, c_beta c x y = 1%Qc) ->
  length g = 2 * gny G + 2 * gnx G -> length f = gnx G * gny G -> fv_solution c G g f u -> (0 <= F)%Qc -> (0 <= K)%Qc ->
  each_face (fun v x y => within K (v - across_x V G x y)) (fun v x y => within K (v - across_y V G x y)) G g ->
  each_cell (fun x y v => within F (residual c V G x y v)) G f ->
  let L := (gxu G - gxl G)%Qc in
  each_cell (fun x y v => within (K + F * ((L * L + width_x G * width_x G) / ((1 + 1) * (1 + 1) * (1 + 1)))) (v - V x y)) G u.
Proof. exact @error_by_residual_pf. Qed.
Print Assumptions error_by_residual.

(** [C64] Second order: on a mesh of 2^l by 2^l leaves the direct solver is, in every
    cell of every leaf, within [bound] of a function with bounded difference quotients
    whose data it is given. *)
Theorem direct_solver_error : forall m l lu c gesv rhs xl xu yl yu s t st g V Vxx Vyy M2 M4 eg ef,
  2 <= m -> lu_contract lu -> gesv_contract gesv -> right_signs c -> (forall x y, c_beta c x y = 1%Qc) ->
  (xl < xu)%Qc -> (yl < yu)%Qc ->
  let G := whole m l xl xu yl yu in
  uniform m l G s -> fresh (sampled rhs) s t -> length g = 4 * (m * 2 ^ l) ->
  tame V Vxx Vyy M2 M4 (whole m 0 xl xu yl yu) -> (0 <= M2)%Qc -> (0 <= M4)%Qc -> (0 <= eg)%Qc -> (0 <= ef)%Qc ->
  each_face (fun v x y => within eg (v - V x y)) (fun v x y => within eg (v - V x y)) G g ->
  each_cell (fun x y _ => within ef ((rhs x y - c_lambda c x y * V x y) / c_alpha c x y - (Vxx x y + Vyy x y))) G [] ->
  exists st1 t1 t2 t3,
    buildStage (fv_solver lu c) gesv false st t = Ok (st1, t1) /\
    upwardsStage (fv_solver lu c) gesv false (sampled rhs) t1 = Ok t2 /\
    solveStage (fv_solver lu c) false g t2 = Ok t3 /\
    each_leaf_cell (fun x y v => within (bound m l xl xu yl yu M2 M4 eg ef) (v - V x y)) s (map snd (computed_values t3)).
Proof. exact @direct_solver_error_pf. Qed.
Print Assumptions direct_solver_error.

(** [C64] The same with the FISHPACK patch solver, alpha = 1 and lambda <= 0. *)
Theorem direct_solver_error_fish : forall m l hst c lam gesv rhs xl xu yl yu s t st g V Vxx Vyy M2 M4 eg ef,
  3 <= m -> hst_contract hst -> gesv_contract gesv ->
  (forall x y, c_alpha c x y = 1%Qc /\ c_beta c x y = 1%Qc /\ c_lambda c x y = lam) -> (lam <= 0)%Qc ->
  (xl < xu)%Qc -> (yl < yu)%Qc ->
  let G := whole m l xl xu yl yu in
  uniform m l G s -> fresh (sampled rhs) s t -> length g = 4 * (m * 2 ^ l) ->
  tame V Vxx Vyy M2 M4 (whole m 0 xl xu yl yu) -> (0 <= M2)%Qc -> (0 <= M4)%Qc -> (0 <= eg)%Qc -> (0 <= ef)%Qc ->
  each_face (fun v x y => within eg (v - V x y)) (fun v x y => within eg (v - V x y)) G g ->
  each_cell (fun x y _ => within ef (rhs x y - lam * V x y - (Vxx x y + Vyy x y))) G [] ->
  exists st1 t1 t2 t3,
    buildStage (fish_solver hst c) gesv false st t = Ok (st1, t1) /\
    upwardsStage (fish_solver hst c) gesv false (sampled rhs) t1 = Ok t2 /\
    solveStage (fish_solver hst c) false g t2 = Ok t3 /\
    each_leaf_cell (fun x y v => within (bound m l xl xu yl yu M2 M4 eg ef) (v - V x y)) s (map snd (computed_values t3)).
Proof. exact @direct_solver_error_fish_pf. Qed.
Print Assumptions direct_solver_error_fish.

(** [C64] Convergence: with exact boundary data and load, every tolerance is met from
    some level on. *)
Theorem error_vanishes : forall m xl xu yl yu M2 M4 eps, m <> 0 -> (0 < eps)%Qc ->
  exists l0, forall l, l0 <= l -> (bound m l xl xu yl yu M2 M4 0 0 <= eps)%Qc.
Proof. exact @error_vanishes_pf. Qed.
Print Assumptions error_vanishes.

(** x^4 on the unit square, laplacian 12 x^2: all hypotheses hold at every level. *)
Example quartic_example : 
  let V := fun x _ : Qc => (x * x * (x * x))%Qc in
  let Vxx := fun x _ : Qc => (Qc_of_nat 12 * (x * x))%Qc in
  let Vyy := fun _ _ : Qc => 0%Qc in
  tame V Vxx Vyy (Qc_of_nat 14) (Qc_of_nat 2) (whole 2 0 0 1 0 1) /\ right_signs (helmholtz 0) /\
  (forall l, let G := whole 2 l 0 1 0 1 in
    each_cell (fun x y _ => within 0 ((Vxx x y - c_lambda (helmholtz 0) x y * V x y) / c_alpha (helmholtz 0) x y - (Vxx x y + Vyy x y))) G [] /\
    uniform 2 l G (divided Vxx 2 l G) /\ fresh (sampled Vxx) (divided Vxx 2 l G) (fresh_tree (divided Vxx 2 l G)) /\
    exists g, length g = 4 * (2 * 2 ^ l) /\
      each_face (fun v x y => within 0 (v - V x y)) (fun v x y => within 0 (v - V x y)) G g).
Proof. exact @quartic_example_expf. Qed.
