(** Property theorems.  Proofs are in CompareProps.v; this file only restates the
    statements.  Written by tools/gen_thm.py. *)
From Coq Require Import Lqa.
From Verif Require Import Base VectorModel MatrixModel LinSpec HPSModel HPSSpec FVModel FVSpec StageSpec GlobalSpec AdaptSpec CompareSpec.
From Verif Require Import MatProofs MatProofs2 LinProofs Gauss LinProps HPSProofs HPSProofs3 HPSProofs4 HPSStage2 HPSTree HPSTree2 HPSProps.
From Verif Require Import FVProofs FVProofs2 FVProofs3 FVMax FVJoin FVGlobal FVFish FVProps FVCompare.
From Coq Require Import Lia.
From Verif Require Import CompareProps.

(** [C63] Comparison: with the signs of C57, smaller boundary data and larger
    f / alpha give a smaller solution. *)
Theorem comparison_holds : forall c G g1 g2 f1 f2 u1 u2,
  proper G -> right_signs c -> length g1 = length g2 -> length f1 = length f2 ->
  fv_solution c G g1 f1 u1 -> fv_solution c G g2 f2 u2 -> data_le G g1 g2 -> load_ge c G f1 f2 ->
  forall k, k < gnx G * gny G -> (vval u1 k <= vval u2 k)%Qc.
Proof. exact @comparison_holds_pf. Qed.
Print Assumptions comparison_holds.

(** [C63] Maximum principle: where f / alpha >= 0 the solution does not exceed a
    nonnegative bound of the boundary data; where f / alpha <= 0 it does not fall
    below a nonpositive bound. *)
Theorem bounds_hold : forall c G g f u K, proper G -> right_signs c ->
  length g = 2 * gny G + 2 * gnx G -> length f = gnx G * gny G -> fv_solution c G g f u ->
  ((0 <= K)%Qc -> (forall k, k < 2 * gny G + 2 * gnx G -> (vval g k <= K)%Qc) ->
   (forall i j, i < gnx G -> j < gny G -> (0 <= c_alpha c (mid_x G i) (mid_y G j) * cell G f i j)%Qc) ->
   each_cell (fun _ _ v => (v <= K)%Qc) G u) /\
  ((K <= 0)%Qc -> (forall k, k < 2 * gny G + 2 * gnx G -> (K <= vval g k)%Qc) ->
   (forall i j, i < gnx G -> j < gny G -> (c_alpha c (mid_x G i) (mid_y G j) * cell G f i j <= 0)%Qc) ->
   each_cell (fun _ _ v => (K <= v)%Qc) G u).
Proof. exact @bounds_hold_pf. Qed.
Print Assumptions bounds_hold.

(** [C63] The direct solver on a uniform mesh is monotone: of two runs, the one with
    smaller boundary data and larger f / alpha gives smaller values in all cells of
    all leaves. *)
Theorem direct_solver_monotone : forall m l lu c gesv rhs1 rhs2 xl xu yl yu s1 s2 t1 t2 st1 st2 g1 g2,
  2 <= m -> lu_contract lu -> gesv_contract gesv -> right_signs c -> (xl < xu)%Qc -> (yl < yu)%Qc ->
  let G := whole m l xl xu yl yu in
  uniform m l G s1 -> uniform m l G s2 -> fresh (sampled rhs1) s1 t1 -> fresh (sampled rhs2) s2 t2 ->
  length g1 = 4 * (m * 2 ^ l) -> length g2 = 4 * (m * 2 ^ l) ->
  Forall2 Qcle g1 g2 -> (forall x y, (c_alpha c x y * rhs2 x y <= c_alpha c x y * rhs1 x y)%Qc) ->
  exists b1 b2 sa ta sb tb v1 v2,
    buildStage (fv_solver lu c) gesv false st1 t1 = Ok (b1, sa) /\
    upwardsStage (fv_solver lu c) gesv false (sampled rhs1) sa = Ok ta /\
    solveStage (fv_solver lu c) false g1 ta = Ok v1 /\
    buildStage (fv_solver lu c) gesv false st2 t2 = Ok (b2, sb) /\
    upwardsStage (fv_solver lu c) gesv false (sampled rhs2) sb = Ok tb /\
    solveStage (fv_solver lu c) false g2 tb = Ok v2 /\
    Forall2 (Forall2 Qcle) (map snd (computed_values v1)) (map snd (computed_values v2)).
Proof. exact @direct_solver_monotone_pf. Qed.
Print Assumptions direct_solver_monotone.

(** [C63] Bounds for the direct solver on a uniform mesh. *)
Theorem direct_solver_bounded : forall m l lu c gesv rhs xl xu yl yu s t st g K,
  2 <= m -> lu_contract lu -> gesv_contract gesv -> right_signs c -> (xl < xu)%Qc -> (yl < yu)%Qc ->
  let G := whole m l xl xu yl yu in
  uniform m l G s -> fresh (sampled rhs) s t -> length g = 4 * (m * 2 ^ l) ->
  exists st1 t1 t2 t3,
    buildStage (fv_solver lu c) gesv false st t = Ok (st1, t1) /\
    upwardsStage (fv_solver lu c) gesv false (sampled rhs) t1 = Ok t2 /\
    solveStage (fv_solver lu c) false g t2 = Ok t3 /\
    ((0 <= K)%Qc -> (forall x y, (0 <= c_alpha c x y * rhs x y)%Qc) -> Forall (fun v => (v <= K)%Qc) g ->
     each_leaf_cell (fun _ _ v => (v <= K)%Qc) s (map snd (computed_values t3))) /\
    ((K <= 0)%Qc -> (forall x y, (c_alpha c x y * rhs x y <= 0)%Qc) -> Forall (fun v => (K <= v)%Qc) g ->
     each_leaf_cell (fun _ _ v => (K <= v)%Qc) s (map snd (computed_values t3))).
Proof. exact @direct_solver_bounded_pf. Qed.
Print Assumptions direct_solver_bounded.

(** Heat source in the unit square for every depth; the sign of alpha * f matters:
    f = 1 gives values below the boundary data 1. *)
Example bounded_example : forall l,
  let rhs := fun _ _ : Qc => 1%Qc in let G := whole 2 l 0 1 0 1 in let g := repeat 1%Qc (4 * (2 * 2 ^ l)) in
  right_signs (helmholtz (- (1))) /\ uniform 2 l G (divided rhs 2 l G) /\
  fresh (sampled rhs) (divided rhs 2 l G) (fresh_tree (divided rhs 2 l G)) /\ length g = 4 * (2 * 2 ^ l) /\
  (forall x y, (0 <= c_alpha (helmholtz (- (1))) x y * rhs x y)%Qc) /\ Forall (fun v => (v <= 1)%Qc) g.
Proof. exact @bounded_example_expf. Qed.
