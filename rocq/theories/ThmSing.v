(** Property theorems.  Proofs are in SingProps.v; this file only restates the
    statements.  Written by tools/gen_thm.py. *)
From Verif Require Import Base VectorModel MatrixModel LinSpec HPSModel HPSSpec FVModel FVSpec GlobalSpec StageSpec AdaptSpec SingSpec.
From Verif Require Import MatProofs MatProofs2 LinProofs Gauss LinProps HPSProofs HPSProofs3 HPSProofs4 HPSTree HPSTree2 HPSStage2 HPSProps.
From Verif Require Import FVProofs FVProofs2 FVProofs3 FVMax FVJoin FVGlobal FVFish FVProps AdaptCert AdaptProofs AdaptPlane AdaptEnd AdaptProps SingProofs.
From Coq Require Import Lia.
From Verif Require Import SingProps.

(** [C75] The coefficients have the signs of C57 and every leaf problem is uniquely
    solvable, but where a quarter of the unit square is divided once more the glued
    problem is not: without load and with zero boundary data it has a solution that is
    not zero. *)
Theorem refined_mesh_posed_refuted : exists c G s,
  right_signs c /\ oriented (rect 3 G) /\ tiled 3 G s /\ level s = 1 /\ length (leaves s) = 7 /\
  (forall G' f, In (G', f) (leaves s) -> fv_unique c G' /\ f = zeros 9) /\
  forall lu, lu_contract lu ->
    ~ well_posed 3 (fv_solver lu c) s /\
    exists U h, glued 3 (solver_leaf (fv_solver lu c)) s (zeros 24) h U /\
      exists g u, In (g, u) (leaf_values U) /\ u <> zeros 9.
Proof. exact @refined_mesh_posed_refuted_pf. Qed.
Print Assumptions refined_mesh_posed_refuted.

(** [C75] Without a change of resolution it is: every depth of uniform refinement and
    all coefficients with the signs of C57. *)
Theorem uniform_mesh_posed_partial : forall m l lu c xl xu yl yu s,
  2 <= m -> lu_contract lu -> right_signs c -> (xl < xu)%Qc -> (yl < yu)%Qc ->
  uniform m l (whole m l xl xu yl yu) s -> well_posed m (fv_solver lu c) s.
Proof. exact @uniform_mesh_posed_partial_pf. Qed.
Print Assumptions uniform_mesh_posed_partial.

(** [C76] On a uniformly refined rectangle the flux beta du/dn out of the root,
    integrated over its boundary, is the integral of (f - lambda u) / alpha over all
    cells, for every beta. *)
Theorem uniform_balance_partial : forall m l lu c gesv rhs xl xu yl yu s t st g,
  2 <= m -> lu_contract lu -> gesv_contract gesv -> right_signs c -> (xl < xu)%Qc -> (yl < yu)%Qc ->
  let G := whole m l xl xu yl yu in
  uniform m l G s -> fresh (sampled rhs) s t -> length g = 4 * (m * 2 ^ l) ->
  exists st1 t1 t2 t3 u,
    buildStage (fv_solver lu c) gesv false st t = Ok (st1, t1) /\
    upwardsStage (fv_solver lu c) gesv false (sampled rhs) t1 = Ok t2 /\
    solveStage (fv_solver lu c) false g t2 = Ok t3 /\
    map snd (computed_values t3) = scatter m l u /\
    weighted_flux c G (vplus (apply_op (pT (data t2)) g) (ph (data t2))) = leaf_source c G (sampled rhs G) u.
Proof. exact @uniform_balance_partial_pf. Qed.
Print Assumptions uniform_balance_partial.

(** The hypotheses hold at every depth with beta = 1 + y^2. *)
Example uniform_balance_example : forall l,
  let rhs := fun x y : Qc => (x + y)%Qc in let G := whole 2 l 0 1 0 (1 + 1)%Qc in
  lu_contract lu_gauss /\ gesv_contract gauss_gesv /\ right_signs bowl /\
  uniform 2 l G (divided rhs 2 l G) /\ fresh (sampled rhs) (divided rhs 2 l G) (fresh_tree (divided rhs 2 l G)).
Proof. exact @uniform_balance_example_expf. Qed.

(** [C76] Where the resolution changes it is not: difference quotients are averaged,
    not fluxes.  The seven leaves again, beta = 1 + y^2.  Whatever the stages return
    on this well-posed or ill-posed problem, the equations they solve have a solution
    out of balance, and if there is only one the stages return it. *)
Theorem refined_balance_refuted : exists c G s g,
  right_signs c /\ oriented (rect 3 G) /\ tiled 3 G s /\ level s = 1 /\ length g = 24 /\
  forall lu, lu_contract lu ->
    (exists U h, glued 3 (solver_leaf (fv_solver lu c)) s g h U /\
       weighted_flux c (rect 6 G) h <> total_source c (leaves s) (map snd (leaf_values U))) /\
    forall gesv load t st, gesv_contract gesv -> fresh load s t -> well_posed 3 (fv_solver lu c) s ->
      exists st1 t1 t2 t3,
        buildStage (fv_solver lu c) gesv false st t = Ok (st1, t1) /\
        upwardsStage (fv_solver lu c) gesv false load t1 = Ok t2 /\
        solveStage (fv_solver lu c) false g t2 = Ok t3 /\
        weighted_flux c (rect 6 G) (vplus (apply_op (pT (data t2)) g) (ph (data t2))) <>
        total_source c (leaves s) (map snd (computed_values t3)).
Proof. exact @refined_balance_refuted_pf. Qed.
Print Assumptions refined_balance_refuted.
