(** Property theorems.  Proofs are in MixProps.v; this file only restates the
    statements.  Written by tools/gen_thm.py. *)
From Coq Require Import Lqa.
From Verif Require Import Base VectorModel MatrixModel LinSpec HPSModel HPSSpec FVModel FVSpec StageSpec GlobalSpec AdaptSpec CompareSpec ConvSpec MixSpec.
From Verif Require Import MatProofs MatProofs2 LinProofs Gauss LinProps HPSProofs HPSProofs3 HPSProofs4 HPSStage2 HPSTree HPSTree2 HPSHistory HPSRebuild HPSProps StageProps.
From Verif Require Import FVProofs FVProofs2 FVProofs3 FVMax FVJoin FVGlobal FVFish FVEnd FVProps FVCompare CompareProps ConvProofs ConvProps FVMixed.
From Coq Require Import Lia.
From Verif Require Import MixProps.

(** [C65] The solver started from a load function and mixed boundary conditions (five
    point patches): all stages succeed; boundary data and leaf values are the one
    solution of the discrete problem that satisfies the conditions in all boundary
    faces. *)
Theorem mixed_exact : forall m l lu c gesv rhs xl xu yl yu s t st a b r,
  2 <= m -> lu_contract lu -> gesv_contract gesv -> right_signs c -> (xl < xu)%Qc -> (yl < yu)%Qc ->
  let N := m * 2 ^ l in let G := whole m l xl xu yl yu in
  uniform m l G s -> fresh (sampled rhs) s t -> admissible c N G a b ->
  exists st1 t1 t2 t3 u g,
    buildStage (fv_solver lu c) gesv false st t = Ok (st1, t1) /\
    upwardsStage_fn (fv_solver lu c) gesv false rhs t1 = Ok t2 /\
    solveStage_fn (fv_solver lu c) gesv false a b r t2 = Ok t3 /\
    map snd (computed_values t3) = scatter m l u /\ length g = 4 * N /\
    fv_solution c G g (sampled rhs G) u /\ mixed_condition N G a b r g (boundary_flux G g u) /\
    forall g' u', length g' = 4 * N -> fv_solution c G g' (sampled rhs G) u' ->
      mixed_condition N G a b r g' (boundary_flux G g' u') -> g' = g /\ u' = u.
Proof. exact @mixed_exact_pf. Qed.
Print Assumptions mixed_exact.

(** [C65] The same with FISHPACK patches, alpha = 1 and lambda <= 0. *)
Theorem mixed_exact_fish : forall m l hst c lam gesv rhs xl xu yl yu s t st a b r,
  3 <= m -> hst_contract hst -> gesv_contract gesv ->
  (forall x y, c_alpha c x y = 1%Qc /\ c_beta c x y = 1%Qc /\ c_lambda c x y = lam) -> (lam <= 0)%Qc ->
  (xl < xu)%Qc -> (yl < yu)%Qc ->
  let N := m * 2 ^ l in let G := whole m l xl xu yl yu in
  uniform m l G s -> fresh (sampled rhs) s t -> admissible c N G a b ->
  exists st1 t1 t2 t3 u g,
    buildStage (fish_solver hst c) gesv false st t = Ok (st1, t1) /\
    upwardsStage_fn (fish_solver hst c) gesv false rhs t1 = Ok t2 /\
    solveStage_fn (fish_solver hst c) gesv false a b r t2 = Ok t3 /\
    map snd (computed_values t3) = scatter m l u /\ length g = 4 * N /\
    fv_solution c G g (sampled rhs G) u /\ mixed_condition N G a b r g (boundary_flux G g u) /\
    forall g' u', length g' = 4 * N -> fv_solution c G g' (sampled rhs G) u' ->
      mixed_condition N G a b r g' (boundary_flux G g' u') -> g' = g /\ u' = u.
Proof. exact @mixed_exact_fish_pf. Qed.
Print Assumptions mixed_exact_fish.

(** [C65] The program of the examples, started from functions: for the boundary values
    of [V] and its load, the values in all leaf cells are within C / 4^l of [V]. *)
Theorem program_error : forall m l lu c gesv xl xu yl yu s t st V Vxx Vyy M2 M4,
  2 <= m -> lu_contract lu -> gesv_contract gesv -> right_signs c -> (forall x y, c_beta c x y = 1%Qc) ->
  (xl < xu)%Qc -> (yl < yu)%Qc ->
  let rhs := fun x y => (c_alpha c x y * (Vxx x y + Vyy x y) + c_lambda c x y * V x y)%Qc in
  uniform m l (whole m l xl xu yl yu) s -> fresh (sampled rhs) s t ->
  tame V Vxx Vyy M2 M4 (whole m 0 xl xu yl yu) -> (0 <= M2)%Qc -> (0 <= M4)%Qc ->
  exists st1 t1 t2 t3,
    buildStage (fv_solver lu c) gesv false st t = Ok (st1, t1) /\
    upwardsStage_fn (fv_solver lu c) gesv false rhs t1 = Ok t2 /\
    solveStage_fn (fv_solver lu c) gesv false (fun _ _ _ => 1%Qc) (fun _ _ _ => 0%Qc) (fun _ => V) t2 = Ok t3 /\
    each_leaf_cell (fun x y v => within (bound m l xl xu yl yu M2 M4 0 0) (v - V x y)) s (map snd (computed_values t3)).
Proof. exact @program_error_pf. Qed.
Print Assumptions program_error.

Example neumann_kernel : forall m l b, m <> 0 ->
  let N := m * 2 ^ l in let G := whole m l 0 1 0 1 in
  exists u, fv_solution (helmholtz 0) G (repeat 1%Qc (4 * N)) (zeros (N * N)) u /\
    mixed_condition N G (fun _ _ _ => 0%Qc) b (fun _ _ _ => 0%Qc) (repeat 1%Qc (4 * N)) (boundary_flux G (repeat 1%Qc (4 * N)) u).
Proof. exact @neumann_kernel_expf. Qed.

Example mixed_exact_example : forall l,
  let G := whole 2 l 0 1 0 1 in let rhs := fun x y : Qc => (x + y)%Qc in
  admissible (helmholtz 0) (2 * 2 ^ l) G ex_a ex_b /\ right_signs (helmholtz 0) /\
  uniform 2 l G (divided rhs 2 l G) /\ fresh (sampled rhs) (divided rhs 2 l G) (fresh_tree (divided rhs 2 l G)).
Proof. exact @mixed_exact_example_expf. Qed.
