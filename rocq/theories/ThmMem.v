(** Property theorems.  Proofs are in MemProps.v; this file only restates the
    statements.  Written by tools/gen_thm.py. *)
From Verif Require Import Base VectorModel MatrixModel LinSpec HPSModel HPSSpec FVModel FVSpec GlobalSpec StageSpec MemModel MemSpec.
From Verif Require Import MatProofs MatProofs2 LinProofs Gauss LinProps HPSProofs HPSProofs3 HPSProofs4 HPSTree HPSTree2 HPSProps.
From Verif Require Import FVProofs FVProofs2 FVProofs3 FVMax FVJoin FVGlobal FVFish FVEnd FVProps MemProofs.
From Coq Require Import Lia.
From Verif Require Import MemProps.

(** [C77] On any quadtree, with any leaf solver that handles its leaves, the total
    reported after a build and one or more solves, each with its own load and
    boundary data, is 17 bytes per patch and 8 bytes per number of [stored]. *)
Theorem memory_exact : forall m sv gesv load s t st l,
  m <> 0 -> gesv_contract gesv -> cell_values m sv s -> fresh load s t -> blank_tree t ->
  good_leaves m sv s -> well_posed m sv s -> 3 <= m \/ equal_levels s ->
  (forall x, In x l -> load_fits m (fst x) s /\ length (snd x) = 4 * (m * 2 ^ level s)) -> l <> [] ->
  exists st1 t1 t', buildStage sv gesv false st t = Ok (st1, t1) /\ solve_again sv gesv l t1 = Ok t' /\
    size_MB 0 t' = (Qc_of_nat (17 * patch_count s + 8 * stored m 0 s) / Q2Qc (1048576 # 1))%Qc.
Proof. exact @memory_exact_pf. Qed.
Print Assumptions memory_exact.

(** [C77] N log N: with [N] cells in leaves of m x m cells and [h] levels of refinement
    these are at most (36 + 10/m) N h + (18 + 8/m) N numbers, and fewer than 4/3 patches
    per leaf. *)
Theorem memory_bound : forall m k s,
  m <> 0 ->
  let N := m * m * leaf_count s in
  m * stored m k s <= (36 * m + 10) * N * tree_height s + (18 * m + 8) * N /\
  3 * patch_count s < 4 * leaf_count s.
Proof. exact @memory_bound_pf. Qed.
Print Assumptions memory_bound.

(** [C77] With the finite volume solver on a uniformly refined rectangle, every depth
    [l], m x m cells in a leaf, N cells in all: the exact number. *)
Theorem memory_uniform : forall m l lu c gesv rhs xl xu yl yu s t st runs,
  2 <= m -> lu_contract lu -> gesv_contract gesv -> right_signs c -> (xl < xu)%Qc -> (yl < yu)%Qc ->
  uniform m l (whole m l xl xu yl yu) s -> fresh (sampled rhs) s t -> blank_tree t ->
  (forall x, In x runs -> load_fits m (fst x) s /\ length (snd x) = 4 * (m * 2 ^ l)) -> runs <> [] ->
  let N := m * m * 4 ^ l in
  exists st1 t1 t',
    buildStage (fv_solver lu c) gesv false st t = Ok (st1, t1) /\
    solve_again (fv_solver lu c) gesv runs t1 = Ok t' /\
    size_MB 0 t' = (Qc_of_nat (17 * ((4 * 4 ^ l - 1) / 3) + 8 * (36 * N * l + 18 * N + 18 * m * 4 ^ l - 10 * m * 2 ^ l)) / Q2Qc (1048576 # 1))%Qc.
Proof. exact @memory_uniform_pf. Qed.
Print Assumptions memory_uniform.

(** The hypotheses hold on a quadtree with local refinement, for two solves with
    different loads, and on every uniform one. *)
Example memory_example :
  let s := ex_tree 3 in let t := fresh_tree s in
  let l := [(ex_load 3, zeros 24); (fun _ => zeros 9, zeros 24)] in
  cell_values 3 (toy 3) s /\ fresh (ex_load 3) s t /\ blank_tree t /\ good_leaves 3 (toy 3) s /\ well_posed 3 (toy 3) s /\
  (forall x, In x l -> load_fits 3 (fst x) s /\ length (snd x) = 4 * (3 * 2 ^ level s)) /\
  stored 3 0 s = 3570 /\ patch_count s = 9.
Proof. exact @memory_example_expf. Qed.
