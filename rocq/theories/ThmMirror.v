(** Property theorems.  Proofs are in MirrorProps.v; this file only restates the
    statements.  Written by tools/gen_thm.py. *)
From Verif Require Import Base VectorModel MatrixModel LinSpec HPSModel HPSSpec FVModel FVSpec GlobalSpec StageSpec AdaptSpec MirrorSpec.
From Verif Require Import MatProofs MatProofs2 LinProofs Gauss LinProps HPSProofs HPSProofs3 HPSProofs4 HPSTree HPSTree2 HPSStage2 HPSRebuild HPSProps.
From Verif Require Import FVProofs FVProofs2 FVProofs3 FVMax FVJoin FVGlobal FVFish FVProps AdaptCert AdaptProofs AdaptPlane AdaptEnd AdaptProps MirrorProofs.
From Coq Require Import Lia.
From Verif Require Import MirrorProps.

(** [C92] Five-point patch solver, coefficients that vary, quadtree of any shape.  The
    mirrored (or exchanged) problem is solved as well, and every leaf of it gets the
    mirrored values of the leaf it is the image of.  The fluxes at the root are mirrored
    too. *)
Theorem mirrored_domain : forall s m lu lu' c c' gesv gesv' G load load' q t t' st st' g,
  2 <= m -> lu_contract lu -> lu_contract lu' -> gesv_contract gesv -> gesv_contract gesv' ->
  right_signs c -> sym_coefs s c c' ->
  oriented (rect m G) -> tiled m G q -> fresh load q t -> fresh load' (sym_tree s m q) t' ->
  well_posed m (fv_solver lu c) q -> 3 <= m \/ equal_levels q -> length g = 4 * (m * 2 ^ level q) ->
  let n := m * 2 ^ level q in let g' := sym_data s n g in
  exists st1 t1 t2 t3 st1' t1' t2' t3',
    buildStage (fv_solver lu c) gesv false st t = Ok (st1, t1) /\
    upwardsStage (fv_solver lu c) gesv false load t1 = Ok t2 /\
    solveStage (fv_solver lu c) false g t2 = Ok t3 /\
    buildStage (fv_solver lu' c') gesv' false st' t' = Ok (st1', t1') /\
    upwardsStage (fv_solver lu' c') gesv' false load' t1' = Ok t2' /\
    solveStage (fv_solver lu' c') false g' t2' = Ok t3' /\
    length (computed_values t3) = length (leaves q) /\
    computed_values t3' = sym_values s m q (computed_values t3) /\
    vplus (apply_op (pT (data t2')) g') (ph (data t2')) = sym_flux s n (vplus (apply_op (pT (data t2)) g) (ph (data t2))).
Proof. exact @mirrored_domain_pf. Qed.
Print Assumptions mirrored_domain.

(** [C92] The mirrored problem is well posed when the first one is. *)
Theorem mirrored_well_posed : forall s m lu lu' c c' G q,
  2 <= m -> lu_contract lu -> lu_contract lu' -> right_signs c -> sym_coefs s c c' ->
  oriented (rect m G) -> tiled m G q -> 3 <= m \/ equal_levels q ->
  well_posed m (fv_solver lu c) q -> well_posed m (fv_solver lu' c') (sym_tree s m q).
Proof. exact @mirrored_well_posed_pf. Qed.
Print Assumptions mirrored_well_posed.

(** [C92] The same with FISHPACK, whose equation is its own mirror image. *)
Theorem mirrored_domain_fish : forall s m hst hst' c lam gesv gesv' G load load' q t t' st st' g,
  3 <= m -> hst_contract hst -> hst_contract hst' -> gesv_contract gesv -> gesv_contract gesv' ->
  (forall x y, c_alpha c x y = 1%Qc /\ c_beta c x y = 1%Qc /\ c_lambda c x y = lam) -> (lam <= 0)%Qc ->
  oriented (rect m G) -> tiled m G q -> fresh load q t -> fresh load' (sym_tree s m q) t' ->
  well_posed m (fish_solver hst c) q -> length g = 4 * (m * 2 ^ level q) ->
  let n := m * 2 ^ level q in let g' := sym_data s n g in
  exists st1 t1 t2 t3 st1' t1' t2' t3',
    buildStage (fish_solver hst c) gesv false st t = Ok (st1, t1) /\
    upwardsStage (fish_solver hst c) gesv false load t1 = Ok t2 /\
    solveStage (fish_solver hst c) false g t2 = Ok t3 /\
    buildStage (fish_solver hst' c) gesv' false st' t' = Ok (st1', t1') /\
    upwardsStage (fish_solver hst' c) gesv' false load' t1' = Ok t2' /\
    solveStage (fish_solver hst' c) false g' t2' = Ok t3' /\
    length (computed_values t3) = length (leaves q) /\
    computed_values t3' = sym_values s m q (computed_values t3) /\
    vplus (apply_op (pT (data t2')) g') (ph (data t2')) = sym_flux s n (vplus (apply_op (pT (data t2)) g) (ph (data t2))).
Proof. exact @mirrored_domain_fish_pf. Qed.
Print Assumptions mirrored_domain_fish.

(** [C92] The mirrored load of a sampled function is the mirrored function, sampled. *)
Theorem mirrored_load : forall s m G rhs rhs',
  oriented G -> gnx G = m -> gny G = m ->
  (forall x y, rhs' (fst (sym_point s x y)) (snd (sym_point s x y)) = rhs x y) ->
  sym_cells s m (sampled rhs G) = sampled rhs' (sym_grid s G).
Proof. exact @mirrored_load_pf. Qed.
Print Assumptions mirrored_load.

(** [C92] If the problem is its own mirror image, so is the answer. *)
Theorem symmetric_answer : forall s m lu c gesv G load q t st g,
  2 <= m -> lu_contract lu -> gesv_contract gesv -> right_signs c -> sym_coefs s c c ->
  oriented (rect m G) -> tiled m G q -> fresh load q t ->
  well_posed m (fv_solver lu c) q -> 3 <= m \/ equal_levels q -> length g = 4 * (m * 2 ^ level q) ->
  sym_tree s m q = q -> sym_data s (m * 2 ^ level q) g = g ->
  exists st1 t1 t2 t3,
    buildStage (fv_solver lu c) gesv false st t = Ok (st1, t1) /\
    upwardsStage (fv_solver lu c) gesv false load t1 = Ok t2 /\
    solveStage (fv_solver lu c) false g t2 = Ok t3 /\
    length (computed_values t3) = length (leaves q) /\
    computed_values t3 = sym_values s m q (computed_values t3).
Proof. exact @symmetric_answer_pf. Qed.
Print Assumptions symmetric_answer.

(** Laplace's equation on the unit square with seven leaves: mirrored, the refined
    corner is the lower right one; with x and y exchanged and a symmetric load, the
    problem is its own image. *)
Example mirrored_domain_example : forall rhs,
  let q := adapted rhs 3 unit_square in
  (forall s, sym_coefs s (helmholtz 0) (helmholtz 0)) /\ oriented (rect 3 unit_square) /\
  tiled 3 unit_square q /\ fresh (sampled rhs) q (fresh_tree q) /\
  (forall s, fresh (fun G => sym_cells s 3 (sampled rhs (sym_grid s G))) (sym_tree s 3 q) (fresh_tree (sym_tree s 3 q))) /\
  well_posed 3 (fv_solver lu_gauss (helmholtz 0)) q /\ well_posed 3 (fish_solver hst_gauss (helmholtz 0)) q /\
  map (fun z => (gxu (fst z) - gxl (fst z), gyl (fst z))%Qc) (leaves (sym_tree Mirror 3 q)) <>
  map (fun z => (gxu (fst z) - gxl (fst z), gyl (fst z))%Qc) (leaves q) /\
  ((forall x y, rhs y x = rhs x y) -> sym_tree Swap 3 q = q /\
     let g := repeat 1%Qc 6 ++ repeat (1 + 1)%Qc 6 ++ repeat 1%Qc 6 ++ repeat (1 + 1)%Qc 6 in
     length g = 4 * (3 * 2 ^ level q) /\ sym_data Swap (3 * 2 ^ level q) g = g).
Proof. exact @mirrored_domain_example_expf. Qed.
