(** Property theorems.  Proofs are in SmallProps.v; this file only restates the
    statements.  Written by tools/gen_thm.py. *)
From Verif Require Import Base VectorModel MatrixModel LinSpec HPSModel HPSSpec FVModel FVSpec GlobalSpec StageSpec AdaptSpec.
From Verif Require Import MatProofs MatProofs2 LinProofs Gauss LinProps HPSProofs HPSProofs2 HPSProofs3 HPSProofs4 HPSTree HPSTree2 HPSStage2 HPSProps.
From Verif Require Import FVProofs FVProofs2 FVProofs3 FVMax FVJoin FVGlobal FVFish FVProps AdaptCert AdaptProofs AdaptPlane AdaptEnd AdaptProps.
From Coq Require Import Lia.
From Verif Require Import SmallProps.

(** [C79] When a patch whose four children have two cells per side meets a coarser
    sibling, its boundary data are interpolated from two to four values per side.
    Whatever the data are, the last value of each side is lost: the children get 0 at
    the north end of the west and east sides and at the east end of the south and
    north sides. *)
Theorem two_cells_lose_data : forall hom tau ch,
  psize (fa ch) = 2 -> well_formed (pS tau) -> nr (pS tau) = 8 -> nc (pS tau) = 16 ->
  (hom = false -> length (pw tau) = 8) ->
  pnc tau = 1 -> gnx (pgrid tau) = 4 -> length (pg tau) = 8 ->
  exists tau' ch', split1to4 hom tau ch = Ok (tau', ch') /\
    vval (pg (fc ch')) 1 = 0%Qc /\ vval (pg (fd ch')) 3 = 0%Qc /\
    vval (pg (fb ch')) 5 = 0%Qc /\ vval (pg (fd ch')) 7 = 0%Qc.
Proof. exact @two_cells_lose_data_pf. Qed.
Print Assumptions two_cells_lose_data.

(** [C79] Laplace's equation without load and with boundary data 1 on seven leaves of
    two by two cells: every stage runs, and the result is not the constant 1.  With
    three or more cells per side it is, see [linear_exact]. *)
Theorem two_cell_leaves_refuted : exists m lu c gesv G load s t,
  2 <= m /\ lu_contract lu /\ gesv_contract gesv /\ right_signs c /\ oriented (rect m G) /\ tiled m G s /\ fresh load s t /\
  (forall G' f, In (G', f) (leaves s) -> plane_load c G' 1 0 0 f) /\
  exists st1 t1 t2 t3,
    buildStage (fv_solver lu c) gesv false None t = Ok (st1, t1) /\
    upwardsStage (fv_solver lu c) gesv false load t1 = Ok t2 /\
    solveStage (fv_solver lu c) false (on_boundary (plane 1 0 0) (rect (m * 2 ^ level s) G)) t2 = Ok t3 /\
    computed_values t3 <> map (fun z => (on_boundary (plane 1 0 0) (fst z), sampled (plane 1 0 0) (fst z))) (leaves s).
Proof. exact @two_cell_leaves_refuted_pf. Qed.
Print Assumptions two_cell_leaves_refuted.

(** [C79] Two cells per side are enough where siblings are refined equally. *)
Theorem two_cells_equal_levels_partial : forall lu c gesv G load s t st p q r,
  lu_contract lu -> gesv_contract gesv -> right_signs c -> oriented (rect 2 G) -> tiled 2 G s ->
  fresh load s t -> well_posed 2 (fv_solver lu c) s -> equal_levels s ->
  (forall G' f, In (G', f) (leaves s) -> plane_load c G' p q r f) ->
  exists st1 t1 t2 t3,
    buildStage (fv_solver lu c) gesv false st t = Ok (st1, t1) /\
    upwardsStage (fv_solver lu c) gesv false load t1 = Ok t2 /\
    solveStage (fv_solver lu c) false (on_boundary (plane p q r) (rect (2 * 2 ^ level s) G)) t2 = Ok t3 /\
    computed_values t3 = map (fun z => (on_boundary (plane p q r) (fst z), sampled (plane p q r) (fst z))) (leaves s).
Proof. exact @two_cells_equal_levels_partial_pf. Qed.
Print Assumptions two_cells_equal_levels_partial.

Example two_cells_example : forall rhs,
  lu_contract lu_gauss /\ gesv_contract gauss_gesv /\ right_signs (helmholtz 0) /\ oriented (rect 2 unit_square) /\
  tiled 2 unit_square (four_tree rhs) /\ fresh (sampled rhs) (four_tree rhs) (fresh_tree (four_tree rhs)) /\
  well_posed 2 (fv_solver lu_gauss (helmholtz 0)) (four_tree rhs) /\ equal_levels (four_tree rhs) /\
  forall p q r G f, In (G, f) (leaves (four_tree (fun _ _ => 0%Qc))) -> plane_load (helmholtz 0) G p q r f.
Proof. exact @two_cells_example_expf. Qed.

(** A patch meeting the hypotheses of [two_cells_lose_data]. *)
Example two_cells_data :
  let p := Patch (Grid 2 2 0 (Q2Qc (1 # 2)) 0 (Q2Qc (1 # 2))) no_mat no_mat no_mat (mat_of 8 8 (fun _ _ => 1%Qc)) [] [] [] [] [] 0 in
  let tau := Patch (Grid 4 4 0 1 0 1) no_mat no_mat (mat_of 8 16 (fun i j => Qc_of_nat (i + j))) no_mat
               [] (repeat 1%Qc 8) [] [] (repeat 1%Qc 8) 1 in
  psize p = 2 /\ well_formed (pS tau) /\ nr (pS tau) = 8 /\ nc (pS tau) = 16 /\ length (pw tau) = 8 /\
  pnc tau = 1 /\ gnx (pgrid tau) = 4 /\ length (pg tau) = 8.
Proof. exact @two_cells_data_expf. Qed.
