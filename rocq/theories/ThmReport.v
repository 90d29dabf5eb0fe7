(** Property theorems.  Proofs are in ReportProps.v; this file only restates the
    statements.  Written by tools/gen_thm.py. *)
From Coq Require Import Lqa.
From Verif Require Import Base VectorModel MatrixModel LinSpec NormSpec HPSModel HPSSpec StageSpec FVModel FVSpec GlobalSpec AdaptSpec CompareSpec ConvSpec MixSpec ReportModel ReportSpec.
From Verif Require Import MatProofs MatProofs2 LinProofs Gauss LinProps HPSProofs3 HPSProofs4 HPSHistory HPSRebuild HPSProps StageProps FVProofs FVProofs2 FVProofs3 FVMax FVFish FVGlobal FVCompare FVMixed FVProps AdaptProofs AdaptProps CompareProps NormProps ConvProofs ConvProps MixProps ThermalProofs HeatProofs ReportProofs.
From Coq Require Import Lia.
From Verif Require Import ReportProps.

(** [C70] What the report says: the mean and the mean square of the error over the area,
    and its largest size. *)
Theorem report_meaning : forall V xl xu yl yu t,
  Forall (fun p => length (pu p) = gnx (pgrid p) * gny (pgrid p)) (tree_leaves t) ->
  exists r, error_report V xl xu yl yu t = Ok r /\
    let cs := spots (map (fun p => (pgrid p, pu p)) (tree_leaves t)) in let area := ((xu - xl) * (yu - yl))%Qc in
    rl1 r = (integral (fun c => size (off V c)) cs / area)%Qc /\
    rl2 r = (integral (fun c => off V c * off V c) cs / area)%Qc /\
    largest (fun c => In c cs) (off V) (rlI r) /\ rn r = length (tree_leaves t).
Proof. exact @report_meaning_pf. Qed.
Print Assumptions report_meaning.

(** [C70] On every mesh that divides the rectangle the three errors are in order: the mean
    is at most the root of the mean square, which is at most the maximum. *)
Theorem report_order : forall V m G s t, m <> 0 -> (gxl G < gxu G)%Qc -> (gyl G < gyu G)%Qc -> tiled m G s ->
  map pgrid (tree_leaves t) = map fst (leaves s) ->
  Forall (fun p => length (pu p) = gnx (pgrid p) * gny (pgrid p)) (tree_leaves t) ->
  exists r, error_report V (gxl G) (gxu G) (gyl G) (gyu G) t = Ok r /\
    (0 <= rl1 r <= rlI r)%Qc /\ (rl1 r * rl1 r <= rl2 r <= rlI r * rlI r)%Qc.
Proof. exact @report_order_pf. Qed.
Print Assumptions report_order.

(** [C70] The example elliptic-multiple, five-point solver, uniform mesh: all errors it
    reports are of second order. *)
Theorem program_report : forall m l lu c gesv xl xu yl yu s t st V Vxx Vyy M2 M4,
  2 <= m -> lu_contract lu -> gesv_contract gesv -> right_signs c -> (forall x y, c_beta c x y = 1%Qc) ->
  (xl < xu)%Qc -> (yl < yu)%Qc ->
  let rhs := fun x y => (c_alpha c x y * (Vxx x y + Vyy x y) + c_lambda c x y * V x y)%Qc in
  uniform m l (whole m l xl xu yl yu) s -> fresh (sampled rhs) s t ->
  tame V Vxx Vyy M2 M4 (whole m 0 xl xu yl yu) -> (0 <= M2)%Qc -> (0 <= M4)%Qc ->
  exists st1 t1 t2 t3 r,
    buildStage (fv_solver lu c) gesv false st t = Ok (st1, t1) /\
    upwardsStage_fn (fv_solver lu c) gesv false rhs t1 = Ok t2 /\
    solveStage_fn (fv_solver lu c) gesv false (fun _ _ _ => 1%Qc) (fun _ _ _ => 0%Qc) (fun _ => V) t2 = Ok t3 /\
    error_report V xl xu yl yu t3 = Ok r /\
    (0 <= rl1 r <= rlI r)%Qc /\ (rl1 r * rl1 r <= rl2 r <= rlI r * rlI r)%Qc /\
    (rlI r <= bound m l xl xu yl yu M2 M4 0 0)%Qc /\ nDOFs r m m = resolution l m * resolution l m.
Proof. exact @program_report_pf. Qed.
Print Assumptions program_report.

(** [C70] The same with FISHPACK, the solver the example uses. *)
Theorem program_report_fish : forall m l hst c lam gesv xl xu yl yu s t st V Vxx Vyy M2 M4,
  3 <= m -> hst_contract hst -> gesv_contract gesv ->
  (forall x y, c_alpha c x y = 1%Qc /\ c_beta c x y = 1%Qc /\ c_lambda c x y = lam) -> (lam <= 0)%Qc ->
  (xl < xu)%Qc -> (yl < yu)%Qc ->
  let rhs := fun x y => (Vxx x y + Vyy x y + lam * V x y)%Qc in
  uniform m l (whole m l xl xu yl yu) s -> fresh (sampled rhs) s t ->
  tame V Vxx Vyy M2 M4 (whole m 0 xl xu yl yu) -> (0 <= M2)%Qc -> (0 <= M4)%Qc ->
  exists st1 t1 t2 t3 r,
    buildStage (fish_solver hst c) gesv false st t = Ok (st1, t1) /\
    upwardsStage_fn (fish_solver hst c) gesv false rhs t1 = Ok t2 /\
    solveStage_fn (fish_solver hst c) gesv false (fun _ _ _ => 1%Qc) (fun _ _ _ => 0%Qc) (fun _ => V) t2 = Ok t3 /\
    error_report V xl xu yl yu t3 = Ok r /\
    (0 <= rl1 r <= rlI r)%Qc /\ (rl1 r * rl1 r <= rl2 r <= rlI r * rlI r)%Qc /\
    (rlI r <= bound m l xl xu yl yu M2 M4 0 0)%Qc /\ nDOFs r m m = resolution l m * resolution l m.
Proof. exact @program_report_fish_pf. Qed.
Print Assumptions program_report_fish.

(** [C70] A linear function is reported without error, on meshes refined in places too. *)
Theorem linear_report : forall m lu c gesv G load s t st p q r,
  2 <= m -> lu_contract lu -> gesv_contract gesv -> right_signs c -> oriented (rect m G) -> tiled m G s ->
  fresh load s t -> well_posed m (fv_solver lu c) s -> 3 <= m \/ equal_levels s ->
  (forall G' f, In (G', f) (leaves s) -> plane_load c G' p q r f) ->
  exists st1 t1 t2 t3,
    buildStage (fv_solver lu c) gesv false st t = Ok (st1, t1) /\
    upwardsStage (fv_solver lu c) gesv false load t1 = Ok t2 /\
    solveStage (fv_solver lu c) false (on_boundary (plane p q r) (rect (m * 2 ^ level s) G)) t2 = Ok t3 /\
    error_report (plane p q r) (gxl G) (gxu G) (gyl G) (gyu G) t3 = Ok (Report 0 0 0 (length (leaves s))).
Proof. exact @linear_report_pf. Qed.
Print Assumptions linear_report.

(** [C70] On several ranks each rank reports its share: the means add up to the mean of the
    whole mesh, and no rank's maximum exceeds that of the whole. *)
Theorem rank_reports : forall V xl xu yl yu t owned,
  concat owned = tree_leaves t ->
  Forall (fun p => length (pu p) = gnx (pgrid p) * gny (pgrid p)) (tree_leaves t) ->
  exists r rs, error_report V xl xu yl yu t = Ok r /\ Forall2 (fun own x => rank_report V xl xu yl yu own = Ok x) owned rs /\
    rl1 r = fold_right (fun x s => (rl1 x + s)%Qc) 0%Qc rs /\ rl2 r = fold_right (fun x s => (rl2 x + s)%Qc) 0%Qc rs /\
    Forall (fun x => (rlI x <= rlI r)%Qc) rs /\ (rs <> [] -> exists x, In x rs /\ rlI x = rlI r) /\
    rn r = fold_right (fun x s => rn x + s) 0 rs.
Proof. exact @rank_reports_pf. Qed.
Print Assumptions rank_reports.

(** [C70] With two ranks the report printed is not that of the mesh. *)
Theorem rank_report_refuted : exists V t owned own r x,
  concat owned = tree_leaves t /\ In own owned /\
  error_report V 0 (1 + 1) 0 (1 + 1) t = Ok r /\ rank_report V 0 (1 + 1) 0 (1 + 1) own = Ok x /\
  rl1 x <> rl1 r /\ rlI x <> rlI r /\ rn x <> rn r.
Proof. exact @rank_report_refuted_pf. Qed.
Print Assumptions rank_report_refuted.

(** [C70] The example patch-solver prints an error of second order in 1/n. *)
Theorem patch_error : forall lu V Vxx Vyy M2 M4 n, lu_contract lu -> 2 <= n ->
  tame V Vxx Vyy M2 M4 (Grid 2 2 (- (1)) 1 (- (1)) 1) -> (0 <= M2)%Qc -> (0 <= M4)%Qc ->
  exists e, patch_error (fv_solve lu (helmholtz 0)) V (fun x y => Vxx x y + Vyy x y)%Qc n = Ok e /\ (0 <= e)%Qc /\
    (e <= (M2 + Qc_of_nat 5 * M4) / (Qc_of_nat n * Qc_of_nat n))%Qc.
Proof. exact @patch_error_pf. Qed.
Print Assumptions patch_error.

(** x^2 - y^2 on the square of the example; quartic_example and adapted_example give the
    hypotheses of the other theorems. *)
Example patch_error_example : lu_contract lu_gauss /\
  tame (fun x y => x * x - y * y)%Qc (fun _ _ => 1 + 1)%Qc (fun _ _ => - (1 + 1))%Qc (1 + 1) 0 (Grid 2 2 (- (1)) 1 (- (1)) 1).
Proof. exact @patch_error_example_expf. Qed.
