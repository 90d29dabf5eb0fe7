(** Property theorems.  Proofs are in RealProps.v; this file only restates the
    statements.  Written by tools/gen_thm.py. *)
From Coq Require Import Reals Qreals Lra Lia.
From Verif Require Import Base VectorModel MatrixModel LinSpec NormSpec HPSModel HPSSpec StageSpec FVModel FVSpec GlobalSpec AdaptSpec CompareSpec ConvSpec MixSpec ReportModel ReportSpec FloatSpec RealSpec.
From Verif Require Import MatProofs MatProofs2 LinProofs Gauss LinProps HPSProofs3 HPSProofs4 HPSHistory HPSRebuild HPSProps StageProps FVProofs FVProofs2 FVProofs3 FVMax FVFish FVGlobal FVCompare FVMixed FVProps AdaptProofs AdaptProps CompareProps NormProps ConvProofs ConvProps MixProps ThermalProofs HeatProofs ReportProofs ReportProps FloatProofs2 RealProofs RealProofs2.
Local Open Scope R_scope.
From Verif Require Import RealProps.

(** [C84] Four derivatives give the second differences that C64 asks for. *)
Theorem second_differences : forall f f1 f2 f3 f4 x d M2 M4, 0 <= d -> four_times f f1 f2 f3 f4 (x - d) (x + d) ->
  (forall t, x - d <= t <= x + d -> Rabs (f2 t) <= M2 /\ Rabs (f4 t) <= M4) ->
  Rabs (f (x + d) + f (x - d) - 2 * f x) <= M2 * (d * d) /\
  Rabs (f (x + d) + f (x - d) - 2 * f x - d * d * f2 x) <= M4 / 12 * (d * d * (d * d)).
Proof. exact @second_differences_pf. Qed.
Print Assumptions second_differences.

(** [C84] Second order for real functions: the direct solver, given boundary data within eg
    and loads within ef of those of a function with four bounded derivatives, is in every
    cell of every leaf within [rbound] of it. *)
Theorem smooth_solution_error : forall m l lu c gesv rhs xl xu yl yu s t st g U Uxx Uyy M2 M4 eg ef,
  (2 <= m)%nat -> lu_contract lu -> gesv_contract gesv -> right_signs c -> (forall x y, c_beta c x y = 1%Qc) ->
  (xl < xu)%Qc -> (yl < yu)%Qc ->
  let G := whole m l xl xu yl yu in let n := (m * 2 ^ l)%nat in
  uniform m l G s -> fresh (sampled rhs) s t -> length g = (4 * n)%nat ->
  let X0 := qval xl in let X1 := qval xu in let Y0 := qval yl in let Y1 := qval yu in
  smooth U Uxx Uyy M2 M4 X0 X1 Y0 Y1 ((X1 - X0) / INR n / 2) ((Y1 - Y0) / INR n / 2) -> 0 <= eg -> 0 <= ef ->
  each_face (near_fun eg U) (near_fun eg U) G g ->
  each_cell (fun x y _ => Rabs ((qval (rhs x y) - qval (c_lambda c x y) * U (qval x) (qval y)) / qval (c_alpha c x y) - (Uxx (qval x) (qval y) + Uyy (qval x) (qval y))) <= ef) G [] ->
  exists st1 t1 t2 t3,
    buildStage (fv_solver lu c) gesv false st t = Ok (st1, t1) /\
    upwardsStage (fv_solver lu c) gesv false (sampled rhs) t1 = Ok t2 /\
    solveStage (fv_solver lu c) false g t2 = Ok t3 /\
    each_leaf_cell (fun x y v => near_fun (rbound n X0 X1 Y0 Y1 M2 M4 eg ef) U v x y) s (map snd (computed_values t3)).
Proof. exact @smooth_solution_error_pf. Qed.
Print Assumptions smooth_solution_error.

(** [C84] The same with FISHPACK patches.  Whatever alpha and beta are, the equation is that
    of alpha = beta = 1 and of lambda at the origin. *)
Theorem smooth_solution_error_fish : forall m l hst c gesv rhs xl xu yl yu s t st g U Uxx Uyy M2 M4 eg ef,
  (3 <= m)%nat -> hst_contract hst -> gesv_contract gesv -> (c_lambda c 0 0 <= 0)%Qc ->
  (xl < xu)%Qc -> (yl < yu)%Qc ->
  let G := whole m l xl xu yl yu in let n := (m * 2 ^ l)%nat in
  uniform m l G s -> fresh (sampled rhs) s t -> length g = (4 * n)%nat ->
  let X0 := qval xl in let X1 := qval xu in let Y0 := qval yl in let Y1 := qval yu in
  smooth U Uxx Uyy M2 M4 X0 X1 Y0 Y1 ((X1 - X0) / INR n / 2) ((Y1 - Y0) / INR n / 2) -> 0 <= eg -> 0 <= ef ->
  each_face (near_fun eg U) (near_fun eg U) G g ->
  each_cell (fun x y _ => Rabs (qval (rhs x y) - qval (c_lambda c 0%Qc 0%Qc) * U (qval x) (qval y) - (Uxx (qval x) (qval y) + Uyy (qval x) (qval y))) <= ef) G [] ->
  exists st1 t1 t2 t3,
    buildStage (fish_solver hst c) gesv false st t = Ok (st1, t1) /\
    upwardsStage (fish_solver hst c) gesv false (sampled rhs) t1 = Ok t2 /\
    solveStage (fish_solver hst c) false g t2 = Ok t3 /\
    each_leaf_cell (fun x y v => near_fun (rbound n X0 X1 Y0 Y1 M2 M4 eg ef) U v x y) s (map snd (computed_values t3)).
Proof. exact @smooth_solution_error_fish_pf. Qed.
Print Assumptions smooth_solution_error_fish.

(** [C84] The bound falls below every tolerance as the mesh is refined and the data get
    closer. *)
Theorem smooth_error_vanishes : forall m X0 X1 Y0 Y1 M2 M4 tol, m <> 0%nat -> 0 <= M2 -> 0 <= M4 -> 0 < tol ->
  exists l0 e0, 0 < e0 /\ forall l eg ef, (l0 <= l)%nat -> 0 <= eg <= e0 -> 0 <= ef <= e0 -> rbound (m * 2 ^ l) X0 X1 Y0 Y1 M2 M4 eg ef <= tol.
Proof. exact @smooth_error_vanishes_pf. Qed.
Print Assumptions smooth_error_vanishes.

(** [C84] The examples elliptic-multiple and, on a uniform mesh, elliptic-single: exact solution sin x + sin y, load
    minus that, both evaluated within e, FISHPACK patches with lambda = 0 (the beta function
    of elliptic-multiple is 0 and has no effect).  Every value is within [rbound] of sin x + sin y, and the
    largest error it prints is at most e more. *)
Theorem sine_report_fish : forall m l hst c gesv xl xu yl yu s t st uf e,
  (3 <= m)%nat -> hst_contract hst -> gesv_contract gesv -> c_lambda c 0%Qc 0%Qc = 0%Qc -> (xl < xu)%Qc -> (yl < yu)%Qc ->
  (forall x y, near_fun e (fun a b => sin a + sin b) (uf x y) x y) ->
  let rhs := fun x y => (- uf x y)%Qc in let n := (m * 2 ^ l)%nat in
  uniform m l (whole m l xl xu yl yu) s -> fresh (sampled rhs) s t ->
  exists st1 t1 t2 t3 r,
    buildStage (fish_solver hst c) gesv false st t = Ok (st1, t1) /\
    upwardsStage_fn (fish_solver hst c) gesv false rhs t1 = Ok t2 /\
    solveStage_fn (fish_solver hst c) gesv false (fun _ _ _ => 1%Qc) (fun _ _ _ => 0%Qc) (fun _ => uf) t2 = Ok t3 /\
    error_report uf xl xu yl yu t3 = Ok r /\
    (let E := rbound n (qval xl) (qval xu) (qval yl) (qval yu) 1 1 e e in
     each_leaf_cell (fun x y v => near_fun E (fun a b => sin a + sin b) v x y) s (map snd (computed_values t3)) /\ qval (rlI r) <= E + e) /\
    (0 <= rl1 r <= rlI r)%Qc /\ (rl1 r * rl1 r <= rl2 r <= rlI r * rlI r)%Qc.
Proof. exact @sine_report_fish_pf. Qed.
Print Assumptions sine_report_fish.

(** [C84] The same with the five-point solver. *)
Theorem sine_report : forall m l lu gesv xl xu yl yu s t st uf e,
  (2 <= m)%nat -> lu_contract lu -> gesv_contract gesv -> (xl < xu)%Qc -> (yl < yu)%Qc ->
  (forall x y, near_fun e (fun a b => sin a + sin b) (uf x y) x y) ->
  let c := Coefs (fun _ _ => 1%Qc) (fun _ _ => 1%Qc) (fun _ _ => 0%Qc) in
  let rhs := fun x y => (- uf x y)%Qc in let n := (m * 2 ^ l)%nat in
  uniform m l (whole m l xl xu yl yu) s -> fresh (sampled rhs) s t ->
  exists st1 t1 t2 t3 r,
    buildStage (fv_solver lu c) gesv false st t = Ok (st1, t1) /\
    upwardsStage_fn (fv_solver lu c) gesv false rhs t1 = Ok t2 /\
    solveStage_fn (fv_solver lu c) gesv false (fun _ _ _ => 1%Qc) (fun _ _ _ => 0%Qc) (fun _ => uf) t2 = Ok t3 /\
    error_report uf xl xu yl yu t3 = Ok r /\
    (let E := rbound n (qval xl) (qval xu) (qval yl) (qval yu) 1 1 e e in
     each_leaf_cell (fun x y v => near_fun E (fun a b => sin a + sin b) v x y) s (map snd (computed_values t3)) /\ qval (rlI r) <= E + e) /\
    (0 <= rl1 r <= rlI r)%Qc /\ (rl1 r * rl1 r <= rl2 r <= rlI r * rlI r)%Qc.
Proof. exact @sine_report_pf. Qed.
Print Assumptions sine_report.

(** [C84] The example patch-solver as it is written: the error it prints for an n by n patch is
    at most 17 / (12 n^2), and 21/8 of the error of the sines on top. *)
Theorem sine_patch_error : forall lu n uf e, lu_contract lu -> (2 <= n)%nat ->
  (forall x y, near_fun e (fun a b => sin a + sin b) (uf x y) x y) ->
  let c := Coefs (fun _ _ => 1%Qc) (fun _ _ => 1%Qc) (fun _ _ => 0%Qc) in
  exists err, patch_error (fv_solve lu c) uf (fun x y => (- uf x y)%Qc) n = Ok err /\
    0 <= qval err <= 17 / (12 * (INR n * INR n)) + 21 / 8 * e.
Proof. exact @sine_patch_error_pf. Qed.
Print Assumptions sine_patch_error.

(** Rational values of the sines to any accuracy, meshes of any depth, and a function whose
    derivatives do not vanish. *)
Example sine_data : forall e, 0 < e -> exists uf, (forall x y, near_fun e (fun a b => sin a + sin b) (uf x y) x y) /\
  (forall m l, let rhs := fun x y => (- uf x y)%Qc in let G := whole m l 0 1 0 1 in
     uniform m l G (divided rhs m l G) /\ fresh (sampled rhs) (divided rhs m l G) (fresh_tree (divided rhs m l G))) /\
  lu_contract lu_gauss /\ c_lambda (helmholtz 0) 0%Qc 0%Qc = 0%Qc /\
  smooth (fun a b => sin a + sin b) (fun a _ => - sin a) (fun _ b => - sin b) 1 1 0 1 0 1 1 1.
Proof. exact @sine_data_expf. Qed.
