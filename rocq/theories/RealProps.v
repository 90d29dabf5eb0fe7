(** Smooth functions of two real variables as exact solutions; the function of the
    examples, sin x + sin y. *)
From Coq Require Import Reals Qreals Lra Lia.
From Verif Require Import Base VectorModel MatrixModel LinSpec NormSpec HPSModel HPSSpec StageSpec FVModel FVSpec GlobalSpec AdaptSpec CompareSpec ConvSpec MixSpec ReportModel ReportSpec FloatSpec RealSpec.
From Verif Require Import MatProofs MatProofs2 LinProofs Gauss LinProps HPSProofs3 HPSProofs4 HPSHistory HPSRebuild HPSProps StageProps FVProofs FVProofs2 FVProofs3 FVMax FVFish FVGlobal FVCompare FVMixed FVProps AdaptProofs AdaptProps CompareProps NormProps ConvProofs ConvProps MixProps ThermalProofs HeatProofs ReportProofs ReportProps FloatProofs2 RealProofs RealProofs2.
Local Open Scope R_scope.

(** [C84] Four derivatives give the second differences that C64 asks for. *)
Lemma second_differences_pf : forall f f1 f2 f3 f4 x d M2 M4, 0 <= d -> four_times f f1 f2 f3 f4 (x - d) (x + d) ->
  (forall t, x - d <= t <= x + d -> Rabs (f2 t) <= M2 /\ Rabs (f4 t) <= M4) ->
  Rabs (f (x + d) + f (x - d) - 2 * f x) <= M2 * (d * d) /\
  Rabs (f (x + d) + f (x - d) - 2 * f x - d * d * f2 x) <= M4 / 12 * (d * d * (d * d)).
Proof.
  intros f f1 f2 f3 f4 x d M2 M4 Hd H4 HB. split.
  - apply (second_small f f1 f2 f3 f4 x d M2 Hd H4). intros t Ht. apply HB, Ht.
  - apply (second_close f f1 f2 f3 f4 x d M4 Hd H4). intros t Ht. apply HB, Ht.
Qed.

(** The bound of [real_error] in terms of the number of cells. *)
Lemma rect_real_error m l c xl xu yl yu U Uxx Uyy M2 M4 eg ef g f u : m <> 0%nat -> (xl < xu)%Qc -> (yl < yu)%Qc ->
  right_signs c -> (forall x y, c_beta c x y = 1%Qc) -> let G := whole m l xl xu yl yu in let n := (m * 2 ^ l)%nat in
  length g = (4 * n)%nat -> length f = (n * n)%nat -> fv_solution c G g f u ->
  let X0 := qval xl in let X1 := qval xu in let Y0 := qval yl in let Y1 := qval yu in
  smooth U Uxx Uyy M2 M4 X0 X1 Y0 Y1 ((X1 - X0) / INR n / 2) ((Y1 - Y0) / INR n / 2) -> 0 <= eg -> 0 <= ef ->
  each_face (near_fun eg U) (near_fun eg U) G g ->
  each_cell (fun x y v => Rabs ((qval v - qval (c_lambda c x y) * U (qval x) (qval y)) / qval (c_alpha c x y) - (Uxx (qval x) (qval y) + Uyy (qval x) (qval y))) <= ef) G f ->
  each_cell (fun x y v => near_fun (rbound n X0 X1 Y0 Y1 M2 M4 eg ef) U v x y) G u.
Proof.
  intros Hm Hx Hy HS Hb G n Lg Lf Hu X0 X1 Y0 Y1 HT He Hf Hg Hr.
  assert (HO : oriented G). { split; [exact Hx|]. split; [exact Hy|]. pose proof (pow_nz m Hm l). split; assumption. }
  pose proof (real_error c G HO HS Hb U Uxx Uyy M2 M4 eg ef) as Q. rewrite (hx_eq G HO), (hy_eq G HO) in Q.
  specialize (Q HT He Hf g f u). intros i j Hi Hj. unfold near_fun, rbound. cbv zeta.
  assert (Nn : INR n <> 0) by (apply not_0_INR, pow_nz; exact Hm).
  eapply Rle_trans; [apply Q; auto; cbn [G whole gnx gny]; unfold n in Lg; lia|]. right. cbn [G whole gnx gny gxl gxu gyl gyu]. fold n X0 X1 Y0 Y1. field. exact Nn.
Qed.

(** [C84] Second order for real functions: the direct solver, given boundary data within eg
    and loads within ef of those of a function with four bounded derivatives, is in every
    cell of every leaf within [rbound] of it. *)
Lemma smooth_solution_error_pf : forall m l lu c gesv rhs xl xu yl yu s t st g U Uxx Uyy M2 M4 eg ef,
  (2 <= m)%nat -> lu_contract lu -> gesv_contract gesv -> right_signs c -> (forall x y, c_beta c x y = 1%Qc) ->
  (xl < xu)%Qc -> (yl < yu)%Qc ->
  let G := whole m l xl xu yl yu in let n := (m * 2 ^ l)%nat in
  uniform m l G s -> fresh (sampled rhs) s t -> length g = (4 * n)%nat ->
  let X0 := qval xl in let X1 := qval xu in let Y0 := qval yl in let Y1 := qval yu in
  smooth U Uxx Uyy M2 M4 X0 X1 Y0 Y1 ((X1 - X0) / INR n / 2) ((Y1 - Y0) / INR n / 2) -> 0 <= eg -> 0 <= ef ->
  each_face (near_fun eg U) (near_fun eg U) G g ->
  each_cell (fun x y _ => Rabs ((qval (rhs x y) - qval (c_lambda c x y) * U (qval x) (qval y)) / qval (c_alpha c x y) - (Uxx (qval x) (qval y) + Uyy (qval x) (qval y))) <= ef) G [] ->
  exists st1 t1 t2 t3,
    buildStage (fv_solver lu c) gesv false st t = Ok (st1, t1) /\
    upwardsStage (fv_solver lu c) gesv false (sampled rhs) t1 = Ok t2 /\
    solveStage (fv_solver lu c) false g t2 = Ok t3 /\
    each_leaf_cell (fun x y v => near_fun (rbound n X0 X1 Y0 Y1 M2 M4 eg ef) U v x y) s (map snd (computed_values t3)).
Proof.
  intros m l lu c gesv rhs xl xu yl yu s t st g U Uxx Uyy M2 M4 eg ef Hm HL HG HS Hb Hx Hy G n HU HF Lg X0 X1 Y0 Y1 HT He Hf Hg Hr.
  destruct (direct_solver_exact_pf m l lu c gesv rhs xl xu yl yu s t st g) as (st1 & t1 & t2 & t3 & u & E1 & E2 & E3 & E4 & E5 & _); auto.
  exists st1, t1, t2, t3. do 3 (split; [assumption|]). rewrite E4.
  apply (scatter_cells _ m l ltac:(lia) G s u eq_refl eq_refl HU).
  apply (rect_real_error m l c xl xu yl yu U Uxx Uyy M2 M4 eg ef g (sampled rhs G) u); auto; try lia.
  - apply sampled_len.
  - intros i j Hi Hj. fold G. rewrite cell_sampled; auto.
Qed.

(** FISHPACK sees only lambda, at the origin. *)
Lemma fish_lambda hst c : fish_solver hst c = fish_solver hst (helmholtz (c_lambda c 0%Qc 0%Qc)).
Proof. reflexivity. Qed.
Lemma helmholtz_right lam : (lam <= 0)%Qc -> right_signs (helmholtz lam).
Proof. intros H x y. cbn [helmholtz c_alpha c_beta c_lambda]. split; [discriminate|]. split; [reflexivity|]. rewrite Qcmult_1_l. exact H. Qed.

(** [C84] The same with FISHPACK patches.  Whatever alpha and beta are, the equation is that
    of alpha = beta = 1 and of lambda at the origin. *)
Lemma smooth_solution_error_fish_pf : forall m l hst c gesv rhs xl xu yl yu s t st g U Uxx Uyy M2 M4 eg ef,
  (3 <= m)%nat -> hst_contract hst -> gesv_contract gesv -> (c_lambda c 0 0 <= 0)%Qc ->
  (xl < xu)%Qc -> (yl < yu)%Qc ->
  let G := whole m l xl xu yl yu in let n := (m * 2 ^ l)%nat in
  uniform m l G s -> fresh (sampled rhs) s t -> length g = (4 * n)%nat ->
  let X0 := qval xl in let X1 := qval xu in let Y0 := qval yl in let Y1 := qval yu in
  smooth U Uxx Uyy M2 M4 X0 X1 Y0 Y1 ((X1 - X0) / INR n / 2) ((Y1 - Y0) / INR n / 2) -> 0 <= eg -> 0 <= ef ->
  each_face (near_fun eg U) (near_fun eg U) G g ->
  each_cell (fun x y _ => Rabs (qval (rhs x y) - qval (c_lambda c 0%Qc 0%Qc) * U (qval x) (qval y) - (Uxx (qval x) (qval y) + Uyy (qval x) (qval y))) <= ef) G [] ->
  exists st1 t1 t2 t3,
    buildStage (fish_solver hst c) gesv false st t = Ok (st1, t1) /\
    upwardsStage (fish_solver hst c) gesv false (sampled rhs) t1 = Ok t2 /\
    solveStage (fish_solver hst c) false g t2 = Ok t3 /\
    each_leaf_cell (fun x y v => near_fun (rbound n X0 X1 Y0 Y1 M2 M4 eg ef) U v x y) s (map snd (computed_values t3)).
Proof.
  intros m l hst c gesv rhs xl xu yl yu s t st g U Uxx Uyy M2 M4 eg ef Hm HL HG Hl Hx Hy G n HU HF Lg X0 X1 Y0 Y1 HT He Hf Hg Hr.
  rewrite fish_lambda. set (lam := c_lambda c 0%Qc 0%Qc) in *.
  destruct (direct_solver_exact_fish_pf m l hst (helmholtz lam) lam gesv rhs xl xu yl yu s t st g) as (st1 & t1 & t2 & t3 & u & E1 & E2 & E3 & E4 & E5 & _); auto.
  exists st1, t1, t2, t3. do 3 (split; [assumption|]). rewrite E4.
  apply (scatter_cells _ m l ltac:(lia) G s u eq_refl eq_refl HU).
  apply (rect_real_error m l (helmholtz lam) xl xu yl yu U Uxx Uyy M2 M4 eg ef g (sampled rhs G) u); auto; try lia.
  - apply helmholtz_right, Hl.
  - apply sampled_len.
  - intros i j Hi Hj. fold G. rewrite cell_sampled; auto. cbn [helmholtz c_alpha c_lambda]. rewrite qval_1. unfold Rdiv. rewrite Rinv_1, Rmult_1_r. apply (Hr i j Hi Hj).
Qed.

(** [C84] The bound falls below every tolerance as the mesh is refined and the data get
    closer. *)
Lemma smooth_error_vanishes_pf : forall m X0 X1 Y0 Y1 M2 M4 tol, m <> 0%nat -> 0 <= M2 -> 0 <= M4 -> 0 < tol ->
  exists l0 e0, 0 < e0 /\ forall l eg ef, (l0 <= l)%nat -> 0 <= eg <= e0 -> 0 <= ef <= e0 -> rbound (m * 2 ^ l) X0 X1 Y0 Y1 M2 M4 eg ef <= tol.
Proof.
  intros m X0 X1 Y0 Y1 M2 M4 tol Hm H2 H4 Ht.
  set (A := (X1 - X0) * (X1 - X0)). set (B := (Y1 - Y0) * (Y1 - Y0)). set (R := (A + A) / 8).
  assert (PA : 0 <= A) by apply Rle_0_sqr. assert (PB : 0 <= B) by apply Rle_0_sqr. assert (PR : 0 <= R) by (unfold R; lra).
  set (C := (A + B) * (M2 / 8 + M4 / 12 * R)). assert (PC : 0 <= C) by (unfold C; apply Rmult_le_pos; [lra|]; assert (0 <= M4 / 12 * R) by (apply Rmult_le_pos; lra); lra).
  exists (Z.to_nat (up (2 * C / tol))), (tol / (2 * (1 + R))). split; [apply Rdiv_lt_0_compat; lra|].
  intros l eg ef Hl He Hf. set (n := (m * 2 ^ l)%nat).
  assert (Nn : 1 <= INR n). { apply (le_INR 1). pose proof (pow_nz m Hm l). unfold n. lia. }
  assert (Ln : (l <= n)%nat). { unfold n. pose proof (Nat.pow_gt_lin_r 2 l ltac:(lia)). nia. }
  assert (Cn : 2 * C <= tol * INR n).
  { destruct (archimed (2 * C / tol)) as (U1 & _). set (Z0 := up (2 * C / tol)) in *.
    assert (P0 : 0 <= 2 * C / tol) by (apply Rmult_le_pos; [lra|left; apply Rinv_0_lt_compat; exact Ht]).
    assert (Z0P : (0 <= Z0)%Z) by (apply le_IZR; lra).
    assert (IZR Z0 <= INR n). { rewrite INR_IZR_INZ. apply IZR_le. lia. }
    replace (2 * C) with (tol * (2 * C / tol)) by (field; lra). apply Rmult_le_compat_l; lra. }
  unfold rbound. cbv zeta.
  replace ((X1 - X0) / INR n * ((X1 - X0) / INR n)) with (A / (INR n * INR n)) by (unfold A; field; lra).
  replace ((Y1 - Y0) / INR n * ((Y1 - Y0) / INR n)) with (B / (INR n * INR n)) by (unfold B; field; lra).
  fold A. set (q := / (INR n * INR n)).
  assert (Q0 : 0 < q) by (apply Rinv_0_lt_compat; nra).
  assert (Q1 : q <= / INR n). { apply Rinv_le_contravar; nra. }
  assert (Q2 : / INR n <= 1). { rewrite <- Rinv_1. apply Rinv_le_contravar; lra. }
  change (A / (INR n * INR n)) with (A * q). change (B / (INR n * INR n)) with (B * q).
  assert (RR : (A + A * q) / 8 <= R) by (unfold R; nra). assert (R0 : 0 <= (A + A * q) / 8) by nra.
  assert (T1 : eg + ef * ((A + A * q) / 8) <= tol / 2).
  { set (e0 := tol / (2 * (1 + R))) in *. assert (E0 : e0 * (1 + R) = tol / 2) by (unfold e0; field; lra). clearbody e0. nra. }
  assert (T2 : (A * q + B * q) * (M2 / 8 + M4 / 12 * ((A + A * q) / 8)) <= C * q).
  { unfold C. replace ((A + B) * (M2 / 8 + M4 / 12 * R) * q) with ((A * q + B * q) * (M2 / 8 + M4 / 12 * R)) by ring.
    apply Rmult_le_compat_l; [nra|]. apply Rplus_le_compat_l. apply Rmult_le_compat_l; lra. }
  assert (T3 : C * q <= tol / 2).
  { apply Rle_trans with (C * / INR n); [apply Rmult_le_compat_l; lra|]. apply (Rmult_le_reg_r (INR n)); [lra|]. rewrite Rmult_assoc, Rinv_l by lra. lra. }
  lra.
Qed.

(** ** The function of the examples *)
Definition sines (x y : R) : R := sin x + sin y.
Lemma lim_opp f t l : derivable_pt_lim f t l -> derivable_pt_lim (fun s => - f s) t (- l).
Proof. apply (derivable_pt_lim_opp f). Qed.
Lemma lim_plus_const f k t l : derivable_pt_lim f t l -> derivable_pt_lim (fun s => f s + k) t l.
Proof. intros H. rewrite <- (Rplus_0_r l). apply (derivable_pt_lim_plus f (fct_cte k)); [exact H|apply derivable_pt_lim_const]. Qed.
Lemma lim_const_plus f k t l : derivable_pt_lim f t l -> derivable_pt_lim (fun s => k + f s) t l.
Proof. intros H. rewrite <- (Rplus_0_l l). apply (derivable_pt_lim_plus (fct_cte k) f); [apply derivable_pt_lim_const|exact H]. Qed.
Lemma abs_sin t : Rabs (- sin t) <= 1 /\ Rabs (sin t) <= 1.
Proof. rewrite Rabs_Ropp. pose proof (SIN_bound t). assert (Rabs (sin t) <= 1) by (apply Rabs_le; exact H). auto. Qed.
Lemma sines_smooth xl xu yl yu mx my : smooth sines (fun x _ => - sin x) (fun _ y => - sin y) 1 1 xl xu yl yu mx my.
Proof.
  assert (D4 : forall t, derivable_pt_lim cos t (- sin t) /\ derivable_pt_lim (fun s => - sin s) t (- cos t) /\ derivable_pt_lim (fun s => - cos s) t (sin t)).
  { intros t. split; [apply derivable_pt_lim_cos|]. split; [apply lim_opp, derivable_pt_lim_sin|].
    rewrite <- (Ropp_involutive (sin t)). apply lim_opp, derivable_pt_lim_cos. }
  split.
  - intros y _. exists cos, (fun s => - cos s), sin. split.
    + intros t _. split; [unfold sines; apply lim_plus_const, derivable_pt_lim_sin|apply D4].
    + intros t _. apply abs_sin.
  - intros x _. exists cos, (fun s => - cos s), sin. split.
    + intros t _. split; [unfold sines; apply lim_const_plus, derivable_pt_lim_sin|apply D4].
    + intros t _. apply abs_sin.
Qed.

(** The report of a mesh whose values are near a real function, taken against rational
    values near the same function. *)
Lemma near_report m l U uf e B xl xu yl yu s u t : m <> 0%nat -> (xl < xu)%Qc -> (yl < yu)%Qc ->
  let G := whole m l xl xu yl yu in uniform m l G s -> map pgrid (tree_leaves t) = map fst (leaves s) ->
  map snd (computed_values t) = scatter m l u -> length u = (gnx G * gny G)%nat ->
  (forall x y, near_fun e U (uf x y) x y) -> each_cell (fun x y v => near_fun B U v x y) G u ->
  exists r, error_report uf xl xu yl yu t = Ok r /\
    (0 <= rl1 r <= rlI r)%Qc /\ (rl1 r * rl1 r <= rl2 r <= rlI r * rlI r)%Qc /\ qval (rlI r) <= B + e /\
    nDOFs r m m = (resolution l m * resolution l m)%nat.
Proof.
  intros Hm Hx Hy G HU EG EU Lu Hf HC.
  assert (Q : forall d, 0 < d -> exists r, error_report uf xl xu yl yu t = Ok r /\
    (0 <= rl1 r <= rlI r)%Qc /\ (rl1 r * rl1 r <= rl2 r <= rlI r * rlI r)%Qc /\ qval (rlI r) <= B + e + 1 * d /\
    nDOFs r m m = (resolution l m * resolution l m)%nat).
  { intros d Hd. destruct (rational_above d (B + e) Hd) as (q & Q1 & Q2).
    destruct (uniform_report m l uf xl xu yl yu s u t q Hm Hx Hy HU EG EU Lu) as (r & E & A1 & A2 & A3 & A4).
    - intros i j Hi Hj. apply within_real. rewrite qval_minus. pose proof (HC i j Hi Hj) as N1. pose proof (Hf (mid_x G i) (mid_y G j)) as N2.
      unfold near_fun in N1, N2. apply abs_between in N1, N2. apply Rabs_le. fold G. lra.
    - exists r. do 3 (split; [assumption|]). split; [|exact A4]. apply qval_le in A3. lra. }
  destruct (Q 1 Rlt_0_1) as (r & E & A1 & A2 & _ & A4). exists r. do 3 (split; [assumption|]). split; [|exact A4].
  apply (limit _ _ 1); [lra|]. intros d Hd. destruct (Q d Hd) as (r' & E' & _ & _ & A & _). rewrite E in E'. apply Ok_inj in E'. subst r'. exact A.
Qed.

Lemma near_0 (uf : Qc -> Qc -> Qc) e U v x y : (forall x y, near_fun e U (uf x y) x y) -> within 0 (v - uf x y)%Qc -> near_fun e U v x y.
Proof.
  intros H W. apply within_real in W. rewrite qval_minus, qval_0 in W. specialize (H x y). unfold near_fun in *. apply abs_between in W. replace (qval v) with (qval (uf x y)) by lra. exact H.
Qed.
Lemma near_nonneg e U v x y : near_fun e U v x y -> 0 <= e.
Proof. intros H. eapply Rle_trans; [apply Rabs_pos|exact H]. Qed.

(** [C84] The examples elliptic-multiple and, on a uniform mesh, elliptic-single: exact solution sin x + sin y, load
    minus that, both evaluated within e, FISHPACK patches with lambda = 0 (the beta function
    of elliptic-multiple is 0 and has no effect).  Every value is within [rbound] of sin x + sin y, and the
    largest error it prints is at most e more. *)
Lemma sine_report_fish_pf : forall m l hst c gesv xl xu yl yu s t st uf e,
  (3 <= m)%nat -> hst_contract hst -> gesv_contract gesv -> c_lambda c 0%Qc 0%Qc = 0%Qc -> (xl < xu)%Qc -> (yl < yu)%Qc ->
  (forall x y, near_fun e (fun a b => sin a + sin b) (uf x y) x y) ->
  let rhs := fun x y => (- uf x y)%Qc in let n := (m * 2 ^ l)%nat in
  uniform m l (whole m l xl xu yl yu) s -> fresh (sampled rhs) s t ->
  exists st1 t1 t2 t3 r,
    buildStage (fish_solver hst c) gesv false st t = Ok (st1, t1) /\
    upwardsStage_fn (fish_solver hst c) gesv false rhs t1 = Ok t2 /\
    solveStage_fn (fish_solver hst c) gesv false (fun _ _ _ => 1%Qc) (fun _ _ _ => 0%Qc) (fun _ => uf) t2 = Ok t3 /\
    error_report uf xl xu yl yu t3 = Ok r /\
    (let E := rbound n (qval xl) (qval xu) (qval yl) (qval yu) 1 1 e e in
     each_leaf_cell (fun x y v => near_fun E (fun a b => sin a + sin b) v x y) s (map snd (computed_values t3)) /\ qval (rlI r) <= E + e) /\
    (0 <= rl1 r <= rlI r)%Qc /\ (rl1 r * rl1 r <= rl2 r <= rlI r * rlI r)%Qc.
Proof.
  intros m l hst c gesv xl xu yl yu s t st uf e Hm HL HG Hl Hx Hy Hf rhs n HU HF.
  rewrite fish_lambda, Hl. set (G := whole m l xl xu yl yu) in *.
  assert (HS : right_signs (helmholtz 0)) by (apply helmholtz_right; discriminate).
  pose proof (near_nonneg _ _ _ _ _ (Hf 0%Qc 0%Qc)) as He.
  destruct (mixed_exact_fish_pf m l hst (helmholtz 0) 0%Qc gesv rhs xl xu yl yu s t st (fun _ _ _ => 1%Qc) (fun _ _ _ => 0%Qc) (fun _ => uf))
    as (st1 & t1 & t2 & t3 & u & g & E1 & E2 & E3 & E4 & E5 & E6 & E7 & _); auto; [discriminate| |].
  { apply dirichlet_admissible, pow_nz. lia. }
  assert (EG : map pgrid (tree_leaves t3) = map fst (leaves s)).
  { rewrite (solve_fn_grids _ _ _ _ _ _ _ E3). rewrite upwards_fn in E2. rewrite (up_grids _ _ _ _ _ _ E2), (build_grids _ _ _ _ _ _ _ E1). eapply fresh_grids; eauto. }
  assert (HC : each_cell (fun x y v => near_fun (rbound n (qval xl) (qval xu) (qval yl) (qval yu) 1 1 e e) sines v x y) G u).
  { apply (rect_real_error m l (helmholtz 0) xl xu yl yu sines (fun x _ => - sin x) (fun _ y => - sin y) 1 1 e e g (sampled rhs G) u); auto; try lia.
    - apply sampled_len.
    - apply sines_smooth.
    - destruct (dirichlet_faces m l xl xu yl yu uf g _ ltac:(lia) E7) as (F1 & F2).
      split; intros k Hk; [destruct (F1 k Hk) as (A & B)|destruct (F2 k Hk) as (A & B)]; split; apply (near_0 uf); auto.
    - intros i j Hi Hj. fold G in Hi, Hj |- *. rewrite cell_sampled; auto. cbn [helmholtz c_alpha c_lambda]. unfold rhs. rewrite qval_1, qval_0, qval_opp.
      pose proof (Hf (mid_x G i) (mid_y G j)) as N. unfold near_fun in N. apply abs_between in N. apply Rabs_le. unfold Rdiv. rewrite Rinv_1. lra. }
  destruct (near_report m l sines uf e (rbound n (qval xl) (qval xu) (qval yl) (qval yu) 1 1 e e) xl xu yl yu s u t3) as (r & R1 & R2 & R3 & R4 & R5); auto; try lia.
  - apply E6.
  - exists st1, t1, t2, t3, r. do 4 (split; [assumption|]). split; [|auto]. cbv zeta. split; [|exact R4].
    rewrite E4. apply (scatter_cells _ m l ltac:(lia) G s u eq_refl eq_refl HU). exact HC.
Qed.

(** [C84] The same with the five-point solver. *)
Lemma sine_report_pf : forall m l lu gesv xl xu yl yu s t st uf e,
  (2 <= m)%nat -> lu_contract lu -> gesv_contract gesv -> (xl < xu)%Qc -> (yl < yu)%Qc ->
  (forall x y, near_fun e (fun a b => sin a + sin b) (uf x y) x y) ->
  let c := Coefs (fun _ _ => 1%Qc) (fun _ _ => 1%Qc) (fun _ _ => 0%Qc) in
  let rhs := fun x y => (- uf x y)%Qc in let n := (m * 2 ^ l)%nat in
  uniform m l (whole m l xl xu yl yu) s -> fresh (sampled rhs) s t ->
  exists st1 t1 t2 t3 r,
    buildStage (fv_solver lu c) gesv false st t = Ok (st1, t1) /\
    upwardsStage_fn (fv_solver lu c) gesv false rhs t1 = Ok t2 /\
    solveStage_fn (fv_solver lu c) gesv false (fun _ _ _ => 1%Qc) (fun _ _ _ => 0%Qc) (fun _ => uf) t2 = Ok t3 /\
    error_report uf xl xu yl yu t3 = Ok r /\
    (let E := rbound n (qval xl) (qval xu) (qval yl) (qval yu) 1 1 e e in
     each_leaf_cell (fun x y v => near_fun E (fun a b => sin a + sin b) v x y) s (map snd (computed_values t3)) /\ qval (rlI r) <= E + e) /\
    (0 <= rl1 r <= rlI r)%Qc /\ (rl1 r * rl1 r <= rl2 r <= rlI r * rlI r)%Qc.
Proof.
  intros m l lu gesv xl xu yl yu s t st uf e Hm HL HG Hx Hy Hf c rhs n HU HF. set (G := whole m l xl xu yl yu) in *.
  assert (HS : right_signs c) by (apply helmholtz_right; discriminate).
  pose proof (near_nonneg _ _ _ _ _ (Hf 0%Qc 0%Qc)) as He.
  destruct (mixed_exact_pf m l lu c gesv rhs xl xu yl yu s t st (fun _ _ _ => 1%Qc) (fun _ _ _ => 0%Qc) (fun _ => uf))
    as (st1 & t1 & t2 & t3 & u & g & E1 & E2 & E3 & E4 & E5 & E6 & E7 & _); auto.
  { apply dirichlet_admissible, pow_nz. lia. }
  assert (EG : map pgrid (tree_leaves t3) = map fst (leaves s)).
  { rewrite (solve_fn_grids _ _ _ _ _ _ _ E3). rewrite upwards_fn in E2. rewrite (up_grids _ _ _ _ _ _ E2), (build_grids _ _ _ _ _ _ _ E1). eapply fresh_grids; eauto. }
  assert (HC : each_cell (fun x y v => near_fun (rbound n (qval xl) (qval xu) (qval yl) (qval yu) 1 1 e e) sines v x y) G u).
  { apply (rect_real_error m l c xl xu yl yu sines (fun x _ => - sin x) (fun _ y => - sin y) 1 1 e e g (sampled rhs G) u); auto; try lia.
    - apply sampled_len.
    - apply sines_smooth.
    - destruct (dirichlet_faces m l xl xu yl yu uf g _ ltac:(lia) E7) as (F1 & F2).
      split; intros k Hk; [destruct (F1 k Hk) as (A & B)|destruct (F2 k Hk) as (A & B)]; split; apply (near_0 uf); auto.
    - intros i j Hi Hj. fold G in Hi, Hj |- *. rewrite cell_sampled; auto. cbn [c c_alpha c_lambda]. unfold rhs. rewrite qval_1, qval_0, qval_opp.
      pose proof (Hf (mid_x G i) (mid_y G j)) as N. unfold near_fun in N. apply abs_between in N. apply Rabs_le. unfold Rdiv. rewrite Rinv_1. lra. }
  destruct (near_report m l sines uf e (rbound n (qval xl) (qval xu) (qval yl) (qval yu) 1 1 e e) xl xu yl yu s u t3) as (r & R1 & R2 & R3 & R4 & R5); auto; try lia.
  - apply E6.
  - exists st1, t1, t2, t3, r. do 4 (split; [assumption|]). split; [|auto]. cbv zeta. split; [|exact R4].
    rewrite E4. apply (scatter_cells _ m l ltac:(lia) G s u eq_refl eq_refl HU). exact HC.
Qed.

(** [C84] The example patch-solver as it is written: the error it prints for an n by n patch is
    at most 17 / (12 n^2), and 21/8 of the error of the sines on top. *)
Lemma sine_patch_error_pf : forall lu n uf e, lu_contract lu -> (2 <= n)%nat ->
  (forall x y, near_fun e (fun a b => sin a + sin b) (uf x y) x y) ->
  let c := Coefs (fun _ _ => 1%Qc) (fun _ _ => 1%Qc) (fun _ _ => 0%Qc) in
  exists err, patch_error (fv_solve lu c) uf (fun x y => (- uf x y)%Qc) n = Ok err /\
    0 <= qval err <= 17 / (12 * (INR n * INR n)) + 21 / 8 * e.
Proof.
  intros lu n uf e HL Hn Hf c. set (G := whole n 0 (- (1)) 1 (- (1)) 1). set (rhs := fun x y => (- uf x y)%Qc).
  assert (EG : Grid n n (- (1)) 1 (- (1)) 1 = G) by (unfold G, whole; rewrite Nat.mul_1_r; reflexivity).
  assert (HO : oriented G) by (split; [reflexivity|]; split; [reflexivity|]; cbn [gnx gny G whole Nat.pow]; lia).
  assert (HS : right_signs c) by (apply helmholtz_right; discriminate).
  pose proof (near_nonneg _ _ _ _ _ (Hf 0%Qc 0%Qc)) as He.
  assert (Ex : gnx G = n) by (cbn [G whole gnx Nat.pow]; lia). assert (Ey : gny G = n) by (cbn [G whole gny Nat.pow]; lia).
  assert (Lg : length (on_boundary uf G) = (2 * gny G + 2 * gnx G)%nat). { unfold on_boundary. rewrite !app_length, !map_length, !seq_length. lia. }
  assert (Lf : length (sampled rhs G) = (gnx G * gny G)%nat) by apply sampled_len.
  destruct (fv_solve_ok G n Ex Ey lu c (on_boundary uf G) (sampled rhs G) HL (orp _ HO) (maximum_principle c G (orp _ HO) HS) Hn) as (u & Eu & Su);
    [rewrite Lg, Ex, Ey; lia|rewrite Lf, Ex, Ey; reflexivity|].
  rewrite patch_error_form by lia. cbv zeta. rewrite EG. fold rhs. rewrite Eu, bind_Ok.
  destruct (vector_inf_norm_pf (sampled uf G) u) as (VN & _). destruct VN as (err & Ee & (E0 & EB & EM)).
  { rewrite sampled_len. symmetry. apply Su. }
  exists err. split; [exact Ee|]. apply qval_le in E0. rewrite qval_0 in E0. split; [exact E0|].
  assert (HC : each_cell (fun x y v => near_fun (rbound (n * 2 ^ 0) (qval (- (1))%Qc) (qval 1%Qc) (qval (- (1))%Qc) (qval 1%Qc) 1 1 e e) sines v x y) G u).
  { apply (rect_real_error n 0 c (- (1)) 1 (- (1)) 1 sines (fun x _ => - sin x) (fun _ y => - sin y) 1 1 e e (on_boundary uf G) (sampled rhs G) u); auto; try lia; try reflexivity.
    - etransitivity; [exact Lg|]. rewrite Ex, Ey. cbn [Nat.pow]. lia.
    - apply sines_smooth.
    - destruct (boundary_faces uf G) as (F1 & F2).
      split; intros k Hk; [destruct (F1 k Hk) as (A & B)|destruct (F2 k Hk) as (A & B)]; split; apply (near_0 uf); auto.
    - intros i j Hi Hj. fold G in Hi, Hj |- *. rewrite cell_sampled; auto. cbn [c c_alpha c_lambda]. unfold rhs. rewrite qval_1, qval_0, qval_opp.
      pose proof (Hf (mid_x G i) (mid_y G j)) as N. unfold near_fun in N. apply abs_between in N. apply Rabs_le. unfold Rdiv. rewrite Rinv_1. lra. }
  set (E := rbound _ _ _ _ _ _ _ _ _) in HC.
  assert (EE : E + e <= 17 / (12 * (INR n * INR n)) + 21 / 8 * e).
  { unfold E, rbound. cbv zeta. rewrite Nat.mul_1_r, qval_opp, qval_1.
    assert (N2 : 2 <= INR n) by (apply (le_INR 2); exact Hn). set (q := / (INR n * INR n)).
    assert (Q1 : q <= / 4). { apply Rinv_le_contravar; nra. } assert (Q0 : 0 < q) by (apply Rinv_0_lt_compat; nra).
    replace ((1 - - (1)) / INR n * ((1 - - (1)) / INR n)) with (4 * q) by (unfold q; field; lra).
    replace (17 / (12 * (INR n * INR n))) with (17 / 12 * q) by (unfold q; field; lra). clearbody q.
    assert (H1 : 0 <= e * (/ 4 - q)) by (apply Rmult_le_pos; lra). assert (H2 : 0 <= q * (/ 4 - q)) by (apply Rmult_le_pos; lra). lra. }
  eapply Rle_trans; [|exact EE].
  assert (CI : forall i, (i < length (sampled uf G))%nat -> Rabs (qval (vval (sampled uf G) i - vval u i)%Qc) <= E + e).
  { intros i Hi. rewrite sampled_len, Ex, Ey in Hi.
    assert (D1 : (i / n < n)%nat) by (apply Nat.div_lt_upper_bound; lia). assert (D2 : (i mod n < n)%nat) by (apply Nat.mod_upper_bound; lia).
    assert (EI : i = (i mod n + i / n * n)%nat) by (pose proof (Nat.div_mod i n ltac:(lia)); lia).
    pose proof (HC (i / n)%nat (i mod n)%nat ltac:(lia) ltac:(lia)) as C. pose proof (Hf (mid_x G (i / n)) (mid_y G (i mod n))) as N.
    rewrite <- (cell_sampled G uf (i / n) (i mod n)) in N by lia.
    unfold cell in C, N. rewrite Ey, <- EI in C, N. unfold near_fun in C, N. fold sines in N. rewrite qval_minus. apply abs_between in C, N. apply Rabs_le. unfold sines in C. lra. }
  destruct EM as [->|(i & Hi & EM)].
  - rewrite qval_0. eapply Rle_trans; [apply Rabs_pos|apply (CI 0%nat)]. rewrite sampled_len, Ex, Ey. nia.
  - pose proof (CI i Hi) as C. apply abs_between in C. destruct EM as [->| ->]; rewrite ?qval_opp; lra.
Qed.

(** Rational values of the sines to any accuracy, meshes of any depth, and a function whose
    derivatives do not vanish. *)
Lemma sine_data_expf : forall e, 0 < e -> exists uf, (forall x y, near_fun e (fun a b => sin a + sin b) (uf x y) x y) /\
  (forall m l, let rhs := fun x y => (- uf x y)%Qc in let G := whole m l 0 1 0 1 in
     uniform m l G (divided rhs m l G) /\ fresh (sampled rhs) (divided rhs m l G) (fresh_tree (divided rhs m l G))) /\
  lu_contract lu_gauss /\ c_lambda (helmholtz 0) 0%Qc 0%Qc = 0%Qc /\
  smooth (fun a b => sin a + sin b) (fun a _ => - sin a) (fun _ b => - sin b) 1 1 0 1 0 1 1 1.
Proof.
  intros e He. exists (fun x y => rational e (sin (qval x) + sin (qval y))). split; [intros x y; apply (rational_near e); exact He|].
  split; [intros m l rhs G; split; [apply divided_uniform|apply divided_fresh]|]. split; [exact lu_gauss_contract|]. split; [reflexivity|apply sines_smooth].
Qed.
