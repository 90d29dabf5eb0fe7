(** The error reports of the examples. *)
From Coq Require Import Lqa.
From Verif Require Import Base VectorModel MatrixModel LinSpec NormSpec HPSModel HPSSpec StageSpec FVModel FVSpec GlobalSpec AdaptSpec CompareSpec ConvSpec MixSpec ReportModel ReportSpec.
From Verif Require Import MatProofs MatProofs2 LinProofs Gauss LinProps HPSProofs3 HPSProofs4 HPSHistory HPSRebuild HPSProps StageProps FVProofs FVProofs2 FVProofs3 FVMax FVFish FVGlobal FVCompare FVMixed FVProps AdaptProofs AdaptProps CompareProps NormProps ConvProofs ConvProps MixProps ThermalProofs HeatProofs ReportProofs.
From Coq Require Import Lia.

(** [C70] What the report says: the mean and the mean square of the error over the area,
    and its largest size. *)
Lemma report_meaning_pf : forall V xl xu yl yu t,
  Forall (fun p => length (pu p) = gnx (pgrid p) * gny (pgrid p)) (tree_leaves t) ->
  exists r, error_report V xl xu yl yu t = Ok r /\
    let cs := spots (map (fun p => (pgrid p, pu p)) (tree_leaves t)) in let area := ((xu - xl) * (yu - yl))%Qc in
    rl1 r = (integral (fun c => size (off V c)) cs / area)%Qc /\
    rl2 r = (integral (fun c => off V c * off V c) cs / area)%Qc /\
    largest (fun c => In c cs) (off V) (rlI r) /\ rn r = length (tree_leaves t).
Proof.
  intros V xl xu yl yu t HF. destruct (describes_list V _ HF [] no_report (describes_none V)) as (r & E & N & D1 & D2 & D3).
  exists (report_end ((xu - xl) * (yu - yl)) r). split; [unfold error_report; rewrite report_tree_list, E; reflexivity|].
  cbv zeta. cbn [report_end rl1 rl2 rlI rn]. rewrite D1, D2. auto.
Qed.

(** The totals of a mesh that cuts the rectangle. *)
Lemma report_sound V xl xu yl yu t : (xl < xu)%Qc -> (yl < yu)%Qc -> cuts (map pgrid (tree_leaves t)) ((xu - xl) * (yu - yl)) -> Forall full (tree_leaves t) ->
  exists r, error_report V xl xu yl yu t = Ok r /\ rn r = length (tree_leaves t) /\
    (0 <= rl1 r <= rlI r)%Qc /\ (rl1 r * rl1 r <= rl2 r)%Qc /\ (rl2 r <= rlI r * rl1 r)%Qc /\
    forall B, (forall c, In c (spots (values (tree_leaves t))) -> within B (off V c)) -> (rlI r <= B)%Qc.
Proof.
  intros Hx Hy HC HF. destruct (describes_list V _ HF [] no_report (describes_none V)) as (r & E & N & D). cbn [app] in D.
  destruct (cuts_spots _ _ HC) as (I1 & I2). set (A := ((xu - xl) * (yu - yl))%Qc) in *.
  assert (PA : (0 < A)%Qc). { apply pos_mul; unfold Qclt in *; rewrite this_minus; change (this 0%Qc) with 0%Q; lra. }
  exists (report_end A r). split; [unfold error_report; rewrite report_tree_list, E; reflexivity|]. cbn [report_end rl1 rl2 rlI rn].
  split; [exact N|]. split; [apply (l1_lI V _ r D A PA I1 I2)|]. split; [apply (l1_l2 V _ r D A PA I1 I2)|]. split; [apply (l2_lI V _ r D A PA I2)|].
  intros B HB. destruct D as (_ & _ & _ & _ & [Z|(c & Hc & [Z|Z])]); rewrite Z; [|apply HB; auto|].
  - destruct (spots (values (tree_leaves t))) as [|c cs] eqn:Es; [exfalso; rewrite <- I1 in PA; now apply Qclt_not_eq in PA|].
    destruct (HB c (or_introl eq_refl)) as (B1 & B2). unfold Qcle in *. rewrite this_opp in B1. change (this 0%Qc) with 0%Q. lra.
  - destruct (HB c Hc) as (B1 & B2). unfold Qcle in *. rewrite this_opp in *. lra.
Qed.

(** [C70] On every mesh that divides the rectangle the three errors are in order: the mean
    is at most the root of the mean square, which is at most the maximum. *)
Lemma report_order_pf : forall V m G s t, m <> 0 -> (gxl G < gxu G)%Qc -> (gyl G < gyu G)%Qc -> tiled m G s ->
  map pgrid (tree_leaves t) = map fst (leaves s) ->
  Forall (fun p => length (pu p) = gnx (pgrid p) * gny (pgrid p)) (tree_leaves t) ->
  exists r, error_report V (gxl G) (gxu G) (gyl G) (gyu G) t = Ok r /\
    (0 <= rl1 r <= rlI r)%Qc /\ (rl1 r * rl1 r <= rl2 r <= rlI r * rlI r)%Qc.
Proof.
  intros V m G s t Hm Hx Hy HT HG HF. pose proof (tiled_cuts m Hm s G Hx Hy HT) as HC. rewrite <- HG in HC.
  destruct (report_sound V _ _ _ _ t Hx Hy HC HF) as (r & E & _ & (A1 & A2) & A3 & A4 & _). exists r. split; [exact E|]. split; [auto|]. split; [exact A3|].
  eapply Qcle_trans; [exact A4|]. rewrite !(Qcmult_comm (rlI r)). apply Qcmult_le_compat_r; [exact A2|]. eapply Qcle_trans; eassumption.
Qed.

Lemma spots_in ps s P : map pgrid ps = map fst (leaves s) -> each_leaf_cell P s (map pu ps) ->
  forall c, In c (spots (values ps)) -> P (s_x c) (s_y c) (s_v c).
Proof.
  unfold each_leaf_cell. generalize (leaves s). induction ps as [|p ps IH]; intros z EG H c HI; [destruct HI|].
  destruct z as [|w z]; [discriminate|]. injection EG as E1 E2. cbn [map] in H. inversion H. subst.
  cbn [values map spots flat_map] in HI. apply in_app_iff in HI as [HI|HI]; [|eapply IH; eauto].
  unfold leaf_spots in HI. apply in_flat_map in HI as (i & Hi & HI). apply in_map_iff in HI as (j & <- & Hj).
  apply in_seq in Hi, Hj. cbn [fst snd s_x s_y s_v] in *. rewrite E1 in *. match goal with Q : each_cell _ _ _ |- _ => apply Q; lia end.
Qed.

Lemma uniform_full m l G s u ps : m <> 0 -> gnx G = m * 2 ^ l -> gny G = m * 2 ^ l -> length u = gnx G * gny G -> uniform m l G s ->
  map pgrid ps = map fst (leaves s) -> map pu ps = scatter m l u -> Forall full ps.
Proof.
  intros Hm Ex Ey Lu HU EG EU. rewrite (uniform_grids m l u G s HU) in EG.
  pose proof (leaf_pointwise (fun _ _ v => v) m l Hm G u u ps Ex Ey Lu EG EU) as Q.
  revert Q. generalize (leaves (loaded m l G (pointwise (fun _ _ v : Qc => v) G u))). clear. intros z Q.
  induction Q as [|p w ps z (A & B & C & D & _) Q IH]; constructor; auto. unfold full. rewrite A, B, C, D. reflexivity.
Qed.

Lemma uniform_report m l V xl xu yl yu s u t B : m <> 0 -> (xl < xu)%Qc -> (yl < yu)%Qc ->
  let G := whole m l xl xu yl yu in uniform m l G s -> map pgrid (tree_leaves t) = map fst (leaves s) ->
  map snd (computed_values t) = scatter m l u -> length u = gnx G * gny G ->
  each_cell (fun x y v => within B (v - V x y)) G u ->
  exists r, error_report V xl xu yl yu t = Ok r /\
    (0 <= rl1 r <= rlI r)%Qc /\ (rl1 r * rl1 r <= rl2 r <= rlI r * rlI r)%Qc /\ (rlI r <= B)%Qc /\
    nDOFs r m m = resolution l m * resolution l m.
Proof.
  intros Hm Hx Hy G HU EG EU Lu HC. unfold computed_values in EU. rewrite map_map in EU. cbn [snd] in EU.
  destruct (uniform_cuts m l Hm G s Hx Hy eq_refl eq_refl HU) as (Q1 & Q2). rewrite <- EG in Q1.
  pose proof (uniform_full m l G s u (tree_leaves t) Hm eq_refl eq_refl Lu HU EG EU) as HF.
  destruct (report_sound V xl xu yl yu t Hx Hy Q1 HF) as (r & E & N & (A1 & A2) & A3 & A4 & A5). exists r. split; [exact E|]. split; [auto|].
  split; [split; [exact A3|]|split].
  - eapply Qcle_trans; [exact A4|]. rewrite !(Qcmult_comm (rlI r)). apply Qcmult_le_compat_r; [exact A2|]. eapply Qcle_trans; eassumption.
  - apply A5. apply (spots_in _ s (fun x y v => within B (v - V x y)) EG). change (map pu (tree_leaves t)) with (map (fun p => pu p) (tree_leaves t)). rewrite EU.
    apply (scatter_cells _ m l Hm G s u eq_refl eq_refl HU). exact HC.
  - unfold nDOFs, resolution. rewrite N. assert (L : length (tree_leaves t) = 4 ^ l) by (rewrite <- (map_length pgrid), EG, map_length; exact Q2).
    rewrite L. change 4 with (2 * 2). rewrite Nat.pow_mul_l. lia.
Qed.

(** [C70] The example elliptic-multiple, five-point solver, uniform mesh: all errors it
    reports are of second order. *)
Lemma program_report_pf : forall m l lu c gesv xl xu yl yu s t st V Vxx Vyy M2 M4,
  2 <= m -> lu_contract lu -> gesv_contract gesv -> right_signs c -> (forall x y, c_beta c x y = 1%Qc) ->
  (xl < xu)%Qc -> (yl < yu)%Qc ->
  let rhs := fun x y => (c_alpha c x y * (Vxx x y + Vyy x y) + c_lambda c x y * V x y)%Qc in
  uniform m l (whole m l xl xu yl yu) s -> fresh (sampled rhs) s t ->
  tame V Vxx Vyy M2 M4 (whole m 0 xl xu yl yu) -> (0 <= M2)%Qc -> (0 <= M4)%Qc ->
  exists st1 t1 t2 t3 r,
    buildStage (fv_solver lu c) gesv false st t = Ok (st1, t1) /\
    upwardsStage_fn (fv_solver lu c) gesv false rhs t1 = Ok t2 /\
    solveStage_fn (fv_solver lu c) gesv false (fun _ _ _ => 1%Qc) (fun _ _ _ => 0%Qc) (fun _ => V) t2 = Ok t3 /\
    error_report V xl xu yl yu t3 = Ok r /\
    (0 <= rl1 r <= rlI r)%Qc /\ (rl1 r * rl1 r <= rl2 r <= rlI r * rlI r)%Qc /\
    (rlI r <= bound m l xl xu yl yu M2 M4 0 0)%Qc /\ nDOFs r m m = resolution l m * resolution l m.
Proof.
  intros m l lu c gesv xl xu yl yu s t st V Vxx Vyy M2 M4 Hm HL HG HS Hb Hx Hy rhs HU HF HT H2 H4.
  set (G := whole m l xl xu yl yu) in *.
  destruct (mixed_exact_pf m l lu c gesv rhs xl xu yl yu s t st (fun _ _ _ => 1%Qc) (fun _ _ _ => 0%Qc) (fun _ => V))
    as (st1 & t1 & t2 & t3 & u & g & E1 & E2 & E3 & E4 & E5 & E6 & E7 & _); auto.
  { apply dirichlet_admissible, pow_nz. lia. }
  assert (EG : map pgrid (tree_leaves t3) = map fst (leaves s)).
  { rewrite (solve_fn_grids _ _ _ _ _ _ _ E3). rewrite upwards_fn in E2. rewrite (up_grids _ _ _ _ _ _ E2), (build_grids _ _ _ _ _ _ _ E1). eapply fresh_grids; eauto. }
  destruct (uniform_report m l V xl xu yl yu s u t3 (bound m l xl xu yl yu M2 M4 0 0)) as (r & R); auto; try lia.
  - apply E6.
  - fold G. apply (rect_error m l c xl xu yl yu V Vxx Vyy M2 M4 0 0 g (sampled rhs G) u); auto; try lia; try discriminate.
    + apply sampled_len.
    + eapply dirichlet_faces; [lia|exact E7].
    + intros i j Hi Hj. fold G in Hi, Hj |- *. rewrite cell_sampled; auto. unfold rhs.
      destruct (HS (mid_x G i) (mid_y G j)) as (Ha & _).
      match goal with |- within 0 ?X => replace X with 0%Qc by (field; exact Ha) end. split; discriminate.
  - exists st1, t1, t2, t3, r. auto.
Qed.

(** [C70] The same with FISHPACK, the solver the example uses. *)
Lemma program_report_fish_pf : forall m l hst c lam gesv xl xu yl yu s t st V Vxx Vyy M2 M4,
  3 <= m -> hst_contract hst -> gesv_contract gesv ->
  (forall x y, c_alpha c x y = 1%Qc /\ c_beta c x y = 1%Qc /\ c_lambda c x y = lam) -> (lam <= 0)%Qc ->
  (xl < xu)%Qc -> (yl < yu)%Qc ->
  let rhs := fun x y => (Vxx x y + Vyy x y + lam * V x y)%Qc in
  uniform m l (whole m l xl xu yl yu) s -> fresh (sampled rhs) s t ->
  tame V Vxx Vyy M2 M4 (whole m 0 xl xu yl yu) -> (0 <= M2)%Qc -> (0 <= M4)%Qc ->
  exists st1 t1 t2 t3 r,
    buildStage (fish_solver hst c) gesv false st t = Ok (st1, t1) /\
    upwardsStage_fn (fish_solver hst c) gesv false rhs t1 = Ok t2 /\
    solveStage_fn (fish_solver hst c) gesv false (fun _ _ _ => 1%Qc) (fun _ _ _ => 0%Qc) (fun _ => V) t2 = Ok t3 /\
    error_report V xl xu yl yu t3 = Ok r /\
    (0 <= rl1 r <= rlI r)%Qc /\ (rl1 r * rl1 r <= rl2 r <= rlI r * rlI r)%Qc /\
    (rlI r <= bound m l xl xu yl yu M2 M4 0 0)%Qc /\ nDOFs r m m = resolution l m * resolution l m.
Proof.
  intros m l hst c lam gesv xl xu yl yu s t st V Vxx Vyy M2 M4 Hm HL HG Hc Hl Hx Hy rhs HU HF HT H2 H4.
  assert (HS : right_signs c) by (eapply helmholtz_signs; eauto).
  set (G := whole m l xl xu yl yu) in *.
  destruct (mixed_exact_fish_pf m l hst c lam gesv rhs xl xu yl yu s t st (fun _ _ _ => 1%Qc) (fun _ _ _ => 0%Qc) (fun _ => V))
    as (st1 & t1 & t2 & t3 & u & g & E1 & E2 & E3 & E4 & E5 & E6 & E7 & _); auto.
  { apply dirichlet_admissible, pow_nz. lia. }
  assert (EG : map pgrid (tree_leaves t3) = map fst (leaves s)).
  { rewrite (solve_fn_grids _ _ _ _ _ _ _ E3). rewrite upwards_fn in E2. rewrite (up_grids _ _ _ _ _ _ E2), (build_grids _ _ _ _ _ _ _ E1). eapply fresh_grids; eauto. }
  destruct (uniform_report m l V xl xu yl yu s u t3 (bound m l xl xu yl yu M2 M4 0 0)) as (r & R); auto; try lia.
  - apply E6.
  - fold G. apply (rect_error m l c xl xu yl yu V Vxx Vyy M2 M4 0 0 g (sampled rhs G) u); auto; try lia; try discriminate.
    + intros x y. apply Hc.
    + apply sampled_len.
    + eapply dirichlet_faces; [lia|exact E7].
    + intros i j Hi Hj. fold G in Hi, Hj |- *. rewrite cell_sampled; auto. unfold rhs.
      destruct (Hc (mid_x G i) (mid_y G j)) as (-> & _ & ->).
      match goal with |- within 0 ?X => replace X with 0%Qc by (field; discriminate) end. split; discriminate.
  - exists st1, t1, t2, t3, r. auto.
Qed.

(** [C70] A linear function is reported without error, on meshes refined in places too. *)
Lemma linear_report_pf : forall m lu c gesv G load s t st p q r,
  2 <= m -> lu_contract lu -> gesv_contract gesv -> right_signs c -> oriented (rect m G) -> tiled m G s ->
  fresh load s t -> well_posed m (fv_solver lu c) s -> 3 <= m \/ equal_levels s ->
  (forall G' f, In (G', f) (leaves s) -> plane_load c G' p q r f) ->
  exists st1 t1 t2 t3,
    buildStage (fv_solver lu c) gesv false st t = Ok (st1, t1) /\
    upwardsStage (fv_solver lu c) gesv false load t1 = Ok t2 /\
    solveStage (fv_solver lu c) false (on_boundary (plane p q r) (rect (m * 2 ^ level s) G)) t2 = Ok t3 /\
    error_report (plane p q r) (gxl G) (gxu G) (gyl G) (gyu G) t3 = Ok (Report 0 0 0 (length (leaves s))).
Proof.
  intros m lu c gesv G load s t st p q r Hm HL Hge HS HO HT HF HW H3 HP.
  destruct (linear_exact_pf m lu c gesv G load s t st p q r Hm HL Hge HS HO HT HF HW H3 HP) as (st1 & t1 & t2 & t3 & E1 & E2 & E3 & E4 & _).
  exists st1, t1, t2, t3. do 3 (split; [assumption|]). destruct HO as (Hx & Hy & _). cbn [rect gxl gxu gyl gyu] in Hx, Hy.
  assert (EG : map pgrid (tree_leaves t3) = map fst (leaves s)).
  { rewrite (solve_grids _ _ _ _ E3), (up_grids _ _ _ _ _ _ E2), (build_grids _ _ _ _ _ _ _ E1). eapply fresh_grids; eauto. }
  assert (EU : map pu (tree_leaves t3) = map (fun G => sampled (plane p q r) G) (map fst (leaves s))).
  { apply (f_equal (map snd)) in E4. unfold computed_values in E4. rewrite !map_map in E4. cbn [snd] in E4. rewrite map_map. exact E4. }
  assert (EP : Forall (fun z => pu z = sampled (plane p q r) (pgrid z)) (tree_leaves t3)).
  { rewrite <- EG in EU. clear - EU. induction (tree_leaves t3) as [|z ps IH]; constructor; cbn [map] in EU; injection EU as A B; auto. }
  assert (Full : Forall full (tree_leaves t3)).
  { eapply Forall_impl; [|exact EP]. cbv beta. intros z E. unfold full. rewrite E. unfold sampled. rewrite map_length, seq_length. reflexivity. }
  pose proof (tiled_cuts m ltac:(lia) s G Hx Hy HT) as HC. rewrite <- EG in HC.
  destruct (report_sound (plane p q r) _ _ _ _ t3 Hx Hy HC Full) as (R & E & N & (A1 & A2) & A3 & A4 & A5).
  assert (Z : (rlI R <= 0)%Qc).
  { apply A5. intros c0 Hc. assert (O : off (plane p q r) c0 = 0%Qc); [|rewrite O; split; discriminate].
    unfold spots in Hc. apply in_flat_map in Hc as (w & Hw & Hc). apply in_map_iff in Hw as (z & <- & Hz).
    rewrite Forall_forall in EP. apply EP in Hz. unfold leaf_spots in Hc. apply in_flat_map in Hc as (i & Hi & Hc). apply in_map_iff in Hc as (j & <- & Hj).
    apply in_seq in Hi, Hj. cbn [fst snd] in *. unfold off. cbn [s_v s_x s_y]. rewrite Hz, cell_sampled by lia. ring. }
  assert (I0 : rlI R = 0%Qc) by (apply Qcle_antisym; [exact Z|eapply Qcle_trans; eassumption]). rewrite I0 in *.
  assert (L0 : rl1 R = 0%Qc) by (apply Qcle_antisym; assumption). rewrite L0 in *.
  assert (S0 : rl2 R = 0%Qc). { apply Qcle_antisym; [eapply Qcle_trans; [exact A4|]|eapply Qcle_trans; [|exact A3]]; discriminate. }
  rewrite E. destruct R as [a b d n]. cbn [rl1 rl2 rlI rn] in *. subst. f_equal. f_equal. rewrite <- (map_length pgrid), EG, map_length. reflexivity.
Qed.

(** [C70] On several ranks each rank reports its share: the means add up to the mean of the
    whole mesh, and no rank's maximum exceeds that of the whole. *)
Lemma rank_reports_pf : forall V xl xu yl yu t owned,
  concat owned = tree_leaves t ->
  Forall (fun p => length (pu p) = gnx (pgrid p) * gny (pgrid p)) (tree_leaves t) ->
  exists r rs, error_report V xl xu yl yu t = Ok r /\ Forall2 (fun own x => rank_report V xl xu yl yu own = Ok x) owned rs /\
    rl1 r = fold_right (fun x s => (rl1 x + s)%Qc) 0%Qc rs /\ rl2 r = fold_right (fun x s => (rl2 x + s)%Qc) 0%Qc rs /\
    Forall (fun x => (rlI x <= rlI r)%Qc) rs /\ (rs <> [] -> exists x, In x rs /\ rlI x = rlI r) /\
    rn r = fold_right (fun x s => rn x + s) 0 rs.
Proof.
  intros V xl xu yl yu t owned EO HF. set (A := ((xu - xl) * (yu - yl))%Qc).
  destruct (describes_list V _ HF [] no_report (describes_none V)) as (r & E & N & D). cbn [app] in D. cbn [no_report rn Nat.add] in N.
  assert (Q : exists rs, Forall2 (fun own x => foldM (report_leaf V) own no_report = Ok x /\ rn x = length own /\ describes V (spots (values own)) x) owned rs).
  { rewrite <- EO in HF. clear - HF. induction owned as [|own owned IH]; [exists []; constructor|]. cbn [concat] in HF. rewrite Forall_app in HF. destruct HF as (F1 & F2).
    destruct (IH F2) as (rs & Q). destruct (describes_list V _ F1 [] no_report (describes_none V)) as (x & E & N & D). exists (x :: rs). constructor; [|exact Q]. auto. }
  destruct Q as (rs & Q). exists (report_end A r), (map (report_end A) rs).
  split; [unfold error_report; rewrite report_tree_list, E; reflexivity|].
  split; [clear - Q; induction Q as [|own x owned rs (E & _) Q IH]; constructor; [unfold rank_report; rewrite E; reflexivity|exact IH]|].
  cbn [report_end rl1 rl2 rlI rn].
  assert (S : forall phi, integral phi (spots (values (concat owned))) = fold_right (fun own s => (integral phi (spots (values own)) + s)%Qc) 0%Qc owned).
  { intros phi. clear. induction owned as [|own owned IH]; [reflexivity|]. cbn [concat fold_right]. unfold values. rewrite map_app. unfold spots. rewrite flat_map_app, integral_app.
    fold (values own) (values (concat owned)). fold (spots (values own)) (spots (values (concat owned))). rewrite IH. reflexivity. }
  rewrite <- EO in *. destruct D as (D1 & D2 & D0 & D3 & D4).
  split; [|split; [|split; [|split]]].
  - rewrite D1, S. clear - Q. induction Q as [|own x owned rs (_ & _ & E & _) Q IH]; cbn [map fold_right]; [unfold Qcdiv; ring|].
    rewrite <- IH. cbn [report_end rl1]. rewrite E. unfold Qcdiv. ring.
  - rewrite D2, S. clear - Q. induction Q as [|own x owned rs (_ & _ & _ & E & _) Q IH]; cbn [map fold_right]; [unfold Qcdiv; ring|].
    rewrite <- IH. cbn [report_end rl2]. rewrite E. unfold Qcdiv. ring.
  - assert (IN : forall own c, In own owned -> In c (spots (values own)) -> In c (spots (values (concat owned)))).
    { intros own c Ho Hc. unfold spots in *. apply in_flat_map in Hc as (z & Hz & Hc). apply in_flat_map. exists z. split; [|exact Hc].
      unfold values in *. apply in_map_iff in Hz as (p & <- & Hp). apply in_map_iff. exists p. split; [reflexivity|]. apply in_concat. eauto. }
    rewrite Forall_forall. intros x Hx. apply in_map_iff in Hx as (y & <- & Hy). cbn [report_end rlI].
    apply In_nth_error in Hy as (k & Hk). clear - Q Hk IN D3 D0.
    assert (exists own, In own owned /\ describes V (spots (values own)) y) as (own & Ho & (_ & _ & L0 & L1 & L2)).
    { clear - Q Hk. revert k Hk. induction Q as [|own x owned rs (_ & _ & D) Q IH]; intros [|k] Hk; cbn in Hk; try discriminate.
      - injection Hk as ->. exists own. split; [left; reflexivity|exact D].
      - destruct (IH k Hk) as (o & Ho & D'). exists o. split; [right; exact Ho|exact D']. }
    destruct L2 as [->|(c & Hc & [->| ->])]; [exact D0|apply D3; eauto|]. destruct (D3 c (IN _ _ Ho Hc)) as (B1 & B2).
    unfold Qcle in *. rewrite this_opp in *. lra.
  - intros NE.
    assert (UP : forall y, In y rs -> (0 <= rlI y)%Qc).
    { intros y Hy. clear - Q Hy. induction Q as [|own x owned rs (_ & _ & _ & _ & D & _) Q IH]; [destruct Hy|]. destruct Hy as [<-|Hy]; auto. }
    assert (LE : forall y, In y rs -> (rlI y <= rlI r)%Qc).
    { intros y Hy. apply In_nth_error in Hy as (k & Hk).
      assert (exists own, In own owned /\ describes V (spots (values own)) y) as (own & Ho & (_ & _ & L0 & L1 & L2)).
      { clear - Q Hk. revert k Hk. induction Q as [|own x owned rs (_ & _ & D) Q IH]; intros [|k] Hk; cbn in Hk; try discriminate.
        - injection Hk as ->. exists own. split; [left; reflexivity|exact D].
        - destruct (IH k Hk) as (o & Ho & D'). exists o. split; [right; exact Ho|exact D']. }
      assert (IN : forall c, In c (spots (values own)) -> In c (spots (values (concat owned)))).
      { intros c Hc. unfold spots in *. apply in_flat_map in Hc as (z & Hz & Hc). apply in_flat_map. exists z. split; [|exact Hc].
        unfold values in *. apply in_map_iff in Hz as (p & <- & Hp). apply in_map_iff. exists p. split; [reflexivity|]. apply in_concat. eauto. }
      destruct L2 as [->|(c & Hc & [->| ->])]; [exact D0|apply D3; eauto|]. destruct (D3 c (IN _ Hc)) as (B1 & B2).
      unfold Qcle in *. rewrite this_opp in *. lra. }
    assert (NR : exists y, In y rs). { destruct rs as [|y rs']; [exfalso; apply NE; reflexivity|exists y; left; reflexivity]. }
    destruct D4 as [Z|(c & Hc & Z)].
    + destruct NR as (y & Hy). exists (report_end A y). split; [apply in_map; exact Hy|]. cbn [report_end rlI]. apply Qcle_antisym; [auto|]. rewrite Z. auto.
    + unfold spots in Hc. apply in_flat_map in Hc as (z & Hz & Hc). unfold values in Hz. apply in_map_iff in Hz as (p & <- & Hp).
      apply in_concat in Hp as (own & Ho & Hp).
      assert (exists y, In y rs /\ describes V (spots (values own)) y) as (y & Hy & (_ & _ & L0 & L1 & L2)).
      { clear - Q Ho. induction Q as [|o x owned rs (_ & _ & D) Q IH]; [destruct Ho|]. destruct Ho as [<-|Ho]; [exists x; split; [left; reflexivity|exact D]|].
        destruct (IH Ho) as (y & Hy & D'). exists y. split; [right; exact Hy|exact D']. }
      assert (Hc' : In c (spots (values own))).
      { unfold spots. apply in_flat_map. exists (pgrid p, pu p). split; [|exact Hc]. unfold values. apply in_map_iff. exists p. auto. }
      exists (report_end A y). split; [apply in_map; exact Hy|]. cbn [report_end rlI]. apply Qcle_antisym; [auto|].
      destruct (L1 c Hc') as (B1 & B2). destruct Z as [-> | ->]; unfold Qcle in *; rewrite ?this_opp in *; lra.
  - rewrite N. clear - Q. induction Q as [|own x owned rs (_ & E & _) Q IH]; [reflexivity|]. cbn [concat map fold_right report_end rn].
    rewrite app_length, IH, E. reflexivity.
Qed.

Definition lone (e x y : Qc) : patch := set_u (HPSProps.ex_patch (Grid 1 1 x (x + 1) y (y + 1)) no_mat []) [e].

(** [C70] With two ranks the report printed is not that of the mesh. *)
Lemma rank_report_refuted_pf : exists V t owned own r x,
  concat owned = tree_leaves t /\ In own owned /\
  error_report V 0 (1 + 1) 0 (1 + 1) t = Ok r /\ rank_report V 0 (1 + 1) 0 (1 + 1) own = Ok x /\
  rl1 x <> rl1 r /\ rlI x <> rlI r /\ rn x <> rn r.
Proof.
  exists (fun _ _ => 0%Qc), (Node ex_tau (Leaf (lone 1 0 0)) (Leaf (lone 0 1 0)) (Leaf (lone 0 0 1)) (Leaf (lone (1 + 1) 1 1))),
    [[lone 1 0 0; lone 0 1 0]; [lone 0 0 1; lone (1 + 1) 1 1]], [lone 1 0 0; lone 0 1 0].
  eexists. eexists. split; [reflexivity|]. split; [left; reflexivity|]. split; [vm_compute; reflexivity|]. split; [vm_compute; reflexivity|].
  cbn [rl1 rlI rn]. split; [|split]; discriminate.
Qed.

(** ** The example patch-solver *)
Lemma pair_fill n (a b : nat -> Qc) :
  foldM (fun s j => w <- vset (fst s) j (a j) ;; e <- vset (snd s) j (b j) ;; Ok (w, e)) (seq 0 n) (repeat 0%Qc n, repeat 0%Qc n) = Ok (vec_of n a, vec_of n b).
Proof.
  rewrite <- (filled_all 0%Qc n a), <- (filled_all 0%Qc n b), (filled_0 0%Qc n a) at 1. rewrite (filled_0 0%Qc n b) at 1.
  assert (H : forall k, k <= n -> foldM (fun s j => w <- vset (fst s) j (a j) ;; e <- vset (snd s) j (b j) ;; Ok (w, e)) (seq 0 k)
    (filled 0%Qc n a 0, filled 0%Qc n b 0) = Ok (filled 0%Qc n a k, filled 0%Qc n b k)).
  { induction k as [|k IH]; intros Hk; [reflexivity|]. rewrite seq_S, foldM_app, IH, bind_Ok by lia. cbn [Nat.add foldM fst snd].
    rewrite filled_step, bind_Ok by (auto; lia). rewrite filled_step, bind_Ok by (auto; lia). reflexivity. }
  apply H. lia.
Qed.
Lemma pair_fill2 nx ny (a b : nat -> Qc) (fa fb : nat -> nat -> Qc) :
  (forall i j, i < nx -> j < ny -> fa i j = a (j + i * ny) /\ fb i j = b (j + i * ny)) ->
  foldM (fun s i => foldM (fun s j => f <- vset (fst s) (j + i * ny) (fa i j) ;; u <- vset (snd s) (j + i * ny) (fb i j) ;; Ok (f, u)) (seq 0 ny) s)
    (seq 0 nx) (repeat 0%Qc (nx * ny), repeat 0%Qc (nx * ny)) = Ok (vec_of (nx * ny) a, vec_of (nx * ny) b).
Proof.
  intros HE. set (n := nx * ny). rewrite <- (filled_all 0%Qc n a), <- (filled_all 0%Qc n b), (filled_0 0%Qc n a) at 1. rewrite (filled_0 0%Qc n b) at 1.
  set (st := fun k => (filled 0%Qc n a k, filled 0%Qc n b k)).
  assert (R : forall i k, i < nx -> k <= ny ->
    foldM (fun s j => f <- vset (fst s) (j + i * ny) (fa i j) ;; u <- vset (snd s) (j + i * ny) (fb i j) ;; Ok (f, u)) (seq 0 k) (st (i * ny)) = Ok (st (k + i * ny))).
  { intros i k Hi. induction k as [|k IH]; intros Hk; [reflexivity|]. rewrite seq_S, foldM_app, IH, bind_Ok by lia. cbn [Nat.add foldM].
    unfold st at 1 2. cbn [fst snd]. destruct (HE i k) as (E1 & E2); [lia|lia|]. assert (k + i * ny < n) by (unfold n; nia).
    rewrite filled_step, bind_Ok by auto. rewrite filled_step, bind_Ok by auto. reflexivity. }
  assert (C : forall k, k <= nx -> foldM (fun s i => foldM (fun s j => f <- vset (fst s) (j + i * ny) (fa i j) ;; u <- vset (snd s) (j + i * ny) (fb i j) ;; Ok (f, u)) (seq 0 ny) s)
    (seq 0 k) (st 0) = Ok (st (k * ny))).
  { induction k as [|k IH]; intros Hk; [reflexivity|]. rewrite seq_S, foldM_app, IH, bind_Ok by lia. cbn [Nat.add foldM]. rewrite R, bind_Ok by lia. reflexivity. }
  apply (C nx). lia.
Qed.

Lemma patch_error_form solve V f n : n <> 0 ->
  let G := Grid n n (- (1)) 1 (- (1)) 1 in
  patch_error solve V f n = (u <- solve G (on_boundary V G) (sampled f G) ;; vectorInfNorm (sampled V G) u).
Proof.
  intros Hn G. unfold patch_error. cbv zeta. fold G.
  rewrite (pair_fill n (fun j => V (- (1))%Qc (gy G j)) (fun j => V 1%Qc (gy G j))), bind_Ok.
  rewrite (pair_fill n (fun i => V (gx G i) (- (1))%Qc) (fun i => V (gx G i) 1%Qc)), bind_Ok. cbn [fst snd].
  rewrite concatenate_ok, bind_Ok. cbn [concat]. rewrite app_nil_r.
  rewrite (pair_fill2 n n (fun k => f (mid_x G (k / n)) (mid_y G (k mod n))) (fun k => V (mid_x G (k / n)) (mid_y G (k mod n)))), bind_Ok.
  - cbn [fst snd]. unfold sampled. cbn [gnx gny G]. rewrite !map_seq_vec.
    assert (EB : vec_of n (fun j => V (- (1))%Qc (gy G j)) ++ vec_of n (fun j => V 1%Qc (gy G j)) ++ vec_of n (fun i => V (gx G i) (- (1))%Qc) ++ vec_of n (fun i => V (gx G i) 1%Qc)
      = on_boundary V G); [|rewrite EB; reflexivity].
    unfold on_boundary. cbn [gnx gny gxl gxu gyl gyu G]. rewrite !map_seq_vec. fold G.
    repeat (apply f_equal2; [apply vec_of_ext; intros; rewrite ?gx_mid, ?gy_mid; reflexivity|]). apply vec_of_ext. intros. rewrite gx_mid. reflexivity.
  - intros i j Hi Hj. rewrite Nat.div_add, Nat.mod_add, Nat.div_small, Nat.mod_small by lia. cbn [Nat.add]. rewrite gx_mid, gy_mid. auto.
Qed.

Lemma boundary_faces V G : each_face (fun v x y => within 0 (v - V x y)) (fun v x y => within 0 (v - V x y)) G (on_boundary V G).
Proof.
  assert (Z : forall v w, v = w -> within 0 (v - w)). { intros v w ->. replace (w - w)%Qc with 0%Qc by ring. split; discriminate. }
  unfold on_boundary. rewrite !map_seq_vec. unfold each_face, west, east, south, north. split; intros k Hk; split; apply Z.
  - rewrite vval_app, vec_of_length. destruct (Nat.ltb_spec k (gny G)); [|lia]. apply vval_vec_of. lia.
  - rewrite vval_app, vec_of_length. destruct (Nat.ltb_spec (gny G + k) (gny G)); [lia|]. rewrite vval_app, vec_of_length.
    replace (gny G + k - gny G) with k by lia. destruct (Nat.ltb_spec k (gny G)); [|lia]. apply vval_vec_of. lia.
  - rewrite vval_app, vec_of_length. destruct (Nat.ltb_spec (2 * gny G + k) (gny G)); [lia|]. rewrite vval_app, vec_of_length.
    destruct (Nat.ltb_spec (2 * gny G + k - gny G) (gny G)); [lia|]. rewrite vval_app, vec_of_length.
    replace (2 * gny G + k - gny G - gny G) with k by lia. destruct (Nat.ltb_spec k (gnx G)); [|lia]. apply vval_vec_of. lia.
  - rewrite vval_app, vec_of_length. destruct (Nat.ltb_spec (2 * gny G + gnx G + k) (gny G)); [lia|]. rewrite vval_app, vec_of_length.
    destruct (Nat.ltb_spec (2 * gny G + gnx G + k - gny G) (gny G)); [lia|]. rewrite vval_app, vec_of_length.
    replace (2 * gny G + gnx G + k - gny G - gny G) with (gnx G + k) by lia. destruct (Nat.ltb_spec (gnx G + k) (gnx G)); [lia|].
    replace (gnx G + k - gnx G) with k by lia. apply vval_vec_of. lia.
Qed.

(** [C70] The example patch-solver prints an error of second order in 1/n. *)
Lemma patch_error_pf : forall lu V Vxx Vyy M2 M4 n, lu_contract lu -> 2 <= n ->
  tame V Vxx Vyy M2 M4 (Grid 2 2 (- (1)) 1 (- (1)) 1) -> (0 <= M2)%Qc -> (0 <= M4)%Qc ->
  exists e, patch_error (fv_solve lu (helmholtz 0)) V (fun x y => Vxx x y + Vyy x y)%Qc n = Ok e /\ (0 <= e)%Qc /\
    (e <= (M2 + Qc_of_nat 5 * M4) / (Qc_of_nat n * Qc_of_nat n))%Qc.
Proof.
  intros lu V Vxx Vyy M2 M4 n HL Hn HT H2 H4. set (G := Grid n n (- (1)) 1 (- (1)) 1). set (rhs := fun x y => (Vxx x y + Vyy x y)%Qc).
  assert (HO : oriented G) by (split; [reflexivity|]; split; [reflexivity|]; cbn [gnx gny G]; lia).
  assert (HS : right_signs (helmholtz 0)) by (intros x y; cbn; repeat split; discriminate).
  assert (Lg : length (on_boundary V G) = 2 * gny G + 2 * gnx G). { unfold on_boundary. rewrite !app_length, !map_length, !seq_length. lia. }
  assert (Lf : length (sampled rhs G) = gnx G * gny G) by apply sampled_len.
  destruct (fv_solve_ok G n eq_refl eq_refl lu (helmholtz 0) (on_boundary V G) (sampled rhs G) HL (orp _ HO) (maximum_principle (helmholtz 0) G (orp _ HO) HS) Hn) as (u & Eu & Su);
    [rewrite Lg; cbn [gnx gny G]; lia|exact Lf|].
  rewrite patch_error_form by lia. cbv zeta. fold G. rewrite Eu, bind_Ok.
  destruct (vector_inf_norm_pf (sampled V G) u) as (VN & _). destruct VN as (e & Ee & (E0 & EB & EM)).
  { rewrite sampled_len. symmetry. apply Su. }
  exists e. split; [exact Ee|]. split; [exact E0|].
  set (q := (/ Qc_of_nat n)%Qc). assert (Nn : Qc_of_nat n <> 0%Qc) by (apply Qc_of_nat_nz; lia).
  assert (Q0 : (0 < q)%Qc). { apply inv_pos. eapply Qclt_le_trans; [|apply (of_nat_le 1 n); lia]. reflexivity. }
  assert (Q1 : (0 <= 1 - (1 + 1) * q)%Qc).
  { replace (1 - (1 + 1) * q)%Qc with (q * (Qc_of_nat n - Qc_of_nat 2))%Qc by (unfold q; change (Qc_of_nat 2) with (1 + 1)%Qc; field; exact Nn).
    apply mul_nonneg; [apply Qclt_le_weak; exact Q0|]. apply -> le_minus. apply of_nat_le. exact Hn. }
  pose proof (error_of_smooth (helmholtz 0) G HO HS (fun _ _ => eq_refl) V Vxx Vyy M2 M4 0 0 (on_boundary V G) (sampled rhs G) u Lg Lf Su) as Q.
  set (B := (0 + M2 * ((width_x G * width_x G + width_y G * width_y G) / eight) + (0 + M4 * (width_x G * width_x G + width_y G * width_y G)) * reach G)%Qc) in Q.
  assert (HB : (B <= (M2 + Qc_of_nat 5 * M4) / (Qc_of_nat n * Qc_of_nat n))%Qc).
  { apply le_minus. replace ((M2 + Qc_of_nat 5 * M4) / (Qc_of_nat n * Qc_of_nat n) - B)%Qc with (M4 * (q * q) * ((1 - (1 + 1) * q) * (1 + (1 + 1) * q)))%Qc.
    - apply mul_nonneg; [apply mul_nonneg; [exact H4|apply sq_nonneg]|]. apply mul_nonneg; [exact Q1|].
      unfold Qclt, Qcle in *. rewrite this_plus, this_mult. change (this (1 + 1)%Qc) with 2%Q. change (this 1%Qc) with 1%Q. change (this 0%Qc) with 0%Q in *. lra.
    - unfold B, reach, width_x, width_y, q, eight. cbn [gnx gny gxl gxu gyl gyu G]. change (Qc_of_nat 5) with (1 + 1 + 1 + 1 + 1)%Qc. field. split; [exact Nn|]. discriminate. }
  assert (CE : each_cell (fun x y v => within B (v - V x y)) G u).
  { apply Q; auto using Qcle_refl.
    - intros x y d A1 A2 A3 A4 A5. destruct (HT x y d A1 A2 A3 A4 A5) as (T1 & T2).
      assert (W : (width_x G <= width_x (Grid 2 2 (- (1)) 1 (- (1)) 1))%Qc /\ (width_y G <= width_y (Grid 2 2 (- (1)) 1 (- (1)) 1))%Qc).
      { replace (width_x (Grid 2 2 (- (1)) 1 (- (1)) 1)) with 1%Qc by (apply Qc_is_canon; reflexivity). replace (width_y (Grid 2 2 (- (1)) 1 (- (1)) 1)) with 1%Qc by (apply Qc_is_canon; reflexivity).
        assert (EW : width_x G = ((1 + 1) * q)%Qc /\ width_y G = ((1 + 1) * q)%Qc) by (unfold width_x, width_y, q; cbn [gnx gny gxl gxu gyl gyu G]; split; field; exact Nn).
        destruct EW as (-> & ->). split; apply le_minus; exact Q1. }
      split; intros Hd; [apply T1|apply T2]; eapply Qcle_trans; [exact Hd| |exact Hd|]; apply W.
    - apply boundary_faces.
    - intros i j Hi Hj. rewrite cell_sampled by auto. cbn [helmholtz c_alpha c_lambda]. unfold rhs.
      match goal with |- within 0 ?X => replace X with 0%Qc by (field; discriminate) end. split; discriminate. }
  eapply Qcle_trans; [|exact HB].
  assert (CI : forall i, i < length (sampled V G) -> within B (vval (sampled V G) i - vval u i)).
  { intros i Hi. rewrite sampled_len in Hi. cbn [gnx gny G] in Hi.
    assert (D1 : i / n < n) by (apply Nat.div_lt_upper_bound; lia). assert (D2 : i mod n < n) by (apply Nat.mod_upper_bound; lia).
    assert (EI : i = i mod n + i / n * n) by (pose proof (Nat.div_mod i n ltac:(lia)); lia).
    pose proof (CE (i / n) (i mod n) D1 D2) as C. cbv beta in C. rewrite <- (cell_sampled G V (i / n) (i mod n) D1 D2) in C.
    unfold cell in C. cbn [gny G] in C. rewrite <- EI in C. fold G in C. destruct C as (C1 & C2).
    split; unfold Qcle in *; rewrite ?this_opp, ?this_minus in *; lra. }
  destruct EM as [->|(i & Hi & EM)].
  - destruct (CI 0) as (C1 & C2); [rewrite sampled_len; cbn [gnx gny G]; nia|]. unfold Qcle in *. rewrite this_opp in C1. change (this 0%Qc) with 0%Q. lra.
  - destruct (CI i Hi) as (C1 & C2). destruct EM as [->| ->]; [exact C2|]. unfold Qcle in *. rewrite this_opp in *. lra.
Qed.

(** x^2 - y^2 on the square of the example; quartic_example and adapted_example give the
    hypotheses of the other theorems. *)
Lemma patch_error_example_expf : lu_contract lu_gauss /\
  tame (fun x y => x * x - y * y)%Qc (fun _ _ => 1 + 1)%Qc (fun _ _ => - (1 + 1))%Qc (1 + 1) 0 (Grid 2 2 (- (1)) 1 (- (1)) 1).
Proof.
  split; [exact lu_gauss_contract|]. intros x y d _ _ _ _ _. pose proof (sq_nonneg d) as S.
  assert (N : (- ((1 + 1) * (d * d)) <= (1 + 1) * (d * d))%Qc).
  { unfold Qcle in *. rewrite this_opp, this_mult. change (this (1 + 1)%Qc) with 2%Q. change (this 0%Qc) with 0%Q in S. lra. }
  split; intros _.
  - replace (second_x (fun x y => x * x - y * y)%Qc d x y) with ((1 + 1) * (d * d))%Qc by (unfold second_x; ring).
    replace ((1 + 1) * (d * d) - d * d * (1 + 1))%Qc with 0%Qc by ring. replace (0 * (d * d * (d * d)))%Qc with 0%Qc by ring.
    split; split; auto using Qcle_refl; discriminate.
  - replace (second_y (fun x y => x * x - y * y)%Qc d x y) with (- ((1 + 1) * (d * d)))%Qc by (unfold second_y; ring).
    replace (- ((1 + 1) * (d * d)) - d * d * - (1 + 1))%Qc with 0%Qc by ring. replace (0 * (d * d * (d * d)))%Qc with 0%Qc by ring.
    split; split; auto using Qcle_refl; discriminate.
Qed.
