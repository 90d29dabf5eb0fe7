(** The thermal example. *)
From Coq Require Import Lqa.
From Verif Require Import Base VectorModel MatrixModel LinSpec HPSModel HPSSpec StageSpec FVModel FVSpec GlobalSpec AdaptSpec CompareSpec MixSpec ThermalModel ThermalSpec.
From Verif Require Import MatProofs LinProofs Gauss LinProps HPSProofs HPSProofs2 HPSProofs3 HPSHistory HPSStage2 HPSProps StageProps FVProofs FVProofs2 FVProofs3 FVMax FVFish FVJoin FVGlobal FVCompare FVMixed FVProps ConvProofs MixProps SymProofs ThermalProofs HeatProofs HPSTree HPSTree2 HPSStage HPSRebuild HPSCert AdaptCert AdaptProofs AdaptEnd AdaptProps ThermalAdapt ModCert BoundaryCert.
From Coq Require Import Lia.

(** The step taken by iteration [n]: the source is missing in the first. *)
Definition th_step (P : thermal) (G : grid) (n : nat) : list Qc -> list Qc -> Prop :=
  let at_ f x y := f x y (th_time P n) in
  heat_step (th_beta P) (th_dt P) G (at_ (th_west P)) (at_ (th_east P)) (at_ (th_south P)) (at_ (th_north P))
    (if n =? 0 then fun _ _ => 0%Qc else at_ (th_sources P)).

Lemma dt_pos P : (th_start P < th_end P)%Qc -> th_nt P <> 0 -> (0 < th_dt P)%Qc.
Proof.
  intros H N. unfold th_dt. apply pos_mul; [|apply inv_pos].
  - unfold Qclt in *. rewrite this_minus. change (this 0%Qc) with 0%Q. lra.
  - eapply Qclt_le_trans; [|apply (of_nat_le 1 (th_nt P)); lia]. reflexivity.
Qed.

Lemma forall2_impl {A B} (R S : A -> B -> Prop) a b : (forall x y, R x y -> S x y) -> Forall2 R a b -> Forall2 S a b.
Proof. intros H. induction 1; constructor; auto. Qed.

Section Loop.
Context (m : nat) (Hm : 2 <= m) (l : nat) (lu : lu_t) (HL : lu_contract lu) (gesv : gesv_t) (HG : gesv_contract gesv).
Context (xl xu yl yu : Qc) (Hx : (xl < xu)%Qc) (Hy : (yl < yu)%Qc).
Context (P : thermal) (Hb : forall x y, (0 < th_beta P x y)%Qc) (Hdt : (0 < th_dt P)%Qc).
Notation N := (m * 2 ^ l).
Notation G := (whole m l xl xu yl yu).
Notation sv := (fv_solver lu (th_coefs P)).
Context (load0 : grid -> list Qc) (s : qtree) (t : tree) (st : option (matrix Qc)) (HU : uniform m l G s) (HF : fresh load0 s t).

Lemma m_nz : m <> 0.
Proof. lia. Qed.
Lemma signs : right_signs (th_coefs P).
Proof. apply (hc_signs (th_beta P) (th_dt P) Hb Hdt). Qed.
Lemma leaf_solves : forall G, oriented G -> gnx G = m -> gny G = m -> forall g f, length g = 4 * m -> length f = m * m ->
  exists u, fv_solve lu (th_coefs P) G g f = Ok u /\ fv_solution (th_coefs P) G g f u.
Proof. intros G' HO Ex Ey g' f' Lg' Lf'. apply orp in HO. apply (fv_solve_ok G' m Ex Ey); auto. apply maximum_principle; auto. apply signs. Qed.

Lemma builds : exists st1 t1, buildStage sv gesv false st t = Ok (st1, t1).
Proof.
  destruct (end_mixed m m_nz (th_coefs P) signs (fv_solve lu (th_coefs P)) leaf_solves l gesv (load_at m l G (zeros (N * N))) xl xu yl yu
    (loaded m l G (zeros (N * N))) t st (zeros (N * N)) HG Hx Hy) with (a := thermal_a) (b := thermal_b) (r := thermal_r P 0) as (st1 & t1 & _ & _ & _ & _ & E & _); eauto.
  - apply loaded_uniform.
  - eapply fresh_other; [exact HU|apply loaded_uniform|exact HF|]. apply load_at_ok; auto.
  - apply loaded_loads.
  - apply zeros_length.
  - apply heat_admissible. apply m_nz.
Qed.

Context (st1 : option (matrix Qc)) (t1 : tree) (HB : buildStage sv gesv false st t = Ok (st1, t1)).

Lemma loop_ok n : exists tn u,
  foldM (thermal_step lu gesv P) (seq 0 (S n)) t1 = Ok tn /\ trel R1 t1 tn /\
  map pu (tree_leaves tn) = scatter m l u /\ length u = N * N /\ after (th_step P G) (zeros (N * N)) (S n) u.
Proof.
  pose proof m_nz as Mz.
  assert (STEP : forall n tn F old, trel R1 t1 tn ->
    F = pointwise (heat_load (th_dt P) (if n =? 0 then fun _ _ => 0%Qc else fun x y => th_sources P x y (th_time P n))) G old ->
    Forall2 (fun p z => pgrid p = fst z /\ thermal_load P n p = Ok (snd z)) (tree_leaves tn) (leaves (loaded m l G F)) ->
    exists t3 u, thermal_step lu gesv P tn n = Ok t3 /\ trel R1 t1 t3 /\ map pu (tree_leaves t3) = scatter m l u /\ length u = N * N /\ th_step P G n old u).
  { intros k tn F old HR EF HC.
    assert (LF : length F = N * N) by (rewrite EF, pointwise_length; reflexivity).
    destruct (one_step m Mz (th_coefs P) signs (fv_solve lu (th_coefs P)) leaf_solves l gesv load0 xl xu yl yu s t st HG Hx Hy HU HF st1 t1 HB
      (thermal_load P k) tn F thermal_a thermal_b (thermal_r P (th_time P k)) (heat_admissible m Mz l xl xu yl yu (th_beta P) (th_dt P)) HR LF HC)
      as (t2 & t3 & u & g & E1 & E2 & E3 & E4 & E5 & E6 & E7).
    exists t3, u. split; [unfold thermal_step; cbv zeta; change sv with (solver_of (fv_solve lu (th_coefs P))); rewrite E1, bind_Ok; exact E2|]. split; [exact E3|]. split; [exact E4|]. split; [apply E6|].
    unfold th_step. cbv zeta. apply (heat_iff m Mz l xl xu yl yu (th_beta P) (th_dt P) Hdt). exists g. split; [exact E5|]. split; [|exact E7]. rewrite EF in E6. exact E6. }
  induction n as [|n IH].
  - destruct (STEP 0 t1 (zeros (N * N)) (zeros (N * N))) as (t3 & u & E1 & E2 & E3 & E4 & E5).
    + apply trel_refl. reflexivity.
    + cbn [Nat.eqb]. unfold zeros, pointwise. rewrite map_seq_vec, repeat_vec. apply vec_of_ext. intros k Hk. unfold heat_load.
      change (vec_of (N * N) (fun _ : nat => Q2Qc 0)) with (vec_of (N * N) (fun _ : nat => 0%Qc)). rewrite vval_vec_of by exact Hk. ring.
    + pose proof (leaf_const m l Mz G (zeros (N * N)) (zeros (N * N)) (tree_leaves t1) eq_refl eq_refl
        (step_grids m Mz (th_coefs P) signs (fv_solve lu (th_coefs P)) leaf_solves l gesv load0 xl xu yl yu s t st HG Hx Hy HU HF st1 t1 HB _) eq_refl) as Q.
      eapply forall2_impl; [|exact Q]. intros p z (A1 & A2 & A3 & A4). split; [exact A1|]. rewrite thermal_load_first, A1, A2, A3, A4. reflexivity.
    + exists t3, u. cbn [seq foldM]. rewrite E1, bind_Ok. split; [reflexivity|]. split; [exact E2|]. split; [exact E3|]. split; [exact E4|].
      econstructor; [constructor|exact E5].
  - destruct IH as (tn & old & E1 & E2 & E3 & E4 & E5).
    destruct (STEP (S n) tn (pointwise (heat_load (th_dt P) (fun x y => th_sources P x y (th_time P (S n)))) G old) old) as (t3 & u & F1 & F2 & F3 & F4 & F5).
    + exact E2.
    + reflexivity.
    + assert (EG : map pgrid (tree_leaves tn) = map fst (leaves (loaded m l G (zeros (N * N))))).
      { rewrite <- (trel_grids _ _ E2). apply (step_grids m Mz (th_coefs P) signs (fv_solve lu (th_coefs P)) leaf_solves l gesv load0 xl xu yl yu s t st HG Hx Hy HU HF st1 t1 HB). }
      pose proof (leaf_pointwise (heat_load (th_dt P) (fun x y => th_sources P x y (th_time P (S n)))) m l Mz G old (zeros (N * N)) (tree_leaves tn) eq_refl eq_refl E4 EG E3) as Q.
      eapply forall2_impl; [|exact Q]. intros p z (A1 & A2 & A3 & A4 & A5). split; [exact A1|].
      rewrite thermal_load_next; [rewrite A5, A1; reflexivity|discriminate|rewrite A4, A1, A2, A3; reflexivity].
    + exists t3, u. rewrite seq_S, foldM_app, E1, bind_Ok. cbn [Nat.add foldM]. rewrite F1, bind_Ok. split; [reflexivity|].
      split; [exact F2|]. split; [exact F3|]. split; [exact F4|]. econstructor; [exact E5|exact F5].
Qed.

Lemma after_unique n : forall u u', after (th_step P G) (zeros (N * N)) n u -> after (th_step P G) (zeros (N * N)) n u' -> u = u'.
Proof.
  induction n as [|n IH]; intros u u' H H'; inversion H; inversion H'; subst; [reflexivity|].
  match goal with A : after _ _ n ?a, B : after _ _ n ?b |- _ => assert (a = b) by (eapply IH; eauto); subst end.
  eapply (heat_unique m m_nz l xl xu yl yu Hx Hy (th_beta P) (th_dt P) Hb Hdt); eauto.
Qed.

Lemma after_bounded lo hi q : (lo <= 0)%Qc -> (0 <= hi)%Qc -> (0 <= q)%Qc ->
  (forall x y z, (lo <= th_west P x y z <= hi)%Qc /\ (lo <= th_east P x y z <= hi)%Qc) ->
  (forall x y z, th_south P x y z = 0%Qc /\ th_north P x y z = 0%Qc) ->
  (forall x y z, (- q <= th_sources P x y z <= q)%Qc) ->
  forall n u, after (th_step P G) (zeros (N * N)) (S n) u ->
  each_cell (between (lo - Qc_of_nat n * (th_dt P * q)) (hi + Qc_of_nat n * (th_dt P * q))) G u.
Proof.
  intros Hlo Hhi Hq BD BN Bq. pose proof (whole_oriented m m_nz l xl xu yl yu Hx Hy) as HO.
  assert (D0 : (0 <= th_dt P * q)%Qc) by (apply mul_nonneg; [apply Qclt_le_weak; exact Hdt|exact Hq]).
  induction n as [|n IH]; intros u HA.
  - inversion HA as [|? old ? A1 A2]. subst. inversion A1. subst. unfold th_step in A2. cbv zeta in A2. cbn [Nat.eqb] in A2.
    change (Qc_of_nat 0) with 0%Qc. intros i j Hi Hj. unfold between.
    assert (Z : forall a b, cell G (zeros (N * N)) a b = 0%Qc) by (intros; apply vval_zeros).
    split.
    + replace (lo - 0 * (th_dt P * q))%Qc with (lo - th_dt P * 0)%Qc by ring.
      eapply (step_lower G HO (th_beta P) (th_dt P) Hb Hdt _ _ _ _ _ lo 0%Qc _ _ A2); auto using Qcle_refl.
      * intros k Hk. split; apply BD.
      * intros k Hk. destruct (BN (mid_x G k) (gyl G) (th_time P 0)) as (-> & _). destruct (BN (mid_x G k) (gyu G) (th_time P 0)) as (_ & ->). split; discriminate.
      * intros. rewrite Z. exact Hlo.
    + replace (hi + 0 * (th_dt P * q))%Qc with (hi + th_dt P * 0)%Qc by ring.
      eapply (step_upper G HO (th_beta P) (th_dt P) Hb Hdt _ _ _ _ _ hi 0%Qc _ _ A2); auto using Qcle_refl.
      * intros k Hk. split; apply BD.
      * intros k Hk. destruct (BN (mid_x G k) (gyl G) (th_time P 0)) as (-> & _). destruct (BN (mid_x G k) (gyu G) (th_time P 0)) as (_ & ->). split; discriminate.
      * intros. rewrite Z. exact Hhi.
  - inversion HA as [|? old ? A1 A2]. subst. specialize (IH _ A1). unfold th_step in A2. cbv zeta in A2. cbn [Nat.eqb] in A2.
    assert (D1 : (0 <= Qc_of_nat n * (th_dt P * q))%Qc) by (apply mul_nonneg; [apply (of_nat_le 0); lia|exact D0]).
    assert (SH : forall a, (lo <= a)%Qc -> (lo - Qc_of_nat n * (th_dt P * q) <= a)%Qc).
    { intros a Ha. unfold Qcle in *. rewrite this_minus. change (this 0%Qc) with 0%Q in *. lra. }
    assert (SH' : forall a, (a <= hi)%Qc -> (a <= hi + Qc_of_nat n * (th_dt P * q))%Qc).
    { intros a Ha. unfold Qcle in *. rewrite this_plus. change (this 0%Qc) with 0%Q in *. lra. }
    intros i j Hi Hj. unfold between. rewrite Qc_of_nat_S. split.
    + replace (lo - (Qc_of_nat n + 1) * (th_dt P * q))%Qc with (lo - Qc_of_nat n * (th_dt P * q) - th_dt P * q)%Qc by ring.
      eapply (step_lower G HO (th_beta P) (th_dt P) Hb Hdt _ _ _ _ _ _ q _ _ A2); auto using Qcle_refl.
      * intros k Hk. split; apply SH; apply BD.
      * intros k Hk. destruct (BN (mid_x G k) (gyl G) (th_time P (S n))) as (-> & _). destruct (BN (mid_x G k) (gyu G) (th_time P (S n))) as (_ & ->). split; discriminate.
      * intros; apply Bq.
      * intros a b A B. apply (IH a b A B).
    + replace (hi + (Qc_of_nat n + 1) * (th_dt P * q))%Qc with (hi + Qc_of_nat n * (th_dt P * q) + th_dt P * q)%Qc by ring.
      eapply (step_upper G HO (th_beta P) (th_dt P) Hb Hdt _ _ _ _ _ _ q _ _ A2); auto using Qcle_refl.
      * intros k Hk. split; apply SH'; apply BD.
      * intros k Hk. destruct (BN (mid_x G k) (gyl G) (th_time P (S n))) as (-> & _). destruct (BN (mid_x G k) (gyu G) (th_time P (S n))) as (_ & ->). split; discriminate.
      * intros; apply Bq.
      * intros a b A B. apply (IH a b A B).
Qed.
End Loop.

(** [C69] After iteration [n] the leaves hold the state after n + 1 steps of backward
    Euler from zero, on every uniform mesh; the source acts from the second step on. *)
Lemma thermal_states_partial_pf : forall m l lu gesv xl xu yl yu load0 s t st P,
  2 <= m -> lu_contract lu -> gesv_contract gesv -> (xl < xu)%Qc -> (yl < yu)%Qc ->
  let N := m * 2 ^ l in let G := whole m l xl xu yl yu in
  uniform m l G s -> fresh load0 s t ->
  (forall x y, (0 < th_beta P x y)%Qc) -> (th_start P < th_end P)%Qc -> th_nt P <> 0 ->
  forall n, exists tn u,
    thermal_run lu gesv P st t (S n) = Ok tn /\ map snd (computed_values tn) = scatter m l u /\
    after (th_step P G) (zeros (N * N)) (S n) u /\
    forall u', after (th_step P G) (zeros (N * N)) (S n) u' -> u' = u.
Proof.
  intros m l lu gesv xl xu yl yu load0 s t st P Hm HL HG Hx Hy N G HU HF Hb Ht Hn n.
  pose proof (dt_pos P Ht Hn) as Hdt.
  destruct (builds m Hm l lu HL gesv HG xl xu yl yu Hx Hy P Hb Hdt load0 s t st HU HF) as (st1 & t1 & HB).
  destruct (loop_ok m Hm l lu HL gesv HG xl xu yl yu Hx Hy P Hb Hdt load0 s t st HU HF st1 t1 HB n) as (tn & u & E1 & _ & E3 & _ & E5).
  exists tn, u. split; [unfold thermal_run; rewrite HB, bind_Ok; exact E1|]. split; [unfold computed_values; rewrite map_map; exact E3|].
  split; [exact E5|]. intros u' A. eapply (after_unique m Hm l xl xu yl yu Hx Hy P Hb Hdt (S n)); eauto.
Qed.

(** [C69] The whole program: nt + 1 iterations, the last one at the end of the time interval. *)
Lemma thermal_final_partial_pf : forall m l lu gesv xl xu yl yu load0 s t st P,
  2 <= m -> lu_contract lu -> gesv_contract gesv -> (xl < xu)%Qc -> (yl < yu)%Qc ->
  let N := m * 2 ^ l in let G := whole m l xl xu yl yu in
  uniform m l G s -> fresh load0 s t ->
  (forall x y, (0 < th_beta P x y)%Qc) -> (th_start P < th_end P)%Qc -> th_nt P <> 0 ->
  th_time P (th_nt P) = th_end P /\
  exists tn u,
    thermal_main lu gesv P st t = Ok tn /\ map snd (computed_values tn) = scatter m l u /\
    after (th_step P G) (zeros (N * N)) (th_nt P + 1) u /\
    forall u', after (th_step P G) (zeros (N * N)) (th_nt P + 1) u' -> u' = u.
Proof.
  intros m l lu gesv xl xu yl yu load0 s t st P Hm HL HG Hx Hy N G HU HF Hb Ht Hn. split.
  - unfold th_time, th_dt. field. apply Qc_of_nat_nz. exact Hn.
  - rewrite Nat.add_1_r. exact (thermal_states_partial_pf m l lu gesv xl xu yl yu load0 s t st P Hm HL HG Hx Hy HU HF Hb Ht Hn (th_nt P)).
Qed.

(** [C69] However long the time step, no value leaves the range of the boundary values
    and the initial zero by more than the source can have added. *)
Lemma thermal_bounded_pf : forall m l lu gesv xl xu yl yu load0 s t st P lo hi q,
  2 <= m -> lu_contract lu -> gesv_contract gesv -> (xl < xu)%Qc -> (yl < yu)%Qc ->
  uniform m l (whole m l xl xu yl yu) s -> fresh load0 s t ->
  (forall x y, (0 < th_beta P x y)%Qc) -> (th_start P < th_end P)%Qc -> th_nt P <> 0 ->
  (lo <= 0)%Qc -> (0 <= hi)%Qc -> (0 <= q)%Qc ->
  (forall x y z, (lo <= th_west P x y z <= hi)%Qc /\ (lo <= th_east P x y z <= hi)%Qc) ->
  (forall x y z, th_south P x y z = 0%Qc /\ th_north P x y z = 0%Qc) ->
  (forall x y z, (- q <= th_sources P x y z <= q)%Qc) ->
  forall n, exists tn, thermal_run lu gesv P st t (S n) = Ok tn /\
    let a := (Qc_of_nat n * (th_dt P * q))%Qc in
    each_leaf_cell (between (lo - a) (hi + a)) s (map snd (computed_values tn)).
Proof.
  intros m l lu gesv xl xu yl yu load0 s t st P lo hi q Hm HL HG Hx Hy HU HF Hb Ht Hn Hlo Hhi Hq BD BN Bq n.
  pose proof (dt_pos P Ht Hn) as Hdt.
  destruct (thermal_states_partial_pf m l lu gesv xl xu yl yu load0 s t st P Hm HL HG Hx Hy HU HF Hb Ht Hn n) as (tn & u & E1 & E2 & E3 & _).
  exists tn. split; [exact E1|]. cbv zeta. rewrite E2.
  apply (scatter_cells _ m l ltac:(lia) (whole m l xl xu yl yu) s u eq_refl eq_refl HU).
  eapply (after_bounded m Hm l xl xu yl yu Hx Hy P Hb Hdt lo hi q); eauto.
Qed.
Definition ex_thermal (south : Qc) : thermal :=
  Thermal 0 1 4 (fun _ y _ => y) (fun _ _ t => - t)%Qc (fun _ _ _ => south) (fun _ _ _ => 0%Qc) (fun x _ t => x * t)%Qc (fun x _ => 1 + x * x)%Qc.

Lemma ex_beta_pos s x y : (0 < th_beta (ex_thermal s) x y)%Qc.
Proof. cbn [th_beta ex_thermal]. pose proof (sq_nonneg x) as H. unfold Qcle, Qclt in *. rewrite this_plus. change (this 0%Qc) with 0%Q in *. change (this 1%Qc) with 1%Q. lra. Qed.

Lemma thermal_states_example_expf : forall l south,
  let G := whole 2 l 0 1 0 1 in let P := ex_thermal south in let s := divided (fun _ _ => 0%Qc) 2 l G in
  lu_contract lu_gauss /\ gesv_contract gauss_gesv /\ uniform 2 l G s /\ fresh (sampled (fun _ _ => 0%Qc)) s (fresh_tree s) /\
  (forall x y, (0 < th_beta P x y)%Qc) /\ (th_start P < th_end P)%Qc /\ th_nt P <> 0.
Proof.
  intros l south G P s. split; [exact lu_gauss_contract|]. split; [exact gauss_gesv_contract|]. split; [apply divided_uniform|].
  split; [apply divided_fresh|]. split; [intros; apply ex_beta_pos|]. split; [reflexivity|discriminate].
Qed.

(** The bounds of [thermal_bounded] for an insulated bar with walls at 40 and 20. *)
Definition ex_bar : thermal :=
  Thermal 0 (Q2Qc 100) 100 (fun _ _ _ => Q2Qc 40) (fun _ _ _ => Q2Qc 20) (fun _ _ _ => 0%Qc) (fun _ _ _ => 0%Qc) (fun _ _ _ => 0%Qc) (fun _ _ => 1%Qc).
Lemma thermal_bounded_example_expf :
  (0 <= 0)%Qc /\ (0 <= Q2Qc 40)%Qc /\
  (forall x y z, (0 <= th_west ex_bar x y z <= Q2Qc 40)%Qc /\ (0 <= th_east ex_bar x y z <= Q2Qc 40)%Qc) /\
  (forall x y z, th_south ex_bar x y z = 0%Qc /\ th_north ex_bar x y z = 0%Qc) /\
  (forall x y z, (- 0 <= th_sources ex_bar x y z <= 0)%Qc) /\
  (forall x y, (0 < th_beta ex_bar x y)%Qc) /\ (th_start ex_bar < th_end ex_bar)%Qc /\ th_nt ex_bar <> 0.
Proof. repeat split; discriminate. Qed.

Definition ex_square : grid := whole 2 0 0 1 0 1.
Definition ex_leaf : qtree := divided (fun _ _ => 0%Qc) 2 0 ex_square.
Definition ex_values (P : thermal) : list (list Qc) :=
  match thermal_run lu_gauss gauss_gesv P None (fresh_tree ex_leaf) 1 with Ok t => map snd (computed_values t) | _ => [] end.

Lemma ex_run s : exists tn u,
  thermal_run lu_gauss gauss_gesv (ex_thermal s) None (fresh_tree ex_leaf) 1 = Ok tn /\
  map snd (computed_values tn) = scatter 2 0 u /\ ex_values (ex_thermal s) = scatter 2 0 u /\
  th_step (ex_thermal s) ex_square 0 (zeros 4) u.
Proof.
  destruct (thermal_states_example_expf 0 s) as (A & B & C & D & E & F & H).
  destruct (thermal_states_partial_pf 2 0 lu_gauss gauss_gesv 0 1 0 1 _ ex_leaf _ None (ex_thermal s) ltac:(lia) A B eq_refl eq_refl C D E F H 0)
    as (tn & u & E1 & E2 & E3 & _).
  exists tn, u. split; [exact E1|]. split; [exact E2|]. split; [unfold ex_values, ex_leaf, ex_square; rewrite E1; exact E2|].
  inversion E3 as [|n old new A1 A2]; subst. inversion A1; subst. exact A2.
Qed.

(** [C69] The values shown at the start of the interval are not the initial values: one
    step has been taken already. *)
Lemma thermal_initial_refuted_pf : exists P t tn,
  thermal_run lu_gauss gauss_gesv P None t 1 = Ok tn /\ th_time P 0 = th_start P /\
  map snd (computed_values tn) <> [zeros 4] /\
  exists u, map snd (computed_values tn) = scatter 2 0 u /\ th_step P ex_square 0 (zeros 4) u.
Proof.
  exists (ex_thermal 0), (fresh_tree ex_leaf). destruct (ex_run 0) as (tn & u & E1 & E2 & E3 & E4).
  exists tn. split; [exact E1|]. split; [reflexivity|]. split; [|exists u; auto].
  rewrite E2, <- E3. intros H. apply (f_equal (fun v => vval (hd [] v) 0)) in H. revert H. vm_compute. discriminate.
Qed.

(** [C69] dudnSouth is not the derivative in the direction of the outward normal: it is
    used as the derivative in the direction of y. *)
Lemma thermal_south_refuted_pf : exists P t tn u,
  thermal_run lu_gauss gauss_gesv P None t 1 = Ok tn /\ map snd (computed_values tn) = scatter 2 0 u /\
  let at_ f x y := f x y (th_time P 0) in
  ~ heat_step (th_beta P) (th_dt P) ex_square (at_ (th_west P)) (at_ (th_east P)) (fun x y => - at_ (th_south P) x y)%Qc (at_ (th_north P))
      (fun _ _ => 0%Qc) (zeros 4) u.
Proof.
  destruct (ex_run 1) as (tn & u & E1 & E2 & E3 & E4). destruct (ex_run (- (1))) as (tn' & u' & E1' & E2' & E3' & E4').
  exists (ex_thermal 1), (fresh_tree ex_leaf), tn, u. split; [exact E1|]. split; [exact E2|]. cbv zeta. intros H.
  assert (E : u = u').
  { eapply (after_unique 2 ltac:(lia) 0 0 1 0 1 eq_refl eq_refl (ex_thermal (- (1)))); [apply ex_beta_pos|reflexivity| |].
    - eapply after_next; [apply after_none|]. exact H.
    - eapply after_next; [apply after_none|]. exact E4'. }
  subst u'. rewrite <- E3' in E3. revert E3. intros H'. apply (f_equal (fun v => vval (hd [] v) 0)) in H'. revert H'. vm_compute. discriminate.
Qed.

(** The step taken by iteration [n] on a mesh that is refined in places. *)
Definition th_refined (P : thermal) (m : nat) (G : grid) (n : nat) : qtree -> qtree -> Prop :=
  let at_ f x y := f x y (th_time P n) in
  refined_step (th_beta P) (th_dt P) m G (at_ (th_west P)) (at_ (th_east P)) (at_ (th_south P)) (at_ (th_north P))
    (if n =? 0 then fun _ _ => 0%Qc else at_ (th_sources P)).

Lemma pair_leaves ps : forall zs : list (grid * list Qc), map pgrid ps = map fst zs -> map pu ps = map snd zs ->
  Forall2 (fun p z => In z zs /\ pgrid p = fst z /\ pu p = snd z) ps zs.
Proof.
  induction ps as [|p ps IH]; intros [|z zs]; cbn [map]; try discriminate; [constructor|]. intros A B. injection A as A A'. injection B as B B'.
  constructor; [split; [left; reflexivity|auto]|]. eapply forall2_impl; [|apply IH; auto]. cbv beta. intros x y (H & K). split; [right; exact H|exact K].
Qed.
Lemma forall2_map {A B C} (R : A -> C -> Prop) (f : B -> C) a b : Forall2 (fun x y => R x (f y)) a b -> Forall2 R a (map f b).
Proof. induction 1; constructor; auto. Qed.
Lemma pair_grids ps : forall zs : list (grid * list Qc), map pgrid ps = map fst zs -> Forall2 (fun p z => In z zs /\ pgrid p = fst z) ps zs.
Proof.
  induction ps as [|p ps IH]; intros [|z zs]; cbn [map]; try discriminate; [constructor|]. intros A. injection A as A A'.
  constructor; [split; [left; reflexivity|auto]|]. eapply forall2_impl; [|apply IH; auto]. cbv beta. intros x y (H & K). split; [right; exact H|exact K].
Qed.

Section Refined.
Context (m : nat) (Hm : 2 <= m) (lu : lu_t) (HL : lu_contract lu) (gesv : gesv_t) (HG : gesv_contract gesv).
Context (G : grid) (HO : oriented (rect m G)).
Context (P : thermal) (Hb : forall x y, (0 < th_beta P x y)%Qc) (Hdt : (0 < th_dt P)%Qc).
Notation sv := (fv_solver lu (th_coefs P)).
Context (load0 : grid -> list Qc) (s : qtree) (t : tree) (st : option (matrix Qc)).
Context (HT : tiled m G s) (HF : fresh load0 s t) (HW : well_posed m sv s) (H3 : 3 <= m \/ equal_levels s).
Context (HP : heat_posed (th_beta P) (th_dt P) m G s).
Context (st1 : option (matrix Qc)) (t1 : tree) (HB : buildStage sv gesv false st t = Ok (st1, t1)).

Lemma cold_tiled : tiled m G (cold m s).
Proof. rewrite cold_remap. apply (remap_tiled m Hm G HO); [exact HT|]. intros. apply zeros_length. Qed.

Lemma refined_next n tn old : same_mesh s old -> tiled m G old -> trel R1 t1 tn -> n = 0 /\ old = cold m s \/ n <> 0 /\ map pu (tree_leaves tn) = map snd (leaves old) ->
  exists t3 new, thermal_step lu gesv P tn n = Ok t3 /\ trel R1 t1 t3 /\ map pu (tree_leaves t3) = map snd (leaves new) /\
    same_mesh s new /\ tiled m G new /\ th_refined P m G n old new.
Proof.
  intros HM HTo HR HC. set (q := if n =? 0 then fun _ _ => 0%Qc else fun x y => th_sources P x y (th_time P n)).
  set (s' := remap (pointwise (heat_load (th_dt P) q)) old).
  assert (HM' : same_mesh s s') by (eapply mesh_trans; [exact HM|apply remap_mesh]).
  assert (HTs : tiled m G s').
  { apply (remap_tiled m Hm G HO); [exact HTo|]. intros G' f Ex Ey. rewrite pointwise_length, Ex, Ey. reflexivity. }
  assert (EG : map pgrid (tree_leaves tn) = map fst (leaves old)).
  { apply (grids_tn m Hm lu HL gesv HG G HO P Hb Hdt load0 s t st HT HF HW H3 st1 t1 HB); auto. }
  pose proof (mz m Hm) as Mz.
  assert (Q : Forall2 (fun p z => pgrid p = fst z /\ thermal_load P n p = Ok (snd z)) (tree_leaves tn) (leaves s')).
  { unfold s'. rewrite remap_leaves. apply forall2_map. cbn [fst snd]. destruct HC as [(E1 & E2)|(E1 & E2)].
    - eapply forall2_impl; [|apply pair_grids; exact EG]. cbv beta. intros p [G' f] (HI & EP). cbn [fst snd] in *. split; [exact EP|].
      destruct (tiled_leaf m old G Mz HO HTo G' f HI) as (_ & Ex & Ey & _).
      subst n. rewrite thermal_load_first, EP. subst q. cbn [Nat.eqb].
      assert (f = zeros (m * m)) as ->.
      { rewrite E2, cold_remap, remap_leaves in HI. apply in_map_iff in HI as (z & EZ & _). congruence. }
      rewrite pointwise_cold by (rewrite Ex, Ey; reflexivity). rewrite Ex, Ey. reflexivity.
    - eapply forall2_impl; [|apply pair_leaves; [exact EG|exact E2]]. cbv beta. intros p [G' f] (HI & EP & EU). cbn [fst snd] in *. split; [exact EP|].
      destruct (tiled_leaf m old G Mz HO HTo G' f HI) as (_ & Ex & Ey & Lf).
      rewrite thermal_load_next; [|exact E1|rewrite EU, EP, Ex, Ey; exact Lf]. rewrite EP, EU. unfold q. destruct (Nat.eqb_spec n 0); [contradiction|reflexivity]. }
  destruct (one_refined m Hm lu HL gesv HG G HO P Hb Hdt load0 s t st HT HF HW H3 HP st1 t1 HB (thermal_load P n) tn s' (thermal_r P (th_time P n)) HM' HTs HR Q)
    as (t2 & t3 & U & g & h & E1 & E2 & E3 & E4 & E5 & E6).
  apply (glued_heat m Hm lu HL G HO P Hb Hdt q old g h U HTo) in E5.
  exists t3, (valued old U). split; [unfold thermal_step; cbv zeta; rewrite E1, bind_Ok; exact E2|]. split; [exact E3|].
  split; [rewrite E4; symmetry; eapply valued_values; exact E5|].
  assert (HV : same_mesh s (valued old U)) by (eapply mesh_trans; [exact HM|eapply valued_mesh; exact E5]).
  split; [exact HV|]. split.
  - eapply mesh_tiled; [exact HV|exact HT|]. eapply valued_lengths; [|exact E5]. intros G' f HI g0 u h0 (LU & _).
    destruct (tiled_leaf m old G Mz HO HTo G' f HI) as (_ & Ex & Ey & _). rewrite Ex, Ey in LU. exact LU.
  - exists U, g, h. split; [exact E5|]. split; [reflexivity|]. rewrite <- (mesh_level _ _ HM). apply root_iff; [exact Mz|]. exact E6.
Qed.

Lemma refined_loop n : exists tn final,
  foldM (thermal_step lu gesv P) (seq 0 (S n)) t1 = Ok tn /\ trel R1 t1 tn /\ map pu (tree_leaves tn) = map snd (leaves final) /\
  same_mesh s final /\ tiled m G final /\ after (th_refined P m G) (cold m s) (S n) final.
Proof.
  induction n as [|n IH].
  - destruct (refined_next 0 t1 (cold m s)) as (t3 & new & E1 & E2 & E3 & E4 & E5 & E6); [apply cold_mesh|apply cold_tiled|apply trel_refl; reflexivity|auto|].
    exists t3, new. cbn [seq foldM]. rewrite E1, bind_Ok. split; [reflexivity|]. split; [exact E2|]. split; [exact E3|]. split; [exact E4|]. split; [exact E5|].
    econstructor; [constructor|exact E6].
  - destruct IH as (tn & old & E1 & E2 & E3 & E4 & E5 & E6).
    destruct (refined_next (S n) tn old) as (t3 & new & F1 & F2 & F3 & F4 & F5 & F6); [exact E4|exact E5|exact E2|right; split; [discriminate|exact E3]|].
    exists t3, new. rewrite seq_S, foldM_app, E1, bind_Ok. cbn [Nat.add foldM]. rewrite F1, bind_Ok. split; [reflexivity|].
    split; [exact F2|]. split; [exact F3|]. split; [exact F4|]. split; [exact F5|]. econstructor; [exact E6|exact F6].
Qed.

Lemma refined_unique n : forall u u', after (th_refined P m G) (cold m s) n u -> after (th_refined P m G) (cold m s) n u' -> u = u' /\ same_mesh s u /\ tiled m G u.
Proof.
  pose proof (mz m Hm) as Mz.
  induction n as [|n IH]; intros u u' H H'; inversion H; inversion H'; subst; [split; [reflexivity|split; [apply cold_mesh|apply cold_tiled]]|].
  match goal with A : after _ _ n ?a, B : after _ _ n ?b |- _ => destruct (IH _ _ A B) as (<- & HM & HTo) end.
  match goal with A : th_refined P m G n ?o u, B : th_refined P m G n ?o u' |- _ =>
    split; [exact (step_unique m Hm lu HL gesv HG G HO P Hb Hdt load0 s t st HT HF HW H3 HP st1 t1 HB _ _ _ _ _ _ _ _ HM HTo A B)|]; destruct A as (U & g & h & A1 & -> & _) end.
  assert (HV : same_mesh s (valued old U)) by (eapply mesh_trans; [exact HM|eapply valued_mesh; exact A1]).
  split; [exact HV|]. eapply mesh_tiled; [exact HV|exact HT|]. eapply valued_lengths; [|exact A1]. intros G' f HI g0 u h0 (LU & _).
  destruct (tiled_leaf m old G Mz HO HTo G' f HI) as (_ & Ex & Ey & _). rewrite Ex, Ey in LU. exact LU.
Qed.
End Refined.

(** [C69] The same on every mesh that is refined in places: the leaves are glued
    together as the elliptic solver glues them.  Missing: that the merges and the
    boundary system are nonsingular. *)
Lemma thermal_refined_partial_pf : forall m lu gesv G load0 s t st P,
  2 <= m -> lu_contract lu -> gesv_contract gesv -> oriented (rect m G) ->
  tiled m G s -> fresh load0 s t -> 3 <= m \/ equal_levels s ->
  (forall x y, (0 < th_beta P x y)%Qc) -> (th_start P < th_end P)%Qc -> th_nt P <> 0 ->
  well_posed m (fv_solver lu (th_coefs P)) s -> heat_posed (th_beta P) (th_dt P) m G s ->
  forall n, exists tn final,
    thermal_run lu gesv P st t (S n) = Ok tn /\ map snd (computed_values tn) = map snd (leaves final) /\
    after (th_refined P m G) (cold m s) (S n) final /\
    forall final', after (th_refined P m G) (cold m s) (S n) final' -> final' = final.
Proof.
  intros m lu gesv G load0 s t st P Hm HL HG HO HT HF H3 Hb Ht Hn HW HP n.
  pose proof (dt_pos P Ht Hn) as Hdt.
  destruct (built_first m Hm lu HL gesv HG G HO P Hb Hdt load0 s t st HT HF HW H3) as (st1 & t1 & HB & _).
  destruct (refined_loop m Hm lu HL gesv HG G HO P Hb Hdt load0 s t st HT HF HW H3 HP st1 t1 HB n) as (tn & u & E1 & _ & E3 & _ & _ & E5).
  exists tn, u. split; [unfold thermal_run; rewrite HB, bind_Ok; exact E1|]. split; [unfold computed_values; rewrite map_map; exact E3|].
  split; [exact E5|]. intros u' A. eapply (refined_unique m Hm lu HL gesv HG G HO P Hb Hdt load0 s t st HT HF HW H3 HP st1 t1 HB (S n)); eauto.
Qed.

(** The unit square with its lower left quarter divided once more, 3 by 3 cells per leaf. *)
Definition ex_refined : thermal :=
  Thermal 0 1 144 (fun _ y _ => y) (fun _ _ t => - t)%Qc (fun _ _ _ => 1%Qc) (fun _ _ _ => 0%Qc) (fun x _ t => x * t)%Qc (fun _ _ => 1%Qc).
Lemma thermal_refined_example_expf :
  let P := ex_refined in let s := adapted (fun _ _ => 0%Qc) 3 unit_square in
  lu_contract lu_gauss /\ gesv_contract gauss_gesv /\ oriented (rect 3 unit_square) /\ tiled 3 unit_square s /\
  fresh (sampled (fun _ _ => 0%Qc)) s (fresh_tree s) /\ ~ equal_levels s /\
  (forall x y, (0 < th_beta P x y)%Qc) /\ (th_start P < th_end P)%Qc /\ th_nt P <> 0 /\
  well_posed 3 (fv_solver lu_gauss (th_coefs P)) s /\ heat_posed (th_beta P) (th_dt P) 3 unit_square s.
Proof.
  intros P s. assert (Hb : forall x y, (0 < th_beta P x y)%Qc) by reflexivity.
  assert (Hdt : (0 < th_dt P)%Qc) by reflexivity.
  assert (HT : tiled 3 unit_square s) by apply adapted_tiled.
  assert (GL : good_leaves 3 (fv_solver lu_gauss (th_coefs P)) s).
  { apply (good 3 (le_S _ _ (le_n 2)) lu_gauss lu_gauss_contract unit_square unit_oriented P Hb Hdt s HT). }
  assert (HW : well_posed 3 (fv_solver lu_gauss (th_coefs P)) s).
  { unfold s. cbn [adapted].
    eapply (node_cert_ok 3 (fv_solver lu_gauss (th_coefs P)) gauss_gesv (sampled (fun _ _ => 0%Qc)));
      [discriminate|exact gauss_gesv_contract|apply (adapted_fresh (fun _ _ => 0%Qc) 3 unit_square)..|exact GL|auto|].
    vm_cast_no_check (eq_refl true). }
  split; [exact lu_gauss_contract|]. split; [exact gauss_gesv_contract|]. split; [exact unit_oriented|]. split; [exact HT|].
  split; [apply adapted_fresh|]. split; [intros (A & _); discriminate A|]. split; [exact Hb|]. split; [reflexivity|]. split; [discriminate|]. split; [exact HW|].
  intros U g h HU HR. apply (heat_linear 3 (le_S _ _ (le_n 2)) lu_gauss lu_gauss_contract unit_square unit_oriented P Hb Hdt s HT) in HU.
  unfold s, adapted in HU, HW. cbv zeta in HU, HW.
  match type of HU with glued _ _ (QNode ?a ?b ?c ?d) _ _ _ => change (g = zeros (8 * (3 * 2 ^ min_level a b c d)));
    eapply (boundary_cert_ok 3 (fv_solver lu_gauss (th_coefs P)) gauss_gesv (sampled (fun _ _ => 0%Qc)) a b c d) end;
    [discriminate|exact gauss_gesv_contract|apply (adapted_fresh (fun _ _ => 0%Qc) 3 unit_square)..|exact GL|exact HW|auto| |exact HU| |].
  - vm_cast_no_check (eq_refl true).
  - intros p i Hp Hi. change (3 * 2 ^ min_level _ _ _ _) with 3 in *. cbv zeta in HR. change (3 * 2 ^ level s) with 6 in HR. unfold root_conditions, west, east in HR. cbv zeta in HR. cbn [gny rect] in HR.
    destruct (Nat.lt_ge_cases (p * 3 + i) 6) as [L|L].
    + destruct (HR (p * 3 + i) L) as (E & _). exact E.
    + destruct (HR (p * 3 + i - 6) ltac:(lia)) as (_ & E & _). replace (p * 3 + i) with (6 + (p * 3 + i - 6)) by lia. exact E.
  - intros p i Hp Hp' Hi. change (3 * 2 ^ min_level _ _ _ _) with 3 in *. cbv zeta in HR. change (3 * 2 ^ level s) with 6 in HR. unfold root_conditions, south, north in HR. cbv zeta in HR. cbn [gnx gny rect] in HR.
    destruct (Nat.lt_ge_cases (p * 3 + i) 18) as [L|L].
    + destruct (HR (p * 3 + i - 12) ltac:(lia)) as (_ & _ & E & _). replace (p * 3 + i) with (2 * 6 + (p * 3 + i - 12)) by lia. exact E.
    + destruct (HR (p * 3 + i - 18) ltac:(lia)) as (_ & _ & _ & E). replace (p * 3 + i) with (2 * 6 + 6 + (p * 3 + i - 18)) by lia. exact E.
Qed.
