(** Accuracy of the discrete solution and of the direct solver. *)
From Coq Require Import Lqa Qround.
From Verif Require Import Base VectorModel MatrixModel LinSpec HPSModel HPSSpec FVModel FVSpec StageSpec GlobalSpec AdaptSpec CompareSpec ConvSpec.
From Verif Require Import MatProofs MatProofs2 LinProofs Gauss LinProps HPSProofs HPSProofs3 HPSProofs4 HPSStage2 HPSTree HPSTree2 HPSProps.
From Verif Require Import FVProofs FVProofs2 FVProofs3 FVMax FVJoin FVGlobal FVFish FVProps FVCompare CompareProps ConvProofs.
From Coq Require Import Lia.

Lemma within_le a b x : (a <= b)%Qc -> within a x -> within b x.
Proof. unfold within, Qcle. rewrite !this_opp. intros. lra. Qed.

Lemma of_nat_ge1 n : n <> 0 -> (1 <= Qc_of_nat n)%Qc.
Proof. intros H. apply (of_nat_le 1 n). lia. Qed.
Lemma inv_le1 q : (1 <= q)%Qc -> (0 <= / q)%Qc /\ (/ q <= 1)%Qc.
Proof.
  intros H. assert (P : (0 < q)%Qc) by (revert H; unfold Qcle, Qclt; change (this 1%Qc) with 1%Q; change (this 0%Qc) with 0%Q; intros; lra).
  assert (I : (q * / q = 1)%Qc) by (apply Qcmult_inv_r; intros E; rewrite E in P; now apply Qclt_not_eq in P).
  assert (N : (0 <= / q)%Qc).
  { change (0 <= Qred (/ this q))%Q. setoid_rewrite (Qred_correct (/ this q)). apply Qinv_le_0_compat. apply Qclt_le_weak in P. exact P. }
  split; auto. rewrite <- I. rewrite <- (Qcmult_1_l (/ q)) at 1. apply Qcmult_le_compat_r; auto.
Qed.

Section Scale.
Context (m l : nat) (xl xu yl yu : Qc) (Hm : m <> 0).
Notation G := (whole m l xl xu yl yu).
Notation G0 := (whole m 0 xl xu yl yu).
Notation q := (Qc_of_nat (2 ^ l)).

Lemma q_nz : q <> 0%Qc.
Proof. apply Qc_of_nat_nz, Nat.pow_nonzero. discriminate. Qed.
Lemma widths_scale : width_x G = (width_x G0 / q)%Qc /\ width_y G = (width_y G0 / q)%Qc.
Proof.
  pose proof q_nz. pose proof (Qc_of_nat_nz m Hm). unfold width_x, width_y. cbn [whole gnx gny gxl gxu gyl gyu]. rewrite !Qc_of_nat_mul. cbn [Nat.pow].
  change (Qc_of_nat 1) with 1%Qc. split; field; repeat split; auto; tnz.
Qed.

Lemma pow4 : Qc_of_nat (4 ^ l) = (q * q)%Qc.
Proof. rewrite <- Qc_of_nat_mul, <- Nat.pow_mul_l. reflexivity. Qed.

Lemma width0 : width_x G0 = ((xu - xl) / Qc_of_nat m)%Qc /\ width_y G0 = ((yu - yl) / Qc_of_nat m)%Qc.
Proof. unfold width_x, width_y. cbn [whole gnx gny gxl gxu gyl gyu Nat.pow]. rewrite Nat.mul_1_r. auto. Qed.

Lemma widths_le : oriented G0 -> (width_x G <= width_x G0)%Qc /\ (width_y G <= width_y G0)%Qc.
Proof.
  intros HO. destruct (widths_pos _ HO) as (Px & Py). destruct widths_scale as (-> & ->).
  destruct (inv_le1 q (of_nat_ge1 _ (Nat.pow_nonzero 2 l (Nat.neq_succ_0 1)))) as (_ & I). unfold Qcdiv.
  split; [rewrite <- (Qcmult_1_r (width_x G0)) at 2|rewrite <- (Qcmult_1_r (width_y G0)) at 2]; rewrite !(Qcmult_comm (_ G0)); apply Qcmult_le_compat_r; auto using Qclt_le_weak.
Qed.

Lemma tame_finer V Vxx Vyy M2 M4 : oriented G0 -> tame V Vxx Vyy M2 M4 G0 -> tame V Vxx Vyy M2 M4 G.
Proof.
  intros HO H x y d A B C D P. destruct (H x y d A B C D P) as (Tx & Ty). destruct (widths_le HO) as (Wx & Wy).
  split; intros L; [apply Tx|apply Ty]; eapply Qcle_trans; eauto.
Qed.

Lemma bound_covers M2 M4 eg ef : oriented G0 -> (0 <= M2)%Qc -> (0 <= M4)%Qc -> (0 <= eg)%Qc -> (0 <= ef)%Qc ->
  (eg + M2 * ((width_x G * width_x G + width_y G * width_y G) / eight) + (ef + M4 * (width_x G * width_x G + width_y G * width_y G)) * reach G
   <= bound m l xl xu yl yu M2 M4 eg ef)%Qc.
Proof.
  intros HO H2 H4 He Hf. unfold bound. cbv zeta. change ((1 + 1) * (1 + 1) * (1 + 1))%Qc with eight. rewrite pow4. destruct width0 as (<- & <-).
  destruct widths_scale as (Wx & Wy). unfold reach. cbn [whole gxl gxu]. change (Grid (m * 2 ^ l) (m * 2 ^ l) xl xu yl yu) with G. rewrite Wx, Wy.
  destruct (inv_le1 (q * q)%Qc) as (I0 & I1). { rewrite <- pow4. apply of_nat_ge1, Nat.pow_nonzero. discriminate. }
  apply le_minus. pose proof q_nz as Nq.
  assert (N8 : eight <> 0%Qc) by discriminate. pose proof inv_eight as I8.
  set (a := width_x G0). set (b := width_y G0). set (L := (xu - xl)%Qc).
  match goal with |- (0 <= ?X)%Qc => replace X with
    ((1 - / (q * q)) * (ef * (a * a * / eight) + M4 * (a * a + b * b) * (a * a * / eight) * / (q * q)))%Qc
    by (field; repeat split; auto) end.
  apply mul_nonneg; [apply le_minus in I1; exact I1|].
  clearbody a b L.
  repeat first [assumption | apply sq_nonneg | apply add_nonneg | apply mul_nonneg].
Qed.

End Scale.

(** The error on one rectangle, as in the task of an elliptic solver: [V] with bounded
    difference quotients, boundary data and load close to those of [V]. *)
Lemma rect_error m l c xl xu yl yu V Vxx Vyy M2 M4 eg ef g f u : m <> 0 -> (xl < xu)%Qc -> (yl < yu)%Qc ->
  right_signs c -> (forall x y, c_beta c x y = 1%Qc) -> let G := whole m l xl xu yl yu in
  length g = 4 * (m * 2 ^ l) -> length f = m * 2 ^ l * (m * 2 ^ l) -> fv_solution c G g f u ->
  tame V Vxx Vyy M2 M4 (whole m 0 xl xu yl yu) -> (0 <= M2)%Qc -> (0 <= M4)%Qc -> (0 <= eg)%Qc -> (0 <= ef)%Qc ->
  each_face (fun v x y => within eg (v - V x y)) (fun v x y => within eg (v - V x y)) G g ->
  each_cell (fun x y v => within ef ((v - c_lambda c x y * V x y) / c_alpha c x y - (Vxx x y + Vyy x y))) G f ->
  each_cell (fun x y v => within (bound m l xl xu yl yu M2 M4 eg ef) (v - V x y)) G u.
Proof.
  intros Hm Hx Hy HS Hb G Lg Lf Hu HT H2 H4 He Hf Hg Hr.
  assert (HO0 : oriented (whole m 0 xl xu yl yu)). { split; [exact Hx|]. split; [exact Hy|]. pose proof (pow_nz m Hm 0). split; assumption. }
  assert (HO : oriented G). { split; [exact Hx|]. split; [exact Hy|]. pose proof (pow_nz m Hm l). split; assumption. }
  pose proof (error_of_smooth c G HO HS Hb V Vxx Vyy M2 M4 eg ef g f u) as Q.
  intros i j Hi Hj. eapply within_le; [apply bound_covers; eauto|]. apply Q; auto.
  - cbn [G whole gnx gny]. lia.
  - apply tame_finer; auto.
Qed.

(** [C64] The error of a discrete solution is bounded by its residual. *)
Lemma error_by_residual_pf : forall c G V K F g f u,
  oriented G -> right_signs c -> (forall x y, c_beta c x y = 1%Qc) ->
  length g = 2 * gny G + 2 * gnx G -> length f = gnx G * gny G -> fv_solution c G g f u -> (0 <= F)%Qc -> (0 <= K)%Qc ->
  each_face (fun v x y => within K (v - across_x V G x y)) (fun v x y => within K (v - across_y V G x y)) G g ->
  each_cell (fun x y v => within F (residual c V G x y v)) G f ->
  let L := (gxu G - gxl G)%Qc in
  each_cell (fun x y v => within (K + F * ((L * L + width_x G * width_x G) / ((1 + 1) * (1 + 1) * (1 + 1)))) (v - V x y)) G u.
Proof. intros c G V K F g f u HO HS Hb Lg Lf Hu HF HK Hg Hf. exact (error_by_residual c G HO HS Hb V K F g f u Lg Lf Hu HF HK Hg Hf). Qed.

(** [C64] Second order: on a mesh of 2^l by 2^l leaves the direct solver is, in every
    cell of every leaf, within [bound] of a function with bounded difference quotients
    whose data it is given. *)
Lemma direct_solver_error_pf : forall m l lu c gesv rhs xl xu yl yu s t st g V Vxx Vyy M2 M4 eg ef,
  2 <= m -> lu_contract lu -> gesv_contract gesv -> right_signs c -> (forall x y, c_beta c x y = 1%Qc) ->
  (xl < xu)%Qc -> (yl < yu)%Qc ->
  let G := whole m l xl xu yl yu in
  uniform m l G s -> fresh (sampled rhs) s t -> length g = 4 * (m * 2 ^ l) ->
  tame V Vxx Vyy M2 M4 (whole m 0 xl xu yl yu) -> (0 <= M2)%Qc -> (0 <= M4)%Qc -> (0 <= eg)%Qc -> (0 <= ef)%Qc ->
  each_face (fun v x y => within eg (v - V x y)) (fun v x y => within eg (v - V x y)) G g ->
  each_cell (fun x y _ => within ef ((rhs x y - c_lambda c x y * V x y) / c_alpha c x y - (Vxx x y + Vyy x y))) G [] ->
  exists st1 t1 t2 t3,
    buildStage (fv_solver lu c) gesv false st t = Ok (st1, t1) /\
    upwardsStage (fv_solver lu c) gesv false (sampled rhs) t1 = Ok t2 /\
    solveStage (fv_solver lu c) false g t2 = Ok t3 /\
    each_leaf_cell (fun x y v => within (bound m l xl xu yl yu M2 M4 eg ef) (v - V x y)) s (map snd (computed_values t3)).
Proof.
  intros m l lu c gesv rhs xl xu yl yu s t st g V Vxx Vyy M2 M4 eg ef Hm HL HG HS Hb Hx Hy G HU HF Lg HT H2 H4 He Hf Hg Hr.
  destruct (direct_solver_exact_pf m l lu c gesv rhs xl xu yl yu s t st g) as (st1 & t1 & t2 & t3 & u & E1 & E2 & E3 & E4 & E5 & _); auto.
  exists st1, t1, t2, t3. do 3 (split; [assumption|]). rewrite E4.
  apply (scatter_cells _ m l ltac:(lia) G s u eq_refl eq_refl HU).
  apply (rect_error m l c xl xu yl yu V Vxx Vyy M2 M4 eg ef g (sampled rhs G) u); auto; try lia.
  - apply sampled_len.
  - intros i j Hi Hj. rewrite cell_sampled; auto.
Qed.

(** [C64] The same with the FISHPACK patch solver, alpha = 1 and lambda <= 0. *)
Lemma direct_solver_error_fish_pf : forall m l hst c lam gesv rhs xl xu yl yu s t st g V Vxx Vyy M2 M4 eg ef,
  3 <= m -> hst_contract hst -> gesv_contract gesv ->
  (forall x y, c_alpha c x y = 1%Qc /\ c_beta c x y = 1%Qc /\ c_lambda c x y = lam) -> (lam <= 0)%Qc ->
  (xl < xu)%Qc -> (yl < yu)%Qc ->
  let G := whole m l xl xu yl yu in
  uniform m l G s -> fresh (sampled rhs) s t -> length g = 4 * (m * 2 ^ l) ->
  tame V Vxx Vyy M2 M4 (whole m 0 xl xu yl yu) -> (0 <= M2)%Qc -> (0 <= M4)%Qc -> (0 <= eg)%Qc -> (0 <= ef)%Qc ->
  each_face (fun v x y => within eg (v - V x y)) (fun v x y => within eg (v - V x y)) G g ->
  each_cell (fun x y _ => within ef (rhs x y - lam * V x y - (Vxx x y + Vyy x y))) G [] ->
  exists st1 t1 t2 t3,
    buildStage (fish_solver hst c) gesv false st t = Ok (st1, t1) /\
    upwardsStage (fish_solver hst c) gesv false (sampled rhs) t1 = Ok t2 /\
    solveStage (fish_solver hst c) false g t2 = Ok t3 /\
    each_leaf_cell (fun x y v => within (bound m l xl xu yl yu M2 M4 eg ef) (v - V x y)) s (map snd (computed_values t3)).
Proof.
  intros m l hst c lam gesv rhs xl xu yl yu s t st g V Vxx Vyy M2 M4 eg ef Hm HL HG Hc Hl Hx Hy G HU HF Lg HT H2 H4 He Hf Hg Hr.
  assert (HS : right_signs c).
  { intros x y. destruct (Hc x y) as (-> & -> & ->). split; [discriminate|]. split; [reflexivity|]. rewrite Qcmult_1_l. exact Hl. }
  destruct (direct_solver_exact_fish_pf m l hst c lam gesv rhs xl xu yl yu s t st g) as (st1 & t1 & t2 & t3 & u & E1 & E2 & E3 & E4 & E5 & _); auto.
  exists st1, t1, t2, t3. do 3 (split; [assumption|]). rewrite E4.
  apply (scatter_cells _ m l ltac:(lia) G s u eq_refl eq_refl HU).
  apply (rect_error m l c xl xu yl yu V Vxx Vyy M2 M4 eg ef g (sampled rhs G) u); auto; try lia.
  - intros x y. apply Hc.
  - apply sampled_len.
  - intros i j Hi Hj. rewrite cell_sampled; auto.
    cbv beta. fold G. destruct (Hc (mid_x G i) (mid_y G j)) as (-> & _ & ->). specialize (Hr i j Hi Hj). cbv beta in Hr. revert Hr.
    replace ((rhs (mid_x G i) (mid_y G j) - lam * V (mid_x G i) (mid_y G j)) / 1)%Qc with (rhs (mid_x G i) (mid_y G j) - lam * V (mid_x G i) (mid_y G j))%Qc by (field; discriminate). auto.
Qed.

(** [C64] Convergence: with exact boundary data and load, every tolerance is met from
    some level on. *)
Lemma error_vanishes_pf : forall m xl xu yl yu M2 M4 eps, m <> 0 -> (0 < eps)%Qc ->
  exists l0, forall l, l0 <= l -> (bound m l xl xu yl yu M2 M4 0 0 <= eps)%Qc.
Proof.
  intros m xl xu yl yu M2 M4 eps Hm He. unfold bound. cbv zeta.
  match goal with |- exists l0, forall l, _ -> (_ + _ * _ + ?X / _ <= _)%Qc => set (C := X) end.
  match goal with |- exists l0, forall l, _ -> (_ + _ * ?X + _ / _ <= _)%Qc => set (R := X) end.
  exists (Z.to_nat (Qceiling (this (C / eps)%Qc))). intros l Hl.
  assert (Hn : (this (C / eps)%Qc <= inject_Z (Z.of_nat (4 ^ l)))%Q).
  { eapply Qle_trans; [apply Qle_ceiling|]. rewrite <- Zle_Qle. pose proof (Nat.pow_gt_lin_r 4 l ltac:(lia)). lia. }
  assert (N4 : 4 ^ l <> 0) by (apply Nat.pow_nonzero; discriminate). pose proof (Qc_of_nat_nz _ N4) as Nq. pose proof (of_nat_ge1 _ N4) as Gq.
  assert (Ne : eps <> 0%Qc). { intros E. rewrite E in He. now apply Qclt_not_eq in He. }
  destruct (inv_le1 _ Gq) as (I0 & _).
  apply le_minus. replace (eps - (0 + 0 * R + C / Qc_of_nat (4 ^ l)))%Qc with (eps * / Qc_of_nat (4 ^ l) * (Qc_of_nat (4 ^ l) - C / eps))%Qc by (field; auto).
  apply mul_nonneg; [apply mul_nonneg; auto using Qclt_le_weak|]. apply -> le_minus. unfold Qcle. eapply Qle_trans; [exact Hn|].
  change (inject_Z (Z.of_nat (4 ^ l)) <= Qred (inject_Z (Z.of_nat (4 ^ l))))%Q. setoid_rewrite (Qred_correct (inject_Z (Z.of_nat (4 ^ l)))). apply Qle_refl.
Qed.

(** x^4 on the unit square, laplacian 12 x^2: all hypotheses hold at every level. *)
Lemma quartic_example_expf : 
  let V := fun x _ : Qc => (x * x * (x * x))%Qc in
  let Vxx := fun x _ : Qc => (Qc_of_nat 12 * (x * x))%Qc in
  let Vyy := fun _ _ : Qc => 0%Qc in
  tame V Vxx Vyy (Qc_of_nat 14) (Qc_of_nat 2) (whole 2 0 0 1 0 1) /\ right_signs (helmholtz 0) /\
  (forall l, let G := whole 2 l 0 1 0 1 in
    each_cell (fun x y _ => within 0 ((Vxx x y - c_lambda (helmholtz 0) x y * V x y) / c_alpha (helmholtz 0) x y - (Vxx x y + Vyy x y))) G [] /\
    uniform 2 l G (divided Vxx 2 l G) /\ fresh (sampled Vxx) (divided Vxx 2 l G) (fresh_tree (divided Vxx 2 l G)) /\
    exists g, length g = 4 * (2 * 2 ^ l) /\
      each_face (fun v x y => within 0 (v - V x y)) (fun v x y => within 0 (v - V x y)) G g).
Proof.
  intros V Vxx Vyy. split; [|split].
  - intros x y d A B _ _ P. cbn [whole gxl gxu] in A, B. split; intros L.
    + replace (second_x V d x y) with (Qc_of_nat 12 * (x * x) * (d * d) + Qc_of_nat 2 * (d * d) * (d * d))%Qc
        by (unfold second_x, V; change (Qc_of_nat 12) with ((1 + 1) * (1 + 1) * (1 + 1 + 1))%Qc; change (Qc_of_nat 2) with (1 + 1)%Qc; ring).
      assert (D1 : (d <= 1)%Qc) by (eapply Qcle_trans; [exact L|discriminate]).
      assert (X2 : (x * x <= 1)%Qc). { apply le_minus. replace (1 - x * x)%Qc with ((1 - x) * (1 + x))%Qc by ring. apply mul_nonneg; [apply le_minus in B; exact B|apply add_nonneg; auto; discriminate]. }
      assert (D2 : (d * d <= 1)%Qc). { apply le_minus. apply Qclt_le_weak in P. replace (1 - d * d)%Qc with ((1 - d) * (1 + d))%Qc by ring. apply mul_nonneg; [apply le_minus in D1; exact D1|apply add_nonneg; auto; discriminate]. }
      pose proof (sq_nonneg d) as S. pose proof (sq_nonneg x) as Sx. apply le_minus in X2. apply le_minus in D2.
      pose proof (mul_nonneg _ _ X2 S) as U1. pose proof (mul_nonneg _ _ D2 S) as U2. pose proof (mul_nonneg _ _ Sx S) as U3. pose proof (mul_nonneg _ _ S S) as U4.
      split; (split; [apply (proj2 (le_minus _ _))..]).
      * match goal with |- (0 <= ?X)%Qc => replace X with ((Qc_of_nat 12 * (x * x * (d * d)) + Qc_of_nat 2 * (d * d * (d * d))) + Qc_of_nat 14 * (d * d))%Qc by ring end.
        repeat apply add_nonneg; apply mul_nonneg; auto; discriminate.
      * match goal with |- (0 <= ?X)%Qc => replace X with (Qc_of_nat 12 * ((1 - x * x) * (d * d)) + Qc_of_nat 2 * ((1 - d * d) * (d * d)))%Qc
          by (change (Qc_of_nat 14) with (Qc_of_nat 12 + Qc_of_nat 2)%Qc; ring) end.
        repeat apply add_nonneg; apply mul_nonneg; auto; discriminate.
      * unfold Vxx. match goal with |- (0 <= ?X)%Qc => replace X with ((Qc_of_nat 2 + Qc_of_nat 2) * (d * d * (d * d)))%Qc by ring end. apply mul_nonneg; auto; discriminate.
      * unfold Vxx. match goal with |- (0 <= ?X)%Qc => replace X with 0%Qc by ring end. apply Qcle_refl.
    + pose proof (sq_nonneg d) as S. pose proof (mul_nonneg _ _ S S) as U4.
      replace (second_y V d x y) with 0%Qc by (unfold second_y, V; ring).
      assert (W : forall b, (0 <= b)%Qc -> within b 0%Qc). { intros b Hb. split; auto. apply (proj2 (le_minus _ _)). replace (0 - - b)%Qc with b by ring. auto. }
      split; [|replace (0 - d * d * Vyy x y)%Qc with 0%Qc by (unfold Vyy; ring)]; apply W; apply mul_nonneg; auto; discriminate.
  - intros x y. cbn. split; [discriminate|]. split; [reflexivity|discriminate].
  - intros l G. assert (W0 : within 0 0) by (split; discriminate). split; [|split; [apply divided_uniform|split; [apply divided_fresh|]]].
    + intros i j _ _. cbn [helmholtz c_lambda c_alpha]. match goal with |- within 0 ?X => replace X with 0%Qc by (unfold Vyy; field; discriminate) end. exact W0.
    + exists (vec_of (4 * (2 * 2 ^ l)) (fun k => let n := 2 * 2 ^ l in
        if k <? n then V (gxl G) 0%Qc else if k <? 2 * n then V (gxu G) 0%Qc else
        if k <? 3 * n then V (mid_x G (k - 2 * n)) 0%Qc else V (mid_x G (k - 3 * n)) 0%Qc)).
      split; [apply vec_of_length|]. unfold each_face, west, east, south, north. cbn [G whole gnx gny]. set (n := 2 * 2 ^ l).
      split; intros k Hk; change (k < n) in Hk; fold n; cbv beta; rewrite !vval_vec_of by lia; cbv zeta; fold n.
      * rewrite (proj2 (Nat.ltb_lt k n)) by lia. rewrite (proj2 (Nat.ltb_ge (n + k) n)), (proj2 (Nat.ltb_lt (n + k) (2 * n))) by lia.
        split; [replace (V _ _ - V _ _)%Qc with 0%Qc by (unfold V; ring); exact W0..].
      * rewrite (proj2 (Nat.ltb_ge (2 * n + k) n)), (proj2 (Nat.ltb_ge (2 * n + k) (2 * n))), (proj2 (Nat.ltb_lt (2 * n + k) (3 * n))) by lia.
        rewrite (proj2 (Nat.ltb_ge (2 * n + n + k) n)), (proj2 (Nat.ltb_ge (2 * n + n + k) (2 * n))), (proj2 (Nat.ltb_ge (2 * n + n + k) (3 * n))) by lia.
        replace (2 * n + k - 2 * n) with k by lia. replace (2 * n + n + k - 3 * n) with k by lia.
        split; (match goal with |- within 0 ?X => replace X with 0%Qc by (unfold V; ring) end; exact W0).
Qed.
