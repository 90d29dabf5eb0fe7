(** Order and bounds of discrete solutions. *)
From Coq Require Import Lqa.
From Verif Require Import Base VectorModel MatrixModel LinSpec HPSModel HPSSpec FVModel FVSpec StageSpec GlobalSpec AdaptSpec CompareSpec.
From Verif Require Import MatProofs MatProofs2 LinProofs Gauss LinProps HPSProofs HPSProofs3 HPSProofs4 HPSStage2 HPSTree HPSTree2 HPSProps.
From Verif Require Import FVProofs FVProofs2 FVProofs3 FVMax FVJoin FVGlobal FVFish FVProps FVCompare.
From Coq Require Import Lia.

Lemma cells_all (P : Qc -> Prop) G u : gny G <> 0 -> (forall k, k < gnx G * gny G -> P (vval u k)) -> each_cell (fun _ _ v => P v) G u.
Proof. intros Ny H i j Hi Hj. apply H. nia. Qed.

Lemma cell_in c rhs G i j : i < gnx G -> j < gny G -> gny G <> 0 ->
  (c_alpha c (mid_x G i) (mid_y G j) * cell G (sampled rhs G) i j)%Qc =
  (c_alpha c (mid_x G i) (mid_y G j) * rhs (mid_x G i) (mid_y G j))%Qc.
Proof.
  intros Hi Hj Ny. unfold cell, sampled. rewrite map_seq_vec, vval_vec_of by nia.
  rewrite Nat.div_add, Nat.mod_add, Nat.div_small, Nat.mod_small by auto. reflexivity.
Qed.

Lemma whole_proper m l xl xu yl yu : m <> 0 -> (xl < xu)%Qc -> (yl < yu)%Qc -> proper (whole m l xl xu yl yu).
Proof.
  intros Hm Hx Hy. apply orp. pose proof (pow_nz m Hm l). split; [exact Hx|]. split; [exact Hy|]. split; assumption.
Qed.
Lemma sampled_len rhs G : length (sampled rhs G) = gnx G * gny G.
Proof. unfold sampled. rewrite map_length, seq_length. reflexivity. Qed.

Lemma scatter_le m l : forall u1 u2, (forall k, k < m * 2 ^ l * (m * 2 ^ l) -> (vval u1 k <= vval u2 k)%Qc) ->
  length u1 = m * 2 ^ l * (m * 2 ^ l) -> length u2 = m * 2 ^ l * (m * 2 ^ l) -> m <> 0 ->
  Forall2 (Forall2 Qcle) (scatter m l u1) (scatter m l u2).
Proof.
  induction l as [|l IH]; intros u1 u2 H L1 L2 Hm; cbn [scatter].
  - constructor; [|constructor]. assert (L : length u1 = length u2) by congruence. rewrite <- L1 in H. clear L1 L2. revert u2 H L.
    induction u1 as [|a u1 IH]; intros [|b u2] H L; try discriminate L; constructor.
    + exact (H 0 ltac:(cbn; lia)).
    + apply IH; [|cbn in L; lia]. intros k Hk. exact (H (S k) ltac:(cbn; lia)).
  - pose proof (pow_nz m Hm l) as Nn. assert (En : m * 2 ^ S l = 2 * (m * 2 ^ l)) by (cbn [Nat.pow]; lia). rewrite En in H.
    assert (B : forall e t, Forall2 (Forall2 Qcle) (scatter m l (block (m * 2 ^ l) u1 e t)) (scatter m l (block (m * 2 ^ l) u2 e t))).
    { intros e t. apply IH; auto using block_length. intros k Hk. set (n := m * 2 ^ l) in *. unfold block. rewrite !map_seq_vec, !vval_vec_of by auto. cbv zeta. apply H.
      assert (k / n < n) by (apply Nat.div_lt_upper_bound; lia). assert (k mod n < n) by (apply Nat.mod_upper_bound; auto).
      destruct e, t; nia. }
    repeat apply Forall2_app; apply B.
Qed.

(** [C63] Comparison: with the signs of C57, smaller boundary data and larger
    f / alpha give a smaller solution. *)
Lemma comparison_holds_pf : forall c G g1 g2 f1 f2 u1 u2,
  proper G -> right_signs c -> length g1 = length g2 -> length f1 = length f2 ->
  fv_solution c G g1 f1 u1 -> fv_solution c G g2 f2 u2 -> data_le G g1 g2 -> load_ge c G f1 f2 ->
  forall k, k < gnx G * gny G -> (vval u1 k <= vval u2 k)%Qc.
Proof. intros c G g1 g2 f1 f2 u1 u2 HP HS. apply comparison; auto. Qed.

(** [C63] Maximum principle: where f / alpha >= 0 the solution does not exceed a
    nonnegative bound of the boundary data; where f / alpha <= 0 it does not fall
    below a nonpositive bound. *)
Lemma bounds_hold_pf : forall c G g f u K, proper G -> right_signs c ->
  length g = 2 * gny G + 2 * gnx G -> length f = gnx G * gny G -> fv_solution c G g f u ->
  ((0 <= K)%Qc -> (forall k, k < 2 * gny G + 2 * gnx G -> (vval g k <= K)%Qc) ->
   (forall i j, i < gnx G -> j < gny G -> (0 <= c_alpha c (mid_x G i) (mid_y G j) * cell G f i j)%Qc) ->
   each_cell (fun _ _ v => (v <= K)%Qc) G u) /\
  ((K <= 0)%Qc -> (forall k, k < 2 * gny G + 2 * gnx G -> (K <= vval g k)%Qc) ->
   (forall i j, i < gnx G -> j < gny G -> (c_alpha c (mid_x G i) (mid_y G j) * cell G f i j <= 0)%Qc) ->
   each_cell (fun _ _ v => (K <= v)%Qc) G u).
Proof.
  intros c G g f u K HP HS Lg Lf Hu. pose proof HP as (_ & _ & _ & Ny). split; intros HK Hg Hf.
  - apply (cells_all (fun v => v <= K)%Qc); auto. eapply (bounded_above c G HP HS K g f); eauto.
  - apply (cells_all (fun v => K <= v)%Qc); auto. eapply (bounded_below c G HP HS K g f); eauto.
Qed.

(** [C63] The direct solver on a uniform mesh is monotone: of two runs, the one with
    smaller boundary data and larger f / alpha gives smaller values in all cells of
    all leaves. *)
Lemma direct_solver_monotone_pf : forall m l lu c gesv rhs1 rhs2 xl xu yl yu s1 s2 t1 t2 st1 st2 g1 g2,
  2 <= m -> lu_contract lu -> gesv_contract gesv -> right_signs c -> (xl < xu)%Qc -> (yl < yu)%Qc ->
  let G := whole m l xl xu yl yu in
  uniform m l G s1 -> uniform m l G s2 -> fresh (sampled rhs1) s1 t1 -> fresh (sampled rhs2) s2 t2 ->
  length g1 = 4 * (m * 2 ^ l) -> length g2 = 4 * (m * 2 ^ l) ->
  Forall2 Qcle g1 g2 -> (forall x y, (c_alpha c x y * rhs2 x y <= c_alpha c x y * rhs1 x y)%Qc) ->
  exists b1 b2 sa ta sb tb v1 v2,
    buildStage (fv_solver lu c) gesv false st1 t1 = Ok (b1, sa) /\
    upwardsStage (fv_solver lu c) gesv false (sampled rhs1) sa = Ok ta /\
    solveStage (fv_solver lu c) false g1 ta = Ok v1 /\
    buildStage (fv_solver lu c) gesv false st2 t2 = Ok (b2, sb) /\
    upwardsStage (fv_solver lu c) gesv false (sampled rhs2) sb = Ok tb /\
    solveStage (fv_solver lu c) false g2 tb = Ok v2 /\
    Forall2 (Forall2 Qcle) (map snd (computed_values v1)) (map snd (computed_values v2)).
Proof.
  intros m l lu c gesv rhs1 rhs2 xl xu yl yu s1 s2 t1 t2 st1 st2 g1 g2 Hm HL HG HS Hx Hy G U1 U2 F1 F2 L1 L2 Hg Hr.
  destruct (direct_solver_exact_pf m l lu c gesv rhs1 xl xu yl yu s1 t1 st1 g1) as (b1 & sa & ta & v1 & u1 & A1 & A2 & A3 & A4 & A5 & _); auto.
  destruct (direct_solver_exact_pf m l lu c gesv rhs2 xl xu yl yu s2 t2 st2 g2) as (b2 & sb & tb & v2 & u2 & B1 & B2 & B3 & B4 & B5 & _); auto.
  exists b1, b2, sa, ta, sb, tb, v1, v2. do 6 (split; [assumption|]). rewrite A4, B4.
  pose proof (whole_proper m l xl xu yl yu ltac:(lia) Hx Hy) as HP.
  apply scatter_le; [|apply A5|apply B5|lia].
  apply (comparison c (whole m l xl xu yl yu) HP HS g1 g2 _ _ u1 u2) with (3 := A5) (4 := B5).
  - lia.
  - rewrite !sampled_len. reflexivity.
  - intros k Hk. clear - Hg Hk L1. cbn [whole gnx gny] in Hk. assert (Hk' : k < length g1) by lia. clear Hk L1.
    revert k Hk'. induction Hg as [|a b g1 g2 Hab Hg IH]; intros [|k] Hk; cbn in Hk; try lia; [exact Hab|]. apply (IH k). lia.
  - intros i j Hi Hj. pose proof HP as (_ & _ & _ & Ny). rewrite !cell_in by auto. apply Hr.
Qed.

(** [C63] Bounds for the direct solver on a uniform mesh. *)
Lemma direct_solver_bounded_pf : forall m l lu c gesv rhs xl xu yl yu s t st g K,
  2 <= m -> lu_contract lu -> gesv_contract gesv -> right_signs c -> (xl < xu)%Qc -> (yl < yu)%Qc ->
  let G := whole m l xl xu yl yu in
  uniform m l G s -> fresh (sampled rhs) s t -> length g = 4 * (m * 2 ^ l) ->
  exists st1 t1 t2 t3,
    buildStage (fv_solver lu c) gesv false st t = Ok (st1, t1) /\
    upwardsStage (fv_solver lu c) gesv false (sampled rhs) t1 = Ok t2 /\
    solveStage (fv_solver lu c) false g t2 = Ok t3 /\
    ((0 <= K)%Qc -> (forall x y, (0 <= c_alpha c x y * rhs x y)%Qc) -> Forall (fun v => (v <= K)%Qc) g ->
     each_leaf_cell (fun _ _ v => (v <= K)%Qc) s (map snd (computed_values t3))) /\
    ((K <= 0)%Qc -> (forall x y, (c_alpha c x y * rhs x y <= 0)%Qc) -> Forall (fun v => (K <= v)%Qc) g ->
     each_leaf_cell (fun _ _ v => (K <= v)%Qc) s (map snd (computed_values t3))).
Proof.
  intros m l lu c gesv rhs xl xu yl yu s t st g K Hm HL HG HS Hx Hy G HU HF Lg.
  destruct (direct_solver_exact_pf m l lu c gesv rhs xl xu yl yu s t st g) as (st1 & t1 & t2 & t3 & u & E1 & E2 & E3 & E4 & E5 & _); auto.
  exists st1, t1, t2, t3. do 3 (split; [assumption|]). rewrite E4.
  pose proof (whole_proper m l xl xu yl yu ltac:(lia) Hx Hy) as HP. pose proof HP as (_ & _ & _ & Ny).
  destruct (bounds_hold_pf c G g (sampled rhs G) u K HP HS) as (Bu & Bl); auto; [cbn [G whole gnx gny]; lia|apply sampled_len|].
  split; intros HK Hr Hg.
  - apply (scatter_cells _ m l ltac:(lia) G s u eq_refl eq_refl HU), Bu; auto.
    + intros k Hk. rewrite Forall_forall in Hg. apply Hg, nth_In. cbn [G whole gnx gny] in Hk. lia.
    + intros i j Hi Hj. rewrite cell_in by auto. apply Hr.
  - apply (scatter_cells _ m l ltac:(lia) G s u eq_refl eq_refl HU), Bl; auto.
    + intros k Hk. rewrite Forall_forall in Hg. apply Hg, nth_In. cbn [G whole gnx gny] in Hk. lia.
    + intros i j Hi Hj. rewrite cell_in by auto. apply Hr.
Qed.

(** Heat source in the unit square for every depth; the sign of alpha * f matters:
    f = 1 gives values below the boundary data 1. *)
Lemma bounded_example_expf : forall l,
  let rhs := fun _ _ : Qc => 1%Qc in let G := whole 2 l 0 1 0 1 in let g := repeat 1%Qc (4 * (2 * 2 ^ l)) in
  right_signs (helmholtz (- (1))) /\ uniform 2 l G (divided rhs 2 l G) /\
  fresh (sampled rhs) (divided rhs 2 l G) (fresh_tree (divided rhs 2 l G)) /\ length g = 4 * (2 * 2 ^ l) /\
  (forall x y, (0 <= c_alpha (helmholtz (- (1))) x y * rhs x y)%Qc) /\ Forall (fun v => (v <= 1)%Qc) g.
Proof.
  intros l rhs G g. split; [intros x y; cbn; split; [discriminate|split; [reflexivity|discriminate]]|].
  split; [apply divided_uniform|]. split; [apply divided_fresh|]. split; [apply repeat_length|]. split; [intros; discriminate|].
  apply Forall_forall. intros v Hv. apply repeat_spec in Hv. subst v. apply Qcle_refl.
Qed.
