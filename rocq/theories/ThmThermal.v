(** Property theorems.  Proofs are in ThermalProps.v; this file only restates the
    statements.  Written by tools/gen_thm.py. *)
From Coq Require Import Lqa.
From Verif Require Import Base VectorModel MatrixModel LinSpec HPSModel HPSSpec StageSpec FVModel FVSpec GlobalSpec AdaptSpec CompareSpec MixSpec ThermalModel ThermalSpec.
From Verif Require Import MatProofs LinProofs Gauss LinProps HPSProofs HPSProofs2 HPSProofs3 HPSHistory HPSStage2 HPSProps StageProps FVProofs FVProofs2 FVProofs3 FVMax FVFish FVJoin FVGlobal FVCompare FVMixed FVProps ConvProofs MixProps SymProofs ThermalProofs HeatProofs HPSTree HPSTree2 HPSStage HPSRebuild HPSCert AdaptCert AdaptProofs AdaptEnd AdaptProps ThermalAdapt ModCert BoundaryCert.
From Coq Require Import Lia.
From Verif Require Import ThermalProps.

(** [C69] After iteration [n] the leaves hold the state after n + 1 steps of backward
    Euler from zero, on every uniform mesh; the source acts from the second step on. *)
Theorem thermal_states_partial : forall m l lu gesv xl xu yl yu load0 s t st P,
  2 <= m -> lu_contract lu -> gesv_contract gesv -> (xl < xu)%Qc -> (yl < yu)%Qc ->
  let N := m * 2 ^ l in let G := whole m l xl xu yl yu in
  uniform m l G s -> fresh load0 s t ->
  (forall x y, (0 < th_beta P x y)%Qc) -> (th_start P < th_end P)%Qc -> th_nt P <> 0 ->
  forall n, exists tn u,
    thermal_run lu gesv P st t (S n) = Ok tn /\ map snd (computed_values tn) = scatter m l u /\
    after (th_step P G) (zeros (N * N)) (S n) u /\
    forall u', after (th_step P G) (zeros (N * N)) (S n) u' -> u' = u.
Proof. exact @thermal_states_partial_pf. Qed.
Print Assumptions thermal_states_partial.

(** [C69] The whole program: nt + 1 iterations, the last one at the end of the time interval. *)
Theorem thermal_final_partial : forall m l lu gesv xl xu yl yu load0 s t st P,
  2 <= m -> lu_contract lu -> gesv_contract gesv -> (xl < xu)%Qc -> (yl < yu)%Qc ->
  let N := m * 2 ^ l in let G := whole m l xl xu yl yu in
  uniform m l G s -> fresh load0 s t ->
  (forall x y, (0 < th_beta P x y)%Qc) -> (th_start P < th_end P)%Qc -> th_nt P <> 0 ->
  th_time P (th_nt P) = th_end P /\
  exists tn u,
    thermal_main lu gesv P st t = Ok tn /\ map snd (computed_values tn) = scatter m l u /\
    after (th_step P G) (zeros (N * N)) (th_nt P + 1) u /\
    forall u', after (th_step P G) (zeros (N * N)) (th_nt P + 1) u' -> u' = u.
Proof. exact @thermal_final_partial_pf. Qed.
Print Assumptions thermal_final_partial.

(** [C69] However long the time step, no value leaves the range of the boundary values
    and the initial zero by more than the source can have added. *)
Theorem thermal_bounded : forall m l lu gesv xl xu yl yu load0 s t st P lo hi q,
  2 <= m -> lu_contract lu -> gesv_contract gesv -> (xl < xu)%Qc -> (yl < yu)%Qc ->
  uniform m l (whole m l xl xu yl yu) s -> fresh load0 s t ->
  (forall x y, (0 < th_beta P x y)%Qc) -> (th_start P < th_end P)%Qc -> th_nt P <> 0 ->
  (lo <= 0)%Qc -> (0 <= hi)%Qc -> (0 <= q)%Qc ->
  (forall x y z, (lo <= th_west P x y z <= hi)%Qc /\ (lo <= th_east P x y z <= hi)%Qc) ->
  (forall x y z, th_south P x y z = 0%Qc /\ th_north P x y z = 0%Qc) ->
  (forall x y z, (- q <= th_sources P x y z <= q)%Qc) ->
  forall n, exists tn, thermal_run lu gesv P st t (S n) = Ok tn /\
    let a := (Qc_of_nat n * (th_dt P * q))%Qc in
    each_leaf_cell (between (lo - a) (hi + a)) s (map snd (computed_values tn)).
Proof. exact @thermal_bounded_pf. Qed.
Print Assumptions thermal_bounded.

Example thermal_states_example : forall l south,
  let G := whole 2 l 0 1 0 1 in let P := ex_thermal south in let s := divided (fun _ _ => 0%Qc) 2 l G in
  lu_contract lu_gauss /\ gesv_contract gauss_gesv /\ uniform 2 l G s /\ fresh (sampled (fun _ _ => 0%Qc)) s (fresh_tree s) /\
  (forall x y, (0 < th_beta P x y)%Qc) /\ (th_start P < th_end P)%Qc /\ th_nt P <> 0.
Proof. exact @thermal_states_example_expf. Qed.

Example thermal_bounded_example :
  (0 <= 0)%Qc /\ (0 <= Q2Qc 40)%Qc /\
  (forall x y z, (0 <= th_west ex_bar x y z <= Q2Qc 40)%Qc /\ (0 <= th_east ex_bar x y z <= Q2Qc 40)%Qc) /\
  (forall x y z, th_south ex_bar x y z = 0%Qc /\ th_north ex_bar x y z = 0%Qc) /\
  (forall x y z, (- 0 <= th_sources ex_bar x y z <= 0)%Qc) /\
  (forall x y, (0 < th_beta ex_bar x y)%Qc) /\ (th_start ex_bar < th_end ex_bar)%Qc /\ th_nt ex_bar <> 0.
Proof. exact @thermal_bounded_example_expf. Qed.

(** [C69] The values shown at the start of the interval are not the initial values: one
    step has been taken already. *)
Theorem thermal_initial_refuted : exists P t tn,
  thermal_run lu_gauss gauss_gesv P None t 1 = Ok tn /\ th_time P 0 = th_start P /\
  map snd (computed_values tn) <> [zeros 4] /\
  exists u, map snd (computed_values tn) = scatter 2 0 u /\ th_step P ex_square 0 (zeros 4) u.
Proof. exact @thermal_initial_refuted_pf. Qed.
Print Assumptions thermal_initial_refuted.

(** [C69] dudnSouth is not the derivative in the direction of the outward normal: it is
    used as the derivative in the direction of y. *)
Theorem thermal_south_refuted : exists P t tn u,
  thermal_run lu_gauss gauss_gesv P None t 1 = Ok tn /\ map snd (computed_values tn) = scatter 2 0 u /\
  let at_ f x y := f x y (th_time P 0) in
  ~ heat_step (th_beta P) (th_dt P) ex_square (at_ (th_west P)) (at_ (th_east P)) (fun x y => - at_ (th_south P) x y)%Qc (at_ (th_north P))
      (fun _ _ => 0%Qc) (zeros 4) u.
Proof. exact @thermal_south_refuted_pf. Qed.
Print Assumptions thermal_south_refuted.

(** [C69] The same on every mesh that is refined in places: the leaves are glued
    together as the elliptic solver glues them.  Missing: that the merges and the
    boundary system are nonsingular. *)
Theorem thermal_refined_partial : forall m lu gesv G load0 s t st P,
  2 <= m -> lu_contract lu -> gesv_contract gesv -> oriented (rect m G) ->
  tiled m G s -> fresh load0 s t -> 3 <= m \/ equal_levels s ->
  (forall x y, (0 < th_beta P x y)%Qc) -> (th_start P < th_end P)%Qc -> th_nt P <> 0 ->
  well_posed m (fv_solver lu (th_coefs P)) s -> heat_posed (th_beta P) (th_dt P) m G s ->
  forall n, exists tn final,
    thermal_run lu gesv P st t (S n) = Ok tn /\ map snd (computed_values tn) = map snd (leaves final) /\
    after (th_refined P m G) (cold m s) (S n) final /\
    forall final', after (th_refined P m G) (cold m s) (S n) final' -> final' = final.
Proof. exact @thermal_refined_partial_pf. Qed.
Print Assumptions thermal_refined_partial.

Example thermal_refined_example :
  let P := ex_refined in let s := adapted (fun _ _ => 0%Qc) 3 unit_square in
  lu_contract lu_gauss /\ gesv_contract gauss_gesv /\ oriented (rect 3 unit_square) /\ tiled 3 unit_square s /\
  fresh (sampled (fun _ _ => 0%Qc)) s (fresh_tree s) /\ ~ equal_levels s /\
  (forall x y, (0 < th_beta P x y)%Qc) /\ (th_start P < th_end P)%Qc /\ th_nt P <> 0 /\
  well_posed 3 (fv_solver lu_gauss (th_coefs P)) s /\ heat_posed (th_beta P) (th_dt P) 3 unit_square s.
Proof. exact @thermal_refined_example_expf. Qed.
