(** Property theorems.  Proofs are in ThermParProps.v; this file only restates the
    statements.  Written by tools/gen_thm.py. *)
From Verif Require Import Base VectorModel MatrixModel LinSpec HPSModel HPSSpec StageSpec FVModel FVSpec GlobalSpec AdaptSpec ThermalModel ThermalSpec
  TreeModel TreeSpec TreeProofs TreeCtor TreeOrder TreeMap ParModel ParSpec ParProofs ParRun ParCtor ParStages ParProps
  WorldModel WorldSpec WorldProofs WorldProps Gauss LinProps HPSProps FVProofs FVFish FVProps ConvProofs AdaptProofs AdaptProps ThermalProps ThermParModel ThermParSpec ThermParProofs ThermParMesh.
From Coq Require Import Lia.
From Verif Require Import ThermParProps.

(** [C93] The thermal example on several ranks, on every uniform mesh whose partition lets
    the five-point solver run: the program ends whatever the order of the collectives, and
    after iteration [n] the leaves of every rank hold the state after n + 1 steps of
    backward Euler from zero. *)
Theorem thermal_ranks_states : forall size cnt F m l lu gesv xl xu yl yu P dflt c0,
  contiguous F -> gapless F -> depth F <= qmaxlevel ->
  (forall r, In r (owners F) <-> r < size) -> aligned F -> (forall r, r < size -> leaves_of r F = cnt) ->
  all_at l F -> 2 <= m -> lu_contract lu -> gesv_contract gesv -> (xl < xu)%Qc -> (yl < yu)%Qc ->
  (forall x y, (0 < th_beta P x y)%Qc) -> (th_start P < th_end P)%Qc -> th_nt P <> 0 ->
  forall n, exists fin u,
    always_ends (thermal_rank size m lu gesv P (S n) dflt (new_patch (Grid m m xl xu yl yu)) F c0) fin /\
    (forall r, r < size -> exists c nodes, fin r = Ok (c, nodes) /\ node_map r F nodes /\ has_values r F nodes (scatter m l u)) /\
    let N := m * 2 ^ l in after (th_step P (whole m l xl xu yl yu)) (zeros (N * N)) (S n) u.
Proof. exact @thermal_ranks_states_pf. Qed.
Print Assumptions thermal_ranks_states.

(** [C93] The same on meshes refined in places, when the merges and the boundary system
    are nonsingular. *)
Theorem thermal_ranks_refined : forall size cnt F m lu gesv G P dflt c0,
  contiguous F -> gapless F -> depth F <= qmaxlevel ->
  (forall r, In r (owners F) <-> r < size) -> aligned F -> (forall r, r < size -> leaves_of r F = cnt) ->
  3 <= m -> lu_contract lu -> gesv_contract gesv -> oriented (rect m G) ->
  (forall x y, (0 < th_beta P x y)%Qc) -> (th_start P < th_end P)%Qc -> th_nt P <> 0 ->
  well_posed m (fv_solver lu (th_coefs P)) (mesh m F G) -> heat_posed (th_beta P) (th_dt P) m G (mesh m F G) ->
  forall n, exists fin final,
    always_ends (thermal_rank size m lu gesv P (S n) dflt (new_patch (rect m G)) F c0) fin /\
    (forall r, r < size -> exists c nodes, fin r = Ok (c, nodes) /\ node_map r F nodes /\ has_values r F nodes (map snd (leaves final))) /\
    after (th_refined P m G) (cold m (mesh m F G)) (S n) final.
Proof. exact @thermal_ranks_refined_pf. Qed.
Print Assumptions thermal_ranks_refined.

(** Four ranks with four leaves each, 2 by 2 cells per leaf, over the unit square. *)
Example thermal_ranks_example : forall dflt c0, let P := ex_thermal 1 in
  exists fin u,
    always_ends (thermal_rank 4 2 lu_gauss gauss_gesv P 5 dflt (new_patch (Grid 2 2 0 1 0 1)) quarters c0) fin /\
    (forall r, r < 4 -> exists c nodes, fin r = Ok (c, nodes) /\ node_map r quarters nodes /\ has_values r quarters nodes (scatter 2 2 u)) /\
    after (th_step P (whole 2 2 0 1 0 1)) (zeros (8 * 8)) 5 u.
Proof. exact @thermal_ranks_example_expf. Qed.

Example thermal_ranks_refined_example : forall dflt c0, let P := ex_refined in
  exists fin final,
    always_ends (thermal_rank 1 3 lu_gauss gauss_gesv P 5 dflt (new_patch (rect 3 unit_square)) corner c0) fin /\
    (forall r, r < 1 -> exists c nodes, fin r = Ok (c, nodes) /\ node_map r corner nodes /\ has_values r corner nodes (map snd (leaves final))) /\
    after (th_refined P 3 unit_square) (cold 3 (mesh 3 corner unit_square)) 5 final.
Proof. exact @thermal_ranks_refined_example_expf. Qed.
