(** The thermal example on several ranks. *)
From Verif Require Import Base VectorModel MatrixModel LinSpec HPSModel HPSSpec StageSpec FVModel FVSpec GlobalSpec AdaptSpec ThermalModel ThermalSpec
  TreeModel TreeSpec TreeProofs TreeCtor TreeOrder TreeMap ParModel ParSpec ParProofs ParRun ParCtor ParStages ParProps
  WorldModel WorldSpec WorldProofs WorldProps Gauss LinProps HPSProps FVProofs FVFish FVProps ConvProofs AdaptProofs AdaptProps ThermalProps ThermParModel ThermParSpec ThermParProofs ThermParMesh.
From Coq Require Import Lia.

(** When the recursion over the starting tree succeeds, all ranks end with its values. *)
Lemma thermal_ranks size cnt nside lu gesv P k dflt rd F c0 tn :
  contiguous F -> gapless F -> depth F <= qmaxlevel ->
  (forall r, In r (owners F) <-> r < size) -> aligned F -> (forall r, r < size -> leaves_of r F = cnt) ->
  thermal_run lu gesv P c0 (starting F rd) k = Ok tn ->
  exists fin, always_ends (thermal_rank size nside lu gesv P k dflt rd F c0) fin /\
    forall r, r < size -> exists c m, fin r = Ok (c, m) /\ node_map r F m /\ has_values r F m (map snd (computed_values tn)).
Proof.
  intros C G HL HO HA HN E.
  destruct (constructed_tree F rd C HL) as (m0 & t0 & E0 & NM0 & H0 & Et). rewrite <- Et in E.
  destruct (program_holds (R := option (matrix Qc) * nmap patch) (serial F) (serial_contiguous F) (serial_level F HL) (serial_first F) (serial_last F)
    lu gesv P dflt nside c0 m0 t0 k tn H0 E) as (c1 & m1 & t1 & K & (T1 & _ & S1) & <-).
  destruct (construction_completes_pf fv_factory rd F fv_factory_ok C HL) as (mid & A & X).
  destruct (five_point_aligned_completes_pf size cnt F dflt (thermal_stages nside lu gesv P k) (fun r => (c0, mid r)) (c0, m0) (c1, m1)
    C G HL HO HA HN (thermal_independent nside lu gesv P k) (thermal_descends nside lu gesv P k)) as (fin & A2 & IN); auto.
  { intros r. apply X. }
  { intros r. apply (constructed_same fv_factory rd F r _ _ fv_factory_ok fv_factory_data C HL (proj1 (X r)) E0). }
  { exact (K finish). }
  exists fin. split.
  - apply (ends_seq _ (fun r m => run_stages_w size r dflt F (thermal_stages nside lu gesv P k) (c0, m) finish) mid fin A A2).
  - intros r Hr. destruct (IN r Hr) as ([c m] & Ef & NM & SD). exists c, m. split; [exact Ef|]. split; [exact NM|].
    exact (values_of_same F r m m1 t1 NM SD T1 S1).
Qed.

(** [C93] The thermal example on several ranks, on every uniform mesh whose partition lets
    the five-point solver run: the program ends whatever the order of the collectives, and
    after iteration [n] the leaves of every rank hold the state after n + 1 steps of
    backward Euler from zero. *)
Lemma thermal_ranks_states_pf : forall size cnt F m l lu gesv xl xu yl yu P dflt c0,
  contiguous F -> gapless F -> depth F <= qmaxlevel ->
  (forall r, In r (owners F) <-> r < size) -> aligned F -> (forall r, r < size -> leaves_of r F = cnt) ->
  all_at l F -> 2 <= m -> lu_contract lu -> gesv_contract gesv -> (xl < xu)%Qc -> (yl < yu)%Qc ->
  (forall x y, (0 < th_beta P x y)%Qc) -> (th_start P < th_end P)%Qc -> th_nt P <> 0 ->
  forall n, exists fin u,
    always_ends (thermal_rank size m lu gesv P (S n) dflt (new_patch (Grid m m xl xu yl yu)) F c0) fin /\
    (forall r, r < size -> exists c nodes, fin r = Ok (c, nodes) /\ node_map r F nodes /\ has_values r F nodes (scatter m l u)) /\
    let N := m * 2 ^ l in after (th_step P (whole m l xl xu yl yu)) (zeros (N * N)) (S n) u.
Proof.
  intros size cnt F m l lu gesv xl xu yl yu P dflt c0 C G HL HO HA HN HF Hm HLU HG Hx Hy Hb Ht Hn n.
  set (B := Grid m m xl xu yl yu).
  destruct (thermal_states_partial_pf m l lu gesv xl xu yl yu zero_load (mesh m F B) (starting F (new_patch B)) c0 P Hm HLU HG Hx Hy
    (mesh_uniform m l F B HF) (mesh_fresh m F B (new_patch B) eq_refl eq_refl) Hb Ht Hn n) as (tn & u & E & Ev & Ea & _).
  destruct (thermal_ranks size cnt m lu gesv P (S n) dflt (new_patch B) F c0 tn C G HL HO HA HN E) as (fin & A & IN).
  exists fin, u. split; [exact A|]. split; [|exact Ea].
  intros r Hr. destruct (IN r Hr) as (c & nodes & E1 & E2 & E3). exists c, nodes. rewrite <- Ev. auto.
Qed.

(** [C93] The same on meshes refined in places, when the merges and the boundary system
    are nonsingular. *)
Lemma thermal_ranks_refined_pf : forall size cnt F m lu gesv G P dflt c0,
  contiguous F -> gapless F -> depth F <= qmaxlevel ->
  (forall r, In r (owners F) <-> r < size) -> aligned F -> (forall r, r < size -> leaves_of r F = cnt) ->
  3 <= m -> lu_contract lu -> gesv_contract gesv -> oriented (rect m G) ->
  (forall x y, (0 < th_beta P x y)%Qc) -> (th_start P < th_end P)%Qc -> th_nt P <> 0 ->
  well_posed m (fv_solver lu (th_coefs P)) (mesh m F G) -> heat_posed (th_beta P) (th_dt P) m G (mesh m F G) ->
  forall n, exists fin final,
    always_ends (thermal_rank size m lu gesv P (S n) dflt (new_patch (rect m G)) F c0) fin /\
    (forall r, r < size -> exists c nodes, fin r = Ok (c, nodes) /\ node_map r F nodes /\ has_values r F nodes (map snd (leaves final))) /\
    after (th_refined P m G) (cold m (mesh m F G)) (S n) final.
Proof.
  intros size cnt F m lu gesv G P dflt c0 C GL HL HO HA HN Hm HLU HG HR Hb Ht Hn HW HP n.
  destruct (thermal_refined_partial_pf m lu gesv G zero_load (mesh m F G) (starting F (new_patch (rect m G))) c0 P ltac:(lia) HLU HG HR
    (mesh_tiled m F G) (mesh_fresh m F G (new_patch (rect m G)) eq_refl eq_refl) (or_introl Hm) Hb Ht Hn HW HP n) as (tn & fi & E & Ev & Ea & _).
  destruct (thermal_ranks size cnt m lu gesv P (S n) dflt (new_patch (rect m G)) F c0 tn C GL HL HO HA HN E) as (fin & A & IN).
  exists fin, fi. split; [exact A|]. split; [|exact Ea].
  intros r Hr. destruct (IN r Hr) as (c & nodes & E1 & E2 & E3). exists c, nodes. rewrite <- Ev. auto.
Qed.

(** Four ranks with four leaves each, 2 by 2 cells per leaf, over the unit square. *)
Lemma thermal_ranks_example_expf : forall dflt c0, let P := ex_thermal 1 in
  exists fin u,
    always_ends (thermal_rank 4 2 lu_gauss gauss_gesv P 5 dflt (new_patch (Grid 2 2 0 1 0 1)) quarters c0) fin /\
    (forall r, r < 4 -> exists c nodes, fin r = Ok (c, nodes) /\ node_map r quarters nodes /\ has_values r quarters nodes (scatter 2 2 u)) /\
    after (th_step P (whole 2 2 0 1 0 1)) (zeros (8 * 8)) 5 u.
Proof.
  intros dflt c0 P. destruct five_point_aligned_example_expf as (C & G & HL & HO & HA & HN & _).
  refine (thermal_ranks_states_pf 4 4 quarters 2 2 lu_gauss gauss_gesv 0 1 0 1 P dflt c0 C G HL HO HA HN _ _ _ _ _ _ _ _ _ 4).
  - cbn. repeat split.
  - apply le_n.
  - exact lu_gauss_contract.
  - exact gauss_gesv_contract.
  - reflexivity.
  - reflexivity.
  - intros. apply ex_beta_pos.
  - reflexivity.
  - discriminate.
Qed.

(** The unit square with its lower left quarter divided once more, on one rank. *)
Definition corner : forest :=
  FNode (FNode (FLeaf 0) (FLeaf 0) (FLeaf 0) (FLeaf 0)) (FLeaf 0) (FLeaf 0) (FLeaf 0).
Lemma corner_mesh : mesh 3 corner unit_square = adapted (fun _ _ => 0%Qc) 3 unit_square.
Proof. reflexivity. Qed.
Lemma thermal_ranks_refined_example_expf : forall dflt c0, let P := ex_refined in
  exists fin final,
    always_ends (thermal_rank 1 3 lu_gauss gauss_gesv P 5 dflt (new_patch (rect 3 unit_square)) corner c0) fin /\
    (forall r, r < 1 -> exists c nodes, fin r = Ok (c, nodes) /\ node_map r corner nodes /\ has_values r corner nodes (map snd (leaves final))) /\
    after (th_refined P 3 unit_square) (cold 3 (mesh 3 corner unit_square)) 5 final.
Proof.
  intros dflt c0 P. destruct thermal_refined_example_expf as (_ & _ & HR & _ & _ & _ & Hb & Ht & Hn & HW & HP).
  assert (C : contiguous corner) by (repeat constructor).
  assert (G : gapless corner) by (intros o1 o2 r H1 H2 H; cbn in *; lia).
  assert (HL : depth corner <= qmaxlevel) by (vm_compute; repeat constructor).
  assert (HO : forall r, In r (owners corner) <-> r < 1) by (intros r; cbn; lia).
  assert (HA : aligned corner).
  { intros ds f E Hf r _. exfalso. apply Hf. destruct (all_owned corner 0 ds f C eq_refl eq_refl E) as (-> & ->). reflexivity. }
  assert (HN : forall r, r < 1 -> leaves_of r corner = 7) by (intros r Hr; replace r with 0 by lia; reflexivity).
  rewrite <- corner_mesh in HW, HP.
  exact (thermal_ranks_refined_pf 1 7 corner 3 lu_gauss gauss_gesv unit_square P dflt c0 C G HL HO HA HN (le_n 3) lu_gauss_contract gauss_gesv_contract HR
    Hb Ht Hn HW HP 4).
Qed.
