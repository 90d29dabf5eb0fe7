(** Properties of refinement, exported arrays, mesh functions. *)
From Coq Require Import Lqa.
From Verif Require Import Base VectorModel MatrixModel HPSModel TreeModel TreeSpec MeshModel MeshSpec.
From Verif Require Import TreeProofs TreeTile TreeCtor TreeOrder TreeMap TreeOrder2 TreeProps FVMax MeshProofs MeshRefine.

(** ** Refinement *)

(** [C41] For every predicate, domain, number of cells, levels: p4est_refine ends and
    has one result F1; a quadrant of F1 is refined exactly if it is above min_level
    (uniform start) or it is below max_level (and the finest level of p4est) and the
    predicate holds at a centre of a cell.  After balancing (F2) and partitioning (F),
    no leaf is above min_level or deeper than max_level, and leaves not made by
    balancing whose level is below the maximum have no centre where the predicate holds. *)
Lemma refinement_by_function_pf : forall (fn : Qc -> Qc -> bool) (G : grid) (min_level max_level : Z) (F0 : forest),
  Z.to_nat min_level <= qmaxlevel -> uniform (Z.to_nat min_level) F0 ->
  exists F1, refine_forest (refine_callback fn max_level G) root_quadrant F0 F1 /\
  (forall F1', refine_forest (refine_callback fn max_level G) root_quadrant F0 F1' -> F1' = F1) /\
  (forall ds, sub F1 ds <> None ->
     (is_node F1 ds <-> (Z.of_nat (length ds) < min_level)%Z \/
        (Z.of_nat (length ds) < max_level)%Z /\ length ds < qmaxlevel /\ holds_at_centre fn G ds)) /\
  forall F2 F, refines F1 F2 -> same_quadrants F2 F ->
  forall ds, In ds (leaf_paths F) ->
    (min_level <= Z.of_nat (length ds))%Z /\ length ds <= qmaxlevel /\
    ((0 <= max_level)%Z -> (min_level <= max_level)%Z -> (Z.of_nat (length ds) <= max_level)%Z) /\
    (In ds (leaf_paths F1) -> (Z.of_nat (length ds) < max_level)%Z -> length ds < qmaxlevel ->
     ~ holds_at_centre fn G ds).
Proof.
  intros fn G mn mx F0 Hmin U.
  destruct (refine_forest_ex (refine_callback fn mx G) F0 root_quadrant) as (F1 & H1).
  assert (RI : forall ds, sub F1 ds <> None ->
     (is_node F1 ds <-> (Z.of_nat (length ds) < mn)%Z \/
        (Z.of_nat (length ds) < mx)%Z /\ length ds < qmaxlevel /\ holds_at_centre fn G ds)).
  { intros ds Hs. rewrite (refined_iff fn G (Z.to_nat mn) mx F0 F1 Hmin U H1 ds Hs).
    assert (length ds < Z.to_nat mn <-> (Z.of_nat (length ds) < mn)%Z) by lia. tauto. }
  exists F1. split; [exact H1|].
  split; [intros F1' H'; exact (refine_forest_unique _ _ _ _ _ H' H1)|]. split; [exact RI|].
  intros F2 F [R1 R2] SQ ds Hl. apply leaf_sub in Hl as (o & Es).
  assert (Ds : length ds <= depth F1).
  { assert (X : sub F2 ds <> None) by (apply SQ; congruence). destruct (sub F2 ds) as [g|] eqn:Eg; [|congruence].
    pose proof (sub_depth _ _ _ Eg). lia. }
  assert (D1 : depth F1 <= qmaxlevel).
  { destruct (depth_witness F1 (depth F1) (le_n _)) as (ds' & g & E & L). rewrite <- L.
    exact (sub_level fn G (Z.to_nat mn) mx F0 F1 Hmin U H1 ds' g E). }
  split; [|split; [lia|split]].
  - (* a leaf above min_level would have children in F *)
    destruct (Z.le_gt_cases mn (Z.of_nat (length ds))) as [|Hlt]; [assumption|exfalso].
    assert (K : forall ds', Forall (fun i => i < 4) ds' -> (Z.of_nat (length ds') <= mn)%Z -> sub F1 ds' <> None).
    { intros ds'. induction ds' as [|i ds' IH] using rev_ind; intros Fd HL; [cbn; discriminate|].
      apply Forall_app in Fd as [Fd Fi]. inversion Fi; subst. rewrite app_length in HL. cbn [length] in HL.
      assert (N : is_node F1 ds') by (apply RI; [apply IH; auto; lia|left; lia]).
      destruct N as (a & b & c & d & N). rewrite (sub_app F1 ds' [i] _ N).
      destruct i as [|[|[|[|i]]]]; [cbn; discriminate..|lia]. }
    assert (Fd : Forall (fun i => i < 4) ds) by exact (sub_digits _ _ _ Es).
    assert (X : sub F (ds ++ [0]) <> None).
    { apply SQ, R1, K; [apply Forall_app; split; [exact Fd|repeat constructor]|]. rewrite app_length. cbn [length]. lia. }
    rewrite (sub_app F ds [0] _ Es) in X. cbn in X. congruence.
  - intros H0 Hmm. pose proof (refined_depth fn G (Z.to_nat mn) mx F0 F1 Hmin U H1). lia.
  - intros Hl1 Hlt Hq Hc. apply leaf_sub in Hl1 as (o1 & E1).
    assert (N : is_node F1 ds) by (apply RI; [congruence|right; auto]).
    destruct N as (a & b & c & d & N). congruence.
Qed.

(** Predicate "x + y < 1/2" on the unit square with 2 x 2 cells, from level 1 to
    level 2: the lower left quadrant is refined, the others are not; the result meets
    the contract of balancing. *)
Definition near_origin (x y : Qc) : bool := if Qlt_le_dec (this (x + y)%Qc) (1 # 2) then true else false.
Definition ex_square : grid := Grid 2 2 0%Qc 1%Qc 0%Qc 1%Qc.
Definition ex_level1 : forest := FNode (FLeaf 0) (FLeaf 0) (FLeaf 0) (FLeaf 0).
Definition ex_corner : forest := FNode (FNode (FLeaf 0) (FLeaf 0) (FLeaf 0) (FLeaf 0)) (FLeaf 0) (FLeaf 0) (FLeaf 0).
Lemma refinement_example_expf :
  Z.to_nat 1 <= qmaxlevel /\ uniform (Z.to_nat 1) ex_level1 /\
  refine_forest (refine_callback near_origin 2 ex_square) root_quadrant ex_level1 ex_corner /\
  refines ex_corner ex_corner /\ same_quadrants ex_corner ex_corner.
Proof.
  split; [vm_compute; lia|]. split; [vm_compute; auto|]. split.
  - cbn [refine_forest ex_level1 ex_corner]. repeat split.
    + apply refine_go; [vm_compute; reflexivity|..]; apply refine_stop; vm_compute; reflexivity.
    + apply refine_stop; vm_compute; reflexivity.
    + apply refine_stop; vm_compute; reflexivity.
    + apply refine_stop; vm_compute; reflexivity.
  - split; [split; auto|]. intros ds. reflexivity.
Qed.

(** ** Grids *)
Lemma grid_eq G G' : gnx G = gnx G' -> gny G = gny G' -> gxl G = gxl G' -> gxu G = gxu G' ->
  gyl G = gyl G' -> gyu G = gyu G' -> G = G'.
Proof. destruct G, G'; cbn; intros; subst; reflexivity. Qed.

Lemma grid_at_quadrant G ds : Forall (fun i => i < 4) ds -> grid_at G ds = quadrant_grid G ds.
Proof.
  unfold grid_at. revert G; induction ds as [|i ds IH]; intros G Fd; cbn [fold_left].
  - apply grid_eq; unfold quadrant_grid; cbn [gnx gny gxl gxu gyl gyu left_of side_of bottom_of]; try reflexivity; ring.
  - inversion Fd as [|? ? Hi Fd']; subst. rewrite IH by auto. pose proof two_nz.
    destruct i as [|[|[|[|i]]]]; [..|lia]; apply grid_eq; unfold quadrant_grid, bit_x, bit_y;
      cbn [child_grid gnx gny gxl gxu gyl gyu left_of side_of bottom_of];
      try reflexivity; cbn [Nat.odd Nat.even negb Nat.div Nat.divmod fst bit_x bit_y]; unfold bit_x, bit_y;
      change (Nat.odd 0) with false; change (Nat.odd 1) with true; change (Nat.odd 2) with false; change (Nat.odd 3) with true;
      change (Nat.odd (0 / 2)) with false; change (Nat.odd (1 / 2)) with false; change (Nat.odd (2 / 2)) with true; change (Nat.odd (3 / 2)) with true;
      cbv iota; rewrite two; field; auto.
Qed.

(** ** The mesh of the quadtree the constructor builds *)
Lemma owned_in rank F ds : In ds (owned_leaves rank F) -> sub F ds = Some (FLeaf rank).
Proof.
  unfold owned_leaves. intros H. apply filter_In in H as [_ H]. destruct (sub F ds) as [[o|]|]; try discriminate.
  apply Nat.eqb_eq in H. subst. reflexivity.
Qed.

Lemma constructed rank root F : contiguous F -> depth F <= qmaxlevel ->
  exists m ps, construct fv_factory rank root F = Ok m /\ node_map rank F m /\ leaf_patches rank F m ps /\
  all_cells ps = owned_cells rank F (pgrid root).
Proof.
  intros C HL. destruct (construct_ok fv_factory rank root F C HL) as (m & E & X & _).
  destruct (construct_node_map fv_factory rank root F fv_factory_ok C HL) as (m' & E' & NM).
  rewrite E in E'. injection E' as <-.
  set (ps := map (fun ds => n_data (chain fv_factory rank (root_node fv_factory rank root F) F ds)) (owned_leaves rank F)).
  exists m, ps. split; [exact E|]. split; [exact NM|].
  assert (O : forall ds, In ds (owned_leaves rank F) -> sub F ds = Some (FLeaf rank)) by apply owned_in.
  unfold ps, leaf_patches, all_cells, owned_cells. clear ps NM E. split.
  - induction (owned_leaves rank F) as [|ds l IH]; cbn [map]; constructor.
    + rewrite X. unfold expected. rewrite (O ds (or_introl eq_refl)).
      change (pfirst (FLeaf rank)) with rank. change (plast (FLeaf rank)) with rank.
      rewrite (proj2 (own_range rank rank) eq_refl). eauto.
    + apply IH. intros ds' H. apply O. right. exact H.
  - induction (owned_leaves rank F) as [|ds l IH]; cbn [map flat_map]; [reflexivity|].
    rewrite IH by (intros ds' H; apply O; right; exact H). f_equal. f_equal.
    rewrite (chain_grid' _ _ _ _ _ (O ds (or_introl eq_refl))).
    apply grid_at_quadrant. exact (sub_digits _ _ _ (O ds (or_introl eq_refl))).
Qed.

Definition exported (M : mesh) (cs : list cell) : mesh := snd (ext cs (0, M)).

Lemma export_run {R} rank root F M : contiguous F -> depth F <= qmaxlevel ->
  exists m m', construct fv_factory rank root F = Ok m /\ (forall p, m' p = m p) /\
  forall k : _ -> cmd patch R, setMeshFromQuadtree rank F M m k = k (exported M (owned_cells rank F (pgrid root)), m').
Proof.
  intros C HL. destruct (constructed rank root F C HL) as (m & ps & E & NM & LP & EC).
  destruct (set_mesh (R:=R) rank F C HL M m ps NM LP) as (m' & Hm & H). exists m, m'. rewrite <- EC. auto.
Qed.

Lemma nth_flat4 {A B} (g : A -> list B) n l k a : (forall x, length (g x) = n) -> nth_error l k = Some a ->
  forall i, i < n -> nth_error (flat_map g l) (n * k + i) = nth_error (g a) i.
Proof.
  intros L. revert k; induction l as [|x l IH]; intros [|k] E i Hi; try discriminate; cbn [flat_map].
  - injection E as <-. rewrite nth_error_app1 by (rewrite L; lia). f_equal. lia.
  - rewrite nth_error_app2 by (rewrite L; lia). rewrite L. cbn [nth_error] in E.
    replace (n * S k + i - n) with (n * k + i) by lia. apply IH; auto.
Qed.

Lemma nth_seq s n k : k < n -> nth_error (seq s n) k = Some (s + k).
Proof. intros H. rewrite (nth_error_nth' _ 0) by (rewrite seq_length; exact H). rewrite seq_nth by exact H. reflexivity. Qed.

Lemma fresh_describes cs : points_describe cs (exported empty_mesh cs).
Proof.
  unfold exported, ext, empty_mesh, points_describe. cbn [fst snd ncells npoints mpoints connectivity Nat.add app].
  split; [reflexivity|]. split; [reflexivity|].
  split.
  { clear. induction cs as [|c cs IH]; [reflexivity|]. cbn [flat_map]. rewrite app_length, IH. cbn [length coords]. lia. }
  split; [apply seq_length|].
  intros k c l E Hl. assert (Hk : k < length cs) by (apply nth_error_Some; congruence).
  exists (4 * k + l). split; [rewrite nth_seq by lia; reflexivity|].
  assert (N : forall i, i < 12 -> nth_error (flat_map coords cs) (12 * k + i) = nth_error (coords c) i)
    by (apply nth_flat4; auto).
  replace (3 * (4 * k + l)) with (12 * k + 3 * l) by lia.
  rewrite <- !Nat.add_assoc. rewrite !N by lia.
  destruct l as [|[|[|[|l]]]]; [..|lia]; cbn; auto.
Qed.

(** The cells of a proper rectangle are proper. *)
Lemma pos_ccw c : (cx0 c < cx1 c)%Qc -> (cy0 c < cy1 c)%Qc -> counter_clockwise (corner c).
Proof.
  intros Hx Hy.
  assert (P : (0 < (cx1 c - cx0 c) * (cy1 c - cy0 c))%Qc).
  { unfold Qclt in *. rewrite this_mult, !this_minus. change (this 0%Qc) with 0%Q.
    apply Qmult_lt_0_compat; lra. }
  unfold counter_clockwise, left_turn, corner; cbn [fst snd]. repeat split;
    match goal with |- (0 < ?e)%Qc => replace e with ((cx1 c - cx0 c) * (cy1 c - cy0 c))%Qc by ring end; exact P.
Qed.

Lemma nat_pos n : n <> 0 -> (0 < this (Qc_of_nat n))%Q.
Proof.
  intros Hn. unfold Qc_of_nat, Qc_of_Z, Q2Qc. cbn [this]. rewrite Qred_correct. unfold Qlt. cbn. lia.
Qed.

Lemma step_lt (a b : Qc) n i : n <> 0 -> (a < b)%Qc ->
  (a + Qc_of_nat i * ((b - a) / Qc_of_nat n) < a + Qc_of_nat (S i) * ((b - a) / Qc_of_nat n))%Qc.
Proof.
  intros Hn H. rewrite Qc_of_nat_S. set (h := ((b - a) / Qc_of_nat n)%Qc).
  assert (Eh : (h * Qc_of_nat n = b - a)%Qc) by (unfold h; field; apply Qc_of_nat_nz; exact Hn).
  assert (Hh : (0 < this h)%Q).
  { apply (f_equal this) in Eh. assert (Eh' : (this h * this (Qc_of_nat n) == this b - this a)%Q)
      by (rewrite <- this_mult, <- this_minus, Eh; reflexivity).
    pose proof (nat_pos n Hn). unfold Qclt in H. destruct (Qlt_le_dec 0 (this h)) as [|Hle]; [assumption|].
    exfalso. assert (this h * this (Qc_of_nat n) <= 0)%Q by nra. lra. }
  unfold Qclt. rewrite !this_plus, !this_mult, this_plus. change (this 1%Qc) with 1%Q.
  set (x := this (Qc_of_nat i)). set (y := this h) in *. nra.
Qed.

Lemma owned_cells_proper rank F G c : proper_rect G -> In c (owned_cells rank F G) -> counter_clockwise (corner c).
Proof.
  intros P H. unfold owned_cells in H. apply in_flat_map in H as (ds & Hd & H).
  apply owned_in, sub_digits in Hd. unfold cells_of in H. apply in_flat_map in H as (i & Hi & H).
  apply in_map_iff in H as (j & <- & Hj). apply in_seq in Hi, Hj.
  rewrite <- grid_at_quadrant in * by exact Hd. destruct (grid_at_proper G ds Hd P) as [Px Py].
  apply pos_ccw; unfold cell_of; cbn [cx0 cx1 cy0 cy1]; apply step_lt; auto; lia.
Qed.

Lemma owned_cells_length rank F G : length (owned_cells rank F G) = length (owned_leaves rank F) * (gnx G * gny G).
Proof.
  unfold owned_cells. induction (owned_leaves rank F) as [|ds l IH]; [reflexivity|]. cbn [flat_map length].
  rewrite app_length, IH, cells_length. reflexivity.
Qed.

(** ** Exported arrays *)

(** [C42] Partial: after the first refinement, on every rank and every tree, the mesh has
    one quadrilateral per cell of the leaves of the rank, in Morton order and column by
    column within a leaf: number of cells and points, coordinates and connectivity are
    right, corners are counter-clockwise.  offsets and types have four entries per cell;
    only the first ncells entries are what the format asks for.  Missing: one offset
    and one type per cell. *)
Lemma exported_arrays_partial_pf : forall rank root F, contiguous F -> depth F <= qmaxlevel ->
  exists m M m', construct fv_factory rank root F = Ok m /\
  setMeshFromQuadtree rank F empty_mesh m finish = Fin (Ok (M, m')) /\ (forall p, m' p = m p) /\
  let cells := owned_cells rank F (pgrid root) in
  length cells = length (owned_leaves rank F) * (gnx (pgrid root) * gny (pgrid root)) /\
  points_describe cells M /\
  (proper_rect (pgrid root) -> forall c, In c cells -> counter_clockwise (corner c)) /\
  firstn (length cells) (offsets M) = map (fun k => 4 * S k) (seq 0 (length cells)) /\
  firstn (length cells) (mtypes M) = repeat 9 (length cells) /\
  length (offsets M) = 4 * length cells /\ length (mtypes M) = 4 * length cells.
Proof.
  intros rank root F C HL. destruct (export_run (R:=mesh * nmap patch) rank root F empty_mesh C HL) as (m & m' & E & Hm & H).
  exists m, (exported empty_mesh (owned_cells rank F (pgrid root))), m'. split; [exact E|].
  split; [rewrite H; reflexivity|]. split; [exact Hm|]. cbv zeta. set (cs := owned_cells rank F (pgrid root)).
  split; [apply owned_cells_length|]. split; [apply fresh_describes|].
  split; [intros P c Hc; exact (owned_cells_proper rank F _ c P Hc)|].
  unfold exported, ext, empty_mesh. cbn [fst snd offsets mtypes app].
  replace (4 * length cs) with (length cs + 3 * length cs) by lia.
  rewrite !map_length, seq_length, !repeat_length, seq_app, map_app, repeat_app.
  rewrite !firstn_app, !map_length, !seq_length, !repeat_length, Nat.sub_diag. cbn [firstn].
  rewrite !app_nil_r. rewrite !firstn_all2 by (rewrite ?map_length, ?seq_length, ?repeat_length; lia). auto.
Qed.

(** [C42] For every tree, on every rank that has a cell, the offsets and the types are
    not the ones of the format. *)
Lemma exported_offsets_wrong_pf : forall rank root F m M m', contiguous F -> depth F <= qmaxlevel ->
  owned_leaves rank F <> [] -> gnx (pgrid root) <> 0 -> gny (pgrid root) <> 0 ->
  construct fv_factory rank root F = Ok m ->
  setMeshFromQuadtree rank F empty_mesh m finish = Fin (Ok (M, m')) ->
  length (offsets M) <> ncells M /\ length (mtypes M) <> ncells M /\
  ~ describes (owned_cells rank F (pgrid root)) M.
Proof.
  intros rank root F m M m' C HL Ho Hx Hy E ES.
  destruct (export_run (R:=mesh * nmap patch) rank root F empty_mesh C HL) as (m1 & m1' & E1 & Hm & H).
  rewrite E in E1. injection E1 as <-. rewrite H in ES. injection ES as <- <-.
  pose proof (owned_cells_length rank F (pgrid root)) as L.
  assert (N : length (owned_cells rank F (pgrid root)) <> 0).
  { rewrite L. destruct (owned_leaves rank F); [congruence|]. cbn [length]. nia. }
  unfold describes, offsets_describe, exported, ext, empty_mesh. cbn [fst snd offsets mtypes ncells app].
  rewrite map_length, seq_length, repeat_length. split; [lia|]. split; [lia|].
  intros (_ & X & _). apply (f_equal (@length nat)) in X. rewrite !map_length, !seq_length in X. lia.
Qed.

(** [C42] Refuted: one leaf with one cell gives four offsets and four types. *)
Lemma exported_arrays_describe_cells_refuted_pf : exists rank root F m M m',
  contiguous F /\ depth F <= qmaxlevel /\ proper_rect (pgrid root) /\
  construct fv_factory rank root F = Ok m /\
  setMeshFromQuadtree rank F empty_mesh m finish = Fin (Ok (M, m')) /\
  ncells M = 1 /\ offsets M = [4; 8; 12; 16] /\ mtypes M = [9; 9; 9; 9] /\
  ~ describes (owned_cells rank F (pgrid root)) M.
Proof.
  set (root := new_patch (Grid 1 1 0%Qc 1%Qc 0%Qc 1%Qc)). set (F := FLeaf 0).
  assert (C : contiguous F) by repeat constructor. assert (HL : depth F <= qmaxlevel) by (vm_compute; lia).
  destruct (export_run (R:=mesh * nmap patch) 0 root F empty_mesh C HL) as (m & m' & E & Hm & H).
  exists 0, root, F, m, (exported empty_mesh (owned_cells 0 F (pgrid root))), m'.
  split; [exact C|]. split; [exact HL|]. split; [split; reflexivity|]. split; [exact E|].
  split; [rewrite H; reflexivity|]. split; [reflexivity|]. split; [reflexivity|]. split; [reflexivity|].
  refine (proj2 (proj2 (exported_offsets_wrong_pf 0 root F m _ m' C HL _ _ _ E (H _)))); discriminate.
Qed.

(** Three ranks, seven leaves of 4 x 4 cells: rank 1 has three leaves, 48 cells. *)
Lemma exported_arrays_example_expf :
  contiguous ex_forest /\ depth ex_forest <= qmaxlevel /\ proper_rect (pgrid ex_root) /\
  length (owned_cells 1 ex_forest (pgrid ex_root)) = 48 /\
  match construct fv_factory 1 ex_root ex_forest with
  | Ok m => match setMeshFromQuadtree 1 ex_forest empty_mesh m finish with
            | Fin (Ok (M, _)) => ncells M = 48 /\ map this (firstn 6 (mpoints M)) = [3#4; 0#1; 0#1; 13#16; 0#1; 0#1]%Q
            | _ => False
            end
  | _ => False
  end.
Proof.
  split; [exact ex_contiguous|]. split; [exact ex_depth|]. split; [split; reflexivity|].
  split; [vm_compute; reflexivity|]. vm_compute. auto.
Qed.

(** ** Refining again *)

(** [C43] Partial: whatever the mesh held before, the arrays are the old entries followed
    by the new ones with indices from 0, and the numbers of cells and points are added up.
    The points and cells describe the new mesh alone exactly if there was no cell
    before on this rank.  Missing: the old entries are not removed. *)
Lemma refine_again_partial_pf : forall rank root F m M m' root2 F2,
  contiguous F -> depth F <= qmaxlevel -> contiguous F2 -> depth F2 <= qmaxlevel ->
  construct fv_factory rank root F = Ok m ->
  setMeshFromQuadtree rank F empty_mesh m finish = Fin (Ok (M, m')) ->
  exists m2 M2 N2 m2' m2'', construct fv_factory rank root2 F2 = Ok m2 /\
  setMeshFromQuadtree rank F2 M m2 finish = Fin (Ok (M2, m2')) /\
  setMeshFromQuadtree rank F2 empty_mesh m2 finish = Fin (Ok (N2, m2'')) /\
  points_describe (owned_cells rank F2 (pgrid root2)) N2 /\
  npoints M2 = npoints M + npoints N2 /\ ncells M2 = ncells M + ncells N2 /\
  mpoints M2 = mpoints M ++ mpoints N2 /\ connectivity M2 = connectivity M ++ connectivity N2 /\
  offsets M2 = offsets M ++ offsets N2 /\ mtypes M2 = mtypes M ++ mtypes N2 /\
  (points_describe (owned_cells rank F2 (pgrid root2)) M2 <-> owned_cells rank F (pgrid root) = []).
Proof.
  intros rank root F m M m' root2 F2 C HL C2 HL2 E ES.
  destruct (export_run (R:=mesh * nmap patch) rank root F empty_mesh C HL) as (m1 & m1' & E1 & Hm & H).
  rewrite E in E1. injection E1 as <-. rewrite H in ES. injection ES as <- <-. clear H.
  set (cs := owned_cells rank F (pgrid root)). set (M := exported empty_mesh cs).
  destruct (export_run (R:=mesh * nmap patch) rank root2 F2 M C2 HL2) as (m2 & m2' & E2 & Hm2 & H2).
  destruct (export_run (R:=mesh * nmap patch) rank root2 F2 empty_mesh C2 HL2) as (m3 & m3' & E3 & Hm3 & H3).
  rewrite E2 in E3. injection E3 as <-. set (cs2 := owned_cells rank F2 (pgrid root2)) in *.
  exists m2, (exported M cs2), (exported empty_mesh cs2), m2', m3'.
  split; [exact E2|]. split; [rewrite H2; reflexivity|]. split; [rewrite H3; reflexivity|].
  split; [apply fresh_describes|]. repeat (split; [reflexivity|]). split.
  - intros (X & _). unfold exported, ext in X. cbn [ncells snd] in X. unfold M, exported, ext in X. cbn [ncells snd empty_mesh] in X.
    apply length_zero_iff_nil. lia.
  - intros X. unfold M. rewrite X. unfold exported at 2. rewrite ext_nil. apply fresh_describes.
Qed.

(** [C43] Refuted: refining the same one-cell mesh twice gives two cells. *)
Lemma refine_again_replaces_refuted_pf : exists rank root F m M m1 M2 m2,
  contiguous F /\ depth F <= qmaxlevel /\ construct fv_factory rank root F = Ok m /\
  setMeshFromQuadtree rank F empty_mesh m finish = Fin (Ok (M, m1)) /\
  setMeshFromQuadtree rank F M m finish = Fin (Ok (M2, m2)) /\
  length (owned_cells rank F (pgrid root)) = 1 /\ ncells M2 = 2 /\ connectivity M2 = [0; 1; 2; 3; 0; 1; 2; 3] /\
  ~ points_describe (owned_cells rank F (pgrid root)) M2.
Proof.
  set (root := new_patch (Grid 1 1 0%Qc 1%Qc 0%Qc 1%Qc)). set (F := FLeaf 0).
  assert (C : contiguous F) by repeat constructor. assert (HL : depth F <= qmaxlevel) by (vm_compute; lia).
  destruct (export_run (R:=mesh * nmap patch) 0 root F empty_mesh C HL) as (m & m' & E & Hm & H).
  destruct (export_run (R:=mesh * nmap patch) 0 root F (exported empty_mesh (owned_cells 0 F (pgrid root))) C HL) as (m2 & m2' & E2 & Hm2 & H2).
  rewrite E in E2. injection E2 as <-.
  exists 0, root, F, m. do 2 eexists. do 2 eexists.
  split; [exact C|]. split; [exact HL|]. split; [exact E|]. split; [rewrite H; reflexivity|].
  split; [rewrite H2; reflexivity|]. split; [reflexivity|]. split; [reflexivity|]. split; [reflexivity|].
  intros (X & _). vm_compute in X. discriminate.
Qed.

(** ** Functions on the mesh *)
Lemma leaf_of_cell (G : list nat -> grid) n : forall l cs k c, (forall ds, In ds l -> length (cells_of (G ds)) = n) ->
  cs = flat_map (fun ds => cells_of (G ds)) l -> nth_error cs k = Some c ->
  exists ds q r, k = n * q + r /\ r < n /\ nth_error l q = Some ds /\ nth_error (cells_of (G ds)) r = Some c.
Proof.
  induction l as [|ds l IH]; intros cs k c L -> E; cbn [flat_map] in E; [destruct k; discriminate|].
  pose proof (L ds (or_introl eq_refl)) as Ld.
  destruct (Nat.lt_ge_cases k n) as [Hk|Hk].
  - rewrite nth_error_app1 in E by lia. exists ds, 0, k. split; [lia|]. auto.
  - rewrite nth_error_app2 in E by lia. rewrite Ld in E.
    destruct (IH _ (k - n) c (fun d H => L d (or_intror H)) eq_refl E) as (ds' & q & r & H1 & H2 & H3 & H4).
    exists ds', (S q), r. split; [lia|]. auto.
Qed.

Lemma cell_index G r c : nth_error (cells_of G) r = Some c ->
  exists i j, i < gnx G /\ j < gny G /\ r = j + i * gny G /\ c = cell_of G i j.
Proof.
  unfold cells_of. assert (K : forall n s, nth_error (flat_map (fun i => map (cell_of G i) (seq 0 (gny G))) (seq s n)) r = Some c ->
    exists i j, i < n /\ j < gny G /\ r = j + i * gny G /\ c = cell_of G (s + i) j).
  { intros n. revert r. induction n as [|n IH]; intros r s E; cbn [seq flat_map] in E; [destruct r; discriminate|].
    destruct (Nat.lt_ge_cases r (gny G)) as [Hr|Hr].
    - rewrite nth_error_app1 in E by (rewrite map_length, seq_length; exact Hr).
      exists 0, r. rewrite nth_error_map, nth_seq in E by exact Hr. cbn [option_map] in E. injection E as <-.
      split; [lia|]. split; [exact Hr|]. split; [lia|]. rewrite Nat.add_0_r. reflexivity.
    - rewrite nth_error_app2 in E by (rewrite map_length, seq_length; exact Hr). rewrite map_length, seq_length in E.
      destruct (IH (r - gny G) (S s) E) as (i & j & H1 & H2 & H3 & ->). exists (S i), j.
      split; [lia|]. split; [exact H2|]. split; [cbn; lia|]. f_equal. lia. }
  intros E. exact (K (gnx G) 0 E).
Qed.

(** [C44] On every rank and tree the k-th value of a mesh function is the function at the
    centre of the k-th cell of the exported mesh.  After any computation that keeps the
    grids of the leaves and leaves one value per cell in the solutions (map m2), the
    k-th entry of the gathered solution is the entry j + i*ny of the solution of the
    leaf whose cell (i,j) is the k-th exported cell. *)
Lemma mesh_functions_line_up_pf : forall rank root F, contiguous F -> depth F <= qmaxlevel ->
  exists m M m1, construct fv_factory rank root F = Ok m /\
  setMeshFromQuadtree rank F empty_mesh m finish = Fin (Ok (M, m1)) /\
  let G := pgrid root in
  let cells := owned_cells rank F G in
  points_describe cells M /\
  (forall f, exists v m2, addMeshFunction rank f F m1 finish = Fin (Ok (v, m2)) /\ length v = ncells M /\
    forall k c, nth_error cells k = Some c ->
    nth_error v k = Some (f (fst (cell_centre c)) (snd (cell_centre c)))) /\
  (forall m2, node_map rank F m2 ->
    (forall ds n, In ds (owned_leaves rank F) -> m2 (0 :: ds) = Some n ->
       pgrid (n_data n) = quadrant_grid G ds /\ length (pu (n_data n)) = gnx G * gny G) ->
    exists u m3, gatherSolution rank F m2 finish = Fin (Ok (u, m3)) /\ length u = ncells M /\
    forall k c, nth_error cells k = Some c ->
    exists ds n i j, sub F ds = Some (FLeaf rank) /\ m2 (0 :: ds) = Some n /\ i < gnx G /\ j < gny G /\
      c = cell_of (quadrant_grid G ds) i j /\ nth_error u k = nth_error (pu (n_data n)) (j + i * gny G)).
Proof.
  intros rank root F C HL.
  destruct (constructed rank root F C HL) as (m & ps & E & NM & LP & EC).
  destruct (set_mesh (R:=mesh * nmap patch) rank F C HL empty_mesh m ps NM LP) as (m1 & Hm & H).
  exists m, (exported empty_mesh (owned_cells rank F (pgrid root))), m1.
  split; [exact E|]. split; [rewrite H, EC; reflexivity|]. cbv zeta. set (G := pgrid root) in *.
  split; [apply fresh_describes|]. split.
  - intros f. destruct (mesh_function (R:=list Qc * nmap patch) rank F C HL f m1 ps) as (m2 & Hm2 & H2).
    { exact (node_map_eq rank F m m1 Hm NM). } { exact (leaf_patches_eq rank F m m1 ps Hm LP). }
    eexists. exists m2. split; [rewrite H2; reflexivity|]. rewrite EC. split; [apply map_length|].
    intros k c Ek. rewrite nth_error_map, Ek. reflexivity.
  - intros m2 NM2 HG.
    assert (X : exists ps2, leaf_patches rank F m2 ps2 /\ Forall2 (fun ds p => pgrid p = quadrant_grid G ds /\
        length (pu p) = gnx G * gny G) (owned_leaves rank F) ps2).
    { unfold leaf_patches. assert (O := owned_in rank F). revert O HG.
      induction (owned_leaves rank F) as [|ds l IH]; intros O HG; [exists []; split; constructor|].
      destruct IH as (ps2 & A & B); [intros; apply O; right; auto|intros; apply HG; auto; right; auto|].
      pose proof (NM2 ds _ (O ds (or_introl eq_refl))) as N.
      change (pfirst (FLeaf rank)) with rank in N. change (plast (FLeaf rank)) with rank in N.
      rewrite (proj2 (own_range rank rank) eq_refl) in N. destruct N as (n & Hn & _).
      exists (n_data n :: ps2). split; constructor; eauto. apply (HG ds n); auto. left. reflexivity. }
    destruct X as (ps2 & LP2 & FG).
    destruct (gather_solution (R:=list Qc * nmap patch) rank F C HL m2 ps2 NM2 LP2) as (m3 & Hm3 & H3).
    exists (flat_map pu ps2), m3. split; [rewrite H3; reflexivity|].
    assert (Lu : forall p, In p ps2 -> length (pu p) = gnx G * gny G).
    { clear - FG. induction FG as [|ds p l ps2 [_ Hp] FG IH]; intros q Hq; [destruct Hq|]. destruct Hq as [<-|Hq]; auto. }
    assert (Lp : length ps2 = length (owned_leaves rank F)) by (clear - FG; induction FG; cbn; congruence).
    split.
    { change (ncells (exported empty_mesh (owned_cells rank F G))) with (length (owned_cells rank F G)).
      rewrite owned_cells_length, <- Lp. clear - Lu. induction ps2 as [|p l IH]; [reflexivity|].
      cbn [flat_map length]. rewrite app_length, IH by (intros; apply Lu; right; auto). rewrite Lu by (left; reflexivity). reflexivity. }
    intros k c Ek.
    destruct (leaf_of_cell (quadrant_grid G) (gnx G * gny G) (owned_leaves rank F) (owned_cells rank F G) k c) as (ds & q & r & Hk & Hr & Hq & Hc); auto.
    { intros ds _. rewrite cells_length. reflexivity. }
    destruct (cell_index _ _ _ Hc) as (i & j & Hi & Hj & Er & Ec). cbn [quadrant_grid gnx gny] in Hi, Hj, Er.
    assert (Hp : exists p n, nth_error ps2 q = Some p /\ m2 (0 :: ds) = Some n /\ n_data n = p).
    { clear - LP2 Hq. unfold leaf_patches in LP2. revert q Hq. induction LP2 as [|d p l ps (n & Hn & Hp) H IH]; intros q Hq; [destruct q; discriminate|].
      destruct q as [|q]; cbn [nth_error] in *; [injection Hq as <-; eauto|]. apply IH. exact Hq. }
    destruct Hp as (p & n & Hp & Hn & En).
    exists ds, n, i, j. split; [apply (owned_in rank F); apply (nth_error_In _ q); exact Hq|]. split; [exact Hn|].
    split; [exact Hi|]. split; [exact Hj|]. split; [exact Ec|].
    rewrite Hk, En, <- Er. clear - Hp Lu Hr. revert q Hp. induction ps2 as [|p0 l IH]; intros q Hp; [destruct q; discriminate|].
    pose proof (Lu p0 (or_introl eq_refl)) as L0. cbn [flat_map].
    destruct q as [|q]; cbn [nth_error] in Hp.
    + injection Hp as <-. rewrite nth_error_app1 by lia. f_equal. lia.
    + rewrite nth_error_app2 by lia. rewrite L0. replace (gnx G * gny G * S q + r - gnx G * gny G) with (gnx G * gny G * q + r) by lia.
      apply IH; auto. intros p' H'. apply Lu. right. exact H'.
Qed.

(** A function with different values in all cells, on rank 1 of the example. *)
Lemma mesh_functions_example_expf :
  match construct fv_factory 1 ex_root ex_forest with
  | Ok m => match addMeshFunction 1 (fun x y => (x + Qc_of_nat 100 * y)%Qc) ex_forest m finish with
            | Fin (Ok (v, m')) => length v = 48 /\ map this (firstn 2 v) = [125 # 32; 325 # 32]%Q
            | _ => False
            end
  | _ => False
  end.
Proof. vm_compute. auto. Qed.

(** A solution with different values in all cells: 100 i + j in cell (i,j) of every leaf. *)
Definition filled_map (m : nmap patch) : nmap patch := fun p =>
  match m p with
  | Some n => Some (set_ndata n (set_u (n_data n) (map (fun k => Qc_of_nat (100 * (k / 4) + k mod 4)) (seq 0 16))))
  | None => None
  end.
Lemma gathered_solution_example_expf :
  match construct fv_factory 1 ex_root ex_forest with
  | Ok m => node_map 1 ex_forest (filled_map m) /\
      (forall ds n, In ds (owned_leaves 1 ex_forest) -> filled_map m (0 :: ds) = Some n ->
         length (pu (n_data n)) = gnx (pgrid ex_root) * gny (pgrid ex_root)) /\
      match gatherSolution 1 ex_forest (filled_map m) finish with
      | Fin (Ok (u, m')) => length u = 48 /\ map this (firstn 3 (skipn 21 u)) = [101; 102; 103]%Q
      | _ => False
      end
  | _ => False
  end.
Proof.
  destruct (construct_node_map fv_factory 1 ex_root ex_forest fv_factory_ok ex_contiguous ex_depth) as (m & E & NM).
  assert (X : match construct fv_factory 1 ex_root ex_forest with
    | Ok m => match gatherSolution 1 ex_forest (filled_map m) finish with
      | Fin (Ok (u, m')) => length u = 48 /\ map this (firstn 3 (skipn 21 u)) = [101; 102; 103]%Q
      | _ => False
      end
    | _ => False end) by (vm_compute; auto).
  rewrite E in *. split; [|split; [|exact X]].
  - intros ds f' Es. specialize (NM ds f' Es). unfold filled_map.
    destruct (in_range 1 (pfirst f') (plast f')); [|rewrite NM; reflexivity].
    destruct NM as (n & -> & N). eexists. split; [reflexivity|]. exact N.
  - intros ds n _ H. unfold filled_map in H. destruct (m (0 :: ds)); [|discriminate]. injection H as <-. reflexivity.
Qed.
