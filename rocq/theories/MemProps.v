(** How much memory the solver needs. *)
From Verif Require Import Base VectorModel MatrixModel LinSpec HPSModel HPSSpec FVModel FVSpec GlobalSpec StageSpec MemModel MemSpec.
From Verif Require Import MatProofs MatProofs2 LinProofs Gauss LinProps HPSProofs HPSProofs3 HPSProofs4 HPSTree HPSTree2 HPSProps.
From Verif Require Import FVProofs FVProofs2 FVProofs3 FVMax FVJoin FVGlobal FVFish FVEnd FVProps MemProofs.
From Coq Require Import Lia.

(** [C77] On any quadtree, with any leaf solver that handles its leaves, the total
    reported after a build and one or more solves, each with its own load and
    boundary data, is 17 bytes per patch and 8 bytes per number of [stored]. *)
Lemma memory_exact_pf : forall m sv gesv load s t st l,
  m <> 0 -> gesv_contract gesv -> cell_values m sv s -> fresh load s t -> blank_tree t ->
  good_leaves m sv s -> well_posed m sv s -> 3 <= m \/ equal_levels s ->
  (forall x, In x l -> load_fits m (fst x) s /\ length (snd x) = 4 * (m * 2 ^ level s)) -> l <> [] ->
  exists st1 t1 t', buildStage sv gesv false st t = Ok (st1, t1) /\ solve_again sv gesv l t1 = Ok t' /\
    size_MB 0 t' = (Qc_of_nat (17 * patch_count s + 8 * stored m 0 s) / Q2Qc (1048576 # 1))%Qc.
Proof.
  intros m sv gesv load s t st l Hm Hge CV HF BT Hg HW H3 HL N.
  destruct (memory_ok m sv gesv load s t st l Hm Hge CV HF BT Hg HW H3 HL) as (st1 & t1 & t' & E1 & E2 & M).
  exists st1, t1, t'. auto.
Qed.

(** [C77] N log N: with [N] cells in leaves of m x m cells and [h] levels of refinement
    these are at most (36 + 10/m) N h + (18 + 8/m) N numbers, and fewer than 4/3 patches
    per leaf. *)
Lemma memory_bound_pf : forall m k s,
  m <> 0 ->
  let N := m * m * leaf_count s in
  m * stored m k s <= (36 * m + 10) * N * tree_height s + (18 * m + 8) * N /\
  3 * patch_count s < 4 * leaf_count s.
Proof.
  intros m k s Hm N. split; [|pose proof (patch_count_ok s); lia].
  pose proof (stored_bound m k s) as B. unfold N.
  apply (Nat.mul_le_mono_l _ _ m) in B.
  replace ((36 * m + 10) * (m * m * leaf_count s) * tree_height s + (18 * m + 8) * (m * m * leaf_count s))
    with (m * ((36 * (m * m) + 10 * m) * tree_height s * leaf_count s + (18 * (m * m) + 8 * m) * leaf_count s)) by ring.
  exact B.
Qed.

Lemma uniform_cells m lu c l : 2 <= m -> lu_contract lu -> right_signs c -> forall G s,
  gnx G = m * 2 ^ l -> gny G = m * 2 ^ l -> oriented G -> uniform m l G s -> cell_values m (fv_solver lu c) s.
Proof.
  intros Hm HL HS. induction l as [|l IH]; intros G [G' f|a b c' d] Ex Ey HP HU; try contradiction.
  - cbn [uniform cell_values Nat.pow] in *. subst G'. rewrite Nat.mul_1_r in *. intros g f' u Lg Lf E.
    apply orp in HP. destruct (fv_solve_ok G m Ex Ey lu c g f' HL HP) as (u' & E' & Lu & _); auto.
    { apply maximum_principle; auto. }
    cbn [fv_solver solver_of sv_solve] in E. rewrite E' in E. apply Ok_inj in E. subst u'. rewrite Lu, Ex, Ey. reflexivity.
  - assert (En : m * 2 ^ S l = 2 * (m * 2 ^ l)) by (cbn [Nat.pow]; lia). rewrite En in Ex, Ey.
    pose proof (pow_nz m ltac:(lia) l) as Nn.
    assert (QP := fun e t => quarter_oriented (m * 2 ^ l) G Nn Ex Ey e t HP).
    destruct HU as (A & B & C & D). cbn [cell_values].
    split4; [eapply (IH (quarter (m * 2 ^ l) G false false) _ eq_refl eq_refl (QP _ _) A)|eapply (IH (quarter (m * 2 ^ l) G true false) _ eq_refl eq_refl (QP _ _) B)
      |eapply (IH (quarter (m * 2 ^ l) G false true) _ eq_refl eq_refl (QP _ _) C)|eapply (IH (quarter (m * 2 ^ l) G true true) _ eq_refl eq_refl (QP _ _) D)].
Qed.

Lemma uniform_patches m l : forall G s, uniform m l G s -> leaf_count s = 4 ^ l.
Proof.
  induction l as [|l IH]; intros G [G' f|a b c' d] HU; try contradiction; [reflexivity|].
  destruct HU as (A & B & C & D). cbn [leaf_count]. apply IH in A, B, C, D. rewrite A, B, C, D, Nat.pow_succ_r'. lia.
Qed.

Lemma uniform_stored m l : forall G s, uniform m l G s ->
  stored m 0 s + 10 * m * 2 ^ l = 36 * (m * m * 4 ^ l) * l + 18 * (m * m * 4 ^ l) + 18 * m * 4 ^ l.
Proof.
  induction l as [|l IH]; intros G [G' f|a b c' d] HU; try contradiction; [cbn [stored Nat.pow]; ring|].
  destruct HU as (A & B & C & D). cbn [stored]. cbv zeta.
  assert (E : min_level a b c' d = l).
  { unfold min_level. rewrite (uniform_level _ _ _ _ A), (uniform_level _ _ _ _ B), (uniform_level _ _ _ _ C), (uniform_level _ _ _ _ D). lia. }
  rewrite E, (uniform_level _ _ _ _ A), (uniform_level _ _ _ _ B), (uniform_level _ _ _ _ C), (uniform_level _ _ _ _ D), Nat.sub_diag, Nat.sub_0_r.
  apply IH in A, B, C, D. rewrite (Nat.pow_succ_r' 2 l), (Nat.pow_succ_r' 4 l), pow4 in *. set (p := 2 ^ l) in *. nia.
Qed.

(** [C77] With the finite volume solver on a uniformly refined rectangle, every depth
    [l], m x m cells in a leaf, N cells in all: the exact number. *)
Lemma memory_uniform_pf : forall m l lu c gesv rhs xl xu yl yu s t st runs,
  2 <= m -> lu_contract lu -> gesv_contract gesv -> right_signs c -> (xl < xu)%Qc -> (yl < yu)%Qc ->
  uniform m l (whole m l xl xu yl yu) s -> fresh (sampled rhs) s t -> blank_tree t ->
  (forall x, In x runs -> load_fits m (fst x) s /\ length (snd x) = 4 * (m * 2 ^ l)) -> runs <> [] ->
  let N := m * m * 4 ^ l in
  exists st1 t1 t',
    buildStage (fv_solver lu c) gesv false st t = Ok (st1, t1) /\
    solve_again (fv_solver lu c) gesv runs t1 = Ok t' /\
    size_MB 0 t' = (Qc_of_nat (17 * ((4 * 4 ^ l - 1) / 3) + 8 * (36 * N * l + 18 * N + 18 * m * 4 ^ l - 10 * m * 2 ^ l)) / Q2Qc (1048576 # 1))%Qc.
Proof.
  intros m l lu c gesv rhs xl xu yl yu s t st runs Hm HL HG HS Hx Hy HU HF BT HR NR N.
  set (G := whole m l xl xu yl yu) in *.
  assert (N0 : m * 2 ^ l <> 0) by (apply pow_nz; lia).
  assert (HP : oriented G) by (split; [exact Hx|split; [exact Hy|split; exact N0]]).
  assert (HSv : forall G, oriented G -> gnx G = m -> gny G = m -> forall g f, length g = 4 * m -> length f = m * m ->
    exists u, fv_solve lu c G g f = Ok u /\ fv_solution c G g f u).
  { intros G' HO Ex Ey g' f' Lg' Lf'. apply orp in HO. apply (fv_solve_ok G' m Ex Ey); auto. apply maximum_principle; auto. }
  assert (HLd : loads (fun f => f) m l (sampled rhs G) s).
  { eapply loads_id; eauto. apply (sampled_loads rhs m l ltac:(lia) G s eq_refl eq_refl HU). intros G' f'. apply (fresh_leaves _ _ _ HF). }
  assert (Good := uniform_good m ltac:(lia) c HS (fv_solve lu c) HSv l G s _ eq_refl eq_refl HP HU HLd
                    ltac:(unfold sampled; rewrite map_length, seq_length; reflexivity)).
  assert (Posed := uniform_posed m ltac:(lia) c HS (fv_solve lu c) HSv l G s eq_refl eq_refl HP HU).
  destruct (memory_exact_pf m (fv_solver lu c) gesv (sampled rhs) s t st runs) as (st1 & t1 & t' & E1 & E2 & M); auto.
  - lia.
  - eapply uniform_cells; eauto; reflexivity.
  - right. eapply uniform_equal; eauto.
  - rewrite (uniform_level _ _ _ _ HU). exact HR.
  - exists st1, t1, t'. split; [exact E1|]. split; [exact E2|]. rewrite M. do 3 f_equal; f_equal.
    + pose proof (patch_count_ok s) as P. rewrite (uniform_patches _ _ _ _ HU) in P.
      replace (4 * 4 ^ l - 1) with (patch_count s * 3) by lia. symmetry. apply Nat.div_mul. discriminate.
    + pose proof (uniform_stored _ _ _ _ HU) as Q. unfold N. lia.
Qed.

(** The hypotheses hold on a quadtree with local refinement, for two solves with
    different loads, and on every uniform one. *)
Lemma memory_example_expf :
  let s := ex_tree 3 in let t := fresh_tree s in
  let l := [(ex_load 3, zeros 24); (fun _ => zeros 9, zeros 24)] in
  cell_values 3 (toy 3) s /\ fresh (ex_load 3) s t /\ blank_tree t /\ good_leaves 3 (toy 3) s /\ well_posed 3 (toy 3) s /\
  (forall x, In x l -> load_fits 3 (fst x) s /\ length (snd x) = 4 * (3 * 2 ^ level s)) /\
  stored 3 0 s = 3570 /\ patch_count s = 9.
Proof.
  cbv zeta. split; [|split; [apply ex_tree_fresh|split; [cbn; unfold blank_patch; cbn; auto 20|split; [apply ex_tree_good|split; [exact ex_tree_wp|split; [|split; reflexivity]]]]]].
  - cbn [ex_tree ex_leaf cell_values toy sv_solve]. repeat split; intros g f u _ _ E; apply Ok_inj in E; subst u; apply vec_of_length.
  - intros x [<-|[<-|[]]]; cbn [fst snd]; (split; [cbn; repeat split|reflexivity]).
Qed.
