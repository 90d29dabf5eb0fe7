(** Symmetry and sign of the Dirichlet-to-Neumann operator. *)
From Coq Require Import Lqa.
From Verif Require Import Base VectorModel MatrixModel LinSpec HPSModel HPSSpec FVModel FVSpec StageSpec GlobalSpec AdaptSpec CompareSpec ConvSpec MixSpec SymSpec.
From Verif Require Import MatProofs MatProofs2 LinProofs Gauss LinProps HPSProofs HPSProofs3 HPSProofs4 HPSStage2 HPSTree HPSTree2 HPSHistory HPSRebuild HPSProps StageProps.
From Verif Require Import FVProofs FVProofs2 FVProofs3 FVMax FVJoin FVGlobal FVFish FVEnd FVProps FVCompare CompareProps ConvProofs ConvProps FVMixed MixProps SymProofs.
From Coq Require Import Lia.

(** [C67] Green's identity on every rectangle: the work of the first flux on the second
    boundary data minus the reverse is the same difference for the loads. *)
Lemma green_identity_pf : forall c G g f u g' f' u', proper G -> (forall x y, c_alpha c x y <> 0%Qc) ->
  fv_solution c G g f u -> fv_solution c G g' f' u' ->
  (boundary_work c G (boundary_flux G g u) g' - boundary_work c G (boundary_flux G g' u') g =
   load_work c G f u' - load_work c G f' u)%Qc.
Proof. intros c G g f u g' f' u' HP Ha. apply green; assumption. Qed.

Lemma load_zero c G n v : load_work c G (zeros n) v = 0%Qc.
Proof.
  unfold load_work. assert (Z : forall k F, (forall i, i < k -> F i = 0%Qc) -> sum k F = 0%Qc).
  { intros k F H. induction k as [|k IH]; cbn [sum]; auto. rewrite IH by (intros; apply H; lia). rewrite H by lia. ring. }
  apply Z. intros i _. apply Z. intros j _. unfold cell at 1. rewrite vval_zeros. unfold Qcdiv. ring.
Qed.

Section Root.
Context (m l : nat) (Hm : m <> 0) (c : coefs) (HS : right_signs c) (xl xu yl yu : Qc) (Hx : (xl < xu)%Qc) (Hy : (yl < yu)%Qc).
Notation N := (m * 2 ^ l).
Notation G := (whole m l xl xu yl yu).
Context (F : list Qc) (LF : length F = N * N) (T : matrix Qc) (h : list Qc).
Context (DS : forall g, length g = 4 * N -> exists u, fv_solution c G g F u /\ boundary_flux G g u = vplus (apply_op T g) h).

Lemma root_rows : nr T = 4 * N.
Proof.
  destruct (DS (zeros (4 * N)) (zeros_length _)) as (u & _ & E). apply (f_equal (@length Qc)) in E.
  rewrite (boundary_flux_length G N) in E by reflexivity. rewrite vplus_length, apply_op_length in E. auto.
Qed.

Lemma root_hom g : length g = 4 * N -> exists u, fv_solution c G g (zeros (N * N)) u /\ boundary_flux G g u = apply_op T g.
Proof.
  intros Lg. destruct (DS g Lg) as (u & Su & Fu). destruct (DS (zeros (4 * N)) (zeros_length _)) as (u0 & Su0 & Fu0).
  destruct (hom_diff m Hm c l xl xu yl yu F Hx Hy LF g (zeros (4 * N)) u u0 Lg (zeros_length _) Su Su0) as (D & Fl). rewrite lin_zeros in D, Fl by auto.
  eexists. split; [exact D|]. rewrite Fl, Fu, Fu0, apply_op_zeros.
  apply nth_ext with (d := 0%Qc) (d' := 0%Qc); [rewrite lin_length, vplus_length; reflexivity|].
  intros k Hk. rewrite lin_length, vplus_length, apply_op_length in Hk.
  match goal with |- nth k (lin _ ?a ?b) _ = _ => change (vval (lin (- (1)) a b) k = vval (apply_op T g) k) end.
  rewrite vval_lin by (rewrite !vplus_length, apply_op_length, zeros_length; reflexivity).
  rewrite !vval_vplus by (rewrite ?apply_op_length, ?zeros_length; exact Hk). rewrite vval_zeros. ring.
Qed.

Lemma out_at k : k < 4 * N -> out G k = outward_at N k.
Proof.
  intros Hk. unfold out, outward_at. cbn [whole gnx gny].
  destruct (Nat.ltb_spec k N), (Nat.leb_spec (2 * N) k), (Nat.ltb_spec k (3 * N)), (Nat.ltb_spec k (2 * N)), (Nat.ltb_spec k (2 * N + N)); try lia; reflexivity.
Qed.

Lemma root_behaved : well_behaved c N G T.
Proof.
  pose proof (whole_oriented m Hm l xl xu yl yu Hx Hy) as HO. pose proof (orp _ HO) as HP. destruct (widths_pos G HO) as (Px & Py).
  pose proof (pow_nz m Hm l) as Nn.
  assert (Ha : forall x y, c_alpha c x y <> 0%Qc) by (intros; apply HS).
  assert (OO : forall k, (out G k * out G k = 1)%Qc) by (intros; unfold out; bsolve; ring).
  assert (ZP : forall i j, i < gnx G -> j < gny G -> (0 <= c_alpha c (mid_x G i) (mid_y G j) * cell G (zeros (N * N)) i j)%Qc).
  { intros. unfold cell. rewrite vval_zeros, Qcmult_0_r. apply Qcle_refl. }
  assert (ZN : forall i j, i < gnx G -> j < gny G -> (c_alpha c (mid_x G i) (mid_y G j) * cell G (zeros (N * N)) i j <= 0)%Qc).
  { intros. unfold cell. rewrite vval_zeros, Qcmult_0_r. apply Qcle_refl. }
  assert (FF : forall g u k, boundary_flux G g u = apply_op T g -> k < 4 * N ->
    exists q, (0 < q)%Qc /\ (outward_at N k * vval (apply_op T g) k = q * (vval g k - cell G u (fst (next_to G k)) (snd (next_to G k))))%Qc /\
      fst (next_to G k) < N /\ snd (next_to G k) < N).
  { intros g u k E Hk. assert (Hk' : k < 2 * gny G + 2 * gnx G) by (cbn [whole gnx gny]; lia).
    destruct (flux_form G HO g u k Hk') as (Hq & Ef). rewrite E in Ef. exists (per G k). split; [exact Hq|]. split; [|apply (next_in G HO k Hk')].
    rewrite Ef, <- out_at by exact Hk.
    transitivity (out G k * out G k * (per G k * (vval g k - cell G u (fst (next_to G k)) (snd (next_to G k)))))%Qc; [ring|]. rewrite OO. ring. }
  set (e := fun j => vec_of (4 * N) (fun i => delta j i)).
  assert (Le : forall j, length (e j) = 4 * N) by (intros; apply vec_of_length).
  assert (Ve : forall j k, k < 4 * N -> vval (e j) k = delta j k) by (intros; unfold e; rewrite vval_vec_of by auto; reflexivity).
  assert (Te : forall i j, i < 4 * N -> j < 4 * N -> vval (apply_op T (e j)) i = val T i j).
  { intros i j Hi Hj. rewrite apply_op_vec, vval_vec_of by (rewrite root_rows; exact Hi).
    destruct (lt_dec j (nc T)) as [C|C].
    - rewrite <- (sum_delta_r (nc T) j (fun k => val T i k) C). apply sum_ext. intros k Hk.
      destruct (lt_dec k (4 * N)); [rewrite Ve by auto; unfold delta; rewrite Nat.eqb_sym; reflexivity|].
      unfold delta. destruct (Nat.eqb_spec k j); [lia|]. unfold e, vval. rewrite (nth_overflow (vec_of _ _)) by (rewrite vec_of_length; lia). reflexivity.
    - transitivity 0%Qc.
      + assert (Z : forall k F, (forall i, i < k -> F i = 0%Qc) -> sum k F = 0%Qc).
        { intros k F0 H. induction k as [|k IH]; cbn [sum]; auto. rewrite IH by (intros; apply H; lia). rewrite H by lia. ring. }
        apply Z. intros k Hk. rewrite Ve by lia. unfold delta. destruct (Nat.eqb_spec j k); [lia|]. ring.
      + unfold val, entry. destruct (Nat.ltb_spec j (nc T)); [lia|]. rewrite Bool.andb_false_r. reflexivity. }
  assert (E01 : forall j, j < 4 * N -> forall u, fv_solution c G (e j) (zeros (N * N)) u -> forall i' j', i' < N -> j' < N -> (0 <= cell G u i' j' <= 1)%Qc).
  { intros j Hj u Su i' j' Hi' Hj'. split.
    - apply (bounded_below c G HP HS 0 (e j) (zeros (N * N))); auto; try apply Qcle_refl; try (cbn [whole gnx gny]; rewrite ?Le, ?zeros_length; nia).
      intros k Hk. cbn [whole gnx gny] in Hk. rewrite Ve by lia. unfold delta. destruct (j =? k); discriminate.
    - apply (bounded_above c G HP HS 1 (e j) (zeros (N * N))); auto; try discriminate; try (cbn [whole gnx gny]; rewrite ?Le, ?zeros_length; nia).
      intros k Hk. cbn [whole gnx gny] in Hk. rewrite Ve by lia. unfold delta. destruct (j =? k); discriminate. }
  split; [|split; [|split; [|split]]].
  - intros g g' Lg Lg'. destruct (root_hom g Lg) as (u & Su & <-). destruct (root_hom g' Lg') as (u' & Su' & <-).
    pose proof (green c G HP Ha g _ u g' _ u' Su Su') as E. rewrite !load_zero in E.
    match type of E with (?a - ?b = _)%Qc => replace a with (a - b + b)%Qc by ring end. rewrite E. ring.
  - intros g Lg. destruct (root_hom g Lg) as (u & Su & <-).
    pose proof (energy c G HP Ha g _ u Px Py (fun x y => proj1 (proj2 (HS x y))) (fun x y => proj2 (proj2 (HS x y))) Su) as E. rewrite load_zero in E. exact E.
  - intros i j Hi Hj. split.
    + intros Ne. destruct (root_hom (e j) (Le j)) as (u & Su & Fu). destruct (FF (e j) u i Fu Hi) as (q & Hq & E & A1 & A2). rewrite Te in E by auto. rewrite E.
      apply mul_nonpos; [exact Hq|]. rewrite Ve by exact Hi. unfold delta. destruct (Nat.eqb_spec j i); [congruence|].
      destruct (E01 j Hj u Su _ _ A1 A2) as (B & _). apply Qcopp_le_compat in B. replace (0 - _)%Qc with (- cell G u (fst (next_to G i)) (snd (next_to G i)))%Qc by ring. exact B.
    + destruct (root_hom (e i) (Le i)) as (u & Su & Fu). destruct (FF (e i) u i Fu Hi) as (q & Hq & E & A1 & A2). rewrite Te in E by auto. rewrite E.
      apply mul_nonneg; [apply Qclt_le_weak; exact Hq|]. rewrite Ve by exact Hi. unfold delta. rewrite Nat.eqb_refl.
      destruct (E01 i Hi u Su _ _ A1 A2) as (_ & B). apply le_minus in B. exact B.
  - intros i Hi. assert (Lo : length (repeat 1%Qc (4 * N)) = 4 * N) by apply repeat_length.
    assert (Vo : forall k, k < 4 * N -> vval (repeat 1%Qc (4 * N)) k = 1%Qc).
    { intros k Hk. unfold vval. rewrite (nth_indep _ 0%Qc 1%Qc) by (rewrite Lo; exact Hk). apply nth_repeat. }
    destruct (root_hom _ Lo) as (u & Su & Fu). destruct (FF _ u i Fu Hi) as (q & Hq & E & A1 & A2). rewrite E.
    apply mul_nonneg; [apply Qclt_le_weak; exact Hq|]. rewrite Vo by exact Hi. apply (proj1 (le_minus _ _)).
    apply (bounded_above c G HP HS 1 (repeat 1%Qc (4 * N)) (zeros (N * N))); auto; try discriminate; try (cbn [whole gnx gny]; rewrite ?Lo, ?zeros_length; nia).
    intros k Hk. cbn [whole gnx gny] in Hk. rewrite Vo by lia. apply Qcle_refl.
  - intros Hl0. assert (Lo : length (repeat 1%Qc (4 * N)) = 4 * N) by apply repeat_length.
    assert (Vo : forall k, k < 4 * N -> vval (repeat 1%Qc (4 * N)) k = 1%Qc).
    { intros k Hk. unfold vval. rewrite (nth_indep _ 0%Qc 1%Qc) by (rewrite Lo; exact Hk). apply nth_repeat. }
    destruct (root_hom _ Lo) as (u & Su & Fu).
    assert (SP : fv_solution c G (repeat 1%Qc (4 * N)) (zeros (N * N)) (plane_cells G 1 0 0)).
    { apply plane_solution; auto.
      + unfold plane_data, west, east, south, north, plane. cbn [whole gnx gny gxl gxu gyl gyu]. split; intros k Hk; rewrite !Vo by lia; split; ring.
      + intros i j Hi Hj. unfold cell. rewrite vval_zeros, Hl0. unfold plane, Qcdiv. ring. }
    assert (EU : u = plane_cells G 1 0 0).
    { apply (solution_unique c G HP (repeat 1%Qc (4 * N)) (zeros (N * N))); auto; [rewrite Lo; cbn [whole gnx gny]; lia|apply zeros_length|apply (maximum_principle c G HP HS)]. }
    apply zeros_eq; [rewrite apply_op_length; apply root_rows|]. intros k Hk.
    destruct (FF _ u k Fu Hk) as (q & Hq & E & A1 & A2). rewrite Vo in E by exact Hk. subst u.
    unfold cell, plane_cells in E. rewrite vval_vec_of in E by (cbn [whole gnx gny]; nia). unfold plane in E.
    rewrite <- out_at in E by exact Hk.
    transitivity (out G k * out G k * vval (apply_op T (repeat 1%Qc (4 * N))) k)%Qc; [rewrite OO; ring|].
    transitivity (out G k * (out G k * vval (apply_op T (repeat 1%Qc (4 * N))) k))%Qc; [ring|]. rewrite E. ring.
Qed.
End Root.

(** [C67] The operator of the root of a uniform mesh (five-point patches). *)
Lemma root_operator_pf : forall m l lu c gesv rhs xl xu yl yu s t st,
  2 <= m -> lu_contract lu -> gesv_contract gesv -> right_signs c -> (xl < xu)%Qc -> (yl < yu)%Qc ->
  let G := whole m l xl xu yl yu in uniform m l G s -> fresh (sampled rhs) s t ->
  exists st1 t1, buildStage (fv_solver lu c) gesv false st t = Ok (st1, t1) /\
    nr (pT (data t1)) = 4 * (m * 2 ^ l) /\ well_behaved c (m * 2 ^ l) G (pT (data t1)).
Proof.
  intros m l lu c gesv rhs xl xu yl yu s t st Hm HL HG HS Hx Hy G HU HF.
  pose proof (fun g => direct_solver_exact_pf m l lu c gesv rhs xl xu yl yu s t st g Hm HL HG HS Hx Hy HU HF) as DS.
  destruct (DS (zeros (4 * (m * 2 ^ l))) (zeros_length _)) as (st1 & t1 & t2 & _ & _ & E1 & E2 & _).
  exists st1, t1. split; [exact E1|].
  assert (KT : pT (data t1) = pT (data t2)).
  { unfold upwardsStage in E2. apply bind_inv in E2 as (r2 & E2 & E2'). apply Ok_inj in E2'. subst t2.
    pose proof (up_keeps _ _ _ _ _ _ E2) as K2. destruct (trel_data _ _ _ K2) as (K0 & _). destruct (ops_inj _ _ K0) as (_ & _ & _ & EQ & _). exact EQ. }
  assert (DT : forall g, length g = 4 * (m * 2 ^ l) -> exists u, fv_solution c G g (sampled rhs G) u /\ boundary_flux G g u = vplus (apply_op (pT (data t1)) g) (ph (data t2))).
  { intros g Lg. destruct (DS g Lg) as (st1' & t1' & t2' & t3' & u & A1 & A2 & _ & _ & A5 & _ & A7). rewrite E1 in A1. injection A1 as <- <-. rewrite E2 in A2. injection A2 as <-.
    exists u. rewrite KT. auto. }
  assert (LF : length (sampled rhs G) = m * 2 ^ l * (m * 2 ^ l)) by apply sampled_len.
  split; [eapply (root_rows m l c xl xu yl yu); eauto|]. eapply (root_behaved m l ltac:(lia) c HS xl xu yl yu Hx Hy _ LF); eauto.
Qed.

(** [C67] The same with FISHPACK patches, alpha = beta = 1 and lambda <= 0. *)
Lemma root_operator_fish_pf : forall m l hst c lam gesv rhs xl xu yl yu s t st,
  3 <= m -> hst_contract hst -> gesv_contract gesv ->
  (forall x y, c_alpha c x y = 1%Qc /\ c_beta c x y = 1%Qc /\ c_lambda c x y = lam) -> (lam <= 0)%Qc -> (xl < xu)%Qc -> (yl < yu)%Qc ->
  let G := whole m l xl xu yl yu in uniform m l G s -> fresh (sampled rhs) s t ->
  exists st1 t1, buildStage (fish_solver hst c) gesv false st t = Ok (st1, t1) /\
    nr (pT (data t1)) = 4 * (m * 2 ^ l) /\ well_behaved c (m * 2 ^ l) G (pT (data t1)).
Proof.
  intros m l hst c lam gesv rhs xl xu yl yu s t st Hm HH HG Hc Hl Hx Hy G HU HF.
  assert (HS : right_signs c).
  { intros x y. destruct (Hc x y) as (-> & -> & ->). split; [discriminate|]. split; [reflexivity|]. rewrite Qcmult_1_l. exact Hl. }
  pose proof (fun g => direct_solver_exact_fish_pf m l hst c lam gesv rhs xl xu yl yu s t st g Hm HH HG Hc Hl Hx Hy HU HF) as DS.
  destruct (DS (zeros (4 * (m * 2 ^ l))) (zeros_length _)) as (st1 & t1 & t2 & _ & _ & E1 & E2 & _).
  exists st1, t1. split; [exact E1|].
  assert (KT : pT (data t1) = pT (data t2)).
  { unfold upwardsStage in E2. apply bind_inv in E2 as (r2 & E2 & E2'). apply Ok_inj in E2'. subst t2.
    pose proof (up_keeps _ _ _ _ _ _ E2) as K2. destruct (trel_data _ _ _ K2) as (K0 & _). destruct (ops_inj _ _ K0) as (_ & _ & _ & EQ & _). exact EQ. }
  assert (DT : forall g, length g = 4 * (m * 2 ^ l) -> exists u, fv_solution c G g (sampled rhs G) u /\ boundary_flux G g u = vplus (apply_op (pT (data t1)) g) (ph (data t2))).
  { intros g Lg. destruct (DS g Lg) as (st1' & t1' & t2' & t3' & u & A1 & A2 & _ & _ & A5 & _ & A7). rewrite E1 in A1. injection A1 as <- <-. rewrite E2 in A2. injection A2 as <-.
    exists u. rewrite KT. auto. }
  assert (LF : length (sampled rhs G) = m * 2 ^ l * (m * 2 ^ l)) by apply sampled_len.
  split; [eapply (root_rows m l c xl xu yl yu); eauto|]. eapply (root_behaved m l ltac:(lia) c HS xl xu yl yu Hx Hy _ LF); eauto.
Qed.

(** Variable coefficients on the rectangle [0,2] x [0,1], any depth. *)
Definition sym_coefs : coefs := Coefs (fun x _ => 1 + x * x)%Qc (fun _ y => 1 + y * y)%Qc (fun _ _ => (- (1))%Qc).
Lemma root_operator_example_expf : forall l,
  let G := whole 2 l 0 (1 + 1) 0 1 in let rhs := fun x y : Qc => (x + y)%Qc in
  right_signs sym_coefs /\ uniform 2 l G (divided rhs 2 l G) /\ fresh (sampled rhs) (divided rhs 2 l G) (fresh_tree (divided rhs 2 l G)).
Proof.
  intros l G rhs. split; [|split; [apply divided_uniform|apply divided_fresh]].
  assert (P : forall x, (0 < 1 + x * x)%Qc).
  { intros x. unfold Qclt. rewrite this_plus, this_mult. change (this 0%Qc) with 0%Q. change (this 1%Qc) with 1%Q. nra. }
  intros x y. cbn [sym_coefs c_alpha c_beta c_lambda]. split; [intros E; specialize (P x); rewrite E in P; discriminate|]. split; [apply P|].
  replace ((1 + x * x) * - (1))%Qc with (- (1 + x * x))%Qc by ring. specialize (P x). apply Qclt_le_weak in P.
  replace 0%Qc with (- 0)%Qc by ring. apply Qcopp_le_compat. exact P.
Qed.
