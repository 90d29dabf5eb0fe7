(** The direct solver started from functions, with mixed boundary conditions. *)
From Coq Require Import Lqa.
From Verif Require Import Base VectorModel MatrixModel LinSpec HPSModel HPSSpec FVModel FVSpec StageSpec GlobalSpec AdaptSpec CompareSpec ConvSpec MixSpec.
From Verif Require Import MatProofs MatProofs2 LinProofs Gauss LinProps HPSProofs HPSProofs3 HPSProofs4 HPSStage2 HPSTree HPSTree2 HPSHistory HPSRebuild HPSProps StageProps.
From Verif Require Import FVProofs FVProofs2 FVProofs3 FVMax FVJoin FVGlobal FVFish FVEnd FVProps FVCompare CompareProps ConvProofs ConvProps FVMixed.
From Coq Require Import Lia.

(** ** The load function *)
Lemma load_of_sampled rhs G : load_of rhs G = sampled rhs G.
Proof.
  assert (X : forall i, gx G i = mid_x G i).
  { intros i. unfold gx, gdx, mid_x, face_x. fold (width_x G). change (Q2Qc (2 # 1)) with (1 + 1)%Qc. rewrite Qc_of_nat_S. field. discriminate. }
  assert (Y : forall j, gy G j = mid_y G j).
  { intros i. unfold gy, gdy, mid_y, face_y. fold (width_y G). change (Q2Qc (2 # 1)) with (1 + 1)%Qc. rewrite Qc_of_nat_S. field. discriminate. }
  unfold load_of, sampled. generalize (gnx G). intros n. destruct (Nat.eq_dec (gny G) 0) as [Z|Ny].
  { rewrite Z, Nat.mul_0_r. cbn [seq map]. induction n as [|n IH]; auto. rewrite seq_S, map_app, concat_app, IH. reflexivity. }
  induction n as [|n IH]; auto. rewrite seq_S, map_app, concat_app, IH. cbn [map concat Nat.add]. rewrite app_nil_r.
  replace (S n * gny G) with (n * gny G + gny G) by lia. rewrite seq_app, map_app. f_equal. cbn [Nat.add].
  rewrite <- (Nat.add_0_r (n * gny G)). apply nth_ext with (d := 0%Qc) (d' := 0%Qc); [rewrite !map_length, !seq_length; reflexivity|].
  intros k Hk. rewrite map_length, seq_length in Hk. rewrite (nth_indep _ _ (rhs (gx G n) (gy G 0%nat))), (nth_indep (map _ (seq (_ + _) _)) _ ((fun k0 => rhs (mid_x G (k0 / gny G)) (mid_y G (k0 mod gny G))) 0%nat)) by (rewrite map_length, seq_length; auto).
  rewrite (map_nth (fun j => rhs (gx G n) (gy G j))), (map_nth (fun k0 => rhs (mid_x G (k0 / gny G)) (mid_y G (k0 mod gny G)))).
  rewrite !seq_nth by auto. rewrite Nat.add_0_r, (Nat.add_comm (n * gny G)), Nat.div_add, Nat.mod_add, Nat.div_small, Nat.mod_small by auto.
  rewrite X, Y. reflexivity.
Qed.

Lemma tmerge_ext {St} (l1 l2 : St -> patch -> res (St * patch)) fam : (forall st p, l1 st p = l2 st p) ->
  forall t st, tmerge l1 fam st t = tmerge l2 fam st t.
Proof.
  intros H. induction t as [p|p a IHa b IHb c IHc d IHd]; intros st; cbn [tmerge]; [rewrite H; reflexivity|].
  rewrite IHa. destruct (tmerge l2 fam st a) as [ra| |]; auto. rewrite !bind_Ok.
  rewrite IHb. destruct (tmerge l2 fam (fst ra) b) as [rb| |]; auto. rewrite !bind_Ok.
  rewrite IHc. destruct (tmerge l2 fam (fst rb) c) as [rc| |]; auto. rewrite !bind_Ok.
  rewrite IHd. reflexivity.
Qed.
Lemma upwards_fn sv gesv hom rhs t : upwardsStage_fn sv gesv hom rhs t = upwardsStage sv gesv hom (sampled rhs) t.
Proof.
  unfold upwardsStage_fn, upwardsStage. f_equal. apply tmerge_ext. intros st p. unfold up_leaf. cbv zeta. rewrite load_of_sampled. reflexivity.
Qed.

(** ** The grid of the root *)
Definition corners (G : grid) : Qc * Qc * Qc * Qc := (gxl G, gxu G, gyl G, gyu G).

Lemma coarsen_one_grid p k q : coarsen_one p k = Ok q -> pgrid q = pgrid p.
Proof.
  unfold coarsen_one. generalize (seq 0 k). intros l. revert p. induction l as [|n l IH]; intros p E; cbn [foldM] in E; [injection E as <-; auto|].
  apply bind_inv in E as (p1 & E1 & E). rewrite (IH _ E). unfold coarsen_step in E1.
  apply bind_inv in E1 as (x1 & _ & E1). apply bind_inv in E1 as (x2 & _ & E1). apply bind_inv in E1 as (x3 & _ & E1).
  apply bind_inv in E1 as (x4 & _ & E1). apply bind_inv in E1 as (x5 & _ & E1). apply bind_inv in E1 as (x6 & _ & E1). injection E1 as <-. reflexivity.
Qed.

Lemma merge_corners gesv p ch q ch' : merge4to1 gesv p ch = Ok (q, ch') ->
  corners (pgrid q) = (gxl (pgrid (fa ch)), gxu (pgrid (fb ch)), gyl (pgrid (fa ch)), gyu (pgrid (fc ch))).
Proof.
  unfold merge4to1. intros Ef. apply bind_inv in Ef as (c & Ec & Ef). apply bind_inv in Ef as (s & _ & Ef).
  apply bind_inv in Ef as (bl & _ & Ef). apply bind_inv in Ef as (t1 & _ & Ef). apply bind_inv in Ef as (t2 & _ & Ef).
  apply bind_inv in Ef as (t3 & _ & Ef). apply bind_inv in Ef as (t4 & _ & Ef). injection Ef as <- _.
  unfold coarsen in Ec. apply bind_inv in Ec as (tg & _ & Ec). apply bind_inv in Ec as (a & Ea & Ec). apply bind_inv in Ec as (b & Eb & Ec).
  apply bind_inv in Ec as (g & Eg & Ec). apply bind_inv in Ec as (d & _ & Ec). injection Ec as <-.
  apply coarsen_one_grid in Ea, Eb, Eg. unfold corners. cbn [mergePatch set_grid pgrid gxl gxu gyl gyu fa fb fc]. rewrite Ea, Eb, Eg. reflexivity.
Qed.

Lemma build_corners sv gesv m : forall s l G load t st st1 t1, uniform m l G s -> fresh load s t ->
  buildStage sv gesv false st t = Ok (st1, t1) -> corners (pgrid (data t1)) = corners G.
Proof.
  induction s as [G0 f|sa IHa sb IHb sc IHc sd IHd]; intros [|l] G load [p|p ta tb tc td] st st1 t1 U F E; try contradiction.
  - cbn in U. subst G0. destruct F as (<- & _). unfold buildStage in E. cbn [tmerge] in E. apply bind_inv in E as (r & Er & E).
    injection E as _ <-. cbn [data]. unfold build_leaf in Er. cbn in Er. apply bind_inv in Er as (T & _ & Er). injection Er as <-. reflexivity.
  - destruct U as (Ua & Ub & Uc & _). destruct F as (_ & Fa & Fb & Fc & _). unfold buildStage in E. cbn [tmerge] in E.
    apply bind_inv in E as (ra & Ea & E). apply bind_inv in E as (rb & Eb & E). apply bind_inv in E as (rc & Ec & E).
    apply bind_inv in E as (rd & _ & E). apply bind_inv in E as ((q & ch) & Ef & E). injection E as _ <-. cbn [data fst].
    rewrite (merge_corners _ _ _ _ _ Ef). cbn [fa fb fc].
    destruct ra as [sa1 ra], rb as [sb1 rb], rc as [sc1 rc]. cbn [snd fst] in *.
    apply (IHa _ _ _ _ _ _ _ Ua Fa) in Ea. apply (IHb _ _ _ _ _ _ _ Ub Fb) in Eb. apply (IHc _ _ _ _ _ _ _ Uc Fc) in Ec.
    unfold corners in *. injection Ea as A1 A2 A3 A4. injection Eb as B1 B2 B3 B4. injection Ec as C1 C2 C3 C4.
    rewrite A1, A3, B2, C4. reflexivity.
Qed.

Lemma out_side G N n i : gnx G = N -> gny G = N -> n < 4 -> i < N -> out G (n * N + i) = outward n.
Proof.
  intros Ex Ey Hn Hi. unfold out. rewrite Ex, Ey.
  destruct n as [|[|[|[|n]]]]; [| | | |lia]; cbn [outward];
    repeat match goal with |- context [?a <? ?b] => destruct (Nat.ltb_spec a b); try lia end; reflexivity.
Qed.

Lemma lin_zeros n g : length g = n -> lin (- (1)) g (zeros n) = g.
Proof.
  intros L. apply nth_ext with (d := 0%Qc) (d' := 0%Qc); [rewrite lin_length; auto|]. intros k Hk.
  change (vval (lin (- (1)) g (zeros n)) k = vval g k). rewrite vval_lin by (rewrite zeros_length; auto). rewrite vval_zeros. ring.
Qed.

Section EndMixed.
Context (m : nat) (Hm : m <> 0) (c : coefs) (HS : right_signs c).
Context (solve : grid -> list Qc -> list Qc -> res (list Qc)).
Context (Hsolve : forall G, oriented G -> gnx G = m -> gny G = m -> forall g f, length g = 4 * m -> length f = m * m ->
  exists u, solve G g f = Ok u /\ fv_solution c G g f u).
Context (l : nat) (gesv : gesv_t) (load : grid -> list Qc) (xl xu yl yu : Qc) (s : qtree) (t : tree) (st : option (matrix Qc)) (F : list Qc).
Context (HG : gesv_contract gesv) (Hx : (xl < xu)%Qc) (Hy : (yl < yu)%Qc).
Notation N := (m * 2 ^ l).
Notation G := (whole m l xl xu yl yu).
Notation sv := (solver_of solve).
Context (HU : uniform m l G s) (HF : fresh load s t) (HL : leaf_loads s = scatter m l F) (LF : length F = N * N).

Lemma whole_oriented : oriented G.
Proof. pose proof (pow_nz m Hm l). split; [exact Hx|]. split; [exact Hy|]. split; assumption. Qed.

Lemma mixed_hom a b g u : admissible c N G a b -> length g = 4 * N -> fv_solution c G g (zeros (N * N)) u ->
  mixed_condition N G a b (fun _ _ _ => 0%Qc) g (boundary_flux G g u) -> g = zeros (4 * N).
Proof.
  intros (HA & HB) Lg Su C. pose proof whole_oriented as HO. pose proof (pow_nz m Hm l) as Nn.
  replace (4 * N) with (2 * N + 2 * N) by lia.
  set (A := fun k => at_side G a (k / N) (k mod N)). set (B := fun k => at_side G b (k / N) (k mod N)).
  set (w := fun k => if Qc_eq_dec (A k) 0 then (out G k * B k)%Qc else A k).
  assert (HO1 : forall k, (out G k * out G k = 1)%Qc) by (intros; unfold out; bsolve; ring).
  assert (HK : forall k, k < 4 * N -> k / N < 4 /\ k mod N < N /\ out G k = outward (k / N)).
  { intros k Hk. assert (k / N < 4) by (apply Nat.div_lt_upper_bound; lia). assert (k mod N < N) by (apply Nat.mod_upper_bound; auto).
    split; auto. split; auto. rewrite <- (out_side G N (k / N) (k mod N)) by auto. f_equal. rewrite (Nat.div_mod k N) at 1 by auto. lia. }
  apply (mixed_zero c G HO HS (fun k => w k * A k)%Qc (fun k => w k * B k)%Qc) with (u := u).
  - intros k Hk. cbn [whole gnx gny] in Hk. destruct (HK k ltac:(lia)) as (Hn & Hi & Eo). destruct (HA _ _ Hn Hi) as (H1 & H2). rewrite <- Eo in H1.
    fold (A k) (B k) in H1, H2. unfold w. destruct (Qc_eq_dec (A k) 0) as [E|E].
    + rewrite E. split; [rewrite Qcmult_0_r; apply Qcle_refl|]. destruct H2 as [H2|H2]; [contradiction|].
      replace (out G k * (out G k * B k * B k))%Qc with (out G k * out G k * (B k * B k))%Qc by ring. rewrite HO1, Qcmult_1_l. split; [apply sq_nonneg|].
      right. intros Z. apply H2. apply Qcmult_integral in Z as [Z|Z]; auto. apply Qcmult_integral in Z as [Z|Z]; auto. specialize (HO1 k). rewrite Z in HO1. discriminate.
    + split; [apply sq_nonneg|]. split; [exact H1|]. left. intros Z. apply Qcmult_integral in Z as [Z|Z]; auto.
  - destruct HB as [(n & i & Hn & Hi & NA)|HB]; [left|right; exact HB]. exists (n * N + i). split; [cbn [whole gnx gny]; nia|].
    assert (EA : A (n * N + i) = at_side G a n i).
    { unfold A. rewrite (Nat.add_comm (n * N)), Nat.div_add, Nat.mod_add, Nat.div_small, Nat.mod_small by auto. reflexivity. }
    unfold w. rewrite EA. destruct (Qc_eq_dec (at_side G a n i) 0) as [E|E]; [contradiction|].
    intros Z. apply Qcmult_integral in Z as [Z|Z]; auto.
  - cbn [whole gnx gny]. lia.
  - exact Su.
  - intros k Hk. cbn [whole gnx gny] in Hk. destruct (HK k ltac:(lia)) as (Hn & Hi & _).
    specialize (C _ _ Hn Hi). replace (k / N * N + k mod N) with k in C by (rewrite (Nat.div_mod k N) at 1 by auto; lia).
    fold (A k) (B k) in C. transitivity (w k * (A k * vval g k + B k * vval (boundary_flux G g u) k))%Qc; [ring|]. rewrite C. unfold at_side. ring.
Qed.

(** The difference of two solutions with the same load. *)
Lemma hom_diff g g' u u' : length g = 4 * N -> length g' = 4 * N -> fv_solution c G g F u -> fv_solution c G g' F u' ->
  fv_solution c G (lin (- (1)) g g') (zeros (N * N)) (lin (- (1)) u u') /\
  boundary_flux G (lin (- (1)) g g') (lin (- (1)) u u') = lin (- (1)) (boundary_flux G g u) (boundary_flux G g' u').
Proof.
  intros Lg Lg' Su Su'. pose proof whole_oriented as HO.
  pose proof Su as (Lu & _). pose proof Su' as (Lu' & _). cbn [whole gnx gny] in Lu, Lu'.
  pose proof (solution_lin c G (orp _ HO) (- (1))%Qc g g' F F u u' ltac:(congruence) eq_refl Su Su') as D.
  assert (ZF : lin (- (1)) F F = zeros (N * N)).
  { apply zeros_eq; [rewrite lin_length; auto|]. intros k _. rewrite vval_lin by auto. ring. }
  rewrite ZF in D. split; [exact D|]. apply (flux_lin G N); auto; congruence.
Qed.

(** Two solutions with the same load whose conditions agree are the same. *)
Lemma mixed_same a b r g g' u u' : admissible c N G a b -> length g = 4 * N -> length g' = 4 * N ->
  fv_solution c G g F u -> fv_solution c G g' F u' ->
  mixed_condition N G a b r g (boundary_flux G g u) -> mixed_condition N G a b r g' (boundary_flux G g' u') ->
  g = g' /\ u = u'.
Proof.
  intros HA Lg Lg' Su Su' C1 C2. pose proof whole_oriented as HO.
  destruct (hom_diff g g' u u' Lg Lg' Su Su') as (D & Fl).
  assert (Z : lin (- (1)) g g' = zeros (4 * N)).
  { apply (mixed_hom a b _ (lin (- (1)) u u') HA); [rewrite lin_length; auto|exact D|].
    intros n i Hn Hi. rewrite Fl. rewrite !vval_lin by (try rewrite !(boundary_flux_length G N) by auto; congruence).
    specialize (C1 n i Hn Hi). specialize (C2 n i Hn Hi).
    transitivity (at_side G r n i - at_side G r n i)%Qc; [|unfold at_side; ring]. rewrite <- C1 at 1. rewrite <- C2. ring. }
  assert (Eg : g = g').
  { apply nth_ext with (d := 0%Qc) (d' := 0%Qc); [congruence|]. intros k Hk. apply (f_equal (fun v => vval v k)) in Z. rewrite vval_lin, vval_zeros in Z by congruence.
    change (vval g k = vval g' k). replace (vval g k) with (vval g k + - (1) * vval g' k + vval g' k)%Qc by ring. rewrite Z. ring. }
  split; auto. subst g'. eapply (solution_unique c G (orp _ HO) g F u u'); eauto.
  - cbn [whole gnx gny]. lia.
  - apply maximum_principle; auto. apply orp. exact HO.
Qed.

Theorem end_mixed a b r : admissible c N G a b ->
  exists st1 t1 t2 t3 u g,
    buildStage sv gesv false st t = Ok (st1, t1) /\ upwardsStage sv gesv false load t1 = Ok t2 /\
    solveStage_fn sv gesv false a b r t2 = Ok t3 /\
    map snd (computed_values t3) = scatter m l u /\ length g = 4 * N /\
    fv_solution c G g F u /\ mixed_condition N G a b r g (boundary_flux G g u).
Proof.
  intros HA. pose proof whole_oriented as HO. pose proof (pow_nz m Hm l) as Nn.
  assert (HLd : loads (fun f => f) m l F s) by (eapply loads_id; eauto).
  assert (Good := uniform_good m Hm c HS solve Hsolve l G s F eq_refl eq_refl HO HU HLd LF).
  assert (Posed := uniform_posed m Hm c HS solve Hsolve l G s eq_refl eq_refl HO HU).
  destruct (mixed_solution_pf m sv gesv load s t st a b r) as (st1 & t1 & t2 & E1 & E2 & K); auto; [lia|right; eapply uniform_equal; eauto|].
  rewrite (uniform_level _ _ _ _ HU) in K.
  assert (EG : pgrid (data t2) = G).
  { destruct (build_ok m sv gesv load s t (build_leaf sv false) st Hm HG (build_leaf_off sv m) HF Good Posed) as (st1' & t1' & E1' & B1); [right; eapply uniform_equal; eauto|].
    unfold buildStage in E1. rewrite E1 in E1'. injection E1' as <- <-. fold (buildStage sv gesv false st t) in E1.
    assert (KG : pgrid (data t1) = pgrid (data t2)).
    { unfold upwardsStage in E2. apply bind_inv in E2 as (r2 & E2 & E2'). apply Ok_inj in E2'. subst t2.
      pose proof (up_keeps _ _ _ _ _ _ E2) as K2. destruct (trel_data _ _ _ K2) as (K0 & _). destruct (ops_inj _ _ K0) as (EQ & _). exact EQ. }
    rewrite <- KG. clear KG E2 K. pose proof (build_corners _ _ _ _ _ _ _ _ _ _ _ HU HF E1) as EC.
    destruct (built_root m sv 0 s t1 Hm Good B1) as (_ & EX & _). rewrite (uniform_level _ _ _ _ HU) in EX.
    assert (EY : gny (pgrid (data t1)) = N).
    { destruct t1 as [p|p ta tb tc td].
      - destruct s as [G0 f0|]; [|destruct B1]. destruct B1 as (_ & EQ & _). destruct l; [|contradiction]. cbn [uniform] in HU. subst G0. cbn [data]. rewrite EQ. reflexivity.
      - cbn [data]. rewrite (build_gny _ _ _ _ _ _ _ _ _ _ _ E1).
        destruct s as [|sa sb sc sd]; [destruct B1|]. destruct Good as (Ga & Gb & Gc & Gd).
        destruct B1 as (Ba & Bb & Bc & Bd & _).
        destruct (built_root m sv _ sa ta Hm Ga Ba) as (Na & Xa & _).
        destruct (built_root m sv _ sc tc Hm Gc Bc) as (Nc & Xc & _).
        destruct (min_level_le sa sb sc sd) as (La & Lb & Lc & Ld).
        unfold psize. rewrite Na, Xa, Nc, Xc.
        rewrite <- (scale_level m (min_level sa sb sc sd) (level sa)) by auto.
        rewrite <- (scale_level m (min_level sa sb sc sd) (level sc)) by auto.
        rewrite !Nat.div_mul by (apply Nat.pow_nonzero; lia).
        pose proof (uniform_level _ _ _ _ HU) as EL. rewrite <- EL. change (level (QNode sa sb sc sd)) with (S (min_level sa sb sc sd)). rewrite Nat.pow_succ_r'. lia. }
    destruct (pgrid (data t1)) as [n1 n2 x1 x2 y1 y2]. unfold corners in EC. cbn [gnx gny gxl gxu gyl gyu whole] in *. injection EC as -> -> -> ->. subst. reflexivity. }
  rewrite EG in K.
  assert (MU : mixed_unique N G (pT (data t2)) a b).
  { intros g Lg MC.
    assert (DS : forall g, length g = 4 * N -> exists u, fv_solution c G g F u /\ boundary_flux G g u = vplus (apply_op (pT (data t2)) g) (ph (data t2))).
    { intros g0 L0. destruct (end_to_end m Hm c HS solve Hsolve l gesv load xl xu yl yu s t st g0 F) as (st1' & t1' & t2' & t3' & u & F1 & F2 & F3 & F4 & F5 & _ & F6); auto.
      rewrite E1 in F1. injection F1 as <- <-. rewrite E2 in F2. injection F2 as <-. exists u. auto. }
    destruct (DS g Lg) as (u & Su & Fu). destruct (DS (zeros (4 * N)) (zeros_length _)) as (u0 & Su0 & Fu0).
    destruct (hom_diff g (zeros (4 * N)) u u0 Lg (zeros_length _) Su Su0) as (D & Fl). rewrite lin_zeros in D, Fl by auto.
    apply (mixed_hom a b g _ HA Lg D). rewrite Fl, Fu, Fu0.
    replace (lin _ _ _) with (apply_op (pT (data t2)) g); [exact MC|].
    rewrite apply_op_zeros. apply nth_ext with (d := 0%Qc) (d' := 0%Qc); [rewrite lin_length, vplus_length; reflexivity|].
    intros k Hk. rewrite apply_op_length in Hk. symmetry.
    change (vval (lin (- (1)) (vplus (apply_op (pT (data t2)) g) (ph (data t2))) (vplus (zeros (nr (pT (data t2)))) (ph (data t2)))) k = vval (apply_op (pT (data t2)) g) k).
    rewrite vval_lin by (rewrite !vplus_length, apply_op_length, zeros_length; reflexivity).
    rewrite !vval_vplus by (rewrite ?apply_op_length, ?zeros_length; exact Hk). rewrite vval_zeros. ring. }
  destruct (K MU) as (t3 & U & g & h & E3 & Gl & EV & MC).
  destruct (glued_cells m Hm c (solver_leaf sv)) with (l := l) (G := G) (s := s) (F := F) (g := g) (h := h) (U := U)
    as (u & Su & Hh & Hv); auto.
  { intros. eapply solver_leaf_solution; eauto. }
  exists st1, t1, t2, t3, u, g. subst h. repeat split; auto; try apply Su.
  - rewrite EV. exact Hv.
  - rewrite (glued_length _ _ _ _ _ _ Gl), (uniform_level _ _ _ _ HU). reflexivity.
Qed.
End EndMixed.

(** [C65] The solver started from a load function and mixed boundary conditions (five
    point patches): all stages succeed; boundary data and leaf values are the one
    solution of the discrete problem that satisfies the conditions in all boundary
    faces. *)
Lemma mixed_exact_pf : forall m l lu c gesv rhs xl xu yl yu s t st a b r,
  2 <= m -> lu_contract lu -> gesv_contract gesv -> right_signs c -> (xl < xu)%Qc -> (yl < yu)%Qc ->
  let N := m * 2 ^ l in let G := whole m l xl xu yl yu in
  uniform m l G s -> fresh (sampled rhs) s t -> admissible c N G a b ->
  exists st1 t1 t2 t3 u g,
    buildStage (fv_solver lu c) gesv false st t = Ok (st1, t1) /\
    upwardsStage_fn (fv_solver lu c) gesv false rhs t1 = Ok t2 /\
    solveStage_fn (fv_solver lu c) gesv false a b r t2 = Ok t3 /\
    map snd (computed_values t3) = scatter m l u /\ length g = 4 * N /\
    fv_solution c G g (sampled rhs G) u /\ mixed_condition N G a b r g (boundary_flux G g u) /\
    forall g' u', length g' = 4 * N -> fv_solution c G g' (sampled rhs G) u' ->
      mixed_condition N G a b r g' (boundary_flux G g' u') -> g' = g /\ u' = u.
Proof.
  intros m l lu c gesv rhs xl xu yl yu s t st a b r Hm HL HG HS Hx Hy N G HU HF HA.
  assert (LF : length (sampled rhs G) = N * N) by apply sampled_len.
  destruct (end_mixed m ltac:(lia) c HS (fv_solve lu c)) with (l := l) (gesv := gesv) (load := sampled rhs) (xl := xl) (xu := xu) (yl := yl) (yu := yu)
    (s := s) (t := t) (st := st) (F := sampled rhs G) (a := a) (b := b) (r := r) as (st1 & t1 & t2 & t3 & u & g & E1 & E2 & E3 & E4 & E5 & E6 & E7); auto.
  - intros G' HO Ex Ey g' f' Lg' Lf'. apply orp in HO. apply (fv_solve_ok G' m Ex Ey); auto. apply maximum_principle; auto.
  - apply (sampled_loads rhs m l ltac:(lia) G s eq_refl eq_refl HU). intros G' f'. apply (fresh_leaves _ _ _ HF).
  - exists st1, t1, t2, t3, u, g. rewrite upwards_fn. repeat split; auto; try apply E6.
    + eapply (mixed_same m ltac:(lia) c HS l xl xu yl yu (sampled rhs G) Hx Hy LF a b r g' g u' u HA); auto.
    + eapply (mixed_same m ltac:(lia) c HS l xl xu yl yu (sampled rhs G) Hx Hy LF a b r g' g u' u HA); auto.
Qed.

(** [C65] The same with FISHPACK patches, alpha = 1 and lambda <= 0. *)
Lemma mixed_exact_fish_pf : forall m l hst c lam gesv rhs xl xu yl yu s t st a b r,
  3 <= m -> hst_contract hst -> gesv_contract gesv ->
  (forall x y, c_alpha c x y = 1%Qc /\ c_beta c x y = 1%Qc /\ c_lambda c x y = lam) -> (lam <= 0)%Qc ->
  (xl < xu)%Qc -> (yl < yu)%Qc ->
  let N := m * 2 ^ l in let G := whole m l xl xu yl yu in
  uniform m l G s -> fresh (sampled rhs) s t -> admissible c N G a b ->
  exists st1 t1 t2 t3 u g,
    buildStage (fish_solver hst c) gesv false st t = Ok (st1, t1) /\
    upwardsStage_fn (fish_solver hst c) gesv false rhs t1 = Ok t2 /\
    solveStage_fn (fish_solver hst c) gesv false a b r t2 = Ok t3 /\
    map snd (computed_values t3) = scatter m l u /\ length g = 4 * N /\
    fv_solution c G g (sampled rhs G) u /\ mixed_condition N G a b r g (boundary_flux G g u) /\
    forall g' u', length g' = 4 * N -> fv_solution c G g' (sampled rhs G) u' ->
      mixed_condition N G a b r g' (boundary_flux G g' u') -> g' = g /\ u' = u.
Proof.
  intros m l hst c lam gesv rhs xl xu yl yu s t st a b r Hm HH HG Hc Hl Hx Hy N G HU HF HA.
  assert (HS : right_signs c).
  { intros x y. destruct (Hc x y) as (-> & -> & ->). split; [discriminate|]. split; [reflexivity|]. rewrite Qcmult_1_l. exact Hl. }
  assert (LF : length (sampled rhs G) = N * N) by apply sampled_len.
  destruct (end_mixed m ltac:(lia) c HS (fish_solve hst c)) with (l := l) (gesv := gesv) (load := sampled rhs) (xl := xl) (xu := xu) (yl := yl) (yu := yu)
    (s := s) (t := t) (st := st) (F := sampled rhs G) (a := a) (b := b) (r := r) as (st1 & t1 & t2 & t3 & u & g & E1 & E2 & E3 & E4 & E5 & E6 & E7); auto.
  - intros G' HO Ex Ey g' f' Lg' Lf'.
    destruct (solvers_agree_partial_pf lu_gauss hst c lam G' m g' f') as (u & _ & E & S); auto using lu_gauss_contract.
    { apply maximum_principle; auto. apply orp. exact HO. }
    exists u. auto.
  - apply (sampled_loads rhs m l ltac:(lia) G s eq_refl eq_refl HU). intros G' f'. apply (fresh_leaves _ _ _ HF).
  - exists st1, t1, t2, t3, u, g. rewrite upwards_fn. repeat split; auto; try apply E6.
    + eapply (mixed_same m ltac:(lia) c HS l xl xu yl yu (sampled rhs G) Hx Hy LF a b r g' g u' u HA); auto.
    + eapply (mixed_same m ltac:(lia) c HS l xl xu yl yu (sampled rhs G) Hx Hy LF a b r g' g u' u HA); auto.
Qed.

Lemma dirichlet_admissible c N G : N <> 0 -> admissible c N G (fun _ _ _ => 1%Qc) (fun _ _ _ => 0%Qc).
Proof.
  intros HN. split.
  - intros n i Hn Hi. unfold at_side. split; [rewrite !Qcmult_0_r; apply Qcle_refl|]. left. discriminate.
  - left. exists 0, 0. split; [lia|]. split; [lia|]. unfold at_side. discriminate.
Qed.

(** The points of the boundary data are the middles of the boundary faces. *)
Lemma side_mid m l xl xu yl yu : m <> 0 -> let G := whole m l xl xu yl yu in forall i,
  side_point G 0 i = (gxl G, mid_y G i) /\ side_point G 1 i = (gxu G, mid_y G i) /\
  side_point G 2 i = (mid_x G i, gyl G) /\ side_point G 3 i = (mid_x G i, gyu G).
Proof.
  intros Hm G i. pose proof (Qc_of_nat_nz _ (pow_nz m Hm l)) as Nz.
  assert (X : (gxl G + (Qc_of_nat i + Qc_of_nat i + 1) * (gxu G - gxl G) / (Qc_of_nat (gnx G) + Qc_of_nat (gnx G)))%Qc = mid_x G i).
  { unfold mid_x, face_x, width_x. rewrite Qc_of_nat_S. cbn [G whole gnx]. replace (Qc_of_nat (m * 2 ^ l) + Qc_of_nat (m * 2 ^ l))%Qc with ((1 + 1) * Qc_of_nat (m * 2 ^ l))%Qc by ring. field. repeat split; auto. discriminate. }
  assert (Y : (gyl G + (Qc_of_nat i + Qc_of_nat i + 1) * (gyu G - gyl G) / (Qc_of_nat (gny G) + Qc_of_nat (gny G)))%Qc = mid_y G i).
  { unfold mid_y, face_y, width_y. rewrite Qc_of_nat_S. cbn [G whole gny]. replace (Qc_of_nat (m * 2 ^ l) + Qc_of_nat (m * 2 ^ l))%Qc with ((1 + 1) * Qc_of_nat (m * 2 ^ l))%Qc by ring. field. repeat split; auto. discriminate. }
  unfold side_point. cbv zeta. rewrite X, Y. auto.
Qed.

Lemma dirichlet_faces m l xl xu yl yu V g h : m <> 0 -> let N := m * 2 ^ l in let G := whole m l xl xu yl yu in
  mixed_condition N G (fun _ _ _ => 1%Qc) (fun _ _ _ => 0%Qc) (fun _ => V) g h ->
  each_face (fun v x y => within 0 (v - V x y)) (fun v x y => within 0 (v - V x y)) G g.
Proof.
  intros Hm N G MC. pose proof (side_mid m l xl xu yl yu Hm) as P. cbv zeta in P. fold G in P.
  assert (Q : forall v w, (1 * v + 0 * w - v = 0)%Qc) by (intros; ring).
  assert (W : forall n i x y k, n < 4 -> i < N -> side_point G n i = (x, y) -> k = n * N + i -> within 0 (vval g k - V x y)).
  { intros n i x y k Hn Hi E ->. specialize (MC n i Hn Hi). unfold at_side in MC. rewrite E in MC. cbn [fst snd] in MC.
    rewrite <- MC. match goal with |- within 0 ?X => replace X with 0%Qc by ring end. split; discriminate. }
  split; intros k Hk; change (k < N) in Hk; destruct (P k) as (P0 & P1 & P2 & P3); split.
  - apply (W 0 k); auto.
  - apply (W 1 k); auto; unfold G, whole; cbn [gnx gny]; fold N; lia.
  - apply (W 2 k); auto; unfold G, whole; cbn [gnx gny]; fold N; lia.
  - apply (W 3 k); auto; unfold G, whole; cbn [gnx gny]; fold N; lia.
Qed.

(** [C65] The program of the examples, started from functions: for the boundary values
    of [V] and its load, the values in all leaf cells are within C / 4^l of [V]. *)
Lemma program_error_pf : forall m l lu c gesv xl xu yl yu s t st V Vxx Vyy M2 M4,
  2 <= m -> lu_contract lu -> gesv_contract gesv -> right_signs c -> (forall x y, c_beta c x y = 1%Qc) ->
  (xl < xu)%Qc -> (yl < yu)%Qc ->
  let rhs := fun x y => (c_alpha c x y * (Vxx x y + Vyy x y) + c_lambda c x y * V x y)%Qc in
  uniform m l (whole m l xl xu yl yu) s -> fresh (sampled rhs) s t ->
  tame V Vxx Vyy M2 M4 (whole m 0 xl xu yl yu) -> (0 <= M2)%Qc -> (0 <= M4)%Qc ->
  exists st1 t1 t2 t3,
    buildStage (fv_solver lu c) gesv false st t = Ok (st1, t1) /\
    upwardsStage_fn (fv_solver lu c) gesv false rhs t1 = Ok t2 /\
    solveStage_fn (fv_solver lu c) gesv false (fun _ _ _ => 1%Qc) (fun _ _ _ => 0%Qc) (fun _ => V) t2 = Ok t3 /\
    each_leaf_cell (fun x y v => within (bound m l xl xu yl yu M2 M4 0 0) (v - V x y)) s (map snd (computed_values t3)).
Proof.
  intros m l lu c gesv xl xu yl yu s t st V Vxx Vyy M2 M4 Hm HL HG HS Hb Hx Hy rhs HU HF HT H2 H4.
  set (G := whole m l xl xu yl yu) in *.
  destruct (mixed_exact_pf m l lu c gesv rhs xl xu yl yu s t st (fun _ _ _ => 1%Qc) (fun _ _ _ => 0%Qc) (fun _ => V))
    as (st1 & t1 & t2 & t3 & u & g & E1 & E2 & E3 & E4 & E5 & E6 & E7 & _); auto.
  { apply dirichlet_admissible, pow_nz. lia. }
  exists st1, t1, t2, t3. do 3 (split; [assumption|]). rewrite E4.
  apply (scatter_cells _ m l ltac:(lia) G s u eq_refl eq_refl HU).
  apply (rect_error m l c xl xu yl yu V Vxx Vyy M2 M4 0 0 g (sampled rhs G) u); auto; try lia; try discriminate.
  - apply sampled_len.
  - eapply dirichlet_faces; [lia|exact E7].
  - intros i j Hi Hj. fold G in Hi, Hj |- *. rewrite cell_sampled; auto. unfold rhs.
    destruct (HS (mid_x G i) (mid_y G j)) as (Ha & _).
    match goal with |- within 0 ?X => replace X with 0%Qc by (field; exact Ha) end. split; discriminate.
Qed.

(** Robin in the west, Neumann in the east, Dirichlet in the south and north; and why
    the pure Neumann problem with lambda = 0 is excluded: constants solve it. *)
Definition ex_a (n : nat) (_ _ : Qc) : Qc := if n =? 1 then 0%Qc else 1%Qc.
Definition ex_b (n : nat) (_ _ : Qc) : Qc := match n with 0 => (- (1))%Qc | 1 => 1%Qc | _ => 0%Qc end.
Lemma neumann_kernel_expf : forall m l b, m <> 0 ->
  let N := m * 2 ^ l in let G := whole m l 0 1 0 1 in
  exists u, fv_solution (helmholtz 0) G (repeat 1%Qc (4 * N)) (zeros (N * N)) u /\
    mixed_condition N G (fun _ _ _ => 0%Qc) b (fun _ _ _ => 0%Qc) (repeat 1%Qc (4 * N)) (boundary_flux G (repeat 1%Qc (4 * N)) u).
Proof.
  intros m l b Hm N G. pose proof (pow_nz m Hm l) as Nn.
  assert (HO : oriented G) by (split; [reflexivity|split; [reflexivity|split; assumption]]).
  assert (R : forall k, k < 4 * N -> vval (repeat 1%Qc (4 * N)) k = 1%Qc).
  { intros k Hk. unfold vval. rewrite (nth_indep _ 0%Qc 1%Qc) by (rewrite repeat_length; exact Hk). apply nth_repeat. }
  exists (plane_cells G 1 0 0). split.
  - apply plane_solution; auto; try (apply orp; auto).
    + unfold plane_data, west, east, south, north, plane. unfold G, whole. cbn [gnx gny gxl gxu gyl gyu]. fold N. split; intros k Hk; rewrite !R by lia; split; ring.
    + intros i j Hi Hj. unfold cell. rewrite vval_zeros. cbn [helmholtz c_alpha c_beta c_lambda]. unfold plane, Qcdiv. ring.
  - intros n i Hn Hi. destruct (flux_form G HO (repeat 1%Qc (4 * N)) (plane_cells G 1 0 0) (n * N + i)) as (_ & ->); [unfold G, whole; cbn [gnx gny]; fold N; nia|].
    rewrite R by nia. assert (Hk : n * N + i < 2 * gny G + 2 * gnx G) by (unfold G, whole; cbn [gnx gny]; fold N; nia).
    destruct (next_in G HO _ Hk) as (A & B). unfold cell, plane_cells. rewrite vval_vec_of by nia. unfold plane, at_side. ring.
Qed.

Lemma mixed_exact_example_expf : forall l,
  let G := whole 2 l 0 1 0 1 in let rhs := fun x y : Qc => (x + y)%Qc in
  admissible (helmholtz 0) (2 * 2 ^ l) G ex_a ex_b /\ right_signs (helmholtz 0) /\
  uniform 2 l G (divided rhs 2 l G) /\ fresh (sampled rhs) (divided rhs 2 l G) (fresh_tree (divided rhs 2 l G)).
Proof.
  intros l G rhs. split; [|split; [|split; [apply divided_uniform|apply divided_fresh]]].
  - split.
    + intros [|[|[|[|n]]]] i Hn Hi; [| | | |lia]; unfold at_side, ex_a, ex_b; cbn [Nat.eqb outward]; repeat split; try discriminate; try (left; discriminate). right. discriminate.
    + left. exists 0, 0. pose proof (pow_nz 2 ltac:(lia) l). split; [lia|]. split; [lia|]. unfold at_side, ex_a. discriminate.
  - intros x y. cbn. split; [discriminate|]. split; [reflexivity|discriminate].
Qed.
