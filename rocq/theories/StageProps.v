(** Properties of the three stages: repeated calls, rebuilding, caching, sizes,
    boundary conditions, homogeneous option, superposition. *)
From Verif Require Import Base VectorModel MatrixModel LinSpec HPSModel HPSSpec StageSpec.
From Verif Require Import MatProofs MatProofs2 LinProofs Gauss LinProps BlockProofs.
From Verif Require Import HPSProofs HPSProofs2 HPSProofs3 HPSProofs4 HPSTree HPSTree2 HPSCert.
From Verif Require Import HPSSizes HPSHistory HPSRebuild HPSStage HPSStage2 HPSProps.

(** [C21] After the build, any calls [pre], then an upwardsStage with load [load],
    then any solves: one more solve with data [g] gives the leaves the same data
    and solutions (or fails in the same way) as upwardsStage and solveStage called
    directly on the freshly built tree. *)
Lemma history_independent_pf : forall sv gesv hom pre load gs g t t1 t2,
  run sv gesv pre t = Ok t1 ->
  run sv gesv ((hom, Up load) :: map (fun g => (hom, Solve g)) gs) t1 = Ok t2 ->
  same (fun r r' => computed_values r = computed_values r')
    (solveStage sv hom g t2) (run sv gesv [(hom, Up load); (hom, Solve g)] t).
Proof. exact history. Qed.

(** Four leaves of side m. *)
Definition quad (m : nat) : qtree :=
  QNode (ex_leaf m 0 0 1) (ex_leaf m 1 0 1) (ex_leaf m 0 1 1) (ex_leaf m 1 1 1).
Definition ones (n : nat) : list Qc := repeat 1%Qc n.

(** Another load and two other solves come first; the result is not trivial. *)
Lemma history_example_expf :
  match buildStage (toy 1) gauss_gesv false None (fresh_tree (quad 1)) with
  | Ok (_, t) =>
      match run (toy 1) gauss_gesv [(false, Up (fun _ => ones 1)); (false, Solve (ones 8)); (true, Solve (zeros 8))] t with
      | Ok t1 =>
          match run (toy 1) gauss_gesv [(false, Up (ex_load 1)); (false, Solve (ones 8))] t1 with
          | Ok t2 =>
              match solveStage (toy 1) false (basis 8 0) t2 with
              | Ok t3 => map (fun x => map this (snd x)) (computed_values t3) = [[7 # 12]; [17 # 16]; [37 # 16]; [73 # 24]]%Q
              | _ => False
              end
          | _ => False
          end
      | _ => False
      end
  | _ => False
  end.
Proof. vm_compute. repeat split. Qed.

(** [C22] Building once more on a mesh with a locally refined quarter, nothing
    changed: the second build runs out of bounds.  The coarsening counters of the
    first build are still set, so the siblings' operators differ in size. *)
Lemma rebuild_refuted_pf : exists m sv gesv s t st1 t1,
  3 <= m /\ gesv_contract gesv /\ fresh (ex_load m) s t /\ good_leaves m sv s /\ well_posed m sv s /\
  buildStage sv gesv false None t = Ok (st1, t1) /\
  is_ok (upwardsStage sv gesv false (ex_load m) t1) /\
  buildStage sv gesv false st1 t1 = UB.
Proof.
  destruct (solver_ok 3 (toy 3) gauss_gesv (ex_load 3) (ex_tree 3) (fresh_tree (ex_tree 3)) None (zeros 24))
    as (st1 & t1 & t2 & t3 & U & h & E & E2 & _);
    [discriminate|exact gauss_gesv_contract|apply ex_tree_fresh|apply ex_tree_good|apply ex_tree_wp|auto|reflexivity|].
  exists 3, (toy 3), gauss_gesv, (ex_tree 3), (fresh_tree (ex_tree 3)), st1, t1.
  split; [auto|]. split; [exact gauss_gesv_contract|]. split; [apply ex_tree_fresh|].
  split; [apply ex_tree_good|]. split; [apply ex_tree_wp|]. split; [exact E|]. split; [exists t2; exact E2|].
  assert (B : match buildStage (toy 3) gauss_gesv false None (fresh_tree (ex_tree 3)) with
          | Ok (s, t) => match buildStage (toy 3) gauss_gesv false s t with UB => true | _ => false end
          | _ => false end = true) by (vm_cast_no_check (eq_refl true)).
  rewrite E in B. destruct (buildStage (toy 3) gauss_gesv false st1 t1); try discriminate B. reflexivity.
Qed.

(** [C22] A second build with other coefficients [sv'] leaves the same operators as
    building once with them, or fails in the same way, if the siblings are refined
    equally everywhere and operators are not cached.  Missing: other meshes, see
    [rebuild_refuted], and the cache, see [rebuild_cached_refuted]. *)
Lemma rebuild_partial_pf : forall sv sv' gesv st st1 load m t t1,
  buildStage sv gesv false st t = Ok (st1, t1) ->
  m <> 0 -> not_coarsened t -> (forall G, In G (leaf_grids t) -> gnx G = m) -> equal_levels (problem load t) ->
  same (fun r r' => same_operators (snd r) (snd r'))
    (buildStage sv' gesv false st1 t1) (buildStage sv' gesv false st t).
Proof. exact rebuild_uniform. Qed.

(** A solver whose operator depends on the place: coefficient 1 + x, times [k]. *)
Definition place_T (k : Qc) (m : nat) (G : grid) : matrix Qc :=
  mat_of (4 * m) (4 * m) (fun i j => k * (1 + gxl G) * val (toy_T m) i j)%Qc.
Definition place_solver (k : Qc) (m : nat) : solver :=
  Solver (fun G g f => Ok (toy_u m g f))
         (fun G g f => Ok (vplus (apply_op (place_T k m G) g) (toy_h m f)))
         (fun G => Ok (place_T k m G)) (fun G f => Ok (toy_h m f)).
Lemma place_affine k m G : gnx G = m -> gny G = m -> affine_solver m (place_solver k m) G.
Proof.
  intros Ex Ey. split; auto. exists (place_T k m G). split; [reflexivity|].
  split; [split; [apply mat_of_wf|split; reflexivity]|].
  intros f Lf. exists (toy_h m f). split; [reflexivity|]. split; [apply vec_of_length|].
  intros g Lg. split; [eexists; reflexivity|reflexivity].
Qed.
Definition two_Qc : Qc := (1 + 1)%Qc.

Lemma rebuild_example_expf :
  not_coarsened (fresh_tree (quad 1)) /\ (forall G, In G (leaf_grids (fresh_tree (quad 1))) -> gnx G = 1) /\
  equal_levels (problem (ex_load 1) (fresh_tree (quad 1))) /\
  match buildStage (place_solver 1 1) gauss_gesv false None (fresh_tree (quad 1)) with
  | Ok (st1, t1) =>
      match buildStage (place_solver two_Qc 1) gauss_gesv false st1 t1 with
      | Ok (_, t2) => map this (apply_op (pT (data t2)) (basis 8 0)) = [-271 # 36; 11 # 36; -4 # 9; -1 # 9; 89 # 36; 4 # 9; -11 # 36; -1 # 9]%Q
      | _ => False
      end
  | _ => False
  end.
Proof.
  split; [cbn; auto|]. split; [|split; [cbn; auto 10|vm_compute; reflexivity]].
  intros G HG. cbn in HG. destruct HG as [<-|[<-|[<-|[<-|[]]]]]; reflexivity.
Qed.

Lemma this_inj (v w : list Qc) : map this v = map this w -> v = w.
Proof.
  revert w. induction v as [|x v IH]; intros [|y w] H; cbn [map] in H; try discriminate H; [reflexivity|].
  pose proof (f_equal (hd 0%Q) H) as H1. pose proof (f_equal (@tl Q) H) as H2. cbn [hd tl] in H1, H2.
  rewrite (IH w H2), (Qc_is_canon x y); [reflexivity|]. rewrite H1. apply Qeq_refl.
Qed.

(** [C22] With the option cache-operators the second build keeps the leaf operator of the
    first one: doubling the coefficients changes nothing. *)
Lemma rebuild_cached_refuted_pf : exists sv sv' gesv t st1 t1 st2 t2 st3 t3,
  gesv_contract gesv /\ not_coarsened t /\ equal_levels (problem (ex_load 1) t) /\
  (forall G, In G (leaf_grids t) -> affine_solver 1 sv G /\ affine_solver 1 sv' G) /\
  buildStage sv gesv true None t = Ok (st1, t1) /\
  buildStage sv' gesv true st1 t1 = Ok (st2, t2) /\
  buildStage sv' gesv true None t = Ok (st3, t3) /\
  pT (data t2) = pT (data t1) /\ pT (data t2) <> pT (data t3).
Proof.
  destruct (buildStage (place_solver 1 1) gauss_gesv true None (fresh_tree (quad 1))) as [[st1 t1]| |] eqn:E1;
    [|vm_compute in E1; discriminate E1|vm_compute in E1; discriminate E1].
  destruct (buildStage (place_solver two_Qc 1) gauss_gesv true st1 t1) as [[st2 t2]| |] eqn:E2;
    [|exfalso|exfalso].
  2,3: revert E2; apply (f_equal (fun x => match x with Ok (s, t) => match buildStage (place_solver two_Qc 1) gauss_gesv true s t with Ok _ => true | _ => false end | _ => false end)) in E1;
    cbv beta iota in E1; intros E2; rewrite E2 in E1; vm_compute in E1; discriminate E1.
  destruct (buildStage (place_solver two_Qc 1) gauss_gesv true None (fresh_tree (quad 1))) as [[st3 t3]| |] eqn:E3;
    [|vm_compute in E3; discriminate E3|vm_compute in E3; discriminate E3].
  assert (B : match buildStage (place_solver 1 1) gauss_gesv true None (fresh_tree (quad 1)) with
          | Ok (s, t) =>
            match buildStage (place_solver two_Qc 1) gauss_gesv true s t, buildStage (place_solver two_Qc 1) gauss_gesv true None (fresh_tree (quad 1)) with
            | Ok (_, t2), Ok (_, t3) => map this (dat (pT (data t2))) = map this (dat (pT (data t))) /\ nr (pT (data t2)) = nr (pT (data t)) /\ nc (pT (data t2)) = nc (pT (data t)) /\
                 hd 0%Q (map this (dat (pT (data t2)))) <> hd 0%Q (map this (dat (pT (data t3))))
            | _, _ => False end
          | _ => False end) by (vm_compute; repeat split; discriminate).
  rewrite E1, E2, E3 in B. destruct B as (B1 & B2 & B3 & B4).
  exists (place_solver 1 1), (place_solver two_Qc 1), gauss_gesv, (fresh_tree (quad 1)), st1, t1, st2, t2, st3, t3.
  split; [exact gauss_gesv_contract|]. split; [cbn; auto|]. split; [cbn; auto 10|].
  split; [intros G HG; cbn in HG; destruct HG as [<-|[<-|[<-|[<-|[]]]]]; split; apply place_affine; reflexivity|].
  split; [exact E1|]. split; [exact E2|]. split; [exact E3|].
  split.
  - destruct (pT (data t2)) as [r2 c2 d2], (pT (data t1)) as [r1 c1 d1]. cbn [nr nc dat] in *. subst r2 c2. f_equal.
    exact (this_inj _ _ B1).
  - intros H. apply B4. rewrite H. reflexivity.
Qed.

(** [C23] The cache hands the operator of the first leaf to all leaves; with a
    coefficient that varies in space the result differs. *)
Lemma cache_refuted_pf : exists sv gesv t st1 t1 st2 t2,
  gesv_contract gesv /\ not_coarsened t /\
  (forall G, In G (leaf_grids t) -> affine_solver 1 sv G) /\
  buildStage sv gesv false None t = Ok (st1, t1) /\ buildStage sv gesv true None t = Ok (st2, t2) /\
  pT (data t1) <> pT (data t2).
Proof.
  destruct (buildStage (place_solver 1 1) gauss_gesv false None (fresh_tree (quad 1))) as [[st1 t1]| |] eqn:E1;
    [|vm_compute in E1; discriminate E1|vm_compute in E1; discriminate E1].
  destruct (buildStage (place_solver 1 1) gauss_gesv true None (fresh_tree (quad 1))) as [[st2 t2]| |] eqn:E2;
    [|vm_compute in E2; discriminate E2|vm_compute in E2; discriminate E2].
  assert (B : match buildStage (place_solver 1 1) gauss_gesv false None (fresh_tree (quad 1)),
                    buildStage (place_solver 1 1) gauss_gesv true None (fresh_tree (quad 1)) with
          | Ok (_, t1), Ok (_, t2) => hd 0%Q (map this (dat (pT (data t1)))) <> hd 0%Q (map this (dat (pT (data t2))))
          | _, _ => False end) by (vm_compute; discriminate).
  rewrite E1, E2 in B.
  exists (place_solver 1 1), gauss_gesv, (fresh_tree (quad 1)), st1, t1, st2, t2.
  split; [exact gauss_gesv_contract|]. split; [cbn; auto|].
  split; [intros G HG; cbn in HG; destruct HG as [<-|[<-|[<-|[<-|[]]]]]; apply place_affine; reflexivity|].
  split; [exact E1|]. split; [exact E2|]. intros H. apply B. rewrite H. reflexivity.
Qed.

(** [C23] If the solver's operator is the same on all leaves, the cache (empty or
    already filled with that operator) changes nothing: same tree, or the same
    failure.  Missing: solvers whose operator depends on the leaf, see
    [cache_refuted]. *)
Lemma cache_partial_pf : forall sv gesv T0 t,
  (forall G, In G (leaf_grids t) -> sv_build sv G = Ok T0) ->
  forall st, st = None \/ st = Some T0 ->
  same (fun r r' => snd r = snd r')
    (buildStage sv gesv true st t) (buildStage sv gesv false None t).
Proof.
  intros sv gesv T0 t H st Hs. eapply same_impl; [apply (cache_ok sv gesv T0 t H st Hs)|]. intros a b (_ & E). exact E.
Qed.

Lemma cache_example_expf :
  (forall G, In G (leaf_grids (fresh_tree (ex_tree 3))) -> sv_build (toy 3) G = Ok (toy_T 3)) /\
  length (leaf_grids (fresh_tree (ex_tree 3))) = 7 /\
  is_ok (buildStage (toy 3) gauss_gesv true None (fresh_tree (ex_tree 3))).
Proof.
  split; [reflexivity|]. split; [reflexivity|].
  destruct (sizes_ok 3 (toy 3) gauss_gesv (ex_load 3) (ex_tree 3) (fresh_tree (ex_tree 3)) true true (zeros 24))
        as (x1 & x2 & x3 & x4 & X & _);
    [auto|exact gauss_gesv_contract|apply ex_tree_fresh|exact (sized_of_good 3 (toy 3) (ex_tree 3) (ex_tree_good 3))|reflexivity|].
  exists (x1, x2). exact X.
Qed.

(** [C24] On every freshly created quadtree with leaf side m >= 3 and a solver
    returning results of the right sizes, all three stages run through, with any
    option settings.  After the build any four siblings have the same resolution,
    the smallest of their four sides, and their operators have that size; leaves
    are not coarsened. *)
Lemma coarsening_sizes_pf : forall m sv gesv load s t cache hom g,
  3 <= m -> gesv_contract gesv -> fresh load s t -> sized_leaves m sv s ->
  length g = 4 * (m * 2 ^ level s) ->
  exists st1 t1 t2 t3,
    buildStage sv gesv cache None t = Ok (st1, t1) /\ siblings_meet t1 /\
    gnx (pgrid (data t1)) = m * 2 ^ level s /\
    upwardsStage sv gesv hom load t1 = Ok t2 /\ solveStage sv hom g t2 = Ok t3.
Proof. exact sizes_ok. Qed.

Lemma coarsening_example_expf :
  fresh (ex_load 3) (ex_tree 3) (fresh_tree (ex_tree 3)) /\ sized_leaves 3 (toy 3) (ex_tree 3) /\
  level (ex_tree 3) = 1 /\
  match buildStage (toy 3) gauss_gesv false None (fresh_tree (ex_tree 3)) with
  | Ok (_, Node p a b c d) => (pnc (data a), gnx (pgrid (data a)), psize (data a)) = (1, 6, 3) /\
      (pnc (data b), gnx (pgrid (data b)), psize (data b)) = (0, 3, 3)
  | _ => False
  end.
Proof.
  split; [apply ex_tree_fresh|]. split; [exact (sized_of_good 3 (toy 3) (ex_tree 3) (ex_tree_good 3))|].
  split; [reflexivity|]. vm_compute. split; reflexivity.
Qed.

(** [C25] The data g that solveStage computes from a, b, r satisfies
    a g + b (T g + h) = r at the middle of every boundary cell of the root. *)
Lemma mixed_boundary_pf : forall gesv a b r p N,
  gesv_contract gesv -> N <> 0 -> gnx (pgrid p) = N -> gny (pgrid p) = N ->
  square (4 * N) (pT p) -> length (ph p) = 4 * N -> mixed_unique N (pgrid p) (pT p) a b ->
  exists g, root_data gesv a b r p = Ok g /\ length g = 4 * N /\
    mixed_condition N (pgrid p) a b r g (vplus (apply_op (pT p) g) (ph p)).
Proof. exact mixed_ok. Qed.

(** [C25] With a = 1 and b = 0 the data is r itself. *)
Lemma dirichlet_boundary_pf : forall gesv r p N,
  gesv_contract gesv -> N <> 0 -> gnx (pgrid p) = N -> gny (pgrid p) = N ->
  square (4 * N) (pT p) -> length (ph p) = 4 * N ->
  exists g, root_data gesv (fun _ _ _ => 1%Qc) (fun _ _ _ => 0%Qc) r p = Ok g /\ length g = 4 * N /\
    forall n i, n < 4 -> i < N -> vval g (n * N + i) = at_side (pgrid p) r n i.
Proof.
  intros gesv r p N Hg HN Ex Ey HT Lh.
  destruct (mixed_ok gesv (fun _ _ _ => 1%Qc) (fun _ _ _ => 0%Qc) r p N Hg HN Ex Ey HT Lh (dirichlet_unique N _ _)) as (g & E & L & M).
  exists g. split; [exact E|]. split; [exact L|]. intros n i Hn Hi. rewrite <- (M n i Hn Hi). unfold at_side. ring.
Qed.

(** [C25] The whole solver with mixed boundary conditions: it returns the solution of
    the glued problem whose boundary data and boundary flux satisfy them. *)
Lemma mixed_solution_pf : forall m sv gesv load s t st a b r,
  1 <= m -> gesv_contract gesv -> fresh load s t -> good_leaves m sv s -> well_posed m sv s ->
  3 <= m \/ equal_levels s ->
  let N := m * 2 ^ level s in
  exists st1 t1 t2,
    buildStage sv gesv false st t = Ok (st1, t1) /\ upwardsStage sv gesv false load t1 = Ok t2 /\
    (mixed_unique N (pgrid (data t2)) (pT (data t2)) a b ->
     exists t3 U g h, solveStage_fn sv gesv false a b r t2 = Ok t3 /\
       glued m (solver_leaf sv) s g h U /\ computed_values t3 = leaf_values U /\
       mixed_condition N (pgrid (data t2)) a b r g h).
Proof.
  intros m sv gesv load s t st a b r Hm Hge HF Hg HW H3 N.
  assert (Hm' : m <> 0) by lia.
  destruct (build_ok m sv gesv load s t (build_leaf sv false) st Hm' Hge (build_leaf_off sv m) HF Hg HW H3)
    as (st1 & t1 & E1 & B1).
  destruct (up_ok m sv gesv load s 0 t1 Hm' Hge (fresh_loads _ _ _ HF) Hg B1) as (t2 & E2 & B2 & P2 & _).
  exists st1, t1, t2. split; [exact E1|]. split; [unfold upwardsStage; rewrite E2; reflexivity|]. intros HU.
  destruct (built_root m sv 0 s t2 Hm' Hg B2) as (N2 & X2 & S2 & _). rewrite Nat.sub_0_r in S2. fold N in X2, S2.
  assert (HN : N <> 0) by (unfold N; pose proof (pow_pos (level s)); nia).
  assert (Y2 : gny (pgrid (data t2)) = N).
  { pose proof (up_keeps _ _ _ _ _ _ E2) as K. cbn [snd] in K. destruct (trel_data _ _ _ K) as (K0 & _).
    destruct (ops_inj _ _ K0) as (<- & _). destruct t1 as [p|p ta tb tc td].
    - destruct s as [G f|]; [|destruct B1]. destruct B1 as (_ & EG & _). destruct Hg as ([_ Ey _] & _).
      cbn [data]. rewrite EG, Ey. unfold N. cbn [level Nat.pow]. lia.
    - cbn [data]. rewrite (build_gny _ _ _ _ _ _ _ _ _ _ _ E1).
      destruct s as [|sa sb sc sd]; [destruct B1|]. destruct Hg as (Ga & Gb & Gc & Gd).
      destruct B1 as (Ba & Bb & Bc & Bd & _).
      destruct (built_root m sv _ sa ta Hm' Ga Ba) as (Na & Xa & _).
      destruct (built_root m sv _ sc tc Hm' Gc Bc) as (Nc & Xc & _).
      destruct (min_level_le sa sb sc sd) as (La & Lb & Lc & Ld).
      unfold psize. rewrite Na, Xa, Nc, Xc.
      rewrite <- (scale_level m (min_level sa sb sc sd) (level sa)) by auto.
      rewrite <- (scale_level m (min_level sa sb sc sd) (level sc)) by auto.
      rewrite !Nat.div_mul by (apply Nat.pow_nonzero; lia).
      unfold N. change (level (QNode sa sb sc sd)) with (S (min_level sa sb sc sd)). rewrite Nat.pow_succ_r'. lia. }
  destruct (upped_aff m sv _ _ s t2 Hm' Hg B2 P2) as (T0 & h0 & (_ & Lh0 & _ & Hu) & R & Eh).
  rewrite Nat.sub_0_r in R. cbn [coarsen_by] in Eh. fold N in Lh0, R.
  destruct (mixed_ok gesv a b r (data t2) N Hge HN X2 Y2 S2) as (g & Eg & Lg & MC); [rewrite Eh; exact Lh0|exact HU|].
  destruct (solve_ok m sv s 0 t2 g Hm' Hg B2 P2) as (t3 & U & h & E3 & G & V); [rewrite Nat.sub_0_r; auto|].
  exists t3, U, g, h. split; [unfold solveStage_fn; rewrite Eg, bind_Ok; exact E3|]. split; [exact G|]. split; [exact V|].
  cbn [refine_by] in G. rewrite (Hu _ _ _ G), <- Eh. destruct R as (_ & R). cbn [coarsen_by refine_by] in R. rewrite <- R by auto. exact MC.
Qed.

(** A boundary system with a = 1, b = 1 on one patch of side 1. *)
Lemma mixed_example_expf :
  let p := ex_patch (ex_grid 1 0 0 1) (toy_T 1) (ones 4) in
  square 4 (pT p) /\ length (ph p) = 4 /\
  mixed_unique 1 (pgrid p) (pT p) (fun n _ _ => Qc_of_nat n) (fun _ _ _ => 1%Qc) /\
  match root_data gauss_gesv (fun n _ _ => Qc_of_nat n) (fun _ _ _ => 1%Qc) (fun _ x y => (x + y)%Qc) p with
  | Ok g => map this g = [4 # 7; 10 # 21; 20 # 21; 5 # 14]%Q
  | _ => False
  end.
Proof.
  cbv zeta. split; [apply (toy_square 1)|]. split; [reflexivity|]. split; [|vm_compute; reflexivity].
  intros g Lg H.
  set (M := mat_of 4 4 (fun i j => ((if i =? j then Qc_of_nat i else 0) + val (toy_T 1) i j)%Qc)).
  assert (K : nonsingular M) by (apply nonsing_b_ok; [apply mat_of_wf|reflexivity|vm_cast_no_check (eq_refl true)]).
  destruct K as (_ & _ & K). apply zeros_eq; [exact Lg|]. apply (K (vval g)). intros i Hi. change (nr M) with 4 in *.
  assert (Hi' : i < 4) by exact Hi.
  pose proof (H i 0 Hi' Nat.lt_0_1) as E. unfold at_side in E. rewrite Nat.mul_1_r, Nat.add_0_r in E.
  rewrite apply_op_vec, vval_vec_of in E by exact Hi'. refine (eq_trans _ E). change (nc (pT _)) with 4.
  rewrite (sum_ext _ _ (fun j => (if i =? j then Qc_of_nat i else 0) * vval g j + val (toy_T 1) i j * vval g j)%Qc).
  2:{ intros j Hj. unfold M. rewrite val_mat_of by (exact Hi' || exact Hj). ring. }
  rewrite sum_plus, (sum_single _ i) by first [exact Hi' | intros j Hj Hne; destruct (Nat.eqb_spec i j); [congruence|ring]].
  rewrite Nat.eqb_refl. cbn [pT ex_patch]. ring.
Qed.

(** [C26] With homogeneous-rhs the stages give the same data and solutions on the leaves as without
    the option and with zero load, when solveStage is given the boundary data.
    [load'] is whatever load the callback supplies under the option.  Missing:
    solveStage with boundary functions, see [homogeneous_refuted]. *)
Lemma homogeneous_partial_pf : forall m sv gesv load load' s t st g,
  m <> 0 -> gesv_contract gesv -> fresh load s t -> good_leaves m sv s -> well_posed m sv s ->
  3 <= m \/ equal_levels s -> at_rest m sv s -> (forall G, length (load' G) = gnx G * gny G) ->
  length g = 4 * (m * 2 ^ level s) ->
  exists st1 t1 t2 t3 t2' t3',
    buildStage sv gesv false st t = Ok (st1, t1) /\
    upwardsStage sv gesv false load t1 = Ok t2 /\ solveStage sv false g t2 = Ok t3 /\
    upwardsStage sv gesv true load' t1 = Ok t2' /\ solveStage sv true g t2' = Ok t3' /\
    computed_values t3' = computed_values t3.
Proof. exact homogeneous_ok. Qed.

(** [C26] With boundary functions, even for plain Dirichlet data, the stage throws
    on a refined mesh: under the option the root has no flux vector. *)
Lemma homogeneous_refuted_pf : exists m sv gesv t r,
  gesv_contract gesv /\ not_coarsened t /\
  (forall G, In G (leaf_grids t) -> affine_solver m sv G /\ sv_h sv G (zeros (m * m)) = Ok (zeros (4 * m))) /\
  (exists st1 t1 t2 t3, buildStage sv gesv false None t = Ok (st1, t1) /\
     upwardsStage sv gesv false (fun G => zeros (gnx G * gny G)) t1 = Ok t2 /\
     solveStage_fn sv gesv false (fun _ _ _ => 1%Qc) (fun _ _ _ => 0%Qc) r t2 = Ok t3) /\
  (exists st1 t1 t2, buildStage sv gesv false None t = Ok (st1, t1) /\
     upwardsStage sv gesv true (fun G => zeros (gnx G * gny G)) t1 = Ok t2 /\
     solveStage_fn sv gesv true (fun _ _ _ => 1%Qc) (fun _ _ _ => 0%Qc) r t2 = Throw invalid_argument).
Proof.
  exists 1, dsolver, gauss_gesv, (fresh_tree (quad 1)), (fun _ x y => (x + y)%Qc).
  split; [exact gauss_gesv_contract|]. split; [cbn; auto|].
  split; [intros G HG; cbn in HG; destruct HG as [<-|[<-|[<-|[<-|[]]]]]; (split; [apply d_affine; reflexivity|reflexivity])|].
  assert (B : match buildStage dsolver gauss_gesv false None (fresh_tree (quad 1)) with
    | Ok (_, t1) =>
        match upwardsStage dsolver gauss_gesv false (fun G => zeros (gnx G * gny G)) t1, upwardsStage dsolver gauss_gesv true (fun G => zeros (gnx G * gny G)) t1 with
        | Ok t2, Ok t2' =>
            match solveStage_fn dsolver gauss_gesv false (fun _ _ _ => 1%Qc) (fun _ _ _ => 0%Qc) (fun _ x y => (x + y)%Qc) t2,
                  solveStage_fn dsolver gauss_gesv true (fun _ _ _ => 1%Qc) (fun _ _ _ => 0%Qc) (fun _ x y => (x + y)%Qc) t2' with
            | Ok _, Throw invalid_argument => true
            | _, _ => false
            end
        | _, _ => false
        end
    | _ => false end = true) by (vm_cast_no_check (eq_refl true)).
  destruct (buildStage dsolver gauss_gesv false None (fresh_tree (quad 1))) as [[st1 t1]| |]; try discriminate B.
  destruct (upwardsStage dsolver gauss_gesv false _ t1) as [t2| |] eqn:E2; try discriminate B.
  destruct (upwardsStage dsolver gauss_gesv true _ t1) as [t2'| |] eqn:E2'; try discriminate B.
  destruct (solveStage_fn dsolver gauss_gesv false _ _ _ t2) as [t3| |] eqn:E3; try discriminate B.
  destruct (solveStage_fn dsolver gauss_gesv true _ _ _ t2') as [t3'|e|] eqn:E3'; try discriminate B.
  destruct e; try discriminate B.
  split; [exists st1, t1, t2, t3; auto|exists st1, t1, t2'; auto].
Qed.

Lemma homogeneous_example_expf :
  let s := problem (fun G => zeros 9) (fresh_tree (ex_tree 3)) in
  fresh (fun G => zeros 9) s (fresh_tree (ex_tree 3)) /\ good_leaves 3 (toy 3) s /\ well_posed 3 (toy 3) s /\
  at_rest 3 (toy 3) s.
Proof.
  cbv zeta. split; [cbn; auto 20|].
  split; [cbn; repeat (split; try reflexivity; try (apply toy_affine; reflexivity))|].
  split; [apply (wp_loads 3 (toy 3) (ex_load 3)); exact ex_tree_wp|].
  assert (Z : toy_h 3 (zeros 9) = zeros 12).
  { apply zeros_eq; [apply vec_of_length|]. intros i Hi. unfold toy_h. rewrite vval_vec_of by exact Hi.
    rewrite sum_zero; [ring|]. intros k Hk. rewrite vval_zeros. ring. }
  assert (Z' : sv_h (toy 3) (ex_grid 3 0 0 0) (zeros 9) = Ok (zeros 12)) by (cbn [sv_h toy]; rewrite Z; reflexivity).
  cbn [problem fresh_tree ex_tree ex_leaf at_rest pgrid ex_patch]. repeat split; exact Z'.
Qed.

(** [C55] Solving with the loads l1 + c l2 and the data g1 + c g2 gives, on every
    leaf, the data and solution of the first problem plus c times those of the
    second. *)
Lemma superposition_pf : forall m sv gesv c l1 l2 t st g1 g2,
  let l3 := fun G => lin c (l1 G) (l2 G) in
  m <> 0 -> gesv_contract gesv -> not_coarsened t ->
  (forall G, In G (leaf_grids t) -> affine_solver m sv G /\ linear_solver m sv G /\
     length (l1 G) = m * m /\ length (l2 G) = m * m) ->
  well_posed m sv (problem l1 t) -> 3 <= m \/ equal_levels (problem l1 t) ->
  length g1 = 4 * (m * 2 ^ level (problem l1 t)) -> length g2 = length g1 ->
  exists st1 t0 a1 a2 a3 b1 b2 b3,
    buildStage sv gesv false st t = Ok (st1, t0) /\
    upwardsStage sv gesv false l1 t0 = Ok a1 /\ solveStage sv false g1 a1 = Ok b1 /\
    upwardsStage sv gesv false l2 t0 = Ok a2 /\ solveStage sv false g2 a2 = Ok b2 /\
    upwardsStage sv gesv false l3 t0 = Ok a3 /\ solveStage sv false (lin c g1 g2) a3 = Ok b3 /\
    length (computed_values b1) = length (leaf_grids t) /\ length (computed_values b2) = length (leaf_grids t) /\
    computed_values b3 = lin_values c (computed_values b1) (computed_values b2).
Proof. exact superposition. Qed.

Lemma toy_linear m G : linear_solver m (toy m) G.
Proof.
  intros c f1 g1 f2 g2 u1 h1 u2 h2 Lf1 Lf2 Lg1 Lg2 E1 M1 E2 M2. cbn [toy sv_solve sv_map] in *.
  apply Ok_inj in E1, M1, E2, M2. subst u1 h1 u2 h2.
  assert (Lf : length f1 = length f2) by congruence. assert (Lg : length g1 = length g2) by congruence.
  split; f_equal.
  - apply vval_ext; [rewrite lin_length; unfold toy_u; rewrite !vec_of_length; reflexivity|].
    unfold toy_u at 1. rewrite vec_of_length. intros i Hi.
    rewrite vval_lin by (unfold toy_u; rewrite !vec_of_length; reflexivity). unfold toy_u. rewrite !vval_vec_of by auto.
    rewrite (sum_ext _ _ (fun k => Qc_of_nat (i + k) * vval g1 k + c * (Qc_of_nat (i + k) * vval g2 k))%Qc).
    2:{ intros k Hk. rewrite vval_lin by auto. ring. }
    rewrite sum_plus, sum_scal_l, vval_lin by auto. ring.
  - apply vval_ext; [rewrite lin_length, !vplus_length, !apply_op_length; reflexivity|].
    intros i Hi. rewrite vplus_length, apply_op_length in Hi. change (nr (toy_T m)) with (4 * m) in Hi.
    rewrite vval_lin by (rewrite !vplus_length, !apply_op_length; reflexivity).
    rewrite !vval_vplus by (rewrite apply_op_length; auto).
    rewrite !apply_op_vec, !vval_vec_of by auto. unfold toy_h. rewrite !vval_vec_of by auto.
    rewrite (sum_ext _ _ (fun k => val (toy_T m) i k * vval g1 k + c * (val (toy_T m) i k * vval g2 k))%Qc).
    2:{ intros k Hk. rewrite vval_lin by auto. ring. }
    rewrite (sum_ext _ (fun k => Qc_of_nat k * vval (lin c f1 f2) k)%Qc (fun k => Qc_of_nat k * vval f1 k + c * (Qc_of_nat k * vval f2 k))%Qc).
    2:{ intros k Hk. rewrite vval_lin by auto. ring. }
    rewrite !sum_plus, !sum_scal_l. ring.
Qed.

Lemma superposition_example_expf :
  not_coarsened (fresh_tree (ex_tree 3)) /\
  (forall G, In G (leaf_grids (fresh_tree (ex_tree 3))) ->
     affine_solver 3 (toy 3) G /\ linear_solver 3 (toy 3) G /\ length (ex_load 3 G) = 9 /\ length (ones 9) = 9) /\
  well_posed 3 (toy 3) (problem (ex_load 3) (fresh_tree (ex_tree 3))).
Proof.
  split; [cbn; auto 20|]. split; [|exact ex_tree_wp].
  intros G HG. split; [apply toy_affine; cbn in HG; decompose [or] HG; subst; try reflexivity; contradiction|].
  split; [apply toy_linear|]. split; reflexivity.
Qed.
