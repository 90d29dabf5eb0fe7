(** Leaves with two cells per side. *)
From Verif Require Import Base VectorModel MatrixModel LinSpec HPSModel HPSSpec FVModel FVSpec GlobalSpec StageSpec AdaptSpec.
From Verif Require Import MatProofs MatProofs2 LinProofs Gauss LinProps HPSProofs HPSProofs2 HPSProofs3 HPSProofs4 HPSTree HPSTree2 HPSStage2 HPSProps.
From Verif Require Import FVProofs FVProofs2 FVProofs3 FVMax FVJoin FVGlobal FVFish FVProps AdaptCert AdaptProofs AdaptPlane AdaptEnd AdaptProps.
From Coq Require Import Lia.

(** The interpolation from two to four values ends with a row of zeros. *)
Lemma two_to_four : exists L, Coarse2Fine 4 = Ok L /\ well_formed L /\ nr L = 4 /\ nc L = 2 /\
  forall v, exists x y z, apply_op L v = [x; y; z; 0%Qc].
Proof.
  eexists. split; [vm_compute; reflexivity|]. split; [reflexivity|]. split; [reflexivity|]. split; [reflexivity|].
  intros v. unfold apply_op. cbn [nr nc seq map]. do 3 eexists. reflexivity.
Qed.

Lemma two_uncoarsen p : pnc p = 1 -> gnx (pgrid p) = 4 -> length (pg p) = 8 ->
  exists a0 a1 a2 b0 b1 b2 c0 c1 c2 d0 d1 d2,
    uncoarsen p = Ok (set_g p [a0; a1; a2; 0; b0; b1; b2; 0; c0; c1; c2; 0; d0; d1; d2; 0]%Qc).
Proof.
  intros Hp Hx Lg. destruct two_to_four as (L & E & W & N & C & Z).
  destruct (four_diag_apply L W) as (M & EM & WM & NM & CM & AM). rewrite C in CM, AM.
  unfold uncoarsen. rewrite Hp. cbn [seq foldM]. rewrite Hx. change (4 / 2 ^ (pnc p - (0 + 1))) with (4 / 2 ^ (pnc p - 1)).
  rewrite Hp. change (4 / 2 ^ (1 - 1)) with 4. rewrite E, bind_Ok, EM, bind_Ok.
  rewrite apply_op_mulv by (auto; lia). rewrite !bind_Ok. rewrite (AM (pg p) Lg). cbn [map concat].
  destruct (Z (piece 2 (pg p) 0)) as (a0 & a1 & a2 & ->). destruct (Z (piece 2 (pg p) 1)) as (b0 & b1 & b2 & ->).
  destruct (Z (piece 2 (pg p) 2)) as (c0 & c1 & c2 & ->). destruct (Z (piece 2 (pg p) 3)) as (d0 & d1 & d2 & ->).
  exists a0, a1, a2, b0, b1, b2, c0, c1, c2, d0, d1, d2. reflexivity.
Qed.

(** [C79] When a patch whose four children have two cells per side meets a coarser
    sibling, its boundary data are interpolated from two to four values per side.
    Whatever the data are, the last value of each side is lost: the children get 0 at
    the north end of the west and east sides and at the east end of the south and
    north sides. *)
Lemma two_cells_lose_data_pf : forall hom tau ch,
  psize (fa ch) = 2 -> well_formed (pS tau) -> nr (pS tau) = 8 -> nc (pS tau) = 16 ->
  (hom = false -> length (pw tau) = 8) ->
  pnc tau = 1 -> gnx (pgrid tau) = 4 -> length (pg tau) = 8 ->
  exists tau' ch', split1to4 hom tau ch = Ok (tau', ch') /\
    vval (pg (fc ch')) 1 = 0%Qc /\ vval (pg (fd ch')) 3 = 0%Qc /\
    vval (pg (fb ch')) 5 = 0%Qc /\ vval (pg (fd ch')) 7 = 0%Qc.
Proof.
  intros hom tau ch Hs WS NS CS Lw Hp Hx Lg. unfold split1to4.
  destruct (two_uncoarsen tau Hp Hx Lg) as (a0 & a1 & a2 & b0 & b1 & b2 & c0 & c1 & c2 & d0 & d1 & d2 & ->). rewrite bind_Ok.
  match goal with |- context [set_g tau ?l] => set (g := l) end.
  pose proof (applyS_ok hom (set_g tau g) ch 2 ltac:(discriminate) Hs WS NS CS eq_refl Lw) as E. cbv zeta in E. cbn [pg set_g pS pw] in E.
  assert (Lu : length (if hom then apply_op (pS tau) g else vplus (apply_op (pS tau) g) (pw tau)) = 8)
    by (destruct hom; rewrite ?vplus_length, apply_op_length; exact NS).
  destruct (if hom then apply_op (pS tau) g else vplus (apply_op (pS tau) g) (pw tau))
    as [|u0 [|u1 [|u2 [|u3 [|u4 [|u5 [|u6 [|u7 [|u8 u]]]]]]]]]; try discriminate Lu.
  rewrite E, bind_Ok. do 2 eexists. split; [reflexivity|]. repeat split; reflexivity.
Qed.

(** Laplace's equation on the unit square with its lower left quarter divided once
    more, zero load. *)
Definition nothing (x y : Qc) : Qc := 0%Qc.
Definition small_tree : qtree := adapted nothing 2 unit_square.
Definition run_stages lu c gesv G load m (s : qtree) (t : tree) (F : Qc -> Qc -> Qc) : res tree :=
  '(st, t1) <- buildStage (fv_solver lu c) gesv false None t ;;
  t2 <- upwardsStage (fv_solver lu c) gesv false load t1 ;;
  solveStage (fv_solver lu c) false (on_boundary F (rect (m * 2 ^ level s) G)) t2.
Lemma run_stages_inv lu c gesv G load m s t F t3 : run_stages lu c gesv G load m s t F = Ok t3 ->
  exists st1 t1 t2,
    buildStage (fv_solver lu c) gesv false None t = Ok (st1, t1) /\
    upwardsStage (fv_solver lu c) gesv false load t1 = Ok t2 /\
    solveStage (fv_solver lu c) false (on_boundary F (rect (m * 2 ^ level s) G)) t2 = Ok t3.
Proof.
  intros E. apply bind_inv in E. destruct E as ((st1 & t1) & E1 & E). apply bind_inv in E. destruct E as (t2 & E2 & E3).
  exists st1, t1, t2. auto.
Qed.

Lemma small_oriented : oriented (rect 2 unit_square).
Proof. repeat split; try discriminate; reflexivity. Qed.

Definition last_cell (t : tree) : Qc := vval (snd (nth 3 (computed_values t) ([], []))) 3.
Definition not_one (r : res tree) : bool :=
  match r with Ok t3 => negb (Qeq_bool (this (last_cell t3)) 1) | _ => false end.
Lemma not_one_inv r : not_one r = true -> exists t3, r = Ok t3 /\ last_cell t3 <> 1%Qc.
Proof.
  destruct r as [t3| |]; try discriminate. cbn [not_one]. intros H. exists t3. split; [reflexivity|].
  intros E. rewrite E in H. discriminate H.
Qed.
Lemma small_check : not_one (run_stages lu_gauss (helmholtz 0) gauss_gesv unit_square (sampled nothing) 2 small_tree
  (fresh_tree small_tree) (plane 1 0 0)) = true.
Proof. vm_cast_no_check (eq_refl true). Qed.

(** [C79] Laplace's equation without load and with boundary data 1 on seven leaves of
    two by two cells: every stage runs, and the result is not the constant 1.  With
    three or more cells per side it is, see [linear_exact]. *)
Lemma two_cell_leaves_refuted_pf : exists m lu c gesv G load s t,
  2 <= m /\ lu_contract lu /\ gesv_contract gesv /\ right_signs c /\ oriented (rect m G) /\ tiled m G s /\ fresh load s t /\
  (forall G' f, In (G', f) (leaves s) -> plane_load c G' 1 0 0 f) /\
  exists st1 t1 t2 t3,
    buildStage (fv_solver lu c) gesv false None t = Ok (st1, t1) /\
    upwardsStage (fv_solver lu c) gesv false load t1 = Ok t2 /\
    solveStage (fv_solver lu c) false (on_boundary (plane 1 0 0) (rect (m * 2 ^ level s) G)) t2 = Ok t3 /\
    computed_values t3 <> map (fun z => (on_boundary (plane 1 0 0) (fst z), sampled (plane 1 0 0) (fst z))) (leaves s).
Proof.
  exists 2, lu_gauss, (helmholtz 0), gauss_gesv, unit_square, (sampled nothing), small_tree, (fresh_tree small_tree).
  split; [lia|]. split; [exact lu_gauss_contract|]. split; [exact gauss_gesv_contract|]. split; [exact laplace_signs|].
  split; [exact small_oriented|]. split; [apply adapted_tiled|]. split; [apply adapted_fresh|]. split.
  { intros G f HI.
    assert (E : gnx G = 2 /\ gny G = 2 /\ f = sampled nothing G).
    { cbn [small_tree adapted leaves app In] in HI. repeat (destruct HI as [HI|HI]; [injection HI as <- <-; auto|]). destruct HI. }
    destruct E as (Ex & Ey & ->). intros i j Hi Hj. cbv zeta. unfold cell, sampled, nothing. rewrite map_seq_vec, vval_vec_of by nia.
    cbn [helmholtz c_alpha c_beta c_lambda]. unfold Qcdiv. ring. }
  destruct (not_one_inv _ small_check) as (t3 & E & H).
  destruct (run_stages_inv _ _ _ _ _ _ _ _ _ _ E) as (st1 & t1 & t2 & E1 & E2 & E3).
  exists st1, t1, t2, t3. split; [exact E1|]. split; [exact E2|]. split; [exact E3|].
  intros C. apply H. unfold last_cell. rewrite C. apply Qc_is_canon. reflexivity.
Qed.

(** [C79] Two cells per side are enough where siblings are refined equally. *)
Lemma two_cells_equal_levels_partial_pf : forall lu c gesv G load s t st p q r,
  lu_contract lu -> gesv_contract gesv -> right_signs c -> oriented (rect 2 G) -> tiled 2 G s ->
  fresh load s t -> well_posed 2 (fv_solver lu c) s -> equal_levels s ->
  (forall G' f, In (G', f) (leaves s) -> plane_load c G' p q r f) ->
  exists st1 t1 t2 t3,
    buildStage (fv_solver lu c) gesv false st t = Ok (st1, t1) /\
    upwardsStage (fv_solver lu c) gesv false load t1 = Ok t2 /\
    solveStage (fv_solver lu c) false (on_boundary (plane p q r) (rect (2 * 2 ^ level s) G)) t2 = Ok t3 /\
    computed_values t3 = map (fun z => (on_boundary (plane p q r) (fst z), sampled (plane p q r) (fst z))) (leaves s).
Proof.
  intros lu c gesv G load s t st p q r HL HG HS HO HT HF HW HE HP.
  destruct (linear_exact_pf 2 lu c gesv G load s t st p q r) as (st1 & t1 & t2 & t3 & E1 & E2 & E3 & E4 & _); auto.
  exists st1, t1, t2, t3. auto.
Qed.

(** The hypotheses of the last theorem hold for four leaves of the unit square and any
    load function. *)
Definition four_tree (rhs : Qc -> Qc -> Qc) : qtree :=
  let leaf G := QLeaf (rect 2 G) (sampled rhs (rect 2 G)) in
  QNode (leaf (quarter 2 unit_square false false)) (leaf (quarter 2 unit_square true false))
        (leaf (quarter 2 unit_square false true)) (leaf (quarter 2 unit_square true true)).
Lemma two_cells_example_expf : forall rhs,
  lu_contract lu_gauss /\ gesv_contract gauss_gesv /\ right_signs (helmholtz 0) /\ oriented (rect 2 unit_square) /\
  tiled 2 unit_square (four_tree rhs) /\ fresh (sampled rhs) (four_tree rhs) (fresh_tree (four_tree rhs)) /\
  well_posed 2 (fv_solver lu_gauss (helmholtz 0)) (four_tree rhs) /\ equal_levels (four_tree rhs) /\
  forall p q r G f, In (G, f) (leaves (four_tree (fun _ _ => 0%Qc))) -> plane_load (helmholtz 0) G p q r f.
Proof.
  intros rhs. split; [exact lu_gauss_contract|]. split; [exact gauss_gesv_contract|]. split; [exact laplace_signs|].
  split; [exact small_oriented|].
  split; [cbn [four_tree tiled]; repeat (split; try apply sampled_length)|]. split; [cbn; repeat split|].
  split.
  { apply (uniform_posed 2 ltac:(lia) (helmholtz 0) laplace_signs (fv_solve lu_gauss (helmholtz 0))) with (l := 1) (G := rect 4 unit_square);
      try reflexivity.
    - intros G O Ex Ey g f Lg Lf. apply (fv_solve_ok G 2 Ex Ey); auto using lu_gauss_contract; [apply orp; exact O|].
      apply maximum_principle; auto using laplace_signs. apply orp. exact O.
    - repeat split; try discriminate; reflexivity.
    - cbn. repeat split. }
  split; [cbn; repeat split|].
  intros p q r G f HI.
  assert (E : gnx G = 2 /\ gny G = 2 /\ f = sampled (fun _ _ => 0%Qc) G).
  { cbn [four_tree leaves app In] in HI. repeat (destruct HI as [HI|HI]; [injection HI as <- <-; auto|]). destruct HI. }
  destruct E as (Ex & Ey & ->). intros i j Hi Hj. cbv zeta. unfold cell, sampled. rewrite map_seq_vec, vval_vec_of by nia.
  cbn [helmholtz c_alpha c_beta c_lambda]. unfold Qcdiv. ring.
Qed.

(** A patch meeting the hypotheses of [two_cells_lose_data]. *)
Lemma two_cells_data_expf :
  let p := Patch (Grid 2 2 0 (Q2Qc (1 # 2)) 0 (Q2Qc (1 # 2))) no_mat no_mat no_mat (mat_of 8 8 (fun _ _ => 1%Qc)) [] [] [] [] [] 0 in
  let tau := Patch (Grid 4 4 0 1 0 1) no_mat no_mat (mat_of 8 16 (fun i j => Qc_of_nat (i + j))) no_mat
               [] (repeat 1%Qc 8) [] [] (repeat 1%Qc 8) 1 in
  psize p = 2 /\ well_formed (pS tau) /\ nr (pS tau) = 8 /\ nc (pS tau) = 16 /\ length (pw tau) = 8 /\
  pnc tau = 1 /\ gnx (pgrid tau) = 4 /\ length (pg tau) = 8.
Proof. repeat split; try reflexivity; apply mat_of_wf. Qed.
