(** Mixed boundary conditions and superposition. *)
From Coq Require Import Permutation.
From Verif Require Import Base VectorModel MatrixModel LinSpec MatProofs MatProofs2 MatProofs3 LinProofs.
From Verif Require Import BlockProofs HPSModel HPSSpec StageSpec HPSProofs HPSProofs2 HPSProofs3 HPSProofs4.
From Verif Require Import HPSTree HPSTree2 HPSHistory HPSStage.

(** * Mixed boundary conditions *)
Lemma Qc_of_nat_pos n : n <> 0 -> Qc_of_nat n <> 0%Qc.
Proof.
  intros H E. apply (f_equal this) in E. unfold Qc_of_nat in E. cbn in E.
  assert (Q : (inject_Z (Z.of_nat n) == 0)%Q) by (rewrite <- (Qred_correct (inject_Z (Z.of_nat n))); exact (eq_ind_r (fun x => (x == 0)%Q) (Qeq_refl 0) E)).
  unfold Qeq in Q. cbn in Q. lia.
Qed.

Lemma two_half : Q2Qc (2 # 1) = (1 + 1)%Qc. Proof. reflexivity. Qed.
Lemma two_nz : (1 + 1 <> 0)%Qc. Proof. discriminate. Qed.

Lemma boundary_point_ok G n i : gnx G <> 0 -> gny G <> 0 -> boundary_point G n i = side_point G n i.
Proof.
  intros Hx Hy. apply Qc_of_nat_pos in Hx, Hy.
  assert (D : forall q : Qc, q <> 0%Qc -> (q + q <> 0)%Qc).
  { intros q Hq E. apply Hq. apply Qcmult_integral_l with (x := (1 + 1)%Qc); [apply two_nz|].
    rewrite <- E. ring. }
  assert (EX : gx G i = (gxl G + (Qc_of_nat i + Qc_of_nat i + 1) * (gxu G - gxl G) / (Qc_of_nat (gnx G) + Qc_of_nat (gnx G)))%Qc).
  { unfold gx, gdx. rewrite two_half. field. repeat split; auto using two_nz. }
  assert (EY : gy G i = (gyl G + (Qc_of_nat i + Qc_of_nat i + 1) * (gyu G - gyl G) / (Qc_of_nat (gny G) + Qc_of_nat (gny G)))%Qc).
  { unfold gy, gdy. rewrite two_half. field. repeat split; auto using two_nz. }
  unfold boundary_point, side_point. cbv zeta. rewrite EX, EY. reflexivity.
Qed.

Lemma boundary_vec_ok G f N : gnx G = N -> gny G = N -> N <> 0 ->
  exists v, boundary_vec G f = Ok v /\ length v = 4 * N /\
    forall n i, n < 4 -> i < N -> vval v (n * N + i) = at_side G f n i.
Proof.
  intros Ex Ey HN. unfold boundary_vec. rewrite concatenate_ok. eexists. split; [reflexivity|].
  set (w := fun n => map (fun i => f n (fst (boundary_point G n i)) (snd (boundary_point G n i))) (seq 0 (gnx G))).
  change (map _ [0; 1; 2; 3]) with (map w [0; 1; 2; 3]).
  assert (L : forall n, length (w n) = N) by (intros; unfold w; rewrite map_length, seq_length; auto).
  split.
  - cbn [map concat]. rewrite !app_length, !L. cbn. lia.
  - intros n i Hn Hi. cbn [map concat]. rewrite app_nil_r.
    assert (V : vval (w n) i = at_side G f n i).
    { unfold w. rewrite vval_map_seq by lia. rewrite boundary_point_ok by lia. reflexivity. }
    rewrite <- V. rewrite !vval_app, !L.
    destruct n as [|[|[|[|]]]]; try lia.
    + destruct (Nat.ltb_spec (0 * N + i) N); [reflexivity|lia].
    + destruct (Nat.ltb_spec (1 * N + i) N); [lia|]. replace (1 * N + i - N) with i by lia.
      destruct (Nat.ltb_spec i N); [reflexivity|lia].
    + destruct (Nat.ltb_spec (2 * N + i) N); [lia|]. destruct (Nat.ltb_spec (2 * N + i - N) N); [lia|].
      replace (2 * N + i - N - N) with i by lia. destruct (Nat.ltb_spec i N); [reflexivity|lia].
    + destruct (Nat.ltb_spec (3 * N + i) N); [lia|]. destruct (Nat.ltb_spec (3 * N + i - N) N); [lia|].
      destruct (Nat.ltb_spec (3 * N + i - N - N) N); [lia|].
      replace (3 * N + i - N - N - N) with i by lia. reflexivity.
Qed.

Lemma split_index N k : k < 4 * N -> exists n i, n < 4 /\ i < N /\ k = n * N + i.
Proof.
  intros H. destruct (Nat.eq_dec N 0) as [->|HN]; [lia|]. exists (k / N), (k mod N).
  split; [apply Nat.div_lt_upper_bound; lia|]. split; [apply Nat.mod_upper_bound; auto|].
  rewrite (Nat.div_mod k N) at 1 by auto. lia.
Qed.

Lemma mixed_ok gesv a b r p N : gesv_contract gesv -> N <> 0 -> gnx (pgrid p) = N -> gny (pgrid p) = N ->
  square (4 * N) (pT p) -> length (ph p) = 4 * N -> mixed_unique N (pgrid p) (pT p) a b ->
  exists g, root_data gesv a b r p = Ok g /\ length g = 4 * N /\
    mixed_condition N (pgrid p) a b r g (vplus (apply_op (pT p) g) (ph p)).
Proof.
  intros Hg HN Ex Ey (WT & RT & CT) Lh HU. unfold root_data. set (G := pgrid p) in *.
  destruct (boundary_vec_ok G r N Ex Ey HN) as (rv & Er & Lr & Vr).
  destruct (boundary_vec_ok G a N Ex Ey HN) as (av & Ea & La & Va).
  destruct (boundary_vec_ok G b N Ex Ey HN) as (bv & Eb & Lb & Vb).
  rewrite Er, bind_Ok, Ea, bind_Ok, Eb, bind_Ok, !DiagonalMatrix_ok, !bind_Ok, La, Lb.
  set (D := fun v : list Qc => mat_of (4 * N) (4 * N) (fun i j => if i =? j then vval v i else 0%Qc)).
  change (mat_of (4 * N) (4 * N) (fun i j => if i =? j then vval bv i else 0%Qc)) with (D bv).
  change (mat_of (4 * N) (4 * N) (fun i j => if i =? j then vval av i else 0%Qc)) with (D av).
  assert (WD : forall v, well_formed (D v)) by (intros; apply mat_of_wf).
  assert (SD : forall v f i, i < 4 * N -> sum (4 * N) (fun j => qent (D v) i j * f j)%Qc = (vval v i * f i)%Qc).
  { intros v f i Hi. rewrite (sum_single (4 * N) i); auto.
    - unfold D. rewrite mat_of_ent, Nat.eqb_refl by auto. reflexivity.
    - intros j Hj Hne. unfold D. rewrite mat_of_ent by auto. destruct (Nat.eqb_spec i j); [congruence|]. ring. }
  rewrite mulv_ok by (auto; cbn; lia). rewrite bind_Ok. cbn [nr nc D mat_of].
  rewrite vsub_ok by (rewrite vec_of_length; lia). rewrite bind_Ok, Lr.
  rewrite mulm_ok by (auto; cbn [nr nc D mat_of]; lia). rewrite bind_Ok. cbn [nr nc D mat_of]. rewrite CT.
  unfold madd, maddeq. rewrite mzipeq_ok; [|apply WD|apply mat_of_wf|reflexivity|reflexivity].
  rewrite bind_Ok. cbn [nr nc D mat_of].
  set (M := mat_of (4 * N) (4 * N) _).
  assert (QM : forall i j, i < 4 * N -> j < 4 * N -> qent M i j = ((if i =? j then vval av i else 0) + vval bv i * val (pT p) i j)%Qc).
  { intros i j Hi Hj. unfold M. rewrite mat_of_ent by auto.
    unfold D at 1. rewrite mat_of_ent by auto. f_equal.
    rewrite mat_of_ent by auto. rewrite (SD bv (fun k => qent (pT p) k j)) by auto.
    rewrite val_ent by (auto; lia). reflexivity. }
  assert (SM : forall f i, i < 4 * N -> sum (4 * N) (fun j => qent M i j * f j)%Qc =
      (vval av i * f i + vval bv i * sum (4 * N) (fun j => val (pT p) i j * f j))%Qc).
  { intros f i Hi.
    rewrite (sum_ext _ _ (fun j => ((if i =? j then vval av i else 0) * f j + vval bv i * (val (pT p) i j * f j))%Qc)).
    2:{ intros j Hj. rewrite QM by auto. ring. }
    rewrite sum_plus, sum_scal_l. f_equal. rewrite (sum_single (4 * N) i); auto.
    - rewrite Nat.eqb_refl. reflexivity.
    - intros j Hj Hne. destruct (Nat.eqb_spec i j); [congruence|]. ring. }
  assert (NS : nonsingular M).
  { split; [apply mat_of_wf|]. split; [reflexivity|]. cbn [nr M mat_of]. intros z Hz j Hj.
    assert (Z : vec_of (4 * N) z = zeros (4 * N)).
    { apply HU; [apply vec_of_length|]. intros n i Hn Hi.
      assert (Hk : n * N + i < 4 * N) by nia.
      rewrite apply_op_vec, RT, !vval_vec_of by auto. rewrite <- Va, <- Vb by auto.
      change (at_side (pgrid p) (fun _ _ _ => 0%Qc) n i) with 0%Qc.
      refine (eq_trans _ (Hz (n * N + i) Hk)).
      transitivity (sum (4 * N) (fun j => qent M (n * N + i) j * z j)%Qc).
      2:{ apply sum_ext. intros k Hk'. rewrite val_ent; [reflexivity|apply mat_of_wf|auto|auto]. }
      rewrite SM by auto. rewrite CT. f_equal. f_equal. apply sum_ext. intros k Hk'. rewrite vval_vec_of by auto. reflexivity. }
    rewrite <- (vval_vec_of (4 * N) z j Hj), Z. apply vval_zeros. }
  destruct (solvev_ok gesv M (vec_of (4 * N) (fun i => vval rv i - vval (vec_of (4 * N) (fun i0 => sum (4 * N) (fun j => qent (D bv) i0 j * vval (ph p) j))) i)%Qc) Hg NS)
    as (g & E & Lx & Hx); [cbn [nr M mat_of]; lia|rewrite vec_of_length; reflexivity|].
  exists g. split; [exact E|]. cbn [nr M mat_of] in Lx, Hx. split; [exact Lx|].
  intros n i Hn Hi. assert (Hk : n * N + i < 4 * N) by nia. specialize (Hx (n * N + i) Hk).
  rewrite SM in Hx by auto. rewrite !vval_vec_of in Hx by auto.
  rewrite SD in Hx by auto.
  rewrite vval_vplus by (rewrite apply_op_length; lia). rewrite apply_op_vec, RT, vval_vec_of by auto. rewrite CT.
  fold G. rewrite <- Va, <- Vb, <- Vr by auto.
  match type of Hx with ?l = ?r => transitivity (l + vval bv (n * N + i) * vval (ph p) (n * N + i))%Qc; [ring|rewrite Hx; ring] end.
Qed.

Lemma dirichlet_unique N G T : mixed_unique N G T (fun _ _ _ => 1%Qc) (fun _ _ _ => 0%Qc).
Proof.
  intros g Lg H. apply zeros_eq; auto. intros k Hk. destruct (split_index N k Hk) as (n & i & Hn & Hi & ->).
  specialize (H n i Hn Hi). unfold at_side in H. rewrite <- H. ring.
Qed.

(** * Superposition *)
Lemma lin_length c v w : length (lin c v w) = length v.
Proof. apply vplus_length. Qed.
Lemma vval_scale c w i : vval (vscale c w) i = (c * vval w i)%Qc.
Proof.
  unfold vval, vscale. destruct (lt_dec i (length w)).
  - rewrite (nth_indep _ 0%Qc (c * 0)%Qc) by (rewrite map_length; auto). apply (map_nth (fun x => (c * x)%Qc)).
  - rewrite !nth_overflow; rewrite ?map_length; try lia. ring.
Qed.
Lemma vval_lin c v w i : length v = length w -> vval (lin c v w) i = (vval v i + c * vval w i)%Qc.
Proof.
  intros L. unfold lin. destruct (lt_dec i (length v)).
  - rewrite vval_vplus, vval_scale by auto. reflexivity.
  - assert (forall x, length x <= i -> vval x i = 0%Qc) as O by (intros; unfold vval; apply nth_overflow; auto).
    rewrite !O; rewrite ?vplus_length; try lia. ring.
Qed.
Lemma lin_app c a b v w : length a = length v -> length b = length w -> lin c (a ++ b) (v ++ w) = lin c a v ++ lin c b w.
Proof.
  intros L1 L2. unfold lin, vscale. rewrite map_app. apply vplus_app; rewrite map_length; auto.
Qed.
Lemma piece_lin c n v w k : length v = length w -> piece n (lin c v w) k = lin c (piece n v k) (piece n w k).
Proof.
  intros L. assert (LP : forall x, length (piece n x k) = Nat.min n (length x - k * n)).
  { intros. unfold piece. rewrite firstn_length, skipn_length. reflexivity. }
  apply vval_ext.
  - rewrite lin_length, !LP, lin_length. reflexivity.
  - intros i Hi. rewrite LP in Hi. rewrite vval_lin by (rewrite !LP, L; reflexivity).
    rewrite !vval_piece by lia. apply vval_lin. auto.
Qed.
Lemma piece_len_eq n v w k : length v = length w -> length (piece n v k) = length (piece n w k).
Proof. intros L. unfold piece. rewrite !firstn_length, !skipn_length, L. reflexivity. Qed.

Lemma refine_side_lin c n v w : length v = length w -> refine_side n (lin c v w) = lin c (refine_side n v) (refine_side n w).
Proof.
  intros L. apply vval_ext.
  - rewrite lin_length. unfold refine_side. rewrite !map_length. reflexivity.
  - unfold refine_side at 1. rewrite map_length, seq_length. intros i Hi.
    rewrite vval_lin by (unfold refine_side; rewrite !map_length; reflexivity).
    unfold refine_side. rewrite !vval_map_seq by auto. unfold fine_value. cbv zeta.
    destruct (i =? 0); [rewrite !vval_lin by auto; ring|].
    destruct (i =? 2 * n - 1); [rewrite !vval_lin by auto; ring|].
    destruct (Nat.odd i); rewrite !vval_lin by auto; ring.
Qed.
Lemma refine_side_len c v : length (refine_side c v) = 2 * c.
Proof. unfold refine_side. rewrite map_length, seq_length. reflexivity. Qed.
Lemma refine4_lin c n v w : length v = length w -> refine4 n (lin c v w) = lin c (refine4 n v) (refine4 n w).
Proof.
  intros L. unfold refine4. cbn [map concat]. rewrite !app_nil_r.
  rewrite !(piece_lin c n v w) by auto. rewrite !refine_side_lin by (apply piece_len_eq; auto).
  rewrite !lin_app; rewrite ?app_length, ?refine_side_len; auto.
Qed.
Lemma refine_by_lin c k n v w : length v = length w ->
  refine_by k n (lin c v w) = lin c (refine_by k n v) (refine_by k n w).
Proof.
  revert n v w. induction k as [|k IH]; intros n v w L; cbn [refine_by]; [reflexivity|].
  rewrite refine4_lin by auto. apply IH. rewrite !refine4_length. reflexivity.
Qed.
Lemma coarsen_side_len c v : length (coarsen_side c v) = c.
Proof. unfold coarsen_side. rewrite map_length, seq_length. reflexivity. Qed.
Lemma coarsen_side_lin c n v w : length v = length w -> coarsen_side n (lin c v w) = lin c (coarsen_side n v) (coarsen_side n w).
Proof.
  intros L. apply vval_ext.
  - rewrite lin_length, !coarsen_side_len. reflexivity.
  - rewrite coarsen_side_len. intros i Hi. rewrite vval_lin by (rewrite !coarsen_side_len; reflexivity).
    unfold coarsen_side. rewrite !vval_map_seq by auto. rewrite !vval_lin by auto. ring.
Qed.
Lemma coarsen4_lin c n v w : length v = length w -> coarsen4 n (lin c v w) = lin c (coarsen4 n v) (coarsen4 n w).
Proof.
  intros L. unfold coarsen4. cbn [map concat]. rewrite !app_nil_r.
  rewrite !(piece_lin c (2 * n) v w) by auto. rewrite !coarsen_side_lin by (apply piece_len_eq; auto).
  rewrite !lin_app; rewrite ?app_length, ?coarsen_side_len; auto.
Qed.
Lemma coarsen4_len c v : length (coarsen4 c v) = 4 * c.
Proof. unfold coarsen4. cbn [map concat]. rewrite !app_length, !coarsen_side_len. cbn. lia. Qed.
Lemma coarsen_by_len_eq k n v w : length v = length w -> length (coarsen_by k n v) = length (coarsen_by k n w).
Proof. destruct k; cbn [coarsen_by]; auto. rewrite !coarsen4_len. auto. Qed.
Lemma coarsen_by_lin c k n v w : length v = length w ->
  coarsen_by k n (lin c v w) = lin c (coarsen_by k n v) (coarsen_by k n w).
Proof.
  revert n. induction k as [|k IH]; intros n L; cbn [coarsen_by]; [reflexivity|].
  rewrite IH by auto. apply coarsen4_lin. apply coarsen_by_len_eq. auto.
Qed.

Definition lin4 c (x y : four (list Qc)) : four (list Qc) :=
  Four (lin c (fa x) (fa y)) (lin c (fb x) (fb y)) (lin c (fc x) (fc y)) (lin c (fd x) (fd y)).
Definition len4 (x y : four (list Qc)) : Prop :=
  length (fa x) = length (fa y) /\ length (fb x) = length (fb y) /\
  length (fc x) = length (fc y) /\ length (fd x) = length (fd y).

Lemma children_data_lin c n g1 g2 z1 z2 : length g1 = length g2 -> length z1 = length z2 ->
  children_data n (lin c g1 g2) (lin c z1 z2) = lin4 c (children_data n g1 z1) (children_data n g2 z2).
Proof.
  intros Lg Lz. unfold children_data, lin4. cbn [fa fb fc fd].
  rewrite !(piece_lin c n g1 g2), !(piece_lin c n z1 z2) by auto.
  pose proof (fun k => piece_len_eq n g1 g2 k Lg) as P1. pose proof (fun k => piece_len_eq n z1 z2 k Lz) as P2.
  rewrite !lin_app; [reflexivity|..]; rewrite ?app_length, ?P1, ?P2; reflexivity.
Qed.
Lemma outer_flux_lin c n x y : len4 x y -> outer_flux n (lin4 c x y) = lin c (outer_flux n x) (outer_flux n y).
Proof.
  intros (A & B & C & D). unfold outer_flux, lin4. cbn [fa fb fc fd].
  rewrite !(piece_lin c n (fa x)), !(piece_lin c n (fb x)), !(piece_lin c n (fc x)), !(piece_lin c n (fd x)) by auto.
  pose proof (fun k => piece_len_eq n _ _ k A) as PA. pose proof (fun k => piece_len_eq n _ _ k B) as PB.
  pose proof (fun k => piece_len_eq n _ _ k C) as PC. pose proof (fun k => piece_len_eq n _ _ k D) as PD.
  rewrite !lin_app; [reflexivity|..]; rewrite ?app_length, ?PA, ?PB, ?PC, ?PD; reflexivity.
Qed.
Lemma continuous_lin c n x y : len4 x y -> continuous n x -> continuous n y -> continuous n (lin4 c x y).
Proof.
  intros (A & B & C & D) (X1 & X2 & X3 & X4) (Y1 & Y2 & Y3 & Y4). unfold continuous, lin4. cbn [fa fb fc fd].
  rewrite !(piece_lin c n (fa x)), !(piece_lin c n (fb x)), !(piece_lin c n (fc x)), !(piece_lin c n (fd x)) by auto.
  rewrite X1, X2, X3, X4, Y1, Y2, Y3, Y4. auto.
Qed.

(** Combination of loads and of solutions. *)
Fixpoint linU (c : Qc) (U V : solution) : solution :=
  match U, V with
  | SLeaf g u, SLeaf g' u' => SLeaf (lin c g g') (lin c u u')
  | SNode z a b cc d, SNode z' a' b' cc' d' => SNode (lin c z z') (linU c a a') (linU c b b') (linU c cc cc') (linU c d d')
  | _, _ => U
  end.
Definition flux_length (m : nat) (sv : solver) (t : tree) : Prop :=
  forall G, In G (leaf_grids t) -> forall g f h, length g = 4 * m -> length f = m * m ->
    sv_map sv G g f = Ok h -> length h = 4 * m.

Lemma level_problem l1 l2 t : level (problem l1 t) = level (problem l2 t).
Proof. induction t as [p|p a IHa b IHb c IHc d IHd]; cbn; congruence. Qed.

Lemma outer_flux_len n x y : len4 x y -> length (outer_flux n x) = length (outer_flux n y).
Proof.
  intros (A & B & C & D). unfold outer_flux. rewrite !app_length.
  rewrite !(piece_len_eq n _ _ _ A), !(piece_len_eq n _ _ _ B), !(piece_len_eq n _ _ _ C), !(piece_len_eq n _ _ _ D). reflexivity.
Qed.

Lemma glued_lin m sv c l1 l2 t : (forall G, In G (leaf_grids t) -> linear_solver m sv G) -> flux_length m sv t ->
  (forall G, In G (leaf_grids t) -> length (l1 G) = m * m /\ length (l2 G) = m * m) ->
  forall g1 g2 h1 h2 U1 U2,
  glued m (solver_leaf sv) (problem l1 t) g1 h1 U1 -> glued m (solver_leaf sv) (problem l2 t) g2 h2 U2 ->
  length h1 = length h2 /\ length g1 = length g2 /\
  glued m (solver_leaf sv) (problem (fun G => lin c (l1 G) (l2 G)) t) (lin c g1 g2) (lin c h1 h2) (linU c U1 U2).
Proof.
  induction t as [p|p a IHa b IHb cc IHc d IHd]; intros HS HF HL g1 g2 h1 h2 U1 U2 H1 H2.
  - cbn [problem] in *. destruct U1 as [x1 u1|]; [|destruct H1]. destruct U2 as [x2 u2|]; [|destruct H2].
    cbn [leaf_grids] in *. pose proof (HS (pgrid p) (or_introl eq_refl)) as S. pose proof (HF (pgrid p) (or_introl eq_refl)) as F.
    destruct (HL (pgrid p) (or_introl eq_refl)) as (L1 & L2).
    destruct H1 as (-> & G1 & E1 & M1), H2 as (-> & G2 & E2 & M2).
    pose proof (F _ _ _ G1 L1 M1). pose proof (F _ _ _ G2 L2 M2).
    split; [congruence|]. split; [congruence|]. cbn [linU glued]. split; [reflexivity|]. split; [rewrite lin_length; auto|].
    destruct (S c _ _ _ _ _ _ _ _ L1 L2 G1 G2 E1 M1 E2 M2) as (E & M). split; auto.
  - cbn [problem] in *. destruct U1 as [|z1 Ua1 Ub1 Uc1 Ud1]; [destruct H1|]. destruct U2 as [|z2 Ua2 Ub2 Uc2 Ud2]; [destruct H2|].
    cbn [leaf_grids] in *. unfold flux_length in HF. cbn [leaf_grids] in HF.
    set (l3 := fun G => lin c (l1 G) (l2 G)) in *.
    assert (ML : forall l l', min_level (problem l a) (problem l b) (problem l cc) (problem l d) =
                 min_level (problem l' a) (problem l' b) (problem l' cc) (problem l' d)).
    { intros. unfold min_level. rewrite (level_problem l l' a), (level_problem l l' b), (level_problem l l' cc), (level_problem l l' d). reflexivity. }
    cbn [glued linU] in *. rewrite (ML l3 l1). rewrite (ML l2 l1) in H2.
    rewrite (level_problem l3 l1 a), (level_problem l3 l1 b), (level_problem l3 l1 cc), (level_problem l3 l1 d).
    rewrite (level_problem l2 l1 a), (level_problem l2 l1 b), (level_problem l2 l1 cc), (level_problem l2 l1 d) in H2.
    set (lv := min_level _ _ _ _) in *. set (n := m * 2 ^ lv) in *. cbv zeta in H1, H2 |- *.
    destruct H1 as (Lg1 & Lz1 & P1 & A1 & B1 & C1 & D1 & K1 & O1).
    destruct H2 as (Lg2 & Lz2 & P2 & A2 & B2 & C2 & D2 & K2 & O2).
    assert (Lg : length g1 = length g2) by congruence. assert (Lz : length z1 = length z2) by congruence.
    rewrite children_data_lin by auto.
    assert (LX : len4 (children_data n g1 z1) (children_data n g2 z2)).
    { destruct (children_data_length n g1 z1 Lg1 Lz1) as (? & ? & ? & ?), (children_data_length n g2 z2 Lg2 Lz2) as (? & ? & ? & ?).
      repeat split; congruence. }
    destruct LX as (X1 & X2 & X3 & X4).
    destruct (IHa) with (4 := A1) (5 := A2) as (Ha & _ & Ia); [intros; apply HS; rewrite !in_app_iff; auto|intros ? ?; apply HF; rewrite !in_app_iff; auto|intros; apply HL; rewrite !in_app_iff; auto|].
    destruct (IHb) with (4 := B1) (5 := B2) as (Hb & _ & Ib); [intros; apply HS; rewrite !in_app_iff; auto|intros ? ?; apply HF; rewrite !in_app_iff; auto|intros; apply HL; rewrite !in_app_iff; auto|].
    destruct (IHc) with (4 := C1) (5 := C2) as (Hc & _ & Ic); [intros; apply HS; rewrite !in_app_iff; auto|intros ? ?; apply HF; rewrite !in_app_iff; auto|intros; apply HL; rewrite !in_app_iff; auto|].
    destruct (IHd) with (4 := D1) (5 := D2) as (Hd & _ & Id); [intros; apply HS; rewrite !in_app_iff; auto|intros ? ?; apply HF; rewrite !in_app_iff; auto|intros; apply HL; rewrite !in_app_iff; auto|].
    assert (LQ : len4 (Four (coarsen_by (level (problem l1 a) - lv) n (fa P1)) (coarsen_by (level (problem l1 b) - lv) n (fb P1))
                       (coarsen_by (level (problem l1 cc) - lv) n (fc P1)) (coarsen_by (level (problem l1 d) - lv) n (fd P1)))
                      (Four (coarsen_by (level (problem l1 a) - lv) n (fa P2)) (coarsen_by (level (problem l1 b) - lv) n (fb P2))
                       (coarsen_by (level (problem l1 cc) - lv) n (fc P2)) (coarsen_by (level (problem l1 d) - lv) n (fd P2)))).
    { repeat split; cbn [fa fb fc fd]; apply coarsen_by_len_eq; auto. }
    split; [subst h1 h2; apply outer_flux_len; exact LQ|]. split; [exact Lg|].
    split; [rewrite lin_length; auto|]. split; [rewrite lin_length; auto|].
    exists (lin4 c P1 P2). cbn [lin4 fa fb fc fd].
    rewrite !refine_by_lin by auto. split; [exact Ia|]. split; [exact Ib|]. split; [exact Ic|]. split; [exact Id|].
    rewrite !coarsen_by_lin by auto.
    split.
    + apply (continuous_lin c n _ _ LQ K1 K2).
    + subst h1 h2. symmetry. apply (outer_flux_lin c n _ _ LQ).
Qed.

Lemma leaf_values_len m L l t g h U : glued m L (problem l t) g h U -> length (leaf_values U) = length (leaf_grids t).
Proof.
  revert g h U. induction t as [p|p a IHa b IHb c IHc d IHd]; intros g h [x u|z Ua Ub Uc Ud] HG; cbn [problem glued] in HG; try (destruct HG; fail).
  - reflexivity.
  - cbv zeta in HG. destruct HG as (_ & _ & H & A & B & C & D & _). cbn [leaf_values leaf_grids]. rewrite !app_length.
    erewrite IHa, IHb, IHc, IHd by eassumption. reflexivity.
Qed.

Lemma combine_app_eq {A B} (a a' : list A) (b b' : list B) : length a = length b ->
  combine (a ++ a') (b ++ b') = combine a b ++ combine a' b'.
Proof. revert b. induction a as [|x a IH]; intros [|y b] L; cbn in *; try discriminate; [reflexivity|]. f_equal. apply IH. lia. Qed.

Lemma leaf_values_lin m L c l1 l2 t : forall g1 g2 h1 h2 U1 U2,
  glued m L (problem l1 t) g1 h1 U1 -> glued m L (problem l2 t) g2 h2 U2 ->
  leaf_values (linU c U1 U2) = lin_values c (leaf_values U1) (leaf_values U2).
Proof.
  induction t as [p|p a IHa b IHb cc IHc d IHd]; intros g1 g2 h1 h2 [x1 u1|z1 Ua Ub Uc Ud] [x2 u2|z2 Va Vb Vc Vd] H1 H2;
    cbn [problem glued] in H1, H2; try (destruct H1; fail); try (destruct H2; fail).
  - reflexivity.
  - cbv zeta in H1, H2. destruct H1 as (_ & _ & P1 & A1 & B1 & C1 & D1 & _). destruct H2 as (_ & _ & P2 & A2 & B2 & C2 & D2 & _).
    cbn [linU leaf_values]. unfold lin_values in *.
    rewrite !combine_app_eq by (rewrite ?app_length; erewrite !leaf_values_len by eassumption; reflexivity).
    rewrite !map_app. erewrite IHa, IHb, IHc, IHd by eassumption. reflexivity.
Qed.

Lemma fresh_problem load t : not_coarsened t -> fresh load (problem load t) t.
Proof. induction t as [p|p a IHa b IHb c IHc d IHd]; cbn; tauto. Qed.

Lemma glued_linear_loads m sv l1 l2 t : forall g h U,
  glued m (linear_leaf sv) (problem l1 t) g h U -> glued m (linear_leaf sv) (problem l2 t) g h U.
Proof.
  induction t as [p|p a IHa b IHb c IHc d IHd]; intros g h U H.
  - exact H.
  - cbn [problem] in *. destruct U as [|z Ua Ub Uc Ud]; [destruct H|]. cbn [glued] in *.
    unfold min_level in *.
    rewrite (level_problem l2 l1 a), (level_problem l2 l1 b), (level_problem l2 l1 c), (level_problem l2 l1 d).
    cbv zeta in *. destruct H as (X1 & X2 & P & A & B & C & D & E). split; [exact X1|]. split; [exact X2|]. exists P. auto 10.
Qed.

Lemma subtree_problem l1 l2 t s : subtree s (problem l1 t) -> exists t', s = problem l1 t' /\ subtree (problem l2 t') (problem l2 t).
Proof.
  induction t as [p|p a IHa b IHb c IHc d IHd]; cbn [problem subtree].
  - intros [->|[]]. exists (Leaf p). split; [reflexivity|left; reflexivity].
  - intros [->|H]; [exists (Node p a b c d); split; [reflexivity|left; reflexivity]|].
    destruct H as [H|[H|[H|H]]]; [apply IHa in H|apply IHb in H|apply IHc in H|apply IHd in H];
      destruct H as (t' & E & H); exists t'; split; auto; right; auto.
Qed.

Lemma wp_loads m sv l1 l2 t : well_posed m sv (problem l1 t) -> well_posed m sv (problem l2 t).
Proof.
  intros H a b c d Hs h z Ua Ub Uc Ud HG. destruct (subtree_problem l2 l1 t _ Hs) as (t' & E & Hs').
  destruct t' as [|p a' b' c' d']; [discriminate E|]. cbn [problem] in E. injection E as -> -> -> ->.
  assert (ML : min_level (problem l2 a') (problem l2 b') (problem l2 c') (problem l2 d') =
               min_level (problem l1 a') (problem l1 b') (problem l1 c') (problem l1 d')).
  { unfold min_level. rewrite (level_problem l2 l1 a'), (level_problem l2 l1 b'), (level_problem l2 l1 c'), (level_problem l2 l1 d'). reflexivity. }
  rewrite ML in *. cbn [problem] in Hs'. apply (H _ _ _ _ Hs' h z Ua Ub Uc Ud).
  apply (glued_linear_loads m sv l2 l1 (Node p a' b' c' d')). exact HG.
Qed.

Lemma good_problem m sv load t : (forall G, In G (leaf_grids t) -> affine_solver m sv G /\ length (load G) = m * m) ->
  good_leaves m sv (problem load t).
Proof.
  induction t as [p|p a IHa b IHb c IHc d IHd]; cbn [leaf_grids problem good_leaves]; intros H.
  - apply H. left. reflexivity.
  - split4; [apply IHa|apply IHb|apply IHc|apply IHd]; intros; apply H; rewrite !in_app_iff; auto.
Qed.

Lemma equal_problem l1 l2 t : equal_levels (problem l1 t) -> equal_levels (problem l2 t).
Proof.
  induction t as [p|p a IHa b IHb c IHc d IHd]; cbn [problem equal_levels]; [auto|].
  rewrite (level_problem l2 l1 a), (level_problem l2 l1 b), (level_problem l2 l1 c), (level_problem l2 l1 d). tauto.
Qed.

Theorem superposition m sv gesv c l1 l2 t st g1 g2 :
  let l3 := fun G => lin c (l1 G) (l2 G) in
  m <> 0 -> gesv_contract gesv -> not_coarsened t ->
  (forall G, In G (leaf_grids t) -> affine_solver m sv G /\ linear_solver m sv G /\
     length (l1 G) = m * m /\ length (l2 G) = m * m) ->
  well_posed m sv (problem l1 t) -> 3 <= m \/ equal_levels (problem l1 t) ->
  length g1 = 4 * (m * 2 ^ level (problem l1 t)) -> length g2 = length g1 ->
  exists st1 t0 a1 a2 a3 b1 b2 b3,
    buildStage sv gesv false st t = Ok (st1, t0) /\
    upwardsStage sv gesv false l1 t0 = Ok a1 /\ solveStage sv false g1 a1 = Ok b1 /\
    upwardsStage sv gesv false l2 t0 = Ok a2 /\ solveStage sv false g2 a2 = Ok b2 /\
    upwardsStage sv gesv false l3 t0 = Ok a3 /\ solveStage sv false (lin c g1 g2) a3 = Ok b3 /\
    length (computed_values b1) = length (leaf_grids t) /\ length (computed_values b2) = length (leaf_grids t) /\
    computed_values b3 = lin_values c (computed_values b1) (computed_values b2).
Proof.
  intros l3 Hm Hge HN HL HW H3 Lg Lg'.
  assert (Q : forall l g, (forall G, In G (leaf_grids t) -> length (l G) = m * m) -> length g = length g1 ->
    exists st1 t1 t2 t3 U h,
    buildStage sv gesv false st t = Ok (st1, t1) /\
    upwardsStage sv gesv false l t1 = Ok t2 /\
    solveStage sv false g t2 = Ok t3 /\
    glued m (solver_leaf sv) (problem l t) g h U /\ computed_values t3 = leaf_values U /\
    forall h' U', glued m (solver_leaf sv) (problem l t) g h' U' -> U' = U /\ h' = h).
  { intros l g Ll Lgl. destruct (solver_ok m sv gesv l (problem l t) t st g Hm Hge) as (st1 & t1 & t2 & t3 & U & h & X).
    - apply fresh_problem. auto.
    - apply good_problem. intros G HG. split; [apply HL; auto|auto].
    - apply (wp_loads m sv l1). auto.
    - destruct H3 as [H3|H3]; [auto|right; apply (equal_problem l1); auto].
    - rewrite (level_problem l l1). congruence.
    - exists st1, t1, t2, t3, U, h. tauto. }
  destruct (Q l1 g1) as (st1 & t0 & a1 & b1 & U1 & h1 & E & A1 & B1 & G1 & V1 & _); [intros; apply HL; auto|auto|].
  destruct (Q l2 g2) as (st2 & t0' & a2 & b2 & U2 & h2 & E' & A2 & B2 & G2 & V2 & _); [intros; apply HL; auto|auto|].
  rewrite E in E'. apply Ok_inj in E'. injection E' as <- <-.
  destruct (Q l3 (lin c g1 g2)) as (st2 & t0' & a3 & b3 & U3 & h3 & E' & A3 & B3 & G3 & V3 & UQ);
    [intros G HG; unfold l3; rewrite lin_length; apply HL; auto|apply lin_length|].
  rewrite E in E'. apply Ok_inj in E'. injection E' as <- <-.
  destruct (glued_lin m sv c l1 l2 t) with (4 := G1) (5 := G2) as (_ & _ & GL).
  - intros G HG. apply HL. auto.
  - intros G HG g f h Lg0 Lf EM. destruct (HL G HG) as ([_ _ (T & ET & Sq & HA)] & _).
    destruct (HA f Lf) as (h' & _ & Lh & Hg). destruct (Hg g Lg0) as (_ & EM'). rewrite EM in EM'. apply Ok_inj in EM'. subst h.
    rewrite vplus_length, apply_op_length. apply Sq.
  - intros G HG. split; apply HL; auto.
  - exists st1, t0, a1, a2, a3, b1, b2, b3. repeat (split; [assumption|]).
    rewrite V1, V2, V3. split; [eapply leaf_values_len; eauto|]. split; [eapply leaf_values_len; eauto|].
    destruct (UQ _ _ GL) as (<- & _). eapply leaf_values_lin; eauto.
Qed.
