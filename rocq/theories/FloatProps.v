(** The rectangles of the leaves in double arithmetic. *)
From Coq Require Import Reals Lra Qreals.
From Flocq Require Import Core Binary Bits.
From Verif Require Import Base VectorModel MatrixModel HPSModel TreeModel TreeSpec FloatModel FloatSpec.
From Verif Require Import TreeProofs TreeTile TreeCtor TreeOrder TreeOrder2 TreeProps FloatProofs FloatProofs2 FloatProofs3 FloatProofs4.

Local Open Scope R_scope.

Lemma dfactory_ok : factory_ok dfactory.
Proof. split; cbn; intros; repeat split; try reflexivity; lia. Qed.

Lemma dchain_grid rank n f ds f' : sub f ds = Some f' ->
  n_data (chain dfactory rank n f ds) = dgrid_at (n_data n) ds.
Proof.
  revert n f; induction ds as [|i ds IH]; intros n f E; cbn [chain sub] in *; [reflexivity|].
  destruct (fchild f i) as [g|]; [|discriminate]. rewrite (IH _ g E). reflexivity.
Qed.

Lemma dleaf_grids f root : contiguous f -> (depth f <= qmaxlevel)%nat ->
  forall ds G, dleaf f root ds G <-> In ds (leaf_paths f) /\ G = dgrid_at root ds.
Proof.
  intros C HL ds G. split.
  - intros (rank & m & n & E & Em & El & Eg).
    destruct (construct_ok dfactory rank root f C HL) as (m' & E' & X & _).
    rewrite E in E'. injection E' as <-. rewrite X in Em. unfold expected in Em.
    destruct (sub f ds) as [f'|] eqn:Es; [|discriminate].
    destruct (in_range rank (pfirst f') (plast f')); [|discriminate]. injection Em as <-.
    destruct (chain_fields dfactory rank (root_node dfactory rank root f) f ds f' dfactory_ok Es)
      as (_ & _ & _ & _ & F5); [reflexivity..|].
    rewrite El in F5. destruct f' as [o|]; [|discriminate].
    split; [apply leaf_sub; eauto|]. rewrite <- Eg, (dchain_grid _ _ _ _ _ Es). reflexivity.
  - intros [Hl ->]. apply leaf_sub in Hl as (o & Es).
    destruct (construct_ok dfactory o root f C HL) as (m & E & X & _).
    exists o, m. rewrite X. unfold expected. rewrite Es.
    change (pfirst (FLeaf o)) with o. change (plast (FLeaf o)) with o.
    rewrite (proj2 (own_range o o) eq_refl).
    eexists. split; [exact E|]. split; [reflexivity|].
    destruct (chain_fields dfactory o (root_node dfactory o root f) f ds (FLeaf o) dfactory_ok Es)
      as (_ & _ & _ & _ & F5); [reflexivity..|].
    rewrite F5. split; [apply Nat.eqb_refl|]. rewrite (dchain_grid _ _ _ _ _ Es). reflexivity.
Qed.

Lemma leaf_length f ds : In ds (leaf_paths f) -> (length ds <= depth f)%nat.
Proof.
  revert ds; induction f as [o|a IHa b IHb c IHc d IHd]; intros ds; cbn [leaf_paths depth].
  - intros [<-|[]]. cbn. lia.
  - rewrite !in_app_iff, !in_map_iff.
    intros [(p & <- & H)|[(p & <- & H)|[(p & <- & H)|(p & <- & H)]]]; cbn [length];
      [apply IHa in H|apply IHb in H|apply IHc in H|apply IHd in H]; lia.
Qed.

(** [C71] In double arithmetic the leaf nodes of the constructed tree (over all ranks)
    tile the root rectangle without gap or overlap: cell counts as the root, finite
    bounds in order, exact areas that add up to the root's exact area, disjoint
    interiors, every point in a leaf; leaves that meet along an edge share the very
    same coordinate there, with one edge containing the other, and with the same
    doubles at its ends if the leaves are of equal level. *)
Lemma double_leaves_tile_pf : forall f root, contiguous f -> (depth f <= qmaxlevel)%nat -> rect root ->
  exists leaves : list (list nat * dgrid),
    NoDup (map fst leaves) /\
    (forall ds G, In (ds, G) leaves <-> dleaf f root ds G) /\
    (forall ds G, In (ds, G) leaves -> dnx G = dnx root /\ dny G = dny root /\ rect G) /\
    Rsum (map (fun l => darea (snd l)) leaves) = darea root /\
    (forall ds G ds' G' x y, In (ds, G) leaves -> In (ds', G') leaves -> ds <> ds' ->
       dinterior G x y -> dinterior G' x y -> False) /\
    (forall x y, dinside root x y <-> exists ds G, In (ds, G) leaves /\ dinside G x y) /\
    (forall ds G ds' G', In (ds, G) leaves -> In (ds', G') leaves -> ds <> ds' -> dmeet_x G G' ->
       (val (dxu G) = val (dxl G') \/ val (dxu G') = val (dxl G)) /\
       rnested (val (dyl G)) (val (dyu G)) (val (dyl G')) (val (dyu G')) /\
       (length ds = length ds' -> dyl G = dyl G' /\ dyu G = dyu G')) /\
    (forall ds G ds' G', In (ds, G) leaves -> In (ds', G') leaves -> ds <> ds' -> dmeet_y G G' ->
       (val (dyu G) = val (dyl G') \/ val (dyu G') = val (dyl G)) /\
       rnested (val (dxl G)) (val (dxu G)) (val (dxl G')) (val (dxu G')) /\
       (length ds = length ds' -> dxl G = dxl G' /\ dxu G = dxu G')).
Proof.
  intros f root C HL P. exists (map (fun ds => (ds, dgrid_at root ds)) (leaf_paths f)).
  assert (IN : forall ds G, In (ds, G) (map (fun ds => (ds, dgrid_at root ds)) (leaf_paths f))
                <-> In ds (leaf_paths f) /\ G = dgrid_at root ds).
  { intros ds G. rewrite in_map_iff. split.
    - intros (d & E & H). injection E as <- <-. auto.
    - intros (H & ->). exists ds. auto. }
  split; [rewrite map_map, map_id; apply nodup_sorted|].
  split; [intros ds G; rewrite IN, (dleaf_grids f root C HL); reflexivity|].
  split.
  { intros ds G H. apply IN in H as (H & ->). pose proof (digits_of f ds H) as F.
    destruct (dgrid_at_part root ds F) as (_ & _ & _ & _ & E1 & E2).
    split; [exact E1|]. split; [exact E2|]. apply at_rect; assumption. }
  split; [rewrite map_map; cbn [snd]; apply dareas_sum|].
  split.
  { intros ds G ds' G' x y H H' Hne. apply IN in H as (H & ->). apply IN in H' as (H' & ->).
    apply (dleaves_disjoint f); auto. }
  split.
  { intros x y. split.
    - intros Hi. destruct (dleaves_cover f _ x y P Hi) as (ds & H & I). exists ds, (dgrid_at root ds).
      split; [apply IN; auto|exact I].
    - intros (ds & G & H & I). apply IN in H as (H & ->).
      apply (at_within _ ds (digits_of f ds H) P). exact I. }
  split.
  - intros ds G ds' G' H H' Hne M. apply IN in H as (H & ->). apply IN in H' as (H' & ->).
    apply (dleaves_share_x f); auto.
  - intros ds G ds' G' H H' Hne M. apply IN in H as (H & ->). apply IN in H' as (H' & ->).
    apply (dleaves_share_y f); auto.
Qed.

(** [C71] In doubles, too, the grid of a parent made from its four children is the grid
    the children were made from, bit for bit. *)
Lemma double_parent_pf : forall G,
  dparent (Four (dchild G 0) (dchild G 1) (dchild G 2) (dchild G 3)) = G.
Proof. intros []. reflexivity. Qed.

Lemma iv_width_pow bs : forall l u, qval (snd (iv l u bs)) - qval (fst (iv l u bs))
  = (qval u - qval l) * bpow radix2 (- Z.of_nat (length bs)).
Proof.
  induction bs as [|b bs IH]; intros l u; cbn [iv fst snd].
  - cbn [length]. change (bpow radix2 (- Z.of_nat 0)) with 1. ring.
  - cbn [length]. rewrite Nat2Z.inj_succ. replace (- Z.succ (Z.of_nat (length bs)))%Z with (-1 + - Z.of_nat (length bs))%Z by lia.
    rewrite bpow_plus. change (bpow radix2 (-1)) with (/ 2).
    destruct b; rewrite IH, qval_mid; field.
Qed.

Lemma bpow_grain k e M : (0 <= k)%Z -> e = (k - 52)%Z -> bpow radix2 e * M = IZR (2 ^ k) * grain M.
Proof.
  intros H ->. unfold grain. rewrite <- Rmult_assoc. f_equal. rewrite (IZR_Zpower radix2) by exact H.
  rewrite <- bpow_plus. f_equal.
Qed.

(** [C71] The bounds of the leaves differ from those of exact arithmetic by at most 2^-46
    of the size [M] of the root's bounds, the widths and heights by at most 2^-50 of it;
    a root that is not thinner than 2^-20 of [M] has leaves of positive width and height. *)
Lemma double_leaves_accurate_pf : forall f D root M, contiguous f -> (depth f <= qmaxlevel)%nat ->
  rect D -> same_rect D (pgrid root) -> bpow radix2 (-900) <= M ->
  Rabs (val (dxl D)) <= M -> Rabs (val (dxu D)) <= M -> Rabs (val (dyl D)) <= M -> Rabs (val (dyu D)) <= M ->
  forall ds D' G', dleaf f D ds D' -> leaf_with_grid f root ds G' ->
    Rabs (val (dxl D') - qval (gxl G')) <= bpow radix2 (-46) * M /\
    Rabs (val (dxu D') - qval (gxu G')) <= bpow radix2 (-46) * M /\
    Rabs (val (dyl D') - qval (gyl G')) <= bpow radix2 (-46) * M /\
    Rabs (val (dyu D') - qval (gyu G')) <= bpow radix2 (-46) * M /\
    Rabs ((val (dxu D') - val (dxl D')) - (qval (gxu G') - qval (gxl G'))) <= bpow radix2 (-50) * M /\
    Rabs ((val (dyu D') - val (dyl D')) - (qval (gyu G') - qval (gyl G'))) <= bpow radix2 (-50) * M /\
    (bpow radix2 (-20) * M <= val (dxu D) - val (dxl D) -> val (dxl D') < val (dxu D')) /\
    (bpow radix2 (-20) * M <= val (dyu D) - val (dyl D) -> val (dyl D') < val (dyu D')).
Proof.
  intros f D root M C HL P (_ & _ & _ & _ & _ & _ & E1 & E2 & E3 & E4) HM H1 H2 H3 H4 ds D' G' LD LG.
  apply (dleaf_grids f D C HL) in LD as [Hp ->]. apply (leaf_grids f root C HL) in LG as [_ ->].
  pose proof (digits_of f ds Hp) as F. destruct P as (P1 & P2 & P3 & P4 & P5 & P6).
  destruct (dgrid_at_part D ds F) as (A1 & A2 & A3 & A4 & _). rewrite A1, A2, A3, A4.
  destruct (grid_at_iv (pgrid root) ds F) as (B1 & B2 & B3 & B4 & _). rewrite B1, B2, B3, B4.
  change (xbits ds) with (xb ds). change (ybits ds) with (yb ds).
  assert (L : (length ds <= 29)%nat) by (apply Nat.le_trans with (1 := leaf_length f ds Hp); exact HL).
  assert (UM : 0 <= grain M).
  { unfold grain. apply Rmult_le_pos; [apply bpow_ge_0|]. pose proof (bpow_gt_0 radix2 (-900)). lra. }
  assert (X : forall bs (l u : double) l' u', length bs = length ds -> moderate l -> moderate u -> val l <= val u ->
    Rabs (val l) <= M -> Rabs (val u) <= M -> val l = qval l' -> val u = qval u' ->
    let a := val (fst (part l u bs)) in let b := val (snd (part l u bs)) in
    let a' := qval (fst (iv l' u' bs)) in let b' := qval (snd (iv l' u' bs)) in
    Rabs (a - a') <= bpow radix2 (-46) * M /\ Rabs (b - b') <= bpow radix2 (-46) * M /\
    Rabs ((b - a) - (b' - a')) <= bpow radix2 (-50) * M /\
    (bpow radix2 (-20) * M <= val u - val l -> a < b)).
  { intros bs l u l' u' Lb Ml Mu lu Hl Hu El Eu a b a' b'.
    destruct (part_accurate bs l u l' u' M 0 Ml Mu lu HM Hl Hu) as [Q1 Q2];
      [rewrite El, Rminus_diag_eq, Rabs_R0 by reflexivity; lra|rewrite Eu, Rminus_diag_eq, Rabs_R0 by reflexivity; lra|].
    assert (N : IZR (Z.of_nat (length bs)) * (2 * grain M) <= bpow radix2 (-46) * M).
    { rewrite (bpow_grain 6 (-46) M ltac:(lia) eq_refl). apply Rle_trans with (29 * (2 * grain M)).
      - apply Rmult_le_compat_r; [lra|]. apply IZR_le. lia.
      - change (IZR (2 ^ 6)) with 64. lra. }
    pose proof (part_width bs l u M Ml Mu lu HM Hl Hu) as Q3.
    rewrite El, Eu, <- (iv_width_pow bs l' u') in Q3.
    split; [fold a a' in Q1; lra|]. split; [fold b b' in Q2; lra|].
    split; [rewrite (bpow_grain 2 (-50) M ltac:(lia) eq_refl); change (IZR (2 ^ 2)) with 4; exact Q3|].
    intros W. pose proof (iv_width_pow bs l' u') as V. fold b' a' in V, Q3. fold b a in Q3. rewrite <- El, <- Eu in V.
    apply abs_le_inv in Q3.
    assert (T : bpow radix2 (-49) * M <= (val u - val l) * bpow radix2 (- Z.of_nat (length bs))).
    { apply Rle_trans with (bpow radix2 (-20) * M * bpow radix2 (-29)).
      - replace (bpow radix2 (-20) * M * bpow radix2 (-29)) with (bpow radix2 (-20) * bpow radix2 (-29) * M) by ring.
        rewrite <- bpow_plus. apply Rle_refl.
      - assert (M0 : 0 <= M) by (pose proof (bpow_gt_0 radix2 (-900)); lra).
        apply Rmult_le_compat; [apply Rmult_le_pos; [apply bpow_ge_0|exact M0]|apply bpow_ge_0|exact W|apply bpow_le; lia]. }
    rewrite (bpow_grain 3 (-49) M ltac:(lia) eq_refl) in T. change (IZR (2 ^ 3)) with 8 in T.
    assert (0 < grain M); [|lra].
    unfold grain. apply Rmult_lt_0_compat; [apply bpow_gt_0|]. pose proof (bpow_gt_0 radix2 (-900)). lra. }
  destruct (X (xb ds) (dxl D) (dxu D) (gxl (pgrid root)) (gxu (pgrid root))) as (X1 & X2 & X3 & X4);
    try assumption; [unfold xb; apply map_length|].
  destruct (X (yb ds) (dyl D) (dyu D) (gyl (pgrid root)) (gyu (pgrid root))) as (Y1 & Y2 & Y3 & Y4);
    try assumption; [unfold yb; apply map_length|].
  auto 10.
Qed.

Lemma dyadic_multiple E B x : dyadic E B x -> multiple E B (val x).
Proof. intros [_ H]. exact H. Qed.

(** [C71] If the bounds of the root are multiples of 2^E of size at most 2^(E+B) and
    B plus the depth is at most 52, nothing is rounded: every leaf has exactly the
    rectangle of exact arithmetic.  If the number of cells is 2^k and B plus the depth
    plus k is at most 50, spacing and cell centres are those of exact arithmetic, too. *)
Lemma double_leaves_exact_pf : forall f D root E B, contiguous f -> (depth f <= qmaxlevel)%nat ->
  same_rect D (pgrid root) -> val (dxl D) <= val (dxu D) -> val (dyl D) <= val (dyu D) ->
  dyadic E B (dxl D) -> dyadic E B (dxu D) -> dyadic E B (dyl D) -> dyadic E B (dyu D) ->
  (0 <= B)%Z -> (B + Z.of_nat (depth f) <= 52)%Z -> (-900 <= E)%Z -> (E + B <= 1020)%Z ->
  forall ds D' G', dleaf f D ds D' -> leaf_with_grid f root ds G' ->
    same_rect D' G' /\
    forall k, (B + Z.of_nat (depth f) + Z.of_nat k <= 50)%Z ->
      (dnx D = (2 ^ k)%nat -> val (ddx D') = qval (gdx G') /\
         forall i, (i < dnx D)%nat -> finite (dx_at D' i) /\ val (dx_at D' i) = qval (gx G' i)) /\
      (dny D = (2 ^ k)%nat -> val (ddy D') = qval (gdy G') /\
         forall j, (j < dny D)%nat -> finite (dy_at D' j) /\ val (dy_at D' j) = qval (gy G' j)).
Proof.
  intros f D root E B C HL (N1 & N2 & _ & _ & _ & _ & E1 & E2 & E3 & E4) O1 O2 D1 D2 D3 D4 B0 HB HE HS ds D' G' LD LG.
  apply (dleaf_grids f D C HL) in LD as [Hp ->]. apply (leaf_grids f root C HL) in LG as [_ ->].
  pose proof (digits_of f ds Hp) as F.
  destruct (dgrid_at_part D ds F) as (A1 & A2 & A3 & A4 & A5 & A6).
  destruct (grid_at_iv (pgrid root) ds F) as (B1 & B2 & B3 & B4 & B5 & B6).
  assert (L : (length ds <= depth f)%nat) by exact (leaf_length f ds Hp).
  assert (QM : (depth f <= 29)%nat) by exact HL.
  assert (X : forall bs (l u : double) l' u', length bs = length ds -> dyadic E B l -> dyadic E B u -> val l <= val u ->
    val l = qval l' -> val u = qval u' ->
    let a := fst (part l u bs) in let b := snd (part l u bs) in
    let a' := fst (iv l' u' bs) in let b' := snd (iv l' u' bs) in
    finite a /\ finite b /\ val a = qval a' /\ val b = qval b' /\
    forall k n, (B + Z.of_nat (depth f) + Z.of_nat k <= 50)%Z -> n = (2 ^ k)%nat ->
      let step := ddiv (dsub b a) (dint (Z.of_nat n)) in let step' := ((b' - a') / Qc_of_nat n)%Qc in
      val step = qval step' /\ forall i, (i < n)%nat ->
        let c := dadd (dadd a (ddiv step (dint 2))) (dmul (dint (Z.of_nat i)) step) in
        finite c /\ val c = qval ((a' + step' / Q2Qc (2 # 1)) + Qc_of_nat i * step')%Qc).
  { intros bs l u l' u' Lb Dl Du lu El Eu a b a' b'.
    destruct (part_exact bs l u l' u' E B (proj1 Dl) (proj1 Du) (dyadic_multiple _ _ _ Dl) (dyadic_multiple _ _ _ Du) El Eu B0)
      as (F1 & F2 & V1 & V2 & M1 & M2); [lia..|].
    fold a b in F1, F2, V1, V2, M1, M2. fold a' in V1. fold b' in V2.
    split; [exact F1|]. split; [exact F2|]. split; [exact V1|]. split; [exact V2|].
    intros k n Hk Hn step step'.
    assert (ab : val a <= val b).
    { rewrite V1, V2. apply Rminus_le. pose proof (iv_width_pow bs l' u') as W. fold a' b' in W. rewrite <- El, <- Eu in W.
      pose proof (bpow_ge_0 radix2 (- Z.of_nat (length bs))) as P.
      pose proof (Rmult_le_pos (val u - val l) _ ltac:(lra) P). lra. }
    set (e := (E - Z.of_nat (length bs))%Z) in *. set (p := (B + Z.of_nat (length bs))%Z) in *.
    assert (G1 : (0 <= p)%Z) by (unfold p; lia). assert (G2 : (p + Z.of_nat k + 2 <= 52)%Z) by (unfold p; lia).
    assert (G3 : (-1073 + Z.of_nat k <= e)%Z) by (unfold e; lia). assert (G4 : (e + p <= 1020)%Z) by (unfold e, p; lia).
    destruct (step_exact a b e p k n F1 F2 M1 M2 ab G1 G2 G3 G4 Hn) as (Fs & Vs & _ & _). fold step in Fs, Vs.
    pose proof (rational_step a b a' b' k n V1 V2 Hn) as R. fold step' in R.
    split; [rewrite Vs, R; reflexivity|]. intros i Hi.
    destruct (centre_exact a b e p k n F1 F2 M1 M2 ab G1 G2 G3 G4 Hn i Hi) as [Fc Vc]. fold step in Fc, Vc.
    cbn zeta. split; [exact Fc|]. rewrite Vc. rewrite !qval_plus, qval_mult, qval_nat, <- V1, R.
    assert (HF : qval (step' / Q2Qc (2 # 1))%Qc = qval step' / 2).
    { assert (Y : (step' / Q2Qc (2 # 1) + step' / Q2Qc (2 # 1) = step')%Qc).
      { change (Q2Qc (2 # 1)) with q2. rewrite TreeTile.two. field. intros H. apply (f_equal this) in H. vm_compute in H. discriminate. }
      apply (f_equal qval) in Y. rewrite qval_plus in Y. lra. }
    rewrite HF, R. reflexivity. }
  destruct (X (xb ds) (dxl D) (dxu D) (gxl (pgrid root)) (gxu (pgrid root))) as (X1 & X2 & X3 & X4 & X5);
    try assumption; [unfold xb; apply map_length|].
  destruct (X (yb ds) (dyl D) (dyu D) (gyl (pgrid root)) (gyu (pgrid root))) as (Y1 & Y2 & Y3 & Y4 & Y5);
    try assumption; [unfold yb; apply map_length|].
  change (xb ds) with (xbits ds) in X1, X2, X3, X4, X5. change (yb ds) with (ybits ds) in Y1, Y2, Y3, Y4, Y5.
  split.
  { unfold same_rect. rewrite A1, A2, A3, A4, A5, A6, B1, B2, B3, B4, B5, B6. auto 20. }
  intros k Hk. split; intros Hn.
  - unfold dx_at, ddx, gx, gdx. rewrite A1, A2, A5, B1, B2, B5, <- N1. exact (X5 k (dnx D) Hk Hn).
  - unfold dy_at, ddy, gy, gdy. rewrite A3, A4, A6, B3, B4, B6, <- N2. exact (Y5 k (dny D) Hk Hn).
Qed.

(** [C71] The cell centres of every grid are exact up to 2^-48 of the size of the bounds;
    they are in increasing order and inside the rectangle if the cells are wider than
    2^-47 of it. *)
Lemma double_cells_pf : forall G M, rect G -> bpow radix2 (-900) <= M <= bpow radix2 1020 ->
  Rabs (val (dxl G)) <= M -> Rabs (val (dxu G)) <= M -> Rabs (val (dyl G)) <= M -> Rabs (val (dyu G)) <= M ->
  (0 < Z.of_nat (dnx G) < 2 ^ 31)%Z -> (0 < Z.of_nat (dny G) < 2 ^ 31)%Z ->
  centres (val (dxl G)) (val (dxu G)) M (dnx G) (dx_at G) /\
  centres (val (dyl G)) (val (dyu G)) M (dny G) (dy_at G).
Proof.
  intros G M (P1 & P2 & P3 & P4 & P5 & P6) [HM HM'] H1 H2 H3 H4 Nx Ny.
  assert (X : forall (l u : double) n, finite l -> finite u -> val l <= val u -> Rabs (val l) <= M -> Rabs (val u) <= M ->
    (0 < Z.of_nat n < 2 ^ 31)%Z ->
    let step := ddiv (dsub u l) (dint (Z.of_nat n)) in
    centres (val l) (val u) M n (fun i => dadd (dadd l (ddiv step (dint 2))) (dmul (dint (Z.of_nat i)) step))).
  { intros l u n Fl Fu lu Hl Hu Hn step.
    pose proof (centre_close l u M n Fl Fu lu HM HM' Hl Hu ltac:(lia) ltac:(lia)) as K. cbn zeta in K. fold step in K.
    assert (U : 16 * grain M = bpow radix2 (-48) * M) by (rewrite (bpow_grain 4 (-48) M ltac:(lia) eq_refl); reflexivity).
    rewrite U in K. split; [exact K|].
    assert (V : bpow radix2 (-47) * M = 2 * (bpow radix2 (-48) * M)).
    { change (-47)%Z with (1 + -48)%Z. rewrite bpow_plus. change (bpow radix2 1) with 2. ring. }
    rewrite V. set (q := bpow radix2 (-48) * M) in *. set (w := (val u - val l) / IZR (Z.of_nat n)) in *. intros W.
    assert (N0 : 1 <= IZR (Z.of_nat n)) by (apply IZR_le; lia).
    assert (WN : IZR (Z.of_nat n) * w = val u - val l) by (unfold w; field; lra).
    assert (Q0 : 0 <= q).
    { unfold q. apply Rmult_le_pos; [apply bpow_ge_0|]. pose proof (bpow_gt_0 radix2 (-900)). lra. }
    split.
    - intros i Hi. destruct (K i Hi) as [_ K1]. apply abs_le_inv in K1.
      assert (I0 : 0 <= IZR (Z.of_nat i)) by (apply IZR_le; lia).
      assert (I1 : IZR (Z.of_nat i) + 1 <= IZR (Z.of_nat n)) by (rewrite <- plus_IZR; apply IZR_le; lia).
      assert (J0 : 0 <= IZR (Z.of_nat i) * w) by (apply Rmult_le_pos; lra).
      assert (J1 : (IZR (Z.of_nat i) + 1) * w <= IZR (Z.of_nat n) * w) by (apply Rmult_le_compat_r; lra). lra.
    - intros i j Hij. destruct (K i ltac:(lia)) as [_ K1]. destruct (K j ltac:(lia)) as [_ K2]. apply abs_le_inv in K1, K2.
      assert (I1 : IZR (Z.of_nat i) + 1 <= IZR (Z.of_nat j)) by (rewrite <- plus_IZR; apply IZR_le; lia).
      assert (J1 : (IZR (Z.of_nat i) + 1) * w <= IZR (Z.of_nat j) * w) by (apply Rmult_le_compat_r; lra). lra. }
  split; apply X; try assumption; [apply P1|apply P2|apply P3|apply P4].
Qed.

(** A square [-1,1] x [-1,1] with 8 x 8 cells meets all the hypotheses; the leaf 13 of the
    example tree has the rectangle [1/2,1] x [-1/2,0]. *)
Definition ex_double : dgrid := DGrid 8 8 (dint (-1)) (dint 1) (dint (-1)) (dint 1).
Definition ex_double_root : patch := new_patch (Grid 8 8 (- (1))%Qc 1%Qc (- (1))%Qc 1%Qc).

Lemma ex_dyadic n : (Z.abs n <= 1)%Z -> dyadic 0 0 (dint n).
Proof.
  intros H. destruct (dint_ok n) as [F V]; [lia|]. split; [exact F|]. exists n. split; [rewrite V; cbn [bpow]; ring|exact H].
Qed.
Lemma qval_opp1 : qval (- (1))%Qc = -1.
Proof. unfold qval, Q2R. cbn. lra. Qed.

Lemma double_leaves_example_expf :
  rect ex_double /\ same_rect ex_double (pgrid ex_double_root) /\
  dyadic 0 0 (dxl ex_double) /\ dyadic 0 0 (dxu ex_double) /\ dyadic 0 0 (dyl ex_double) /\ dyadic 0 0 (dyu ex_double) /\
  bpow radix2 (-20) * 1 <= val (dxu ex_double) - val (dxl ex_double) /\
  exists D', dleaf ex_forest ex_double [1%nat; 3%nat] D' /\
    val (dxl D') = / 2 /\ val (dxu D') = 1 /\ val (dyl D') = - / 2 /\ val (dyu D') = 0.
Proof.
  destruct (dint_ok (-1)) as [F1 V1]; [reflexivity|]. destruct (dint_ok 1) as [F2 V2]; [reflexivity|].
  assert (S : same_rect ex_double (pgrid ex_double_root)).
  { unfold same_rect, ex_double, ex_double_root. cbn [dnx dny dxl dxu dyl dyu pgrid new_patch gnx gny gxl gxu gyl gyu].
    rewrite V1, V2, qval_1, qval_opp1. repeat match goal with |- _ /\ _ => split end; auto. }
  assert (B : 1 < bpow radix2 1023) by (apply (bpow_lt radix2 0); lia).
  assert (R : rect ex_double).
  { unfold rect, moderate, ex_double. cbn [dxl dxu dyl dyu]. rewrite V1, V2.
    replace (Rabs (-1)) with 1 by (rewrite Rabs_left; lra). rewrite Rabs_R1. repeat split; auto; lra. }
  split; [exact R|]. split; [exact S|].
  split; [apply ex_dyadic; reflexivity|]. split; [apply ex_dyadic; reflexivity|].
  split; [apply ex_dyadic; reflexivity|]. split; [apply ex_dyadic; reflexivity|].
  split.
  { unfold ex_double. cbn [dxl dxu]. rewrite V1, V2. pose proof (bpow_le radix2 (-20) 0 ltac:(lia)). change (bpow radix2 0) with 1 in H. lra. }
  exists (dgrid_at ex_double [1%nat; 3%nat]).
  assert (L : dleaf ex_forest ex_double [1%nat; 3%nat] (dgrid_at ex_double [1%nat; 3%nat])).
  { apply dleaf_grids; [exact ex_contiguous|exact ex_depth|]. split; [cbn; auto 10|reflexivity]. }
  split; [exact L|].
  assert (L' : leaf_with_grid ex_forest ex_double_root [1%nat; 3%nat] (grid_at (pgrid ex_double_root) [1%nat; 3%nat])).
  { apply leaf_grids; [exact ex_contiguous|exact ex_depth|]. split; [cbn; auto 10|reflexivity]. }
  destruct (double_leaves_exact_pf ex_forest ex_double ex_double_root 0 0 ex_contiguous ex_depth S
    ltac:(unfold ex_double; cbn [dxl dxu]; rewrite V1, V2; lra) ltac:(unfold ex_double; cbn [dyl dyu]; rewrite V1, V2; lra)
    (ex_dyadic (-1) ltac:(reflexivity)) (ex_dyadic 1 ltac:(reflexivity)) (ex_dyadic (-1) ltac:(reflexivity)) (ex_dyadic 1 ltac:(reflexivity))
    ltac:(lia) ltac:(cbn; lia) ltac:(lia) ltac:(lia) _ _ _ L L') as [(_ & _ & _ & _ & _ & _ & W1 & W2 & W3 & W4) _].
  rewrite W1, W2, W3, W4. unfold grid_at, ex_double_root. cbn [fold_left child_grid gxl gxu gyl gyu pgrid new_patch].
  rewrite !qval_mid, ?qval_1, ?qval_opp1. lra.
Qed.

Lemma same_val x y : Binary.B2FF 53 1024 x = Binary.B2FF 53 1024 y -> val x = val y.
Proof. intros H. unfold val. rewrite <- !FF2R_B2FF, H. reflexivity. Qed.
Lemma lt_val x y : finite x -> finite y -> b64_compare x y = Some Lt -> val x < val y.
Proof.
  intros Fx Fy H. unfold b64_compare in H. rewrite Bcompare_correct in H by assumption. injection H as H.
  apply Rcompare_Lt_inv in H. exact H.
Qed.

(** [C71] The condition on the shape is needed.  The interval from 1 to the next double has
    its middle at 1: a leaf has no width and its spacing is zero. *)
Lemma double_thin_zero_width_pf : exists D D', rect D /\ val (dxl D) < val (dxu D) /\ val (dyl D) < val (dyu D) /\
  dleaf (FNode (FLeaf 0) (FLeaf 0) (FLeaf 0) (FLeaf 0)) D [0%nat] D' /\
  val (dxl D') = val (dxu D') /\ val (ddx D') = 0.
Proof.
  set (one := dint 1). set (next := dadd one (ddiv one (dint (2 ^ 52)))).
  exists (DGrid 8 8 one next (dint 0) one), (dchild (DGrid 8 8 one next (dint 0) one) 0).
  assert (F1 : finite one) by reflexivity. assert (F2 : finite next) by (vm_compute; reflexivity).
  assert (F0 : finite (dint 0)) by reflexivity.
  assert (V1 : val one = 1) by (apply (dint_ok 1); reflexivity). assert (V0 : val (dint 0) = 0) by (apply (dint_ok 0); reflexivity).
  assert (L1 : val one < val next) by (apply lt_val; [exact F1|exact F2|vm_compute; reflexivity]).
  assert (L2 : val next < val (dint 2)) by (apply lt_val; [exact F2|reflexivity|vm_compute; reflexivity]).
  rewrite (proj2 dint2) in L2.
  assert (B : 2 < bpow radix2 1023) by (apply (bpow_lt radix2 1); lia).
  split.
  { unfold rect, moderate. cbn [dxl dxu dyl dyu]. rewrite V0. rewrite V1 in *. rewrite Rabs_R0, Rabs_R1, (Rabs_pos_eq (val next)) by lra.
    repeat split; auto; lra. }
  split; [exact L1|]. split; [cbn [dyl dyu]; rewrite V0, V1; lra|].
  split.
  { apply dleaf_grids; [repeat constructor|cbn; unfold qmaxlevel; lia|]. split; [cbn; auto|reflexivity]. }
  cbn [dchild dxl dxu].
  split; [apply same_val; vm_compute; reflexivity|].
  transitivity (val (dint 0)); [apply same_val; vm_compute; reflexivity|exact V0].
Qed.

(** [C71] Beyond half of the range of doubles the sum of the bounds overflows: a leaf has an
    infinite bound. *)
Lemma double_overflow_infinite_pf : exists D D', finite (dxl D) /\ finite (dxu D) /\ val (dxl D) < val (dxu D) /\
  dleaf (FNode (FLeaf 0) (FLeaf 0) (FLeaf 0) (FLeaf 0)) D [0%nat] D' /\ ~ finite (dxu D').
Proof.
  set (a := dint (2 ^ 1023)). set (b := dint (3 * 2 ^ 1022)).
  exists (DGrid 8 8 a b (dint 0) (dint 1)), (dchild (DGrid 8 8 a b (dint 0) (dint 1)) 0). cbn [dchild dxl dxu].
  split; [vm_compute; reflexivity|]. split; [vm_compute; reflexivity|].
  split; [apply lt_val; vm_compute; reflexivity|].
  split.
  { apply dleaf_grids; [repeat constructor|cbn; unfold qmaxlevel; lia|]. split; [cbn; auto|reflexivity]. }
  intros H. vm_compute in H. discriminate.
Qed.
