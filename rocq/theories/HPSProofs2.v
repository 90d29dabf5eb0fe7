(** Upwards and solve routines of a family; linearity and uniqueness. *)
From Coq Require Import Permutation.
From Verif Require Import Base VectorModel MatrixModel LinSpec MatProofs MatProofs2 MatProofs3 LinProofs.
From Verif Require Import BlockProofs HPSModel HPSSpec HPSProofs.

Lemma fl_plus n F d d1 d2 k i :
  (forall l j, l < 4 -> j < n -> d l j = (d1 l j + d2 l j)%Qc) ->
  fl n F d k i = (fl n F d1 k i + fl n F d2 k i)%Qc.
Proof.
  intros H. unfold fl. change (dsum 4 n (fun l j => F k l i j * d l j)%Qc =
    (dsum 4 n (fun l j => F k l i j * d1 l j) + dsum 4 n (fun l j => F k l i j * d2 l j))%Qc).
  rewrite <- dsum_plus. apply dsum_ext. intros l j Hl Hj. rewrite H by auto. ring.
Qed.

(** The blocks of the total fluxes. *)
Lemma total_fluxes_B n T hf G Z g z : all4 (square (4 * n)) T ->
  all4 (fun h => length h = 4 * n) hf -> isV 8 n G g -> isV 4 n Z z ->
  let h := total_fluxes T hf (children_data n G Z) in
  isV 4 n (fa h) (fun k i => fl n (bfun_of n (fa T)) (dA g z) k i + vfun_of n (fa hf) k i)%Qc /\
  isV 4 n (fb h) (fun k i => fl n (bfun_of n (fb T)) (dB g z) k i + vfun_of n (fb hf) k i)%Qc /\
  isV 4 n (fc h) (fun k i => fl n (bfun_of n (fc T)) (dC g z) k i + vfun_of n (fc hf) k i)%Qc /\
  isV 4 n (fd h) (fun k i => fl n (bfun_of n (fd T)) (dD g z) k i + vfun_of n (fd hf) k i)%Qc.
Proof.
  intros HT (La & Lb & Lc & Ld) Hg Hz h.
  pose proof (fluxes_B n T G Z g z HT Hg Hz) as F. cbv zeta in F. destruct F as (FA & FB & FC & FD).
  unfold h, total_fluxes. cbn [fa fb fc fd].
  split4; apply (vplus_B 4 n); auto; apply (isV_self 4 n); auto.
Qed.

Lemma interface_solution_unique n T hf G Z1 Z2 :
  all4 (square (4 * n)) T -> all4 (fun h => length h = 4 * n) hf -> interface_unique n T ->
  length G = 8 * n -> length Z1 = 4 * n -> length Z2 = 4 * n ->
  continuous n (total_fluxes T hf (children_data n G Z1)) ->
  continuous n (total_fluxes T hf (children_data n G Z2)) -> Z1 = Z2.
Proof.
  intros HT Hh HU LG L1 L2 C1 C2.
  pose proof (isV_self 8 n G LG) as VG. pose proof (isV_self 4 n Z1 L1) as V1.
  pose proof (isV_self 4 n Z2 L2) as V2.
  pose proof (proj1 (continuous_system n T hf G Z1 _ _ HT VG V1 Hh) C1) as S1.
  pose proof (proj1 (continuous_system n T hf G Z2 _ _ HT VG V2 Hh) C2) as S2.
  set (Z := vec_of (4 * n) (fun i => vval Z1 i - vval Z2 i)%Qc).
  assert (VZ : isV 4 n Z (fun p i => vval Z1 (p * n + i) - vval Z2 (p * n + i))%Qc)
    by (apply isV_vec_of; auto).
  assert (EZ : Z = zeros (4 * n)).
  { apply HU; [apply vec_of_length|].
    apply (proj2 (continuous_system0 n T _ _ _ _ HT (zeros_B 8 n) VZ)).
    intros p i Hp Hi. transitivity 0%Qc.
    - transitivity (sum 4 (fun l => sum n (fun k => XFT n T p l i k * vval Z1 (l * n + k)%nat)%Qc)
                  - sum 4 (fun l => sum n (fun k => XFT n T p l i k * vval Z2 (l * n + k)%nat)%Qc))%Qc.
      + rewrite <- sum_minus. apply sum_ext. intros l Hl. rewrite <- sum_minus. apply sum_ext.
        intros k Hk. ring.
      + rewrite S1, S2 by auto. ring.
    - symmetry. apply sum_zero. intros. apply sum_zero. intros. ring. }
  apply (isV_eq 4 n Z1 Z2 (fun p i => vval Z2 (p * n + i))); auto.
  eapply isV_ext; [exact V1|]. intros p i Hp Hi. cbv beta.
  assert (E : vval Z (p * n + i) = 0%Qc) by (rewrite EZ; apply vval_zeros).
  rewrite (isV_ent _ _ _ _ VZ) in E by auto.
  replace (vval Z1 (p * n + i)) with ((vval Z1 (p * n + i) - vval Z2 (p * n + i)) + vval Z2 (p * n + i))%Qc by ring.
  rewrite E. ring.
Qed.

(** ** Upwards *)
Definition four_h (ch : four patch) : four (list Qc) := fmap ph ch.

Definition up_rest (gesv : gesv_t) (tau : patch) (ch' : four patch) : res patch :=
  s <- createIndexSets ch' ;;
  b <- createMatrixBlocks s ch' ;;
  t1 <- mergeX tau b ;;
  t2 <- mergeW gesv t1 s ch' ;;
  t3 <- mergeH t2 s ch' ;;
  reorderUpwards t3 ch'.

Lemma upwards4to1_rest gesv tau ch :
  upwards4to1 gesv false tau ch = (ch' <- coarsenUpwards ch ;; t <- up_rest gesv tau ch' ;; Ok (t, ch')).
Proof.
  unfold upwards4to1, up_rest. destruct (coarsenUpwards ch) as [c|e|]; [|reflexivity|reflexivity].
  rewrite !bind_Ok. rewrite !bind_assoc.
  destruct (createIndexSets c) as [s|e|]; [|reflexivity|reflexivity]. rewrite !bind_Ok.
  rewrite !bind_assoc. destruct (createMatrixBlocks s c) as [b|e|]; [|reflexivity|reflexivity]. rewrite !bind_Ok.
  rewrite !bind_assoc. destruct (mergeX tau b) as [t1|e|]; [|reflexivity|reflexivity]. rewrite !bind_Ok.
  rewrite !bind_assoc. destruct (mergeW gesv t1 s c) as [t2|e|]; [|reflexivity|reflexivity]. rewrite !bind_Ok.
  rewrite !bind_assoc. destruct (mergeH t2 s c) as [t3|e|]; [|reflexivity|reflexivity]. rewrite !bind_Ok.
  reflexivity.
Qed.

Lemma vsel_ok n v f I : isV 4 n v f -> length I <= 2 -> forallb (fun k => k <? 4) I = true ->
  exists w, vgetFromIndexSet v (blkidx n I) = Ok w /\ isV (length I) n w (fun p i => f (nth p I 0) i).
Proof.
  intros HF HI HbI. apply (vget_B 4 n v f I HF); [|lia].
  intros k Hk. rewrite forallb_forall in HbI. apply Nat.ltb_lt. auto.
Qed.

Ltac step_vsel HF I :=
  let m := fresh "v" in let E := fresh "E" in let H := fresh "HV" in
  destruct (vsel_ok _ _ _ I HF) as (m & E & H); [cbn; lia|reflexivity|];
  rewrite E, bind_Ok; clear E; cbn [length] in H.

Ltac step_vsub HF HG :=
  let m := fresh "d" in let E := fresh "E" in let H := fresh "HD" in
  destruct (vzip_B vsub Qcminus _ _ _ _ _ _ vsub_ok HF HG) as (m & E & H);
  rewrite E, bind_Ok; clear E.

Lemma hDiff_ok n ch : all4 (fun h => length h = 4 * n) (four_h ch) ->
  exists d, hDiff (idx n) ch = Ok d /\ isV 4 n d (hj n (four_h ch)).
Proof.
  intros (La & Lb & Lc & Ld). unfold hDiff, idx.
  cbn [is_ab is_ag is_at is_ba is_bo is_bt is_ga is_go is_gt is_ob is_og is_ot].
  pose proof (isV_self 4 n _ La) as VA. pose proof (isV_self 4 n _ Lb) as VB.
  pose proof (isV_self 4 n _ Lc) as VC. pose proof (isV_self 4 n _ Ld) as VD.
  unfold four_h in VA, VB, VC, VD. cbn [fmap fa fb fc fd] in VA, VB, VC, VD.
  step_vsel VC [2]. step_vsel VA [3]. step_vsel VD [2]. step_vsel VB [3].
  step_vsel VB [0]. step_vsel VA [1]. step_vsel VD [0]. step_vsel VC [1].
  step_vsub HV HV0. step_vsub HV1 HV2. step_vsub HV3 HV4. step_vsub HV5 HV6.
  rewrite concatenate_ok. eexists. split; [reflexivity|].
  replace (concat [d; d0; d1; d2]) with (d ++ d0 ++ d1 ++ d2) by (cbn [concat]; rewrite app_nil_r; reflexivity).
  apply app4_B.
  - eapply isV_ext; [exact HD|]. intros p i Hp Hi. assert (p = 0) by lia. subst. reflexivity.
  - eapply isV_ext; [exact HD0|]. intros p i Hp Hi. assert (p = 0) by lia. subst. reflexivity.
  - eapply isV_ext; [exact HD1|]. intros p i Hp Hi. assert (p = 0) by lia. subst. reflexivity.
  - eapply isV_ext; [exact HD2|]. intros p i Hp Hi. assert (p = 0) by lia. subst. reflexivity.
Qed.

(** Fluxes of the load, outer sides in the order used before reordering. *)
Definition upF (n : nat) (hf : four (list Qc)) (p i : nat) : Qc :=
  match p with
  | 0 => vfun_of n (fa hf) 0 i | 1 => vfun_of n (fa hf) 2 i
  | 2 => vfun_of n (fb hf) 1 i | 3 => vfun_of n (fb hf) 2 i
  | 4 => vfun_of n (fc hf) 0 i | 5 => vfun_of n (fc hf) 3 i
  | 6 => vfun_of n (fd hf) 1 i | _ => vfun_of n (fd hf) 3 i
  end.

Lemma vaddeq_ok v w : length w = length v ->
  vaddeq v w = Ok (vec_of (length v) (fun i => vval v i + vval w i)%Qc).
Proof. exact (vzipeq_ok Qcplus v w). Qed.

Lemma isV2_split n v f : isV 2 n v f -> v = piece n v 0 ++ piece n v 1.
Proof.
  intros H. pose proof (isV_len _ _ _ _ H) as L. unfold piece. cbn [Nat.mul].
  rewrite skipn_O. rewrite Nat.add_0_r.
  rewrite (firstn_all2 (skipn n v)) by (rewrite skipn_length; lia).
  symmetry. apply firstn_skipn.
Qed.

Lemma up_update_ok n ch : all4 (fun h => length h = 4 * n) (four_h ch) ->
  forall (K : list Qc -> res patch),
  exists v, isV 8 n v (upF n (four_h ch)) /\
  (h_a <- vgetFromIndexSet (ph (fa ch)) (is_at (idx n)) ;;
   h_b <- vgetFromIndexSet (ph (fb ch)) (is_bt (idx n)) ;;
   h_g <- vgetFromIndexSet (ph (fc ch)) (is_gt (idx n)) ;;
   h_o <- vgetFromIndexSet (ph (fd ch)) (is_ot (idx n)) ;;
   up <- concatenate 0%Qc [h_a; h_b; h_g; h_o] ;; K up) = K v.
Proof.
  intros (La & Lb & Lc & Ld) K. unfold idx. cbn [is_at is_bt is_gt is_ot].
  pose proof (isV_self 4 n _ La) as VA. pose proof (isV_self 4 n _ Lb) as VB.
  pose proof (isV_self 4 n _ Lc) as VC. pose proof (isV_self 4 n _ Ld) as VD.
  unfold four_h in VA, VB, VC, VD. cbn [fmap fa fb fc fd] in VA, VB, VC, VD.
  destruct (vsel_ok _ _ _ [0; 2] VA) as (v1 & E1 & H1); [cbn; lia|reflexivity|].
  destruct (vsel_ok _ _ _ [1; 2] VB) as (v2 & E2 & H2); [cbn; lia|reflexivity|].
  destruct (vsel_ok _ _ _ [0; 3] VC) as (v3 & E3 & H3); [cbn; lia|reflexivity|].
  destruct (vsel_ok _ _ _ [1; 3] VD) as (v4 & E4 & H4); [cbn; lia|reflexivity|].
  cbn [length] in H1, H2, H3, H4.
  exists (concat [v1; v2; v3; v4]). split.
  - cbn [concat]. rewrite app_nil_r.
    rewrite (isV2_split n v1 _ H1), (isV2_split n v2 _ H2), (isV2_split n v3 _ H3), (isV2_split n v4 _ H4).
    rewrite <- !app_assoc.
    apply app8_B.
    + apply (piece_B 2 n v1 _ 0 H1). lia.
    + apply (piece_B 2 n v1 _ 1 H1). lia.
    + apply (piece_B 2 n v2 _ 0 H2). lia.
    + apply (piece_B 2 n v2 _ 1 H2). lia.
    + apply (piece_B 2 n v3 _ 0 H3). lia.
    + apply (piece_B 2 n v3 _ 1 H3). lia.
    + apply (piece_B 2 n v4 _ 0 H4). lia.
    + apply (piece_B 2 n v4 _ 1 H4). lia.
  - rewrite E1, bind_Ok, E2, bind_Ok, E3, bind_Ok, E4, bind_Ok, concatenate_ok, bind_Ok. reflexivity.
Qed.

Lemma up_rest_ok gesv tau ch n :
  gesv_contract gesv -> n <> 0 ->
  all4 (fun p => psize p = n) ch -> all4 (square (4 * n)) (four_T ch) ->
  interface_unique n (four_T ch) -> all4 (fun h => length h = 4 * n) (four_h ch) ->
  isB 8 4 n (pH tau) (HFT n (four_T ch)) ->
  exists X w h,
    up_rest gesv tau ch = Ok (set_h (set_w (set_X tau X) w) h) /\
    length w = 4 * n /\ length h = 8 * n /\
    continuous n (total_fluxes (four_T ch) (four_h ch) (children_data n (zeros (8 * n)) w)) /\
    h = outer_flux n (total_fluxes (four_T ch) (four_h ch) (children_data n (zeros (8 * n)) w)).
Proof.
  intros Hg Hn Hs HT HU Hh HH. unfold up_rest.
  destruct HT as (TA & TB & TC & TD).
  rewrite (createIndexSets_ok n) by (auto; apply TA). rewrite bind_Ok.
  destruct (createMatrixBlocks_ok n ch _ _ _ _ (square_B n _ TA) (square_B n _ TB)
              (square_B n _ TC) (square_B n _ TD)) as (b & E & Hb).
  rewrite E, bind_Ok. clear E.
  set (T := four_T ch) in *. set (hf := four_h ch) in *.
  assert (HT : all4 (square (4 * n)) T) by (repeat split; assumption || apply TA || apply TB || apply TC || apply TD).
  destruct (mergeX_ok n tau b _ _ _ _ Hb) as (X & E & HX). rewrite E, bind_Ok. clear E.
  unfold mergeW. destruct (hDiff_ok n ch Hh) as (d & E & Hd). rewrite E, bind_Ok. clear E.
  change (pX (set_X tau X)) with X.
  destruct (solvev_ok gesv X d) as (w & E & Lw & Sw); auto.
  { exact (X_nonsingular n T X HT HX HU). }
  { rewrite (isB_nr _ _ _ _ _ HX). lia. }
  { rewrite (isB_nr _ _ _ _ _ HX), (isV_len _ _ _ _ Hd). reflexivity. }
  rewrite E, bind_Ok. clear E. rewrite bind_Ok.
  rewrite (isB_nr _ _ _ _ _ HX) in Lw, Sw.
  pose proof (isV_self 4 n w Lw) as Vw.
  unfold mergeH.
  change (pH (set_w (set_X tau X) w)) with (pH tau). change (pw (set_w (set_X tau X) w)) with w.
  destruct (mulv_B 8 4 n (pH tau) w _ _ HH Vw) as (h0 & E & Hh0); try lia. rewrite E, bind_Ok. clear E.
  destruct (up_update_ok n ch Hh (fun up => h <- vaddeq h0 up ;; Ok (set_h (set_w (set_X tau X) w) h)))
    as (up & Hup & E). rewrite E. clear E. cbv beta.
  destruct (vzip_B vaddeq Qcplus 8 n h0 up _ _ vaddeq_ok Hh0 Hup) as (h1 & E & Hh1).
  rewrite E, bind_Ok. clear E. rewrite bind_Ok.
  unfold reorderUpwards. cbn [fmap fa fb fc fd].
  destruct Hs as (Sa & Sb & Sc & Sd). rewrite Sa, Sb, Sc, Sd, !Nat.eqb_refl. cbn [andb negb].
  replace (nr (pT (fa ch)) / 4) with n.
  2:{ pose proof (proj1 (proj2 TA)) as E. change (nr (pT (fa ch)) = 4 * n) in E. rewrite E.
      rewrite Nat.mul_comm, Nat.div_mul; auto. }
  match goal with |- context [vblockPermute (ph ?a) _ _] => change (ph a) with h1 end.
  destruct (vblockPermute_B 8 n h1 _ pi_WESN Hh1 pi_perm) as (h2 & E & Hh2).
  cbv zeta. rewrite E, bind_Ok. clear E.
  exists X, w, h2. split; [reflexivity|]. split; [exact Lw|]. split; [apply (isV_len _ _ _ _ Hh2)|].
  split.
  - apply (proj2 (continuous_system n T hf _ _ _ _ HT (zeros_B 8 n) Vw Hh)).
    intros p i Hp Hi. rewrite <- (isV_ent _ _ _ _ Hd) by auto.
    rewrite <- Sw by auto using blk_bound.
    rewrite sum_mul.
    match goal with |- ?a = (?b + ?c)%Qc => assert (Eb : b = 0%Qc); [|rewrite Eb] end.
    { apply sum_zero. intros. apply sum_zero. intros. ring. }
    rewrite Qcplus_0_l. apply sum_ext. intros l Hl. apply sum_ext. intros k Hk.
    rewrite (isB_ent _ _ _ _ _ HX) by auto. reflexivity.
  - pose proof (total_fluxes_B n T hf _ _ _ _ HT Hh (zeros_B 8 n) Vw) as F.
    cbv zeta in F. destruct F as (FA & FB & FC & FD).
    pose proof (outer_flux_B n _ _ _ _ _ FA FB FC FD) as O.
    eapply isV_eq; [|exact O].
    eapply isV_ext; [exact Hh2|]. intros p i Hp Hi. cbv beta.
    pose proof (T_identity n (bfun_of n (fa T)) (bfun_of n (fb T)) (bfun_of n (fc T)) (bfun_of n (fd T))
      (fun _ _ => 0%Qc) (fun p i => vval w (p * n + i)) p i Hp) as I.
    cbv beta in I.
    match type of I with (?b + ?c)%Qc = _ => assert (Eb : b = 0%Qc); [|rewrite Eb in I] end.
    { apply sum_zero. intros. apply sum_zero. intros. ring. }
    rewrite Qcplus_0_l in I. unfold HFT. rewrite I.
    cases8 p Hp; cbn [nth pi_WESN upF outF]; reflexivity.
Qed.

(** ** Adding the two parts *)
Lemma superpose n T hf S G w :
  all4 (square (4 * n)) T -> all4 (fun h => length h = 4 * n) hf ->
  length G = 8 * n -> length w = 4 * n -> length (apply_op S G) = 4 * n ->
  continuous n (fluxes T (children_data n G (apply_op S G))) ->
  continuous n (total_fluxes T hf (children_data n (zeros (8 * n)) w)) ->
  continuous n (total_fluxes T hf (children_data n G (vplus (apply_op S G) w))) /\
  outer_flux n (total_fluxes T hf (children_data n G (vplus (apply_op S G) w))) =
  vplus (outer_flux n (fluxes T (children_data n G (apply_op S G))))
        (outer_flux n (total_fluxes T hf (children_data n (zeros (8 * n)) w))).
Proof.
  intros HT Hh LG Lw LS C1 C2.
  pose proof (isV_self 8 n G LG) as VG. pose proof (isV_self 4 n w Lw) as Vw.
  pose proof (isV_self 4 n _ LS) as VS.
  pose proof (vplus_B 4 n _ _ _ _ VS Vw) as VZ.
  split.
  - apply (proj2 (continuous_system n T hf _ _ _ _ HT VG VZ Hh)).
    pose proof (proj1 (continuous_system0 n T _ _ _ _ HT VG VS) C1) as S1.
    pose proof (proj1 (continuous_system n T hf _ _ _ _ HT (zeros_B 8 n) Vw Hh) C2) as S2.
    intros p i Hp Hi. specialize (S1 p i Hp Hi). specialize (S2 p i Hp Hi).
    cbv beta in S1, S2.
    match type of S2 with _ = (?b + ?c)%Qc => assert (Eb : b = 0%Qc); [|rewrite Eb in S2] end.
    { apply sum_zero. intros. apply sum_zero. intros. ring. }
    rewrite Qcplus_0_l in S2. rewrite <- S1, <- S2. rewrite <- sum_plus. apply sum_ext. intros l Hl.
    rewrite <- sum_plus. apply sum_ext. intros k Hk. ring.
  - pose proof (total_fluxes_B n T hf _ _ _ _ HT Hh VG VZ) as F.
    cbv zeta in F. destruct F as (FA & FB & FC & FD).
    pose proof (outer_flux_B n _ _ _ _ _ FA FB FC FD) as O. clear FA FB FC FD.
    pose proof (total_fluxes_B n T hf _ _ _ _ HT Hh (zeros_B 8 n) Vw) as F.
    cbv zeta in F. destruct F as (FA & FB & FC & FD).
    pose proof (outer_flux_B n _ _ _ _ _ FA FB FC FD) as O2. clear FA FB FC FD.
    pose proof (fluxes_B n T _ _ _ _ HT VG VS) as F.
    cbv zeta in F. destruct F as (FA & FB & FC & FD).
    pose proof (outer_flux_B n _ _ _ _ _ FA FB FC FD) as O1. clear FA FB FC FD.
    eapply isV_eq; [exact O|].
    eapply isV_ext; [apply (vplus_B 8 n _ _ _ _ O1 O2)|].
    intros p i Hp Hi. cbv beta.
    assert (R : forall a b c d : Qc, a = (b + c)%Qc -> (b + (c + d) = a + d)%Qc) by (intros; subst; ring).
    cases8 p Hp; cbn [outF]; apply R; apply fl_plus; intros l j Hl Hj; cases4 l Hl;
      cbn [dA dB dC dD]; ring.
Qed.

(** ** Solve *)
Lemma applyS_ok (hom : bool) tau ch n :
  n <> 0 -> psize (fa ch) = n -> well_formed (pS tau) -> nr (pS tau) = 4 * n -> nc (pS tau) = 8 * n ->
  length (pg tau) = 8 * n -> (hom = false -> length (pw tau) = 4 * n) ->
  let u := if hom then apply_op (pS tau) (pg tau) else vplus (apply_op (pS tau) (pg tau)) (pw tau) in
  let x := children_data n (pg tau) u in
  applyS hom tau ch = Ok (Four (set_g (fa ch) (fa x)) (set_g (fb ch) (fb x))
                               (set_g (fc ch) (fc x)) (set_g (fd ch) (fd x))).
Proof.
  intros Hn Hp WS NS CS Lg Lw u x. unfold applyS.
  rewrite apply_op_mulv by (auto; lia). rewrite bind_Ok.
  assert (E : (if hom then Ok (apply_op (pS tau) (pg tau))
               else vadd (apply_op (pS tau) (pg tau)) (pw tau)) = Ok u).
  { unfold u. destruct hom; [reflexivity|].
    rewrite vadd_ok by (rewrite apply_op_length, NS; auto). reflexivity. }
  rewrite E, bind_Ok. clear E.
  assert (Lu : length u = 4 * n).
  { unfold u. destruct hom; [rewrite apply_op_length; auto|].
    unfold vplus. rewrite map_length, seq_length, apply_op_length. auto. }
  cbv zeta. rewrite Hp.
  rewrite !(getSegment_piece 4 n u) by (auto; lia).
  rewrite !(getSegment_piece 8 n (pg tau)) by (auto; lia).
  rewrite !bind_Ok. rewrite !concatenate_ok, !bind_Ok. cbn [concat]. rewrite !app_nil_r.
  reflexivity.
Qed.
