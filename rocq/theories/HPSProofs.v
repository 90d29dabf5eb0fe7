(** The family routines of the algorithm in block form. *)
From Coq Require Import Permutation.
From Verif Require Import Base VectorModel MatrixModel LinSpec MatProofs MatProofs2 MatProofs3 LinProofs.
From Verif Require Import BlockProofs HPSModel HPSSpec.

Definition bfun := nat -> nat -> nat -> nat -> Qc.

(** ** Index sets and blocks *)
Definition idx (n : nat) : index_sets :=
  IS (blkidx n [1]) (blkidx n [3]) (blkidx n [0; 2])
     (blkidx n [0]) (blkidx n [3]) (blkidx n [1; 2])
     (blkidx n [2]) (blkidx n [1]) (blkidx n [0; 3])
     (blkidx n [2]) (blkidx n [0]) (blkidx n [1; 3]).

Lemma range_blk n k a b : n <> 0 -> a = Z.of_nat (k * n) -> b = (Z.of_nat (k * n) + Z.of_nat n - 1)%Z ->
  vectorRange a b = Ok (blkidx n [k]).
Proof.
  intros Hn -> ->. rewrite vectorRange_ok by auto. unfold blkidx. cbn [map concat].
  rewrite app_nil_r. reflexivity.
Qed.

Lemma createIndexSets_ok n ch : n <> 0 -> all4 (fun p => psize p = n) ch ->
  nr (pT (fa ch)) = 4 * n -> createIndexSets ch = Ok (idx n).
Proof.
  intros Hn (Ha & Hb & Hc & Hd) HT. unfold createIndexSets. cbn [fmap fa fb fc fd].
  rewrite Ha, Hb, Hc, Hd, !Nat.eqb_refl. cbn [andb negb]. rewrite HT.
  replace (4 * n / 4) with n by (rewrite Nat.mul_comm, Nat.div_mul; auto).
  rewrite (range_blk n 0) by lia. cbn [bind].
  rewrite (range_blk n 1) by lia. cbn [bind].
  rewrite (range_blk n 2) by lia. cbn [bind].
  rewrite (range_blk n 3) by lia. cbn [bind].
  rewrite !concatenate_ok. cbn [bind].
  unfold idx, blkidx. cbn [map concat]. rewrite !app_nil_r. reflexivity.
Qed.

(** Block (I,J) of [F]. *)
Definition sub (F : bfun) (I J : list nat) : bfun := fun p q i j => F (nth p I 0) (nth q J 0) i j.
Definition negB (F : bfun) : bfun := fun p q i j => (- F p q i j)%Qc.

Definition minusB (F G : bfun) : bfun := fun p q i j => (F p q i j - G p q i j)%Qc.

Record blocks_are (n : nat) (A B C D : bfun) (b : blocks) : Prop := {
  e_ag_ag : isB 1 1 n (ag_ag b) (sub A [3] [3]);
  e_ga_ga : isB 1 1 n (ga_ga b) (sub C [2] [2]);
  e_ag_ab : isB 1 1 n (ag_ab b) (sub A [3] [1]);
  e_ga_go : isB 1 1 n (ga_go b) (negB (sub C [2] [1]));
  e_bo_bo : isB 1 1 n (bo_bo b) (sub B [3] [3]);
  e_ob_ob : isB 1 1 n (ob_ob b) (sub D [2] [2]);
  e_bo_ba : isB 1 1 n (bo_ba b) (sub B [3] [0]);
  e_ob_og : isB 1 1 n (ob_og b) (negB (sub D [2] [0]));
  e_ab_ag : isB 1 1 n (ab_ag b) (sub A [1] [3]);
  e_ba_bo : isB 1 1 n (ba_bo b) (negB (sub B [0] [3]));
  e_ab_ab : isB 1 1 n (ab_ab b) (sub A [1] [1]);
  e_ba_ba : isB 1 1 n (ba_ba b) (sub B [0] [0]);
  e_go_ga : isB 1 1 n (go_ga b) (sub C [1] [2]);
  e_og_ob : isB 1 1 n (og_ob b) (negB (sub D [0] [2]));
  e_go_go : isB 1 1 n (go_go b) (sub C [1] [1]);
  e_og_og : isB 1 1 n (og_og b) (sub D [0] [0]);
  e_ag_at : isB 1 2 n (ag_at b) (negB (sub A [3] [0; 2]));
  e_ga_gt : isB 1 2 n (ga_gt b) (sub C [2] [0; 3]);
  e_bo_bt : isB 1 2 n (bo_bt b) (negB (sub B [3] [1; 2]));
  e_ob_ot : isB 1 2 n (ob_ot b) (sub D [2] [1; 3]);
  e_ab_at : isB 1 2 n (ab_at b) (negB (sub A [1] [0; 2]));
  e_ba_bt : isB 1 2 n (ba_bt b) (sub B [0] [1; 2]);
  e_go_gt : isB 1 2 n (go_gt b) (negB (sub C [1] [0; 3]));
  e_og_ot : isB 1 2 n (og_ot b) (sub D [0] [1; 3]);
  e_at_at : isB 2 2 n (at_at b) (sub A [0; 2] [0; 2]);
  e_bt_bt : isB 2 2 n (bt_bt b) (sub B [1; 2] [1; 2]);
  e_gt_gt : isB 2 2 n (gt_gt b) (sub C [0; 3] [0; 3]);
  e_ot_ot : isB 2 2 n (ot_ot b) (sub D [1; 3] [1; 3]);
  e_at_ag : isB 2 1 n (at_ag b) (sub A [0; 2] [3]);
  e_at_ab : isB 2 1 n (at_ab b) (sub A [0; 2] [1]);
  e_bt_bo : isB 2 1 n (bt_bo b) (sub B [1; 2] [3]);
  e_bt_ba : isB 2 1 n (bt_ba b) (sub B [1; 2] [0]);
  e_gt_ga : isB 2 1 n (gt_ga b) (sub C [0; 3] [2]);
  e_gt_go : isB 2 1 n (gt_go b) (sub C [0; 3] [1]);
  e_ot_ob : isB 2 1 n (ot_ob b) (sub D [1; 3] [2]);
  e_ot_og : isB 2 1 n (ot_og b) (sub D [1; 3] [0]) }.

Lemma sel_ok n T F I J : isB 4 4 n T F -> length I <= 2 -> length J <= 2 ->
  forallb (fun k => k <? 4) I = true -> forallb (fun k => k <? 4) J = true ->
  exists m, mgetFromIndexSet T (blkidx n I) (blkidx n J) = Ok m /\ isB (length I) (length J) n m (sub F I J).
Proof.
  intros HF HI HJ HbI HbJ. apply (mget_B 4 4 n T F I J HF); try lia.
  - intros k Hk. rewrite forallb_forall in HbI. apply Nat.ltb_lt. auto.
  - intros k Hk. rewrite forallb_forall in HbJ. apply Nat.ltb_lt. auto.
Qed.

Ltac step_sel HF I J :=
  let m := fresh "m" in let E := fresh "E" in let H := fresh "HB" in
  destruct (sel_ok _ _ _ I J HF) as (m & E & H); [cbn; lia|cbn; lia|reflexivity|reflexivity|];
  rewrite E, bind_Ok; clear E; cbn [length] in H.
Ltac step_neg HF :=
  let m := fresh "m" in let E := fresh "E" in let H := fresh "HN" in
  destruct (mneg_B _ _ _ _ _ HF) as (m & E & H);
  rewrite E, bind_Ok; clear E.

Lemma createMatrixBlocks_ok n ch A B C D :
  isB 4 4 n (pT (fa ch)) A -> isB 4 4 n (pT (fb ch)) B ->
  isB 4 4 n (pT (fc ch)) C -> isB 4 4 n (pT (fd ch)) D ->
  exists b, createMatrixBlocks (idx n) ch = Ok b /\ blocks_are n A B C D b.
Proof.
  intros HA HB HC HD. unfold createMatrixBlocks, idx.
  cbn [is_ab is_ag is_at is_ba is_bo is_bt is_ga is_go is_gt is_ob is_og is_ot].
  step_sel HA [3] [3]. step_sel HC [2] [2]. step_sel HA [3] [1]. step_sel HC [2] [1].
  step_sel HB [3] [3]. step_sel HD [2] [2]. step_sel HB [3] [0]. step_sel HD [2] [0].
  step_sel HA [1] [3]. step_sel HB [0] [3]. step_sel HA [1] [1]. step_sel HB [0] [0].
  step_sel HC [1] [2]. step_sel HD [0] [2]. step_sel HC [1] [1]. step_sel HD [0] [0].
  step_sel HA [3] [0; 2]. step_sel HC [2] [0; 3]. step_sel HB [3] [1; 2]. step_sel HD [2] [1; 3].
  step_sel HA [1] [0; 2]. step_sel HB [0] [1; 2]. step_sel HC [1] [0; 3]. step_sel HD [0] [1; 3].
  step_sel HA [0; 2] [0; 2]. step_sel HB [1; 2] [1; 2]. step_sel HC [0; 3] [0; 3]. step_sel HD [1; 3] [1; 3].
  step_sel HA [0; 2] [3]. step_sel HA [0; 2] [1]. step_sel HB [1; 2] [3]. step_sel HB [1; 2] [0].
  step_sel HC [0; 3] [2]. step_sel HC [0; 3] [1]. step_sel HD [1; 3] [2]. step_sel HD [1; 3] [0].
  step_neg HB3. step_neg HB7. step_neg HB9. step_neg HB13.
  step_neg HB16. step_neg HB18. step_neg HB20. step_neg HB22.
  eexists. split; [reflexivity|].
  constructor; cbn [ag_ag ga_ga ag_ab ga_go bo_bo ob_ob bo_ba ob_og ab_ag ba_bo ab_ab ba_ba go_ga og_ob go_go og_og ag_at ga_gt bo_bt ob_ot ab_at ba_bt go_gt og_ot at_at bt_bt gt_gt ot_ot at_ag at_ab bt_bo bt_ba gt_ga gt_go ot_ob ot_og]; assumption.
Qed.

(** ** The merged matrices, block by block *)
Definition XF (A B C D : bfun) : bfun := fun p q i j =>
  match p, q with
  | 0, 0 => (A 3%nat 3%nat i j - C 2%nat 2%nat i j)%Qc
  | 0, 2 => (A 3%nat 1%nat i j)%Qc
  | 0, 3 => (- C 2%nat 1%nat i j)%Qc
  | 1, 1 => (B 3%nat 3%nat i j - D 2%nat 2%nat i j)%Qc
  | 1, 2 => (B 3%nat 0%nat i j)%Qc
  | 1, 3 => (- D 2%nat 0%nat i j)%Qc
  | 2, 0 => (A 1%nat 3%nat i j)%Qc
  | 2, 1 => (- B 0%nat 3%nat i j)%Qc
  | 2, 2 => (A 1%nat 1%nat i j - B 0%nat 0%nat i j)%Qc
  | 3, 0 => (C 1%nat 2%nat i j)%Qc
  | 3, 1 => (- D 0%nat 2%nat i j)%Qc
  | 3, 3 => (C 1%nat 1%nat i j - D 0%nat 0%nat i j)%Qc
  | _, _ => (0)%Qc
  end.

(** Columns in the order alpha W, alpha S, beta E, beta S, gamma W, gamma N,
    omega E, omega N. *)
Definition RF (A B C D : bfun) : bfun := fun p q i j =>
  match p, q with
  | 0, 0 => (- A 3%nat 0%nat i j)%Qc
  | 0, 1 => (- A 3%nat 2%nat i j)%Qc
  | 0, 4 => (C 2%nat 0%nat i j)%Qc
  | 0, 5 => (C 2%nat 3%nat i j)%Qc
  | 1, 2 => (- B 3%nat 1%nat i j)%Qc
  | 1, 3 => (- B 3%nat 2%nat i j)%Qc
  | 1, 6 => (D 2%nat 1%nat i j)%Qc
  | 1, 7 => (D 2%nat 3%nat i j)%Qc
  | 2, 0 => (- A 1%nat 0%nat i j)%Qc
  | 2, 1 => (- A 1%nat 2%nat i j)%Qc
  | 2, 2 => (B 0%nat 1%nat i j)%Qc
  | 2, 3 => (B 0%nat 2%nat i j)%Qc
  | 3, 4 => (- C 1%nat 0%nat i j)%Qc
  | 3, 5 => (- C 1%nat 3%nat i j)%Qc
  | 3, 6 => (D 0%nat 1%nat i j)%Qc
  | 3, 7 => (D 0%nat 3%nat i j)%Qc
  | _, _ => (0)%Qc
  end.

Definition HF (A B C D : bfun) : bfun := fun p q i j =>
  match p, q with
  | 0, 0 => (A 0%nat 3%nat i j)%Qc
  | 1, 0 => (A 2%nat 3%nat i j)%Qc
  | 0, 2 => (A 0%nat 1%nat i j)%Qc
  | 1, 2 => (A 2%nat 1%nat i j)%Qc
  | 2, 1 => (B 1%nat 3%nat i j)%Qc
  | 3, 1 => (B 2%nat 3%nat i j)%Qc
  | 2, 2 => (B 1%nat 0%nat i j)%Qc
  | 3, 2 => (B 2%nat 0%nat i j)%Qc
  | 4, 0 => (C 0%nat 2%nat i j)%Qc
  | 5, 0 => (C 3%nat 2%nat i j)%Qc
  | 4, 3 => (C 0%nat 1%nat i j)%Qc
  | 5, 3 => (C 3%nat 1%nat i j)%Qc
  | 6, 1 => (D 1%nat 2%nat i j)%Qc
  | 7, 1 => (D 3%nat 2%nat i j)%Qc
  | 6, 3 => (D 1%nat 0%nat i j)%Qc
  | 7, 3 => (D 3%nat 0%nat i j)%Qc
  | _, _ => (0)%Qc
  end.

Definition LF (A B C D : bfun) : bfun := fun p q i j =>
  match p, q with
  | 0, 0 => (A 0%nat 0%nat i j)%Qc | 0, 1 => (A 0%nat 2%nat i j)%Qc | 1, 0 => (A 2%nat 0%nat i j)%Qc | 1, 1 => (A 2%nat 2%nat i j)%Qc
  | 2, 2 => (B 1%nat 1%nat i j)%Qc | 2, 3 => (B 1%nat 2%nat i j)%Qc | 3, 2 => (B 2%nat 1%nat i j)%Qc | 3, 3 => (B 2%nat 2%nat i j)%Qc
  | 4, 4 => (C 0%nat 0%nat i j)%Qc | 4, 5 => (C 0%nat 3%nat i j)%Qc | 5, 4 => (C 3%nat 0%nat i j)%Qc | 5, 5 => (C 3%nat 3%nat i j)%Qc
  | 6, 6 => (D 1%nat 1%nat i j)%Qc | 6, 7 => (D 1%nat 3%nat i j)%Qc | 7, 6 => (D 3%nat 1%nat i j)%Qc | 7, 7 => (D 3%nat 3%nat i j)%Qc
  | _, _ => (0)%Qc
  end.

Ltac step_zip op HF HG :=
  let m := fresh "m" in let E := fresh "E" in let H := fresh "HZ" in
  destruct (mzipeq_B op _ _ _ _ _ _ _ HF HG) as (m & E & H);
  rewrite E, bind_Ok; clear E.

Ltac step_set HM Hb p q :=
  let m := fresh "m" in let E := fresh "E" in let H := fresh "HS" in
  lazymatch type of HM with isB _ _ _ ?M _ =>
  lazymatch goal with |- context [setBlock M ?ri ?ci _] =>
    destruct (setBlock_B _ _ _ _ _ _ _ _ _ p q ri ci HM Hb) as (m & E & H);
    [lia | lia | lia | lia | rewrite E, ?bind_Ok; clear E]
  end end.

Ltac split4 := split; [|split; [|split]].
Ltac cases4 p Hp := destruct p as [|[|[|[|p]]]]; [| | | |exfalso; lia].
Ltac cases8 p Hp := destruct p as [|[|[|[|[|[|[|[|p]]]]]]]]; [| | | | | | | |exfalso; lia].

Lemma mergeX_ok n tau b A B C D : blocks_are n A B C D b ->
  exists X, mergeX tau b = Ok (set_X tau X) /\ isB 4 4 n X (XF A B C D).
Proof.
  intros Hb. unfold mergeX, msub, msubeq.
  step_zip Qcminus (e_ag_ag _ _ _ _ _ _ Hb) (e_ga_ga _ _ _ _ _ _ Hb).
  step_zip Qcminus (e_bo_bo _ _ _ _ _ _ Hb) (e_ob_ob _ _ _ _ _ _ Hb).
  step_zip Qcminus (e_ab_ab _ _ _ _ _ _ Hb) (e_ba_ba _ _ _ _ _ _ Hb).
  step_zip Qcminus (e_go_go _ _ _ _ _ _ Hb) (e_og_og _ _ _ _ _ _ Hb).
  cbv zeta.
  rewrite (isB_nr _ _ _ _ _ HZ), (isB_nr _ _ _ _ _ HZ0), (isB_nr _ _ _ _ _ HZ1).
  rewrite (isB_nc _ _ _ _ _ HZ), (isB_nc _ _ _ _ _ HZ0), (isB_nc _ _ _ _ _ HZ1).
  destruct (blockDiag_B 1 n [m; m0; m1; m2] (fun k => match k with
     | 0 => minusB (sub A [3] [3]) (sub C [2] [2])
     | 1 => minusB (sub B [3] [3]) (sub D [2] [2])
     | 2 => minusB (sub A [1] [1]) (sub B [0] [0])
     | _ => minusB (sub C [1] [1]) (sub D [0] [0]) end))
    as (X0 & E & H0).
  { lia. }
  { intros k Hk. cbn [length] in Hk. cases4 k Hk; cbn [nth]; assumption. }
  rewrite E, bind_Ok. clear E. cbn [length Nat.mul Nat.add] in H0.
  step_set H0 (e_ag_ab _ _ _ _ _ _ Hb) 0 2.
  step_set HS (e_ga_go _ _ _ _ _ _ Hb) 0 3.
  step_set HS0 (e_bo_ba _ _ _ _ _ _ Hb) 1 2.
  step_set HS1 (e_ob_og _ _ _ _ _ _ Hb) 1 3.
  step_set HS2 (e_ab_ag _ _ _ _ _ _ Hb) 2 0.
  step_set HS3 (e_ba_bo _ _ _ _ _ _ Hb) 2 1.
  step_set HS4 (e_go_ga _ _ _ _ _ _ Hb) 3 0.
  step_set HS5 (e_og_ob _ _ _ _ _ _ Hb) 3 1.
  eexists. split; [reflexivity|].
  eapply isB_ext; [exact HS6|].
  intros p q i j Hp Hq _ _. cases4 p Hp; cases4 q Hq; reflexivity.
Qed.

Lemma S_RHS_ok n b A B C D : blocks_are n A B C D b ->
  exists R, S_RHS b = Ok R /\ isB 4 8 n R (RF A B C D).
Proof.
  intros Hb. unfold S_RHS. cbv zeta.
  rewrite (isB_nr _ _ _ _ _ (e_ag_at _ _ _ _ _ _ Hb)), (isB_nr _ _ _ _ _ (e_bo_bt _ _ _ _ _ _ Hb)),
    (isB_nr _ _ _ _ _ (e_ab_at _ _ _ _ _ _ Hb)), (isB_nr _ _ _ _ _ (e_go_gt _ _ _ _ _ _ Hb)).
  rewrite (isB_nc _ _ _ _ _ (e_ag_at _ _ _ _ _ _ Hb)), (isB_nc _ _ _ _ _ (e_bo_bt _ _ _ _ _ _ Hb)),
    (isB_nc _ _ _ _ _ (e_ga_gt _ _ _ _ _ _ Hb)), (isB_nc _ _ _ _ _ (e_ob_ot _ _ _ _ _ _ Hb)).
  assert (H0 : isB 4 8 n (mconst (1 * n + 1 * n + 1 * n + 1 * n) (2 * n + 2 * n + 2 * n + 2 * n) 0%Qc)
                   (fun _ _ _ _ => 0%Qc)) by (apply mconst_B; lia).
  step_set H0 (e_ag_at _ _ _ _ _ _ Hb) 0 0.
  step_set HS (e_ga_gt _ _ _ _ _ _ Hb) 0 4.
  step_set HS0 (e_bo_bt _ _ _ _ _ _ Hb) 1 2.
  step_set HS1 (e_ob_ot _ _ _ _ _ _ Hb) 1 6.
  step_set HS2 (e_ab_at _ _ _ _ _ _ Hb) 2 0.
  step_set HS3 (e_ba_bt _ _ _ _ _ _ Hb) 2 2.
  step_set HS4 (e_go_gt _ _ _ _ _ _ Hb) 3 4.
  step_set HS5 (e_og_ot _ _ _ _ _ _ Hb) 3 6.
  eexists. split; [reflexivity|].
  eapply isB_ext; [exact HS6|].
  intros p q i j Hp Hq _ _. cases4 p Hp; cases8 q Hq; reflexivity.
Qed.

Lemma buildH_ok n b A B C D : blocks_are n A B C D b ->
  exists H, buildH b = Ok H /\ isB 8 4 n H (HF A B C D).
Proof.
  intros Hb. unfold buildH. cbv zeta.
  rewrite (isB_nr _ _ _ _ _ (e_at_ag _ _ _ _ _ _ Hb)), (isB_nr _ _ _ _ _ (e_bt_bo _ _ _ _ _ _ Hb)),
    (isB_nr _ _ _ _ _ (e_gt_ga _ _ _ _ _ _ Hb)), (isB_nr _ _ _ _ _ (e_ot_ob _ _ _ _ _ _ Hb)).
  rewrite (isB_nc _ _ _ _ _ (e_at_ag _ _ _ _ _ _ Hb)), (isB_nc _ _ _ _ _ (e_bt_bo _ _ _ _ _ _ Hb)),
    (isB_nc _ _ _ _ _ (e_at_ab _ _ _ _ _ _ Hb)), (isB_nc _ _ _ _ _ (e_gt_go _ _ _ _ _ _ Hb)).
  assert (H0 : isB 8 4 n (mconst (2 * n + 2 * n + 2 * n + 2 * n) (1 * n + 1 * n + 1 * n + 1 * n) 0%Qc)
                   (fun _ _ _ _ => 0%Qc)) by (apply mconst_B; lia).
  step_set H0 (e_at_ag _ _ _ _ _ _ Hb) 0 0.
  step_set HS (e_at_ab _ _ _ _ _ _ Hb) 0 2.
  step_set HS0 (e_bt_bo _ _ _ _ _ _ Hb) 2 1.
  step_set HS1 (e_bt_ba _ _ _ _ _ _ Hb) 2 2.
  step_set HS2 (e_gt_ga _ _ _ _ _ _ Hb) 4 0.
  step_set HS3 (e_gt_go _ _ _ _ _ _ Hb) 4 3.
  step_set HS4 (e_ot_ob _ _ _ _ _ _ Hb) 6 1.
  step_set HS5 (e_ot_og _ _ _ _ _ _ Hb) 6 3.
  eexists. split; [reflexivity|].
  eapply isB_ext; [exact HS6|].
  intros p q i j Hp Hq _ _. cases8 p Hp; cases4 q Hq; reflexivity.
Qed.

Lemma T_LHS_ok n b A B C D : blocks_are n A B C D b ->
  exists L, blockDiagonalMatrix [at_at b; bt_bt b; gt_gt b; ot_ot b] = Ok L /\
    isB 8 8 n L (LF A B C D).
Proof.
  intros Hb.
  destruct (blockDiag_B 2 n [at_at b; bt_bt b; gt_gt b; ot_ot b] (fun k => match k with
     | 0 => sub A [0; 2] [0; 2] | 1 => sub B [1; 2] [1; 2]
     | 2 => sub C [0; 3] [0; 3] | _ => sub D [1; 3] [1; 3] end)) as (L & E & H).
  { lia. }
  { intros k Hk. cbn [length] in Hk. cases4 k Hk; cbn [nth]; apply Hb. }
  rewrite E. eexists. split; [reflexivity|]. cbn [length Nat.mul Nat.add] in H.
  eapply isB_ext; [exact H|].
  intros p q i j Hp Hq _ _. cases8 p Hp; cases8 q Hq; reflexivity.
Qed.

(** ** Boundary data of the children and fluxes, block by block *)
Definition dA (g z : nat -> nat -> Qc) (l : nat) : nat -> Qc :=
  match l with 0 => g 0 | 1 => z 2 | 2 => g 4 | _ => z 0 end.
Definition dB (g z : nat -> nat -> Qc) (l : nat) : nat -> Qc :=
  match l with 0 => z 2 | 1 => g 2 | 2 => g 5 | _ => z 1 end.
Definition dC (g z : nat -> nat -> Qc) (l : nat) : nat -> Qc :=
  match l with 0 => g 1 | 1 => z 3 | 2 => z 0 | _ => g 6 end.
Definition dD (g z : nat -> nat -> Qc) (l : nat) : nat -> Qc :=
  match l with 0 => z 3 | 1 => g 3 | 2 => z 1 | _ => g 7 end.

Definition fl (n : nat) (F : bfun) (d : nat -> nat -> Qc) (k i : nat) : Qc :=
  sum 4 (fun l => sum n (fun j => F k l i j * d l j)%Qc).

Definition jump (n : nat) (A B C D : bfun) (g z : nat -> nat -> Qc) (p i : nat) : Qc :=
  match p with
  | 0 => (fl n A (dA g z) 3%nat i - fl n C (dC g z) 2%nat i)%Qc
  | 1 => (fl n B (dB g z) 3%nat i - fl n D (dD g z) 2%nat i)%Qc
  | 2 => (fl n A (dA g z) 1%nat i - fl n B (dB g z) 0%nat i)%Qc
  | _ => (fl n C (dC g z) 1%nat i - fl n D (dD g z) 0%nat i)%Qc
  end.

Definition outF (fA fB fC fD : nat -> nat -> Qc) (p : nat) : nat -> Qc :=
  match p with
  | 0 => fA 0 | 1 => fC 0 | 2 => fB 1 | 3 => fD 1
  | 4 => fA 2 | 5 => fB 2 | 6 => fC 3 | _ => fD 3
  end.

Ltac one_sum := 
  repeat rewrite Qcplus_0_l; repeat rewrite <- sum_plus; repeat rewrite <- sum_minus;
  repeat rewrite <- sum_plus; repeat rewrite <- sum_minus;
  apply sum_ext; intros; ring.

Lemma X_identity n A B C D g z p i : p < 4 ->
  (sum 4 (fun l => sum n (fun k => XF A B C D p l i k * z l k))
   - sum 8 (fun q => sum n (fun j => RF A B C D p (nth q pi_WESN 0%nat) i j * g q j))
   = jump n A B C D g z p i)%Qc.
Proof.
  intros Hp. cases4 p Hp; cbn [sum XF RF nth pi_WESN jump]; unfold fl; cbn [sum dA dB dC dD]; one_sum.
Qed.

Lemma T_identity n A B C D g z p i : p < 8 ->
  (sum 8 (fun q => sum n (fun j => LF A B C D (nth p pi_WESN 0%nat) (nth q pi_WESN 0%nat) i j * g q j))
   + sum 4 (fun l => sum n (fun k => HF A B C D (nth p pi_WESN 0%nat) l i k * z l k))
   = outF (fl n A (dA g z)) (fl n B (dB g z)) (fl n C (dC g z)) (fl n D (dD g z)) p i)%Qc.
Proof.
  intros Hp. cases8 p Hp; cbn [sum LF HF nth pi_WESN outF]; unfold fl; cbn [sum dA dB dC dD]; one_sum.
Qed.

(** ** From blocks to vectors *)
Lemma app4_B n a b c d f :
  isV 1 n a (fun _ => f 0) -> isV 1 n b (fun _ => f 1) -> isV 1 n c (fun _ => f 2) ->
  isV 1 n d (fun _ => f 3) -> isV 4 n (a ++ b ++ c ++ d) f.
Proof.
  intros Ha Hb Hc Hd.
  replace (a ++ b ++ c ++ d) with (concat [a; b; c; d]) by (cbn [concat]; rewrite app_nil_r; reflexivity).
  apply (concat_B n [a; b; c; d]). intros k Hk. cbn [length] in Hk.
  cases4 k Hk; cbn [nth].
  - split; [rewrite (isV_len _ _ _ _ Ha); lia|]. intros i Hi. apply (isV_ent _ _ _ _ Ha 0); auto.
  - split; [rewrite (isV_len _ _ _ _ Hb); lia|]. intros i Hi. apply (isV_ent _ _ _ _ Hb 0); auto.
  - split; [rewrite (isV_len _ _ _ _ Hc); lia|]. intros i Hi. apply (isV_ent _ _ _ _ Hc 0); auto.
  - split; [rewrite (isV_len _ _ _ _ Hd); lia|]. intros i Hi. apply (isV_ent _ _ _ _ Hd 0); auto.
Qed.

Lemma app8_B n a b c d e f' g h f :
  isV 1 n a (fun _ => f 0) -> isV 1 n b (fun _ => f 1) -> isV 1 n c (fun _ => f 2) ->
  isV 1 n d (fun _ => f 3) -> isV 1 n e (fun _ => f 4) -> isV 1 n f' (fun _ => f 5) ->
  isV 1 n g (fun _ => f 6) -> isV 1 n h (fun _ => f 7) ->
  isV 8 n (a ++ b ++ c ++ d ++ e ++ f' ++ g ++ h) f.
Proof.
  intros Ha Hb Hc Hd He Hf Hg Hh.
  replace (a ++ b ++ c ++ d ++ e ++ f' ++ g ++ h) with (concat [a; b; c; d; e; f'; g; h])
    by (cbn [concat]; rewrite app_nil_r; reflexivity).
  apply (concat_B n [a; b; c; d; e; f'; g; h]). intros k Hk. cbn [length] in Hk.
  cases8 k Hk; cbn [nth].
  - split; [rewrite (isV_len _ _ _ _ Ha); lia|]. intros i Hi. apply (isV_ent _ _ _ _ Ha 0); auto.
  - split; [rewrite (isV_len _ _ _ _ Hb); lia|]. intros i Hi. apply (isV_ent _ _ _ _ Hb 0); auto.
  - split; [rewrite (isV_len _ _ _ _ Hc); lia|]. intros i Hi. apply (isV_ent _ _ _ _ Hc 0); auto.
  - split; [rewrite (isV_len _ _ _ _ Hd); lia|]. intros i Hi. apply (isV_ent _ _ _ _ Hd 0); auto.
  - split; [rewrite (isV_len _ _ _ _ He); lia|]. intros i Hi. apply (isV_ent _ _ _ _ He 0); auto.
  - split; [rewrite (isV_len _ _ _ _ Hf); lia|]. intros i Hi. apply (isV_ent _ _ _ _ Hf 0); auto.
  - split; [rewrite (isV_len _ _ _ _ Hg); lia|]. intros i Hi. apply (isV_ent _ _ _ _ Hg 0); auto.
  - split; [rewrite (isV_len _ _ _ _ Hh); lia|]. intros i Hi. apply (isV_ent _ _ _ _ Hh 0); auto.
Qed.

Lemma piece_B K n v f k : isV K n v f -> k < K -> isV 1 n (piece n v k) (fun _ => f k).
Proof. exact (vpiece_B K n v f k). Qed.

Lemma children_data_B n G Z g z : isV 8 n G g -> isV 4 n Z z ->
  isV 4 n (fa (children_data n G Z)) (dA g z) /\ isV 4 n (fb (children_data n G Z)) (dB g z) /\
  isV 4 n (fc (children_data n G Z)) (dC g z) /\ isV 4 n (fd (children_data n G Z)) (dD g z).
Proof.
  intros Hg Hz. unfold children_data. cbn [fa fb fc fd].
  split4; apply app4_B; cbn [dA dB dC dD];
    solve [apply (piece_B 8 n G g); auto; lia | apply (piece_B 4 n Z z); auto; lia].
Qed.

Lemma outer_flux_B n h fA fB fC fD :
  isV 4 n (fa h) fA -> isV 4 n (fb h) fB -> isV 4 n (fc h) fC -> isV 4 n (fd h) fD ->
  isV 8 n (outer_flux n h) (outF fA fB fC fD).
Proof.
  intros HA HB HC HD. unfold outer_flux. apply app8_B; cbn [outF];
    solve [apply (piece_B 4 n _ fA _ HA); lia | apply (piece_B 4 n _ fB _ HB); lia
          |apply (piece_B 4 n _ fC _ HC); lia | apply (piece_B 4 n _ fD _ HD); lia].
Qed.

Lemma isV1_eq n v w f g : isV 1 n v (fun _ => f) -> isV 1 n w (fun _ => g) ->
  (v = w <-> forall i, i < n -> f i = g i).
Proof.
  intros Hv Hw. split.
  - intros -> i Hi. rewrite <- (isV_ent _ _ _ _ Hv 0 i) by lia.
    apply (isV_ent _ _ _ _ Hw 0 i); lia.
  - intros H. apply (isV_eq 1 n v w (fun _ => f)); auto.
    eapply isV_ext; [exact Hw|]. intros p i _ Hi. symmetry. auto.
Qed.

Lemma continuous_B n h fA fB fC fD :
  isV 4 n (fa h) fA -> isV 4 n (fb h) fB -> isV 4 n (fc h) fC -> isV 4 n (fd h) fD ->
  (continuous n h <-> forall i, i < n ->
     fA 3 i = fC 2 i /\ fB 3 i = fD 2 i /\ fA 1 i = fB 0 i /\ fC 1 i = fD 0 i).
Proof.
  intros HA HB HC HD. unfold continuous.
  rewrite (isV1_eq n _ _ _ _ (piece_B 4 n _ _ 3 HA ltac:(lia)) (piece_B 4 n _ _ 2 HC ltac:(lia))).
  rewrite (isV1_eq n _ _ _ _ (piece_B 4 n _ _ 3 HB ltac:(lia)) (piece_B 4 n _ _ 2 HD ltac:(lia))).
  rewrite (isV1_eq n _ _ _ _ (piece_B 4 n _ _ 1 HA ltac:(lia)) (piece_B 4 n _ _ 0 HB ltac:(lia))).
  rewrite (isV1_eq n _ _ _ _ (piece_B 4 n _ _ 1 HC ltac:(lia)) (piece_B 4 n _ _ 0 HD ltac:(lia))).
  split; [intros (a & b & c & d); auto|].
  intros H. repeat split; intros i Hi; apply (H i Hi).
Qed.

Lemma apply_op_vec T g : apply_op T g =
  vec_of (nr T) (fun i => sum (nc T) (fun j => val T i j * vval g j)%Qc).
Proof. reflexivity. Qed.

Lemma apply_op_length T g : length (apply_op T g) = nr T.
Proof. rewrite apply_op_vec. apply vec_of_length. Qed.

Lemma apply_op_mulv T g : well_formed T -> nc T = length g -> nc T <> 0 ->
  mulv T g = Ok (apply_op T g).
Proof.
  intros Hw Hl Hn. rewrite mulv_ok by auto. rewrite apply_op_vec. f_equal.
  apply vec_of_ext. intros i Hi. apply sum_ext. intros j Hj.
  rewrite val_ent by auto. reflexivity.
Qed.

Lemma apply_op_B R K n T F v d : isB R K n T F -> isV K n v d ->
  isV R n (apply_op T v) (fun p i => sum K (fun l => sum n (fun j => F p l i j * d l j)%Qc)).
Proof.
  intros HT Hv. rewrite apply_op_vec. rewrite (isB_nr _ _ _ _ _ HT). apply isV_vec_of.
  intros p i Hp Hi. rewrite (isB_nc _ _ _ _ _ HT), sum_mul.
  apply sum_ext. intros l Hl. apply sum_ext. intros j Hj.
  rewrite val_ent; [|apply HT| |].
  - change (ent 0%Qc T) with (qent T).
    rewrite (isB_ent _ _ _ _ _ HT), (isV_ent _ _ _ _ Hv) by auto. reflexivity.
  - rewrite (isB_nr _ _ _ _ _ HT). auto using blk_bound.
  - rewrite (isB_nc _ _ _ _ _ HT). auto using blk_bound.
Qed.

Lemma vplus_B K n v w f g : isV K n v f -> isV K n w g ->
  isV K n (vplus v w) (fun p i => f p i + g p i)%Qc.
Proof.
  intros Hv Hw. unfold vplus.
  change (map ?h (seq 0 ?k)) with (vec_of k h). rewrite (isV_len _ _ _ _ Hv).
  apply isV_vec_of. intros p i Hp Hi.
  rewrite (isV_ent _ _ _ _ Hv), (isV_ent _ _ _ _ Hw) by auto. reflexivity.
Qed.

Lemma zeros_length n : length (zeros n) = n.
Proof. apply repeat_length. Qed.

Lemma vval_zeros n i : vval (zeros n) i = 0%Qc.
Proof. unfold vval, zeros. apply nth_repeat. Qed.

Lemma zeros_B K n : isV K n (zeros (K * n)) (fun _ _ => 0%Qc).
Proof. split; [apply zeros_length|]. intros. apply vval_zeros. Qed.

Definition bfun_of (n : nat) (T : matrix Qc) : bfun := fun p q i j => qent T (p * n + i) (q * n + j).
Definition vfun_of (n : nat) (v : list Qc) : nat -> nat -> Qc := fun p i => vval v (p * n + i).

Lemma square_B n T : square (4 * n) T -> isB 4 4 n T (bfun_of n T).
Proof. intros (a & b & c). apply isB_self; auto. Qed.

(** Blocks of the fluxes of the four children. *)
Lemma fluxes_B n T G Z g z : all4 (square (4 * n)) T -> isV 8 n G g -> isV 4 n Z z ->
  let h := fluxes T (children_data n G Z) in
  isV 4 n (fa h) (fl n (bfun_of n (fa T)) (dA g z)) /\ isV 4 n (fb h) (fl n (bfun_of n (fb T)) (dB g z)) /\
  isV 4 n (fc h) (fl n (bfun_of n (fc T)) (dC g z)) /\ isV 4 n (fd h) (fl n (bfun_of n (fd T)) (dD g z)).
Proof.
  intros (HA & HB & HC & HD) Hg Hz h. destruct (children_data_B n G Z g z Hg Hz) as (a & b & c & d).
  unfold h, fluxes. cbn [fa fb fc fd].
  split4; apply (apply_op_B 4 4 n); auto using square_B.
Qed.

Definition XFT n (T : four (matrix Qc)) := XF (bfun_of n (fa T)) (bfun_of n (fb T)) (bfun_of n (fc T)) (bfun_of n (fd T)).
Definition RFT n (T : four (matrix Qc)) := RF (bfun_of n (fa T)) (bfun_of n (fb T)) (bfun_of n (fc T)) (bfun_of n (fd T)).
Definition HFT n (T : four (matrix Qc)) := HF (bfun_of n (fa T)) (bfun_of n (fb T)) (bfun_of n (fc T)) (bfun_of n (fd T)).
Definition LFT n (T : four (matrix Qc)) := LF (bfun_of n (fa T)) (bfun_of n (fb T)) (bfun_of n (fc T)) (bfun_of n (fd T)).

(** Continuity of the fluxes is the linear system with matrix X. *)
Definition hj (n : nat) (hf : four (list Qc)) (p i : nat) : Qc :=
  match p with
  | 0 => (vfun_of n (fc hf) 2%nat i - vfun_of n (fa hf) 3%nat i)%Qc
  | 1 => (vfun_of n (fd hf) 2%nat i - vfun_of n (fb hf) 3%nat i)%Qc
  | 2 => (vfun_of n (fb hf) 0%nat i - vfun_of n (fa hf) 1%nat i)%Qc
  | _ => (vfun_of n (fd hf) 0%nat i - vfun_of n (fc hf) 1%nat i)%Qc
  end.

Lemma continuous_system n T hf G Z g z :
  all4 (square (4 * n)) T -> isV 8 n G g -> isV 4 n Z z ->
  all4 (fun h => length h = 4 * n) hf ->
  (continuous n (total_fluxes T hf (children_data n G Z)) <->
   forall p i, p < 4 -> i < n ->
     sum 4 (fun l => sum n (fun k => XFT n T p l i k * z l k)%Qc) =
     (sum 8 (fun q => sum n (fun j => RFT n T p (nth q pi_WESN 0%nat) i j * g q j)) + hj n hf p i)%Qc).
Proof.
  intros HT Hg Hz (La & Lb & Lc & Ld).
  pose proof (fluxes_B n T G Z g z HT Hg Hz) as F. cbv zeta in F. destruct F as (FA & FB & FC & FD).
  unfold fluxes in FA, FB, FC, FD. cbn [fa fb fc fd] in FA, FB, FC, FD.
  rewrite (continuous_B n (total_fluxes T hf (children_data n G Z)) _ _ _ _
            (vplus_B 4 n _ _ _ _ FA (isV_self 4 n _ La)) (vplus_B 4 n _ _ _ _ FB (isV_self 4 n _ Lb))
            (vplus_B 4 n _ _ _ _ FC (isV_self 4 n _ Lc)) (vplus_B 4 n _ _ _ _ FD (isV_self 4 n _ Ld))).
  unfold vfun_of in *.
  assert (E : forall a b c d e f : Qc, (a - b = e - f)%Qc -> (e + c = f + d)%Qc <-> a = (b + (d - c))%Qc).
  { intros a b c d e f H. split; intros H'.
    - replace a with ((a - b) + b)%Qc by ring. rewrite H.
      replace (e - f)%Qc with ((e + c) - f - c)%Qc by ring. rewrite H'. ring.
    - replace (e + c)%Qc with ((e - f) + f + c)%Qc by ring. rewrite <- H, H'. ring. }
  unfold XFT, RFT.
  split.
  - intros H p i Hp Hi. specialize (H i Hi). destruct H as (h0 & h1 & h2 & h3).
    pose proof (X_identity n (bfun_of n (fa T)) (bfun_of n (fb T)) (bfun_of n (fc T)) (bfun_of n (fd T)) g z p i Hp) as I.
    cases4 p Hp; cbn [jump] in I; cbn [hj]; unfold vfun_of; apply (E _ _ _ _ _ _ I); assumption.
  - intros H i Hi.
    pose proof (fun p Hp => X_identity n (bfun_of n (fa T)) (bfun_of n (fb T)) (bfun_of n (fc T)) (bfun_of n (fd T)) g z p i Hp) as I.
    repeat split.
    + apply (E _ _ _ _ _ _ (I 0 ltac:(lia))). apply (H 0 i); lia.
    + apply (E _ _ _ _ _ _ (I 1 ltac:(lia))). apply (H 1 i); lia.
    + apply (E _ _ _ _ _ _ (I 2 ltac:(lia))). apply (H 2 i); lia.
    + apply (E _ _ _ _ _ _ (I 3 ltac:(lia))). apply (H 3 i); lia.
Qed.

Lemma vplus_zeros v : vplus v (zeros (length v)) = v.
Proof.
  unfold vplus. change (map ?h (seq 0 ?k)) with (vec_of k h). symmetry.
  apply (vec_is 0%Qc); auto. intros i Hi. rewrite vval_zeros. unfold vval. ring.
Qed.

Definition zero4 (k : nat) : four (list Qc) := Four (zeros k) (zeros k) (zeros k) (zeros k).

Lemma total_fluxes_zero n T x : all4 (square (4 * n)) T ->
  total_fluxes T (zero4 (4 * n)) x = fluxes T x.
Proof.
  intros (HA & HB & HC & HD). unfold total_fluxes, fluxes, zero4. cbn [fa fb fc fd].
  destruct HA as (_ & EA & _). destruct HB as (_ & EB & _).
  destruct HC as (_ & EC & _). destruct HD as (_ & ED & _).
  rewrite <- (apply_op_length (fa T) (fa x)) in EA. rewrite <- (apply_op_length (fb T) (fb x)) in EB.
  rewrite <- (apply_op_length (fc T) (fc x)) in EC. rewrite <- (apply_op_length (fd T) (fd x)) in ED.
  rewrite <- EA at 1. rewrite vplus_zeros. rewrite <- EB at 1. rewrite vplus_zeros.
  rewrite <- EC at 1. rewrite vplus_zeros. rewrite <- ED at 1. rewrite vplus_zeros. reflexivity.
Qed.

Lemma continuous_system0 n T G Z g z :
  all4 (square (4 * n)) T -> isV 8 n G g -> isV 4 n Z z ->
  (continuous n (fluxes T (children_data n G Z)) <->
   forall p i, p < 4 -> i < n ->
     sum 4 (fun l => sum n (fun k => XFT n T p l i k * z l k)%Qc) =
     sum 8 (fun q => sum n (fun j => RFT n T p (nth q pi_WESN 0%nat) i j * g q j)%Qc)).
Proof.
  intros HT Hg Hz. rewrite <- (total_fluxes_zero n T _ HT).
  rewrite (continuous_system n T (zero4 (4 * n)) G Z g z); auto.
  - assert (E : forall p i, hj n (zero4 (4 * n)) p i = 0%Qc).
    { intros p i. unfold hj, vfun_of, zero4. cbn [fa fb fc fd].
      destruct p as [|[|[|p]]]; rewrite !vval_zeros; ring. }
    split; intros H p i Hp Hi; rewrite H by auto; rewrite ?E; ring.
  - unfold all4, zero4. cbn [fa fb fc fd]. rewrite !zeros_length. auto.
Qed.

Lemma X_nonsingular n T X : all4 (square (4 * n)) T -> isB 4 4 n X (XFT n T) ->
  interface_unique n T -> nonsingular X.
Proof.
  intros HT HX HU. split; [apply HX|].
  rewrite (isB_nr _ _ _ _ _ HX), (isB_nc _ _ _ _ _ HX). split; [reflexivity|].
  intros z Hz.
  set (Z := vec_of (4 * n) z).
  assert (VZ : isV 4 n Z (fun p i => z (p * n + i))) by (apply isV_vec_of; auto).
  assert (EZ : Z = zeros (4 * n)).
  { apply HU; [apply vec_of_length|].
    apply (proj2 (continuous_system0 n T _ _ _ _ HT (zeros_B 8 n) VZ)).
    intros p i Hp Hi. transitivity 0%Qc.
    - transitivity (sum (4 * n) (fun j => val X (p * n + i) j * z j)%Qc); [|apply Hz; auto using blk_bound].
      rewrite sum_mul. apply sum_ext. intros l Hl. apply sum_ext. intros k Hk. f_equal.
      rewrite val_ent; [|apply HX| |].
      + symmetry. apply (isB_ent _ _ _ _ _ HX); auto.
      + rewrite (isB_nr _ _ _ _ _ HX). auto using blk_bound.
      + rewrite (isB_nc _ _ _ _ _ HX). auto using blk_bound.
    - symmetry. apply sum_zero. intros. apply sum_zero. intros. ring. }
  intros j Hj. transitivity (vval Z j).
  - unfold vval, Z. rewrite nth_vec_of by auto. reflexivity.
  - rewrite EZ. apply vval_zeros.
Qed.

(** ** Double sums *)
Definition dsum (K n : nat) (f : nat -> nat -> Qc) : Qc := sum K (fun l => sum n (f l)).

Lemma dsum_ext K n f g : (forall l k, l < K -> k < n -> f l k = g l k) -> dsum K n f = dsum K n g.
Proof. intros H. apply sum_ext. intros l Hl. apply sum_ext. auto. Qed.

Lemma dsum_swap K n Q m f :
  dsum K n (fun l k => dsum Q m (fun q j => f l k q j)) =
  dsum Q m (fun q j => dsum K n (fun l k => f l k q j)).
Proof.
  unfold dsum.
  rewrite (sum_ext K _ (fun l => sum Q (fun q => sum n (fun k => sum m (fun j => f l k q j))))).
  2:{ intros l _. rewrite sum_swap. reflexivity. }
  rewrite sum_swap. apply sum_ext. intros q _.
  rewrite (sum_ext K _ (fun l => sum m (fun j => sum n (fun k => f l k q j)))).
  2:{ intros l _. rewrite sum_swap. reflexivity. }
  rewrite sum_swap. reflexivity.
Qed.

Lemma dsum_scal_l K n c f : (dsum K n (fun l k => c * f l k) = c * dsum K n f)%Qc.
Proof.
  unfold dsum. rewrite <- sum_scal_l. apply sum_ext. intros l _. rewrite <- sum_scal_l. reflexivity.
Qed.

Lemma dsum_scal_r K n c f : (dsum K n (fun l k => f l k * c) = dsum K n f * c)%Qc.
Proof.
  unfold dsum. rewrite <- sum_scal_r. apply sum_ext. intros l _. rewrite <- sum_scal_r. reflexivity.
Qed.

Lemma dsum_plus K n f g : (dsum K n (fun l k => f l k + g l k) = dsum K n f + dsum K n g)%Qc.
Proof.
  unfold dsum. rewrite <- sum_plus. apply sum_ext. intros l _. rewrite <- sum_plus. reflexivity.
Qed.

Lemma dsum_assoc K n Q m X (S : nat -> nat -> nat -> nat -> Qc) g :
  dsum K n (fun l k => X l k * dsum Q m (fun q j => S l q k j * g q j))%Qc =
  dsum Q m (fun q j => dsum K n (fun l k => X l k * S l q k j) * g q j)%Qc.
Proof.
  transitivity (dsum K n (fun l k => dsum Q m (fun q j => X l k * S l q k j * g q j)))%Qc.
  - apply dsum_ext. intros l k _ _. rewrite <- dsum_scal_l. apply dsum_ext. intros. ring.
  - rewrite dsum_swap. apply dsum_ext. intros q j _ _. rewrite <- dsum_scal_r. reflexivity.
Qed.

(** ** Merge *)
Record family_ops (n : nat) (T : four (matrix Qc)) (S H T' : matrix Qc) : Prop := {
  fo_S : well_formed S /\ nr S = 4 * n /\ nc S = 8 * n;
  fo_H : isB 8 4 n H (HFT n T);
  fo_T : square (8 * n) T';
  fo_cont : forall G, length G = 8 * n ->
    continuous n (fluxes T (children_data n G (apply_op S G)));
  fo_flux : forall G, length G = 8 * n ->
    apply_op T' G = outer_flux n (fluxes T (children_data n G (apply_op S G))) }.

(** The part of merge4to1 after coarsen_. *)
Definition merge_rest (gesv : gesv_t) (tau : patch) (ch' : four patch) : res patch :=
  s <- createIndexSets ch' ;;
  b <- createMatrixBlocks s ch' ;;
  t1 <- mergeX tau b ;;
  t2 <- mergeS gesv t1 b ;;
  t3 <- mergeT t2 b ;;
  t4 <- reorderOperators t3 ch' ;;
  Ok (mergePatch t4 ch').

Lemma merge4to1_rest gesv tau ch :
  merge4to1 gesv tau ch = (ch' <- coarsen ch ;; t <- merge_rest gesv tau ch' ;; Ok (t, ch')).
Proof.
  unfold merge4to1, merge_rest. destruct (coarsen ch) as [c|e|]; [|reflexivity|reflexivity].
  rewrite !bind_Ok. rewrite !bind_assoc.
  destruct (createIndexSets c) as [s|e|]; [|reflexivity|reflexivity]. rewrite !bind_Ok.
  rewrite !bind_assoc. destruct (createMatrixBlocks s c) as [b|e|]; [|reflexivity|reflexivity]. rewrite !bind_Ok.
  rewrite !bind_assoc. destruct (mergeX tau b) as [t1|e|]; [|reflexivity|reflexivity]. rewrite !bind_Ok.
  rewrite !bind_assoc. destruct (mergeS gesv t1 b) as [t2|e|]; [|reflexivity|reflexivity]. rewrite !bind_Ok.
  rewrite !bind_assoc. destruct (mergeT t2 b) as [t3|e|]; [|reflexivity|reflexivity]. rewrite !bind_Ok.
  rewrite !bind_assoc. destruct (reorderOperators t3 c) as [t4|e|]; reflexivity.
Qed.

Lemma pi_perm : Permutation pi_WESN (seq 0 8).
Proof.
  unfold pi_WESN. cbn [seq].
  apply perm_skip.
  transitivity [1; 4; 2; 6; 3; 5; 7].
  { change [4; 2; 6; 1; 3; 5; 7] with ([4; 2; 6] ++ 1 :: [3; 5; 7]).
    symmetry. change [1; 4; 2; 6; 3; 5; 7] with (1 :: [4; 2; 6] ++ [3; 5; 7]). apply Permutation_middle. }
  apply perm_skip.
  transitivity [2; 4; 6; 3; 5; 7]; [apply perm_swap|]. apply perm_skip.
  transitivity [3; 4; 6; 5; 7].
  { change [4; 6; 3; 5; 7] with ([4; 6] ++ 3 :: [5; 7]). symmetry.
    change [3; 4; 6; 5; 7] with (3 :: [4; 6] ++ [5; 7]). apply Permutation_middle. }
  do 2 apply perm_skip. apply perm_swap.
Qed.

Definition four_T (ch : four patch) : four (matrix Qc) := fmap pT ch.

Lemma merge_rest_ok gesv tau ch n :
  gesv_contract gesv -> n <> 0 ->
  all4 (fun p => psize p = n) ch -> all4 (square (4 * n)) (four_T ch) ->
  interface_unique n (four_T ch) ->
  exists X S H T,
    merge_rest gesv tau ch = Ok (mergePatch (set_T (set_S (set_H (set_X tau X) H) S) T) ch) /\
    family_ops n (four_T ch) S H T /\ isB 4 4 n X (XFT n (four_T ch)).
Proof.
  intros Hg Hn Hs HT HU. unfold merge_rest.
  destruct HT as (TA & TB & TC & TD).
  rewrite (createIndexSets_ok n) by (auto; apply TA). rewrite bind_Ok.
  destruct (createMatrixBlocks_ok n ch _ _ _ _ (square_B n _ TA) (square_B n _ TB)
              (square_B n _ TC) (square_B n _ TD)) as (b & E & Hb).
  rewrite E, bind_Ok. clear E.
  set (T := four_T ch) in *.
  assert (HT : all4 (square (4 * n)) T) by (repeat split; assumption || apply TA || apply TB || apply TC || apply TD).
  destruct (mergeX_ok n tau b _ _ _ _ Hb) as (X & E & HX). rewrite E, bind_Ok. clear E.
  unfold mergeS. destruct (S_RHS_ok n b _ _ _ _ Hb) as (R & E & HR). rewrite E, bind_Ok. clear E.
  change (pX (set_X tau X)) with X.
  destruct (solvem_ok gesv X R) as (S & E & WS & NS & CS & HS); auto.
  { exact (X_nonsingular n T X HT HX HU). }
  { rewrite (isB_nr _ _ _ _ _ HX). lia. }
  { apply HR. }
  { rewrite (isB_nr _ _ _ _ _ HX), (isB_nr _ _ _ _ _ HR). reflexivity. }
  rewrite E, bind_Ok. clear E.
  rewrite (isB_nr _ _ _ _ _ HX) in NS, HS. rewrite (isB_nc _ _ _ _ _ HR) in CS, HS.
  pose proof (isB_self 4 8 n S WS NS CS) as BS. fold (bfun_of n S) in BS.
  rewrite bind_Ok.
  unfold mergeT.
  destruct (T_LHS_ok n b _ _ _ _ Hb) as (L & E & HL). rewrite E, bind_Ok. clear E.
  destruct (buildH_ok n b _ _ _ _ Hb) as (H & E & HH). rewrite E, bind_Ok. clear E.
  cbv zeta.
  change (pH (set_H (set_S (set_X tau X) S) H)) with H.
  change (pS (set_H (set_S (set_X tau X) S) H)) with S.
  destruct (mulm_B 8 4 8 n H S _ _ HH BS) as (HS' & E & HHS); try lia. rewrite E, bind_Ok. clear E.
  unfold madd, maddeq.
  destruct (mzipeq_B Qcplus 8 8 n _ _ _ _ HL HHS) as (T1 & E & HT1). rewrite E, bind_Ok. clear E.
  rewrite bind_Ok. unfold reorderOperators. cbv zeta.
  replace (nr (pT (fa ch)) / 4) with n.
  2:{ pose proof (proj1 (proj2 TA)) as E. change (nr (pT (fa ch)) = 4 * n) in E. rewrite E.
      rewrite Nat.mul_comm, Nat.div_mul; auto. }
  match goal with |- context [pS (set_T ?a ?b)] => change (pS (set_T a b)) with S end.
  destruct (mblockPermute_B 4 8 n S _ [0; 1; 2; 3] pi_WESN BS) as (S2 & E & HS2).
  { apply Permutation_refl. }
  { apply pi_perm. }
  rewrite E, bind_Ok. clear E.
  match goal with |- context [mblockPermute (pT ?a) _ _ _ _] => change (pT a) with T1 end.
  destruct (mblockPermute_B 8 8 n T1 _ pi_WESN pi_WESN HT1 pi_perm pi_perm) as (T2 & E & HT2).
  rewrite E, bind_Ok. clear E. rewrite bind_Ok.
  exists X, S2, H, T2. split; [reflexivity|]. split; [|exact HX].
  assert (KS : forall G, length G = 8 * n ->
    isV 4 n (apply_op S2 G) (fun l k => dsum 8 n (fun q j => bfun_of n S l (nth q pi_WESN 0%nat) k j * vfun_of n G q j)%Qc)).
  { intros G HG. eapply isV_ext; [apply (apply_op_B 4 8 n S2 _ G _ HS2 (isV_self 8 n G HG))|].
    intros l k Hl Hk. cbv beta. cases4 l Hl; reflexivity. }
  assert (XS : forall p q i j, p < 4 -> q < 8 -> i < n -> j < n ->
     dsum 4 n (fun l k => XFT n T p l i k * bfun_of n S l q k j)%Qc = RFT n T p q i j).
  { intros p q i j Hp Hq Hi Hj.
    transitivity (qent R (p * n + i) (q * n + j)); [|apply (isB_ent _ _ _ _ _ HR); auto].
    rewrite <- HS by auto using blk_bound. rewrite sum_mul. apply sum_ext. intros l Hl. apply sum_ext.
    intros k Hk. unfold bfun_of. rewrite (isB_ent _ _ _ _ _ HX) by auto. reflexivity. }
  assert (PB : forall q, q < 8 -> nth q pi_WESN 0 < 8) by (intros q Hq; cases8 q Hq; cbn; lia).
  constructor.
  - split; [apply HS2|]. split; [apply (isB_nr _ _ _ _ _ HS2)|apply (isB_nc _ _ _ _ _ HS2)].
  - exact HH.
  - split; [apply HT2|]. split; [apply (isB_nr _ _ _ _ _ HT2)|apply (isB_nc _ _ _ _ _ HT2)].
  - intros G HG.
    apply (proj2 (continuous_system0 n T G _ _ _ HT (isV_self 8 n G HG) (KS G HG))).
    intros p i Hp Hi.
    etransitivity; [exact (dsum_assoc 4 n 8 n (fun l k => XFT n T p l i k)
       (fun l q k j => bfun_of n S l (nth q pi_WESN 0%nat) k j) (vfun_of n G))|].
    apply sum_ext. intros q Hq. apply sum_ext. intros j Hj. cbv beta. rewrite XS by auto. reflexivity.
  - intros G HG.
    pose proof (fluxes_B n T G _ _ _ HT (isV_self 8 n G HG) (KS G HG)) as F.
    cbv zeta in F. destruct F as (FA & FB & FC & FD).
    apply (isV_eq 8 n _ _ (outF (fl n (bfun_of n (fa T)) (dA (vfun_of n G) (fun l k => dsum 8 n (fun q j => bfun_of n S l (nth q pi_WESN 0%nat) k j * vfun_of n G q j)%Qc)))
       (fl n (bfun_of n (fb T)) (dB (vfun_of n G) (fun l k => dsum 8 n (fun q j => bfun_of n S l (nth q pi_WESN 0%nat) k j * vfun_of n G q j)%Qc)))
       (fl n (bfun_of n (fc T)) (dC (vfun_of n G) (fun l k => dsum 8 n (fun q j => bfun_of n S l (nth q pi_WESN 0%nat) k j * vfun_of n G q j)%Qc)))
       (fl n (bfun_of n (fd T)) (dD (vfun_of n G) (fun l k => dsum 8 n (fun q j => bfun_of n S l (nth q pi_WESN 0%nat) k j * vfun_of n G q j)%Qc))))).
    2:{ apply outer_flux_B; assumption. }
    eapply isV_ext; [apply (apply_op_B 8 8 n T2 _ G _ HT2 (isV_self 8 n G HG))|].
    intros p i Hp Hi. cbv beta.
    rewrite <- T_identity by auto.
    transitivity (dsum 8 n (fun q j => LFT n T (nth p pi_WESN 0%nat) (nth q pi_WESN 0%nat) i j * vfun_of n G q j)
      + dsum 8 n (fun q j => dsum 4 n (fun l k => HFT n T (nth p pi_WESN 0%nat) l i k * bfun_of n S l (nth q pi_WESN 0%nat) k j) * vfun_of n G q j))%Qc.
    + rewrite <- dsum_plus. apply sum_ext. intros q Hq. apply sum_ext. intros j Hj. unfold dsum, LFT, HFT, vfun_of. cbv beta.
      unfold T, four_T. cbn [fmap fa fb fc fd]. ring.
    + f_equal. symmetry.
      exact (dsum_assoc 4 n 8 n (fun l k => HFT n T (nth p pi_WESN 0%nat) l i k)
       (fun l q k j => bfun_of n S l (nth q pi_WESN 0%nat) k j) (vfun_of n G)).
Qed.
