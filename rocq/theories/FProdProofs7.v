(** A constant that is not preserved by a change of resolution. *)
From Coq Require Import Reals Lra Permutation.
From Flocq Require Import Core Binary Bits.
From Verif Require Import Base VectorModel MatrixModel LinSpec MatProofs MatProofs2 MatProofs3 HPSModel FloatModel FloatSpec
  FloatProofs FloatProofs2 FProdModel FProdSpec FProdProofs FProdProofs2 FProdProofs3 FProdProofs4 FProdProofs5.

Local Notation val := FloatSpec.val.

Definition loop_value (l : list (double * double)) : double := fold_left (fun s p => dadd s (dmul (fst p) (snd p))) l (dint 0).
Lemma loop_value_sum l : sum_value l (loop_value l).
Proof. apply (loop_sum l [] (dint 0) sum_none). Qed.

Definition point_three : double := ddiv (dint 3) (dint 10).

Lemma loop_outcome D x rows : negb (nc D =? length x) = false -> (nc D =? 0) = false -> mapM (drow D) (seq 0 (nr D)) = Ok rows ->
  dmulv_outcome D x (Ok (map (fun row => loop_value (combine row x)) rows)).
Proof.
  intros E1 E2 E3. unfold dmulv_outcome. rewrite E1, E2, E3. eexists. split; [reflexivity|]. clear.
  induction rows as [|r l IH]; constructor; [apply loop_value_sum|exact IH].
Qed.

Definition three_data : list double := repeat point_three 12.

Local Open Scope R_scope.

Lemma same_double a b : finite a -> finite b -> val a = val b -> val a <> 0 -> a = b.
Proof.
  intros Fa Fb E N. apply B2R_Bsign_inj; try assumption.
  destruct a as [s|s|s pl H|s m e H], b as [s'|s'|s' pl' H'|s' m' e' H']; try discriminate Fa; try discriminate Fb; try (exfalso; apply N; (reflexivity || (rewrite E; reflexivity))).
  unfold FloatSpec.val in E. cbn [Bsign]. apply (f_equal (Rlt_bool 0)) in E as E1. cbn [B2R] in E1.
  destruct s, s'; try reflexivity; exfalso.
  - rewrite Rlt_bool_false in E1 by (apply Rlt_le, F2R_lt_0; reflexivity). rewrite Rlt_bool_true in E1 by (apply F2R_gt_0; reflexivity). discriminate.
  - rewrite Rlt_bool_true in E1 by (apply F2R_gt_0; reflexivity). rewrite Rlt_bool_false in E1 by (apply Rlt_le, F2R_lt_0; reflexivity). discriminate.
Qed.

Lemma add_zeros l x : finite x -> Forall (fun p => finite (fst p) /\ val (fst p) = 0 /\ finite (snd p)) l ->
  finite (fold_left (fun s p => dadd s (dmul (fst p) (snd p))) l x) /\
  val (fold_left (fun s p => dadd s (dmul (fst p) (snd p))) l x) = val x.
Proof.
  intros Fx F. revert x Fx. induction F as [|p l (F1 & V & F2) F IH]; intros x Fx; [split; [exact Fx|reflexivity]|].
  cbn [fold_left].
  assert (P0 : rnd (val (fst p) * val (snd p)) = 0) by (rewrite V, Rmult_0_l; apply rnd0).
  destruct (dmul_ok (fst p) (snd p) F1 F2) as (Fm & Vm); [rewrite P0, Rabs_R0; apply bpow_gt_0|]. rewrite P0 in Vm.
  assert (S0 : rnd (val x + val (dmul (fst p) (snd p))) = val x) by (rewrite Vm, Rplus_0_r; apply rnd_repr, repr_val).
  destruct (dadd_ok x (dmul (fst p) (snd p)) Fx Fm) as (Fa & Va); [rewrite S0; apply lt_emax_val|]. rewrite S0 in Va.
  destruct (IH _ Fa) as (A & B). split; [exact A|]. rewrite B. exact Va.
Qed.

Definition M6 : matrix Qc := match (L <- Coarse2Fine 6 ;; four_diag L) with Ok M => M | _ => mconst 0 0 0%Qc end.
Lemma M6_row : map this (firstn 12 (dat M6)) = [45 # 32; -9 # 16; 5 # 32; 0 # 1; 0 # 1; 0 # 1; 0 # 1; 0 # 1; 0 # 1; 0 # 1; 0 # 1; 0 # 1]%Q.
Proof. vm_compute. reflexivity. Qed.
Lemma M6_ent j : (j < 12)%nat -> qval (nth j (dat M6) 0%Qc) = Q2R (nth j [45 # 32; -9 # 16; 5 # 32; 0 # 1; 0 # 1; 0 # 1; 0 # 1; 0 # 1; 0 # 1; 0 # 1; 0 # 1; 0 # 1]%Q 0%Q).
Proof.
  intros H. rewrite <- M6_row. unfold qval. f_equal. change 0%Q with (this 0%Qc). rewrite map_nth. f_equal. symmetry.
  rewrite <- (firstn_skipn 12 (dat M6)) at 2. rewrite app_nth1; [reflexivity|].
  pose proof (f_equal (@length Q) M6_row) as E. rewrite map_length in E. cbn [length] in E. lia.
Qed.

Definition end_value : double := dadd (dadd (dadd (dint 0) (dmul (dlit 45 5) point_three)) (dmul (dlit (-9) 4) point_three)) (dmul (dlit 5 5) point_three).

Lemma end_differs : end_value <> point_three.
Proof. intros E. apply (f_equal (B2FF 53 1024)) in E. vm_compute in E. discriminate E. Qed.
Lemma end_finite : finite end_value.
Proof. vm_compute. reflexivity. Qed.
Lemma end_nonzero : val end_value <> 0.
Proof.
  assert (E : exists s m e, B2FF 53 1024 end_value = F754_finite s m e) by (vm_compute; eauto).
  destruct E as (s & m & e & E). destruct end_value as [s'|s'|s' pl' H'|s' m' e' H']; try discriminate E.
  unfold FloatSpec.val. cbn [B2R]. intros Z. apply eq_0_F2R in Z. destruct s'; discriminate Z.
Qed.
Lemma three_finite : finite point_three.
Proof. vm_compute. reflexivity. Qed.

Lemma fold3 {A B} (f : A -> B -> A) a b c rest x : fold_left f (a :: b :: c :: rest) x = fold_left f rest (f (f (f x a) b) c).
Proof. reflexivity. Qed.

Lemma three_changes : exists y, drefine 6 three_data (Ok y) /\ finite (nth 0 y (dint 0)) /\ val (nth 0 y (dint 0)) <> val point_three.
Proof.
  destruct (refine_matrix 3 ltac:(lia)) as (L & M & EL & EM & RR). cbn [Nat.mul Nat.add] in EL.
  pose proof (coarse2fine_same 6) as S. rewrite EL in S. destruct (relres_ok _ _ _ S) as (DL & ED & SL).
  pose proof (four_same DL L SL) as S4. rewrite EM in S4. destruct (relres_ok _ _ _ S4) as (D & E4 & SD).
  assert (EM6 : M = M6) by (unfold M6; rewrite EL, bind_Ok, EM; reflexivity).
  destruct RR as (W & R & C & _). pose proof (same_wf _ _ SD W) as WD. pose proof SD as (S1 & S2 & S3).
  assert (HC : nc D = 12%nat) by lia.
  exists (map (fun row => loop_value (combine row three_data)) (map (row_of D) (seq 0 (nr D)))).
  split.
  { unfold drefine. rewrite ED, bind_Ok, E4. apply loop_outcome; [rewrite HC; reflexivity|rewrite HC; reflexivity|apply drows_ok, WD]. }
  assert (E0 : nth 0 (map (fun row => loop_value (combine row three_data)) (map (row_of D) (seq 0 (nr D)))) (dint 0) = loop_value (combine (row_of D 0) three_data)).
  { replace (nr D) with 24%nat by lia. reflexivity. }
  rewrite E0.
  assert (EN : forall j, (j < 12)%nat -> is_double (nth j (dat D) (dint 0)) (nth j (dat M6) 0%Qc)).
  { intros j Hj. rewrite <- EM6. apply same_nth; [exact S3|]. unfold well_formed in W. rewrite W, R, C. lia. }
  rewrite row_pairs by (rewrite HC; reflexivity). rewrite HC. cbn [Nat.mul Nat.add seq map].
  change (nth 0 three_data (dint 0)) with point_three.
  change (nth 1 three_data (dint 0)) with point_three.
  change (nth 2 three_data (dint 0)) with point_three.
  destruct (EN 0%nat ltac:(lia)) as (F0 & V0). destruct (EN 1%nat ltac:(lia)) as (F1 & V1). destruct (EN 2%nat ltac:(lia)) as (F2 & V2).
  rewrite (M6_ent 0) in V0 by lia. rewrite (M6_ent 1) in V1 by lia. rewrite (M6_ent 2) in V2 by lia. cbn [nth] in V0, V1, V2.
  unfold Q2R in V0, V1, V2. cbn [Qnum Qden] in V0, V1, V2.
  destruct lit_e0 as (G0 & U0). destruct lit_e1 as (G1 & U1). destruct lit_e2 as (G2 & U2). rewrite qe0 in U0. rewrite qe1 in U1. rewrite qe2 in U2.
  rewrite (same_double (nth 0 (dat D) (dint 0)) (dlit 45 5) F0 G0) by lra.
  rewrite (same_double (nth 1 (dat D) (dint 0)) (dlit (-9) 4) F1 G1) by lra.
  rewrite (same_double (nth 2 (dat D) (dint 0)) (dlit 5 5) F2 G2) by lra.
  unfold loop_value.
  rewrite fold3. cbn [fst snd]. fold end_value.
  assert (K : forall j, (3 <= j < 12)%nat -> finite (nth j (dat D) (dint 0)) /\ val (nth j (dat D) (dint 0)) = 0 /\ finite (nth j three_data (dint 0))).
  { clear - EN. intros j Hj. destruct (EN j ltac:(lia)) as (FJ & VJ). split; [exact FJ|]. split.
    - rewrite VJ, M6_ent by lia. clear - Hj. do 3 (destruct j as [|j]; [lia|]). unfold Q2R. do 9 (destruct j as [|j]; [cbn; lra|]). lia.
    - unfold three_data. rewrite (nth_indep _ (dint 0) point_three) by (rewrite repeat_length; lia). rewrite nth_repeat. exact three_finite. }
  generalize (K 3%nat ltac:(lia)) (K 4%nat ltac:(lia)) (K 5%nat ltac:(lia)) (K 6%nat ltac:(lia)) (K 7%nat ltac:(lia)) (K 8%nat ltac:(lia))
    (K 9%nat ltac:(lia)) (K 10%nat ltac:(lia)) (K 11%nat ltac:(lia)).
  clear. generalize end_finite end_differs end_nonzero three_finite. generalize end_value point_three. intros e3 p3 EF ED EN TF K3 K4 K5 K6 K7 K8 K9 K10 K11.
  match goal with |- context [fold_left _ ?rest e3] => assert (Z : Forall (fun p => finite (fst p) /\ val (fst p) = 0 /\ finite (snd p)) rest) end.
  { apply Forall_cons; [exact K3|]. apply Forall_cons; [exact K4|]. apply Forall_cons; [exact K5|]. apply Forall_cons; [exact K6|].
    apply Forall_cons; [exact K7|]. apply Forall_cons; [exact K8|]. apply Forall_cons; [exact K9|]. apply Forall_cons; [exact K10|].
    apply Forall_cons; [exact K11|]. constructor. }
  destruct (add_zeros _ _ EF Z) as (FA & VA). split; [exact FA|]. rewrite VA. intros E. apply ED. apply same_double; assumption.
Qed.
