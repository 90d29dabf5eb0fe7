(** The patch solver is linear, and buildD2N is its matrix. *)
From Verif Require Import Base VectorModel MatrixModel LinSpec HPSModel HPSSpec FVModel FVSpec StageSpec.
From Verif Require Import MatProofs MatProofs2 LinProofs HPSProofs HPSProofs3 HPSProofs4 HPSStage2 HPSTree2 FVProofs FVProofs2.

Section Linear.
Context (c : coefs) (G : grid) (HP : proper G).
Notation nx := (gnx G).
Notation ny := (gny G).
Notation N := (gnx G * gny G).

Lemma solution_system g f u : length u = N ->
  (fv_solution c G g f u <-> forall I, I < N ->
    sum N (fun J => val (fv_matrix c G) I J * vval u J)%Qc =
    vval (fv_rhs c G (west G g) (east G g) (south G g) (north G g) (vval f)) I).
Proof. intros L. apply fv_solution_iff; auto. Qed.

Lemma fv_rhs_lin k g1 g2 f1 f2 I : length g1 = length g2 -> length f1 = length f2 -> I < N ->
  let R g f := vval (fv_rhs c G (west G g) (east G g) (south G g) (north G g) (vval f)) I in
  R (lin k g1 g2) (lin k f1 f2) = (R g1 f1 + k * R g2 f2)%Qc.
Proof.
  intros Lg Lf HI R. unfold R, fv_rhs. rewrite !vval_vec_of, vval_lin by auto.
  unfold fv_bnd, west, east, south, north. rewrite !vval_lin by auto.
  destruct (I / ny =? 0), (S (I / ny) =? nx), (I mod ny =? 0), (S (I mod ny) =? ny); cbn [when]; ring.
Qed.

Lemma solution_lin k g1 g2 f1 f2 u1 u2 : length g1 = length g2 -> length f1 = length f2 ->
  fv_solution c G g1 f1 u1 -> fv_solution c G g2 f2 u2 ->
  fv_solution c G (lin k g1 g2) (lin k f1 f2) (lin k u1 u2).
Proof.
  intros Lg Lf H1 H2. pose proof H1 as (L1 & _). pose proof H2 as (L2 & _).
  pose proof (proj1 (solution_system g1 f1 u1 L1) H1) as Q1.
  pose proof (proj1 (solution_system g2 f2 u2 L2) H2) as Q2.
  apply solution_system; [rewrite lin_length; auto|].
  intros I HI. rewrite fv_rhs_lin by auto. rewrite <- (Q1 I HI), <- (Q2 I HI).
  rewrite <- sum_scal_l, <- sum_plus. apply sum_ext. intros J HJ. rewrite vval_lin by congruence. ring.
Qed.

Lemma solution_unique g f u1 u2 : length g = 2 * ny + 2 * nx -> length f = N -> fv_unique c G ->
  fv_solution c G g f u1 -> fv_solution c G g f u2 -> u1 = u2.
Proof.
  intros Lg Lf HU H1 H2. pose proof H1 as (L1 & _). pose proof H2 as (L2 & _).
  pose proof (solution_lin (- (1))%Qc g g f f u1 u2 eq_refl eq_refl H1 H2) as D.
  assert (Zg : forall v, lin (- (1))%Qc v v = zeros (length v)).
  { intros v. apply zeros_eq; [apply lin_length|]. intros i Hi. rewrite vval_lin by auto. ring. }
  rewrite !Zg, Lg, Lf in D. apply HU in D.
  apply vval_ext; [congruence|]. intros i Hi.
  pose proof (f_equal (fun l => vval l i) D) as E. cbv beta in E. rewrite vval_lin, vval_zeros in E by congruence.
  replace (vval u1 i) with ((vval u1 i + - (1) * vval u2 i) + vval u2 i)%Qc by ring. rewrite E. ring.
Qed.
End Linear.

Section Affine.
Context (c : coefs) (G : grid) (n : nat) (HP : proper G) (HU : fv_unique c G).
Context (Ex : gnx G = n) (Ey : gny G = n).
Context (solve : grid -> list Qc -> list Qc -> res (list Qc)).
Context (HS : forall g f, length g = 4 * n -> length f = n * n ->
  exists u, solve G g f = Ok u /\ fv_solution c G g f u).

Definition sol (g f : list Qc) : list Qc := match solve G g f with Ok u => u | _ => [] end.

Lemma n_nz : n <> 0.
Proof. destruct HP as (_ & _ & H & _). congruence. Qed.

Lemma sol_ok g f : length g = 4 * n -> length f = n * n ->
  solve G g f = Ok (sol g f) /\ fv_solution c G g f (sol g f) /\ length (sol g f) = n * n.
Proof.
  intros Lg Lf. unfold sol. destruct (HS g f Lg Lf) as (u & E & S). rewrite E. split; [reflexivity|].
  split; [exact S|]. destruct S as (L & _). rewrite L, Ex, Ey. reflexivity.
Qed.

Lemma sol_lin k g1 g2 f1 f2 : length g1 = 4 * n -> length g2 = 4 * n -> length f1 = n * n -> length f2 = n * n ->
  sol (lin k g1 g2) (lin k f1 f2) = lin k (sol g1 f1) (sol g2 f2).
Proof.
  intros L1 L2 M1 M2. destruct (sol_ok g1 f1 L1 M1) as (_ & S1 & _), (sol_ok g2 f2 L2 M2) as (_ & S2 & _).
  destruct (sol_ok (lin k g1 g2) (lin k f1 f2)) as (_ & S3 & _); [rewrite lin_length; auto|rewrite lin_length; auto|].
  apply (solution_unique c G HP (lin k g1 g2) (lin k f1 f2)); auto.
  - rewrite lin_length, Ex, Ey. lia.
  - rewrite lin_length, Ex, Ey. auto.
  - apply solution_lin; auto; congruence.
Qed.

Lemma vval_flux g u i : i < 4 * n -> vval (boundary_flux G g u) i =
  if i <? n then ((cell G u 0 i - west G g i) / (width_x G / (1 + 1)))%Qc
  else if i <? 2 * n then ((east G g (i - n) - cell G u (n - 1) (i - n)) / (width_x G / (1 + 1)))%Qc
  else if i <? 3 * n then ((cell G u (i - 2 * n) 0 - south G g (i - 2 * n)) / (width_y G / (1 + 1)))%Qc
  else ((north G g (i - 3 * n) - cell G u (i - 3 * n) (n - 1)) / (width_y G / (1 + 1)))%Qc.
Proof.
  intros Hi. unfold boundary_flux. rewrite Ex, Ey, !map_seq_vec, !vval_app, !vec_of_length.
  destruct (Nat.ltb_spec i n); [rewrite vval_vec_of by auto; reflexivity|].
  destruct (Nat.ltb_spec (i - n) n), (Nat.ltb_spec i (2 * n)); try lia; [rewrite vval_vec_of by auto; reflexivity|].
  destruct (Nat.ltb_spec (i - n - n) n), (Nat.ltb_spec i (3 * n)); try lia.
  - rewrite vval_vec_of by auto. replace (i - n - n) with (i - 2 * n) by lia. reflexivity.
  - rewrite vval_vec_of by lia. replace (i - n - n - n) with (i - 3 * n) by lia. reflexivity.
Qed.

Lemma flux_lin k g1 g2 u1 u2 : length g1 = length g2 -> length u1 = length u2 ->
  boundary_flux G (lin k g1 g2) (lin k u1 u2) = lin k (boundary_flux G g1 u1) (boundary_flux G g2 u2).
Proof.
  intros Lg Lu. pose proof (boundary_flux_length G n Ex Ey) as BL.
  apply vval_ext; [rewrite lin_length, !BL; reflexivity|]. rewrite BL. intros i Hi.
  rewrite vval_lin by (rewrite !BL; reflexivity). rewrite !vval_flux by auto.
  unfold cell, west, east, south, north. rewrite !vval_lin by auto.
  unfold Qcdiv. destruct (i <? n), (i <? 2 * n), (i <? 3 * n); ring.
Qed.

Definition hmap (g f : list Qc) : list Qc := boundary_flux G g (sol g f).
Lemma map_ok g f : length g = 4 * n -> length f = n * n -> fv_map solve G g f = Ok (hmap g f).
Proof.
  intros Lg Lf. destruct (sol_ok g f Lg Lf) as (E & _ & L).
  exact (fv_map_ok G n Ex Ey solve g f (sol g f) n_nz Lg E L).
Qed.
Lemma hmap_length g f : length (hmap g f) = 4 * n.
Proof. exact (boundary_flux_length G n Ex Ey g (sol g f)). Qed.
Lemma hmap_lin k g1 g2 f1 f2 : length g1 = 4 * n -> length g2 = 4 * n -> length f1 = n * n -> length f2 = n * n ->
  hmap (lin k g1 g2) (lin k f1 f2) = lin k (hmap g1 f1) (hmap g2 f2).
Proof.
  intros L1 L2 M1 M2. unfold hmap. rewrite sol_lin by auto. apply flux_lin; [congruence|].
  destruct (sol_ok g1 f1 L1 M1) as (_ & _ & ->), (sol_ok g2 f2 L2 M2) as (_ & _ & ->). reflexivity.
Qed.

Definition unit_vec (j : nat) : list Qc := vec_of (4 * n) (fun i => delta j i).
Definition Tmat : matrix Qc := mat_of (4 * n) (4 * n) (fun i j => vval (hmap (unit_vec j) (zeros (n * n))) i).

Lemma setColumn_mat (m : matrix Qc) j v : well_formed m -> j < nc m -> length v = nr m ->
  setColumn m j v = Ok (mat_of (nr m) (nc m) (fun i j' => if j' =? j then nth i v 0%Qc else ent 0%Qc m i j')).
Proof.
  intros Hw Hj Hv. unfold setColumn. destruct (Nat.ltb_spec (nc m) j); [lia|].
  rewrite Hv, Nat.eqb_refl. cbn [negb].
  rewrite (foldM_ext _ (fun m i => mset m i j (nth i v 0%Qc))).
  2:{ intros s i Hi. apply in_seq in Hi. rewrite (vget_ok v i 0%Qc) by lia. reflexivity. }
  assert (Hlp : forall k, k <= nr m -> foldM (fun m i => mset m i j (nth i v 0%Qc)) (seq 0 k) m =
     Ok (mat_of (nr m) (nc m) (fun i j' => if (j' =? j) && (i <? k) then nth i v 0%Qc else ent 0%Qc m i j'))).
  { induction k as [|k IH]; intros Hk.
    - cbn [seq foldM]. f_equal. rewrite <- (mat_of_eta 0%Qc m Hw) at 1. apply mat_of_ext.
      intros i j' _ _. rewrite andb_false_r. reflexivity.
    - rewrite seq_S, foldM_app, IH, bind_Ok by lia. cbn [foldM Nat.add].
      rewrite mset_ok by (try apply mat_of_wf; cbn [mat_of nr nc]; lia). rewrite bind_Ok. f_equal.
      apply (mat_is 0%Qc); try reflexivity; [apply mupd_wf, mat_of_wf|].
      intros i j' Hi Hj'. rewrite mupd_ent by (try apply mat_of_wf; cbn [mat_of nr nc]; auto; lia).
      rewrite mat_of_ent by auto. rewrite (Nat.eqb_sym j j').
      destruct (Nat.eqb_spec j' j), (Nat.eqb_spec k i), (Nat.ltb_spec i k), (Nat.ltb_spec i (S k));
        cbn [andb]; subst; auto; lia. }
  rewrite Hlp by lia. f_equal. apply mat_of_ext. intros i j' Hi _.
  destruct (Nat.ltb_spec i (nr m)); [|lia]. rewrite andb_true_r. reflexivity.
Qed.

(** The loop over the first k columns of buildD2N. *)
Lemma build_cols : forall k, k <= 4 * n -> foldM (fun st j =>
          e1 <- vset (fst st) j 1%Qc ;;
          col <- fv_map solve G e1 (repeat 0%Qc (n * n)) ;;
          T <- setColumn (snd st) j col ;;
          e2 <- vset e1 j 0%Qc ;; Ok (e2, T))
        (seq 0 k) (repeat 0%Qc (4 * n), mconst (4 * n) (4 * n) 0%Qc) =
     Ok (repeat 0%Qc (4 * n), mat_of (4 * n) (4 * n) (fun i j => if j <? k then vval (hmap (unit_vec j) (zeros (n * n))) i else 0%Qc)).
Proof.
  induction k as [|k IH]; intros Hk.
  - cbn [seq foldM]. rewrite mconst_is. reflexivity.
  - rewrite seq_S, foldM_app, IH, bind_Ok by lia. cbn [foldM Nat.add fst snd].
    rewrite vset_ok, bind_Ok by (rewrite repeat_length; lia).
    assert (EU : upd (repeat 0%Qc (4 * n)) k 1%Qc = unit_vec k).
    { rewrite repeat_vec, upd_vec_of by lia. apply vec_of_ext. intros i Hi. unfold delta. rewrite Nat.eqb_sym. reflexivity. }
    rewrite EU. rewrite map_ok by (unfold unit_vec; rewrite ?vec_of_length, ?repeat_length; reflexivity).
    rewrite bind_Ok. rewrite setColumn_mat; [|apply mat_of_wf|cbn [mat_of nc]; lia|rewrite hmap_length; reflexivity].
    rewrite bind_Ok. rewrite vset_ok, bind_Ok by (unfold unit_vec; rewrite vec_of_length; lia).
    cbn [mat_of nr nc]. rewrite bind_Ok. do 2 f_equal.
    + unfold unit_vec. rewrite upd_vec_of by lia. rewrite repeat_vec. apply vec_of_ext. intros i Hi. unfold delta.
      destruct (Nat.eqb_spec i k), (Nat.eqb_spec k i); auto; lia.
    + apply mat_of_ext. intros i j Hi Hj. destruct (Nat.eqb_spec j k) as [->|].
      * destruct (Nat.ltb_spec k (S k)); [reflexivity|lia].
      * rewrite mat_of_ent by auto. destruct (Nat.ltb_spec j k), (Nat.ltb_spec j (S k)); auto; lia.
Qed.

Lemma build_ok_mat : fv_build (fv_map solve) G = Ok Tmat.
Proof.
  unfold fv_build. rewrite Ex.
  rewrite build_cols, bind_Ok by lia. cbn [snd]. f_equal. apply mat_of_ext. intros i j Hi Hj.
  destruct (Nat.ltb_spec j (4 * n)); [reflexivity|lia].
Qed.

Lemma map_affine g f : length g = 4 * n -> length f = n * n ->
  hmap g f = vplus (apply_op Tmat g) (hmap (zeros (4 * n)) f).
Proof.
  intros Lg Lf. apply vval_ext; [rewrite vplus_length, apply_op_length, hmap_length; reflexivity|].
  rewrite hmap_length. intros i Hi. rewrite vval_vplus by (rewrite apply_op_length; exact Hi).
  rewrite apply_op_vec, vval_vec_of by exact Hi. change (nc Tmat) with (4 * n).
  set (gk := fun k => vec_of (4 * n) (fun j => if j <? k then vval g j else 0%Qc)).
  assert (Q : forall k, k <= 4 * n -> vval (hmap (gk k) f) i =
     (sum k (fun j => val Tmat i j * vval g j) + vval (hmap (zeros (4 * n)) f) i)%Qc).
  { induction k as [|k IH]; intros Hk.
    - cbn [sum]. rewrite Qcplus_0_l. do 2 f_equal. unfold gk, zeros. rewrite repeat_vec. apply vec_of_ext. reflexivity.
    - cbn [sum]. assert (EL : gk (S k) = lin (vval g k) (gk k) (unit_vec k)).
      { unfold gk, unit_vec. apply vval_ext; [rewrite lin_length, !vec_of_length; reflexivity|].
        rewrite vec_of_length. intros j Hj. rewrite vval_lin by (rewrite !vec_of_length; reflexivity).
        rewrite !vval_vec_of by auto. unfold delta.
        destruct (Nat.ltb_spec j (S k)), (Nat.ltb_spec j k), (Nat.eqb_spec k j); subst; try lia; ring. }
      assert (EF : f = lin (vval g k) f (zeros (n * n))).
      { apply vval_ext; [rewrite lin_length; reflexivity|]. intros j Hj.
        rewrite vval_lin by (unfold zeros; rewrite repeat_length; auto). rewrite vval_zeros. ring. }
      rewrite EL. rewrite EF at 1.
      rewrite hmap_lin; [|unfold gk; apply vec_of_length|unfold unit_vec; apply vec_of_length|auto|unfold zeros; apply repeat_length].
      rewrite vval_lin by (rewrite !hmap_length; reflexivity). rewrite IH by lia.
      replace (val Tmat i k) with (vval (hmap (unit_vec k) (zeros (n * n))) i) by (symmetry; unfold Tmat; apply val_mat_of; lia). ring. }
  rewrite <- (Q (4 * n)) by lia. do 2 f_equal. apply vval_ext; [unfold gk; rewrite vec_of_length; auto|].
  rewrite Lg. intros j Hj. unfold gk. rewrite vval_vec_of by auto. destruct (Nat.ltb_spec j (4 * n)); [reflexivity|lia].
Qed.

Theorem solver_affine : affine_solver n (solver_of solve) G.
Proof.
  split; [exact Ex|exact Ey|]. exists Tmat. split; [exact build_ok_mat|].
  split; [split; [apply mat_of_wf|split; reflexivity]|].
  intros f Lf. exists (hmap (zeros (4 * n)) f). cbn [solver_of sv_h sv_solve sv_map].
  split; [|split].
  - unfold fv_h. rewrite Ex, Ey. replace (2 * n + 2 * n) with (4 * n) by lia.
    apply map_ok; [apply repeat_length|exact Lf].
  - apply hmap_length.
  - intros g Lg. split.
    + destruct (sol_ok g f Lg Lf) as (E & _). eexists. exact E.
    + rewrite map_ok by auto. f_equal. apply map_affine; auto.
Qed.

Theorem solver_linear : linear_solver n (solver_of solve) G.
Proof.
  intros k f1 g1 f2 g2 u1 h1 u2 h2 Lf1 Lf2 Lg1 Lg2 E1 M1 E2 M2. cbn [solver_of sv_solve sv_map] in *.
  destruct (sol_ok g1 f1 Lg1 Lf1) as (S1 & _), (sol_ok g2 f2 Lg2 Lf2) as (S2 & _).
  rewrite S1 in E1. rewrite S2 in E2. rewrite map_ok in M1, M2 by auto. apply Ok_inj in E1, E2, M1, M2. subst u1 h1 u2 h2.
  destruct (sol_ok (lin k g1 g2) (lin k f1 f2)) as (S3 & _); [rewrite lin_length; auto|rewrite lin_length; auto|].
  split.
  - rewrite S3, sol_lin by auto. reflexivity.
  - rewrite map_ok by (rewrite lin_length; auto). rewrite hmap_lin by auto. reflexivity.
Qed.
End Affine.
