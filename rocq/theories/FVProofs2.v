(** The patch solver on square patches: solve, mapD2N, buildD2N,
    particularNeumannData. *)
From Verif Require Import Base VectorModel MatrixModel LinSpec HPSModel HPSSpec FVModel FVSpec StageSpec.
From Verif Require Import MatProofs MatProofs2 LinProofs HPSProofs HPSProofs3 HPSProofs4 HPSStage2 FVProofs.

Ltac tnz := first [exact two_nz | let HH := fresh in intros HH; apply (f_equal this) in HH; discriminate HH].

(** ** Filling arrays *)
Lemma repeat_vec {A} (a : A) n : repeat a n = vec_of n (fun _ => a).
Proof. apply (vec_is a); [apply repeat_length|]. intros i Hi. apply nth_repeat. Qed.

Lemma map_seq_vec {A} (h : nat -> A) n : map h (seq 0 n) = vec_of n h.
Proof. exact eq_refl. Qed.

Definition filled {A} (d : A) n (h : nat -> A) k : list A := vec_of n (fun i => if i <? k then h i else d).
Lemma filled_0 {A} (d : A) n h : repeat d n = filled d n h 0.
Proof. rewrite repeat_vec. apply vec_of_ext. reflexivity. Qed.
Lemma filled_all {A} (d : A) n h : filled d n h n = vec_of n h.
Proof. apply vec_of_ext. intros i Hi. destruct (Nat.ltb_spec i n); [reflexivity|lia]. Qed.
Lemma filled_step {A} (d : A) n h k a : k < n -> a = h k -> vset (filled d n h k) k a = Ok (filled d n h (S k)).
Proof.
  intros Hk ->. unfold filled. rewrite vset_ok by (rewrite vec_of_length; auto). f_equal.
  rewrite upd_vec_of by auto. apply vec_of_ext. intros i Hi.
  destruct (Nat.eqb_spec i k), (Nat.ltb_spec i (S k)), (Nat.ltb_spec i k); subst; auto; lia.
Qed.
Lemma vget_vec_of {A} n (h : nat -> A) k : k < n -> vget (vec_of n h) k = Ok (h k).
Proof. intros H. rewrite (vget_ok _ _ (h k)) by (rewrite vec_of_length; auto). rewrite nth_vec_of by auto. reflexivity. Qed.

(** ** Sides of the boundary data *)
Section Square.
Context (G : grid) (n : nat) (Ex : gnx G = n) (Ey : gny G = n).

Lemma sides_ok g : length g = 4 * n -> sides (gnx G) g =
  Ok (Four (vec_of n (west G g)) (vec_of n (east G g)) (vec_of n (south G g)) (vec_of n (north G g))).
Proof.
  intros L. unfold sides. rewrite Ex.
  rewrite (getSegment_ok 0%Qc) by lia. rewrite bind_Ok.
  rewrite (getSegment_ok 0%Qc) by lia. rewrite bind_Ok.
  rewrite (getSegment_ok 0%Qc) by lia. rewrite bind_Ok.
  rewrite (getSegment_ok 0%Qc) by lia. rewrite bind_Ok.
  unfold west, east, south, north, vval. rewrite Ex, Ey. do 2 f_equal; apply vec_of_ext; intros i Hi; f_equal; lia.
Qed.

Lemma fv_system_ok c g f : 2 <= n -> length g = 4 * n -> length f = n * n ->
  fv_system c G g f = Ok (fv_matrix c G,
    fv_rhs c G (vval (vec_of n (west G g))) (vval (vec_of n (east G g)))
      (vval (vec_of n (south G g))) (vval (vec_of n (north G g))) (vval f)).
Proof.
  intros Hn Lg Lf. unfold fv_system. rewrite sides_ok, bind_Ok by auto. cbv zeta. cbn [fa fb fc fd].
  apply fv_assembled; rewrite ?vec_of_length, ?Ex, ?Ey; auto.
Qed.

Lemma fv_solve_ok lu c g f : lu_contract lu -> proper G -> fv_unique c G ->
  2 <= n -> length g = 4 * n -> length f = n * n ->
  exists u, fv_solve lu c G g f = Ok u /\ fv_solution c G g f u.
Proof.
  intros HL HP HU Hn Lg Lf. unfold fv_solve. rewrite fv_system_ok, bind_Ok by auto. cbn [fst snd].
  set (F := fv_rhs _ _ _ _ _ _ _). exists (lu (fv_matrix c G) F). split; [reflexivity|].
  apply (fv_unique_iff c G HP) in HU. destruct (HL _ F HU) as (Lu & HS).
  { unfold F, fv_rhs. rewrite vec_of_length. reflexivity. }
  change (nr (fv_matrix c G)) with (gnx G * gny G) in Lu, HS.
  apply (fv_solution_iff c G g f _ (vval (vec_of n (west G g))) (vval (vec_of n (east G g)))
      (vval (vec_of n (south G g))) (vval (vec_of n (north G g))) HP Lu).
  - rewrite Ey. intros j Hj. rewrite !vval_vec_of by auto. auto.
  - rewrite Ex. intros i Hi. rewrite !vval_vec_of by auto. auto.
  - exact HS.
Qed.

(** ** mapD2N *)
Lemma fv_map_ok solve g f u : n <> 0 -> length g = 4 * n -> solve G g f = Ok u -> length u = n * n ->
  fv_map solve G g f = Ok (boundary_flux G g u).
Proof.
  intros Hn Lg Eu Lu. unfold fv_map. rewrite sides_ok, bind_Ok by auto. rewrite Eu, bind_Ok. cbn [fa fb fc fd].
  rewrite !Ex.
  set (uW := fun j => cell G u 0 j). set (uE := fun j => cell G u (n - 1) j).
  set (uS := fun i => cell G u i 0). set (uN := fun i => cell G u i (n - 1)).
  assert (L1 : forall k, k <= n -> foldM (fun we j =>
          a <- vget u j ;; w <- vset (fst we) j a ;;
          a' <- vget u ((n - 1) * n + j) ;; e <- vset (snd we) j a' ;; Ok (w, e))
        (seq 0 k) (repeat 0%Qc n, repeat 0%Qc n) = Ok (filled 0%Qc n uW k, filled 0%Qc n uE k)).
  { induction k as [|k IH]; intros Hk.
    - cbn [seq foldM]. rewrite <- !filled_0. reflexivity.
    - rewrite seq_S, foldM_app, IH, bind_Ok by lia. cbn [foldM Nat.add fst snd].
      rewrite (vget_ok u _ 0%Qc), bind_Ok by nia.
      rewrite filled_step, bind_Ok by (try lia; unfold uW, cell, vval; rewrite Ey; f_equal; lia).
      rewrite (vget_ok u _ 0%Qc), bind_Ok by nia.
      rewrite filled_step, bind_Ok by (try lia; unfold uE, cell, vval; rewrite Ey; f_equal; lia).
      reflexivity. }
  rewrite L1, bind_Ok by lia.
  assert (L2 : forall k, k <= n -> foldM (fun sn i =>
          a <- vget u (i * n) ;; s <- vset (fst sn) i a ;;
          a' <- vget u ((i + 1) * n - 1) ;; n0 <- vset (snd sn) i a' ;; Ok (s, n0))
        (seq 0 k) (repeat 0%Qc n, repeat 0%Qc n) = Ok (filled 0%Qc n uS k, filled 0%Qc n uN k)).
  { induction k as [|k IH]; intros Hk.
    - cbn [seq foldM]. rewrite <- !filled_0. reflexivity.
    - rewrite seq_S, foldM_app, IH, bind_Ok by lia. cbn [foldM Nat.add fst snd].
      rewrite (vget_ok u _ 0%Qc), bind_Ok by nia.
      rewrite filled_step, bind_Ok by (try lia; unfold uS, cell, vval; rewrite Ey; f_equal; lia).
      rewrite (vget_ok u _ 0%Qc), bind_Ok by nia.
      rewrite filled_step, bind_Ok by (try lia; unfold uN, cell, vval; rewrite Ey; f_equal; nia).
      reflexivity. }
  rewrite L2, bind_Ok by lia. rewrite !filled_all. cbn [fst snd].
  set (hx := (two / gdx G)%Qc). set (hy := (two / gdy G)%Qc).
  set (hW := fun i => (hx * (uW i - west G g i))%Qc). set (hE := fun i => (- hx * (uE i - east G g i))%Qc).
  set (hS := fun i => (hy * (uS i - south G g i))%Qc). set (hN := fun i => (- hy * (uN i - north G g i))%Qc).
  match goal with |- bind (foldM ?F _ _) _ = _ => set (step := F) end.
  assert (L3 : forall k, k <= n -> foldM step (seq 0 k)
     (Four (repeat 0%Qc n) (repeat 0%Qc n) (repeat 0%Qc n) (repeat 0%Qc n)) =
     Ok (Four (filled 0%Qc n hW k) (filled 0%Qc n hE k) (filled 0%Qc n hS k) (filled 0%Qc n hN k))).
  { induction k as [|k IH]; intros Hk.
    - cbn [seq foldM]. rewrite <- !filled_0. reflexivity.
    - rewrite seq_S, foldM_app, IH, bind_Ok by lia. cbn [foldM Nat.add]. unfold step at 1. cbn [fa fb fc fd].
      do 4 (rewrite vget_vec_of, bind_Ok by lia; rewrite vget_vec_of, bind_Ok by lia; rewrite filled_step, bind_Ok by (lia || reflexivity)).
      reflexivity. }
  rewrite L3, bind_Ok by lia. rewrite !filled_all. cbn [fa fb fc fd].
  assert (SG : forall (a b w : list Qc) k, length a = k * n -> length w = n -> n <= length b ->
     setSegment (a ++ b) (k * n) w = Ok ((a ++ w) ++ skipn n b)).
  { intros a b w k La Lw Lb. rewrite setSegment_ok by (rewrite app_length; lia). f_equal.
    rewrite <- La, firstn_app, Nat.sub_diag, firstn_all, firstn_O, app_nil_r.
    rewrite skipn_app, skipn_all2 by lia. replace (length a + length w - length a) with n by lia.
    cbn [app]. rewrite <- app_assoc. reflexivity. }
  change (repeat 0%Qc (4 * n)) with ([] ++ repeat 0%Qc (4 * n)).
  assert (RL : forall k, length (skipn k (repeat 0%Qc (4 * n))) = 4 * n - k) by (intros; rewrite skipn_length, repeat_length; reflexivity).
  rewrite (SG [] _ _ 0) by (rewrite ?vec_of_length, ?repeat_length; cbn [length]; lia). rewrite bind_Ok.
  rewrite (SG _ _ _ 1) by (rewrite ?app_length, ?vec_of_length, ?RL; cbn [length]; lia). rewrite bind_Ok.
  rewrite (SG _ _ _ 2) by (rewrite ?app_length, ?vec_of_length, ?skipn_length, ?repeat_length; cbn [length]; lia). rewrite bind_Ok.
  rewrite (SG _ _ _ 3) by (rewrite ?app_length, ?vec_of_length, ?skipn_length, ?repeat_length; cbn [length]; lia).
  f_equal. match goal with |- _ ++ ?r = _ => replace r with (@nil Qc) end.
  2:{ symmetry. apply length_zero_iff_nil. rewrite !skipn_length, repeat_length. lia. }
  rewrite app_nil_r. cbn [app]. rewrite <- !app_assoc. unfold boundary_flux. rewrite Ex, Ey. fold uW uE uS uN.
  assert (DX : forall x, (x / (width_x G / (1 + 1)) = hx * x)%Qc).
  { intros x. unfold hx. rewrite two_is. change (gdx G) with (width_x G).
    destruct (Qc_eq_dec (width_x G) 0) as [->|Hz]; [|field; split; auto; tnz].
    unfold Qcdiv. rewrite Qcmult_0_l. change (/ 0)%Qc with 0%Qc. ring. }
  assert (DY : forall x, (x / (width_y G / (1 + 1)) = hy * x)%Qc).
  { intros x. unfold hy. rewrite two_is. change (gdy G) with (width_y G).
    destruct (Qc_eq_dec (width_y G) 0) as [->|Hz]; [|field; split; auto; tnz].
    unfold Qcdiv. rewrite Qcmult_0_l. change (/ 0)%Qc with 0%Qc. ring. }
  rewrite !map_seq_vec. f_equal; [|f_equal; [|f_equal]]; apply vec_of_ext; intros i Hi; rewrite ?DX, ?DY; unfold hW, hE, hS, hN, uW, uE, uS, uN; ring.
Qed.

Lemma boundary_flux_length g u : length (boundary_flux G g u) = 4 * n.
Proof. unfold boundary_flux. rewrite !app_length, !map_length, !seq_length, Ex, Ey. lia. Qed.
End Square.
