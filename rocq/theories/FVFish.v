(** The FISHPACK branch of the patch solver; linear solutions; an LU routine and a
    FISHPACK routine that satisfy their contracts. *)
From Verif Require Import Base VectorModel MatrixModel LinSpec HPSModel HPSSpec FVModel FVSpec StageSpec.
From Verif Require Import MatProofs MatProofs2 LinProofs HPSProofs HPSProofs3 HPSProofs4 HPSStage2 Gauss FVProofs FVProofs2 FVProofs3 FVMax.

Ltac tnz := first [exact two_nz | let HH := fresh in intros HH; apply (f_equal this) in HH; discriminate HH].

(** ** A concrete LU routine *)
Definition lu_gauss : lu_t := fun A F =>
  fst (gauss_gesv (nr A) 1 (vec_of (nr A * nr A) (fun k => val A (k mod nr A) (k / nr A))) F).

Lemma lu_gauss_contract : lu_contract lu_gauss.
Proof.
  intros A F (W & Sq & NS) LF. unfold lu_gauss. destruct (Nat.eq_dec (nr A) 0) as [Z|NZ].
  - split; [|lia]. rewrite Z. unfold gauss_gesv. cbn. reflexivity.
  - set (n := nr A) in *. set (a := vec_of (n * n) (fun k => val A (k mod n) (k / n))).
    assert (VA : forall i j, i < n -> j < n -> vval a (i + j * n) = val A i j).
    { intros i j Hi Hj. unfold a. rewrite vval_vec_of by nia.
      rewrite Nat.div_add, Nat.mod_add by auto. rewrite Nat.div_small, Nat.mod_small by auto. reflexivity. }
    pose proof (gesv_solves _ gauss_gesv_contract n 1 a F NZ (vec_of_length _ _) ltac:(rewrite LF; lia)) as Q.
    assert (CN : col_nonsingular n a).
    { intros z Hz. apply NS. intros i Hi. rewrite <- (Hz i Hi). apply sum_ext. intros j Hj. rewrite VA by auto. reflexivity. }
    specialize (Q CN). destruct (gauss_gesv n 1 a F) as (x, info). cbn [fst]. destruct Q as (_ & Lx & Hx).
    split; [lia|]. intros i Hi. specialize (Hx i 0 Hi ltac:(lia)). rewrite Nat.mul_0_l, !Nat.add_0_r in Hx.
    rewrite <- Hx. apply sum_ext. intros j Hj. rewrite VA by auto. rewrite Nat.add_0_r. reflexivity.
Qed.

(** ** Filling a square array in any order *)
Section Fill2.
Context (n : nat) (p : nat -> nat -> nat) (row col : nat -> nat) (v : nat -> nat -> res Qc) (w : nat -> nat -> Qc).
Context (Hv : forall i j, i < n -> j < n -> v i j = Ok (w i j)).
Context (Hp : forall i j, i < n -> j < n -> p i j < n * n /\ row (p i j) = i /\ col (p i j) = j).
Context (Hq : forall I, I < n * n -> row I < n /\ col I < n /\ p (row I) (col I) = I).

Let part (k j : nat) : list Qc :=
  vec_of (n * n) (fun I => if (row I <? k) || ((row I =? k) && (col I <? j)) then w (row I) (col I) else 0%Qc).

Lemma fill2_inner k j : k < n -> j <= n ->
  foldM (fun acc j => a <- v k j ;; vset acc (p k j) a) (seq 0 j) (part k 0) = Ok (part k j).
Proof.
  intros Hk. induction j as [|j IH]; intros Hj; [reflexivity|].
  rewrite seq_S, foldM_app, IH, bind_Ok by lia. cbn [foldM Nat.add]. rewrite Hv, bind_Ok by lia.
  destruct (Hp k j Hk ltac:(lia)) as (P1 & P2 & P3). unfold part.
  rewrite vset_ok, bind_Ok by (rewrite vec_of_length; auto). f_equal. rewrite upd_vec_of by auto. apply vec_of_ext.
  intros I HI. destruct (Hq I HI) as (Q1 & Q2 & Q3).
  destruct (Nat.eqb_spec I (p k j)) as [->|NE].
  - rewrite P2, P3. rewrite Nat.eqb_refl. destruct (Nat.ltb_spec j (S j)); [|lia]. cbn [andb]. rewrite orb_true_r. reflexivity.
  - destruct (Nat.ltb_spec (row I) k), (Nat.eqb_spec (row I) k), (Nat.ltb_spec (col I) j), (Nat.ltb_spec (col I) (S j)); cbn [orb andb]; auto; try lia.
    exfalso. apply NE. rewrite <- Q3. f_equal; lia.
Qed.
Lemma fill2_outer k : k <= n ->
  foldM (fun acc i => foldM (fun acc j => a <- v i j ;; vset acc (p i j) a) (seq 0 n) acc) (seq 0 k) (repeat 0%Qc (n * n)) = Ok (part k 0).
Proof.
  induction k as [|k IH]; intros Hk.
  - cbn [seq foldM]. rewrite repeat_vec. unfold part. f_equal. apply vec_of_ext. intros I HI.
    destruct (Nat.ltb_spec (row I) 0); [lia|]. destruct (Nat.ltb_spec (col I) 0); [lia|]. rewrite andb_false_r. reflexivity.
  - rewrite seq_S, foldM_app, IH, bind_Ok by lia. cbn [foldM Nat.add]. rewrite fill2_inner, bind_Ok by lia. f_equal.
    unfold part. apply vec_of_ext. intros I HI. destruct (Hq I HI) as (Q1 & Q2 & _).
    destruct (Nat.ltb_spec (row I) k), (Nat.eqb_spec (row I) k), (Nat.ltb_spec (col I) n), (Nat.ltb_spec (row I) (S k)),
      (Nat.eqb_spec (row I) (S k)), (Nat.ltb_spec (col I) 0); cbn [orb andb]; auto; lia.
Qed.
Lemma fill2 :
  foldM (fun acc i => foldM (fun acc j => a <- v i j ;; vset acc (p i j) a) (seq 0 n) acc) (seq 0 n) (repeat 0%Qc (n * n)) =
  Ok (vec_of (n * n) (fun I => w (row I) (col I))).
Proof.
  rewrite fill2_outer by auto. f_equal. unfold part. apply vec_of_ext. intros I HI. destruct (Hq I HI) as (Q1 & _).
  destruct (Nat.ltb_spec (row I) n); [reflexivity|lia].
Qed.
End Fill2.

(** Listing by columns. *)
Lemma concat_cols {A} (d : A) (h : nat -> nat -> A) a b : b <> 0 ->
  concat (map (fun i => map (fun j => h i j) (seq 0 b)) (seq 0 a)) = vec_of (a * b) (fun I => h (I / b) (I mod b)).
Proof.
  intros Hb. induction a as [|a IH].
  - reflexivity.
  - rewrite seq_S, map_app, concat_app, IH. cbn [map concat Nat.add]. rewrite app_nil_r, map_seq_vec.
    apply (list_ext d); [rewrite app_length, !vec_of_length; lia|].
    rewrite app_length, !vec_of_length. intros I HI. destruct (lt_dec I (a * b)).
    + rewrite app_nth1 by (rewrite vec_of_length; auto). rewrite !nth_vec_of by lia. reflexivity.
    + rewrite app_nth2 by (rewrite vec_of_length; lia). rewrite vec_of_length, !nth_vec_of by lia.
      replace I with ((I - a * b) + a * b) at 2 3 by lia. rewrite Nat.div_add, Nat.mod_add by auto.
      rewrite Nat.div_small, Nat.mod_small by lia. reflexivity.
Qed.

(** ** The FISHPACK branch *)
Section Fish.
Context (hst : hst_t) (HH : hst_contract hst) (c : coefs) (G : grid) (n : nat).
Context (Ex : gnx G = n) (Ey : gny G = n) (Hx : (gxl G < gxu G)%Qc) (Hy : (gyl G < gyu G)%Qc) (Hn : 2 < n).

Lemma fish_solve_ok g f : fv_unique (helmholtz (c_lambda c 0%Qc 0%Qc)) G -> length g = 4 * n -> length f = n * n ->
  exists u, fish_solve hst c G g f = Ok u /\ fv_solution (helmholtz (c_lambda c 0%Qc 0%Qc)) G g f u.
Proof.
  intros HU Lg Lf. unfold fish_solve. rewrite (sides_ok G n Ex Ey g Lg), bind_Ok. cbn [fa fb fc fd]. rewrite Ex, Ey.
  assert (DM : forall I, I < n * n -> I mod n < n /\ I / n < n /\ I = I mod n + I / n * n).
  { intros I HI. split; [apply Nat.mod_upper_bound; lia|]. split; [apply Nat.div_lt_upper_bound; lia|].
    rewrite (Nat.div_mod I n) at 1 by lia. lia. }
  assert (DA : forall i j, i < n -> (i + j * n) mod n = i /\ (i + j * n) / n = j).
  { intros i j Hi. rewrite Nat.div_add, Nat.mod_add by lia. rewrite Nat.div_small, Nat.mod_small by auto. auto. }
  rewrite (fill2 n (fun i j => i + j * n) (fun I => I mod n) (fun I => I / n) (fun i j => vget f (j + i * n)) (fun i j => vval f (j + i * n))).
  2:{ intros i j Hi Hj. rewrite (vget_ok f _ 0%Qc) by nia. reflexivity. }
  2:{ intros i j Hi Hj. destruct (DA i j Hi) as (-> & ->). split; [nia|auto]. }
  2:{ intros I HI. destruct (DM I HI) as (A1 & A2 & A3). auto. }
  rewrite bind_Ok. set (fT := vec_of (n * n) (fun I => vval f (I / n + I mod n * n))).
  assert (LV : forall h : nat -> Qc, length (vec_of n h) = n) by (intros; apply vec_of_length).
  pose proof (HH G (c_lambda c 0%Qc 0%Qc) (vec_of n (west G g)) (vec_of n (east G g)) (vec_of n (south G g)) (vec_of n (north G g)) fT) as Q.
  rewrite Ex, Ey in Q. specialize (Q Hn Hn Hx Hy (LV _) (LV _) (LV _) (LV _) (vec_of_length _ _) HU). cbv zeta in Q.
  set (F := hst _ _ _ _ _ _ _ _ _ _ _ _) in *.
  destruct Q as (LF & SF). rewrite !(concat_cols 0%Qc) in SF by lia.
  rewrite (fill2 n (fun i j => j + i * n) (fun I => I / n) (fun I => I mod n) (fun i j => vdata F (i + j * n)) (fun i j => vval F (i + j * n))).
  2:{ intros i j Hi Hj. unfold vdata. rewrite (nth_error_nth' _ 0%Qc) by nia. reflexivity. }
  2:{ intros i j Hi Hj. destruct (DA j i Hj) as (-> & ->). split; [nia|auto]. }
  2:{ intros I HI. destruct (DM I HI) as (A1 & A2 & A3). auto. }
  eexists. split; [reflexivity|].
  assert (Ef : vec_of (n * n) (fun I => vval fT (I / n + I mod n * n)) = f).
  { apply vval_ext; [rewrite vec_of_length; auto|]. rewrite vec_of_length. intros I HI. rewrite vval_vec_of by auto.
    destruct (DM I HI) as (A1 & A2 & A3). unfold fT. rewrite vval_vec_of by nia.
    destruct (DA (I / n) (I mod n) A2) as (-> & ->). rewrite <- A3. reflexivity. }
  rewrite Ef in SF.
  assert (Eg : vec_of n (west G g) ++ vec_of n (east G g) ++ vec_of n (south G g) ++ vec_of n (north G g) = g).
  { apply vval_ext; [rewrite !app_length, !vec_of_length; lia|]. intros I HI. rewrite !app_length, !vec_of_length in HI.
    rewrite !vval_app, !vec_of_length. unfold west, east, south, north. rewrite Ex, Ey.
    destruct (Nat.ltb_spec I n); [rewrite vval_vec_of by auto; reflexivity|].
    destruct (Nat.ltb_spec (I - n) n); [rewrite vval_vec_of by auto; f_equal; lia|].
    destruct (Nat.ltb_spec (I - n - n) n); [rewrite vval_vec_of by auto; f_equal; lia|].
    rewrite vval_vec_of by lia. f_equal. lia. }
  rewrite Eg in SF. exact SF.
Qed.
End Fish.

(** ** A concrete FISHPACK routine *)
Definition hst_gauss : hst_t := fun A B M bda bdb C D N bdc bdd lam F =>
  let G := Grid M N A B C D in
  let u := lu_gauss (fv_matrix (helmholtz lam) G)
     (fv_rhs (helmholtz lam) G (vval bda) (vval bdb) (vval bdc) (vval bdd) (fun k => vval F (k / N + k mod N * M))) in
  vec_of (M * N) (fun k => vval u (k / M + k mod M * N)).

Lemma Qclt_ne a b : (a < b)%Qc -> a <> b.
Proof. intros H ->. exact (Qlt_irrefl _ H). Qed.

Lemma hst_gauss_contract : hst_contract hst_gauss.
Proof.
  intros [nx ny xl xu yl yu] lam bda bdb bdc bdd F. cbn [gnx gny gxl gxu gyl gyu].
  intros Hnx Hny Hx Hy La Lb Lc Ld LF HU. set (G := Grid nx ny xl xu yl yu) in *.
  assert (HP : proper G) by (split; [exact (Qclt_ne _ _ Hx)|split; [exact (Qclt_ne _ _ Hy)|split; unfold G; cbn [gnx gny]; lia]]).
  cbv zeta. unfold hst_gauss. fold G. set (R := fv_rhs _ _ _ _ _ _ _). set (u := lu_gauss _ R).
  rewrite vec_of_length. split; [reflexivity|]. rewrite !(concat_cols 0%Qc) by lia.
  destruct (lu_gauss_contract (fv_matrix (helmholtz lam) G) R) as (Lu & Hu).
  { apply fv_unique_iff; auto. } { unfold R, fv_rhs. rewrite vec_of_length. reflexivity. }
  fold u in Lu, Hu. change (nr (fv_matrix (helmholtz lam) G)) with (nx * ny) in Lu, Hu.
  assert (DM : forall I, I < nx * ny -> I mod ny < ny /\ I / ny < nx /\ I = I mod ny + I / ny * ny).
  { intros I HI. split; [apply Nat.mod_upper_bound; lia|]. split; [apply Nat.div_lt_upper_bound; lia|].
    rewrite (Nat.div_mod I ny) at 1 by lia. lia. }
  assert (Eu : vec_of (nx * ny) (fun I => vval (vec_of (nx * ny) (fun k => vval u (k / nx + k mod nx * ny))) (I / ny + I mod ny * nx)) = u).
  { apply vval_ext; [rewrite vec_of_length; auto|]. rewrite vec_of_length. intros I HI. rewrite vval_vec_of by auto.
    destruct (DM I HI) as (A1 & A2 & A3). rewrite vval_vec_of by nia.
    rewrite Nat.div_add, Nat.mod_add by lia. rewrite (Nat.div_small (I / ny) nx), (Nat.mod_small (I / ny) nx) by auto. cbn [Nat.add]. rewrite <- A3. reflexivity. }
  rewrite Eu. apply (fv_solution_iff (helmholtz lam) G _ _ u (vval bda) (vval bdb) (vval bdc) (vval bdd) HP).
  - exact Lu.
  - change (gny G) with ny. intros j Hj. unfold west, east. change (gny G) with ny.
    rewrite !vval_app, La. destruct (Nat.ltb_spec j ny); [|lia]. destruct (Nat.ltb_spec (ny + j) ny); [lia|].
    replace (ny + j - ny) with j by lia. rewrite Lb. destruct (Nat.ltb_spec j ny); [auto|lia].
  - change (gnx G) with nx. intros i Hi. unfold south, north. change (gny G) with ny. change (gnx G) with nx.
    rewrite !vval_app, La, Lb, Lc. destruct (Nat.ltb_spec (2 * ny + i) ny); [lia|]. destruct (Nat.ltb_spec (2 * ny + i - ny) ny); [lia|].
    destruct (Nat.ltb_spec (2 * ny + i - ny - ny) nx); [|lia]. destruct (Nat.ltb_spec (2 * ny + nx + i) ny); [lia|].
    destruct (Nat.ltb_spec (2 * ny + nx + i - ny) ny); [lia|]. destruct (Nat.ltb_spec (2 * ny + nx + i - ny - ny) nx); [lia|].
    split; f_equal; lia.
  - intros I HI. change (gnx G) with nx in HI |- *. change (gny G) with ny in HI |- *. rewrite (Hu I HI). unfold R, fv_rhs.
    change (gnx G) with nx. change (gny G) with ny. rewrite !vval_vec_of by auto. reflexivity.
Qed.

(** ** Equal coefficients *)
Lemma elliptic_ext c1 c2 G E i j :
  (forall x y, c_alpha c1 x y = c_alpha c2 x y /\ c_beta c1 x y = c_beta c2 x y /\ c_lambda c1 x y = c_lambda c2 x y) ->
  elliptic c1 G E i j = elliptic c2 G E i j.
Proof.
  intros H. unfold elliptic. cbv zeta.
  destruct (H (mid_x G i) (mid_y G j)) as (-> & _ & ->).
  destruct (H (face_x G (S i)) (mid_y G j)) as (_ & -> & _). destruct (H (face_x G i) (mid_y G j)) as (_ & -> & _).
  destruct (H (mid_x G i) (face_y G (S j))) as (_ & -> & _). destruct (H (mid_x G i) (face_y G j)) as (_ & -> & _).
  reflexivity.
Qed.
Lemma solution_ext c1 c2 G g f u :
  (forall x y, c_alpha c1 x y = c_alpha c2 x y /\ c_beta c1 x y = c_beta c2 x y /\ c_lambda c1 x y = c_lambda c2 x y) ->
  fv_solution c1 G g f u -> fv_solution c2 G g f u.
Proof.
  intros H (L & S). split; [exact L|]. intros E HE i j Hi Hj. rewrite <- (S E HE i j Hi Hj). symmetry. apply elliptic_ext. exact H.
Qed.

(** ** Linear solutions *)
Section LinearSol.
Context (c : coefs) (G : grid) (HP : proper G) (p q r : Qc).
Notation nx := (gnx G).
Notation ny := (gny G).
Notation plane := (plane p q r).
Definition plane_cells : list Qc := vec_of (nx * ny) (fun k => plane (mid_x G (k / ny)) (mid_y G (k mod ny))).
Definition plane_ext (I J : Z) : Qc :=
  plane (gxl G + (Qc_of_Z I + 1 / (1 + 1)) * width_x G)%Qc (gyl G + (Qc_of_Z J + 1 / (1 + 1)) * width_y G)%Qc.

Lemma mid_x_is i : mid_x G i = (gxl G + (Qc_of_Z (Z.of_nat i) + 1 / (1 + 1)) * width_x G)%Qc.
Proof. unfold mid_x, face_x. rewrite Qc_of_nat_S. unfold Qc_of_nat. field. tnz. Qed.
Lemma mid_y_is j : mid_y G j = (gyl G + (Qc_of_Z (Z.of_nat j) + 1 / (1 + 1)) * width_y G)%Qc.
Proof. unfold mid_y, face_y. rewrite Qc_of_nat_S. unfold Qc_of_nat. field. tnz. Qed.
Lemma plane_cell i j : i < nx -> j < ny -> cell G plane_cells i j = plane (mid_x G i) (mid_y G j).
Proof.
  intros Hi Hj. unfold cell, plane_cells. rewrite vval_vec_of by nia.
  rewrite Nat.div_add, Nat.mod_add by lia. rewrite Nat.div_small, Nat.mod_small by auto. reflexivity.
Qed.

Lemma upper_x : gxu G = (gxl G + Qc_of_nat nx * width_x G)%Qc.
Proof. destruct HP as (_ & _ & Nx & _). unfold width_x. field. apply Qc_of_nat_nz. exact Nx. Qed.
Lemma upper_y : gyu G = (gyl G + Qc_of_nat ny * width_y G)%Qc.
Proof. destruct HP as (_ & _ & _ & Ny). unfold width_y. field. apply Qc_of_nat_nz. exact Ny. Qed.

Lemma plane_solution g f : plane_data G p q r g -> plane_load c G p q r f -> fv_solution c G g f plane_cells.
Proof.
  intros (Dw & Ds) HF. split; [apply vec_of_length|]. intros E (Hc & Hwe & Hsn) i j Hi Hj.
  pose proof (proper_widths G HP) as (Wx & Wy). destruct HP as (_ & _ & Nx & Ny).
  assert (P0 : forall i j, i < nx -> j < ny -> E (Z.of_nat i) (Z.of_nat j) = plane_ext (Z.of_nat i) (Z.of_nat j)).
  { intros a b Ha Hb. rewrite Hc, plane_cell, mid_x_is, mid_y_is by auto. reflexivity. }
  assert (PW : E (Z.of_nat i - 1)%Z (Z.of_nat j) = plane_ext (Z.of_nat i - 1) (Z.of_nat j)).
  { destruct i as [|i'].
    - destruct (Hwe j Hj) as (Q & _). destruct (Dw j Hj) as (D & _). rewrite D in Q. apply half_eq in Q.
      change (Z.of_nat 0 - 1)%Z with (-1)%Z. rewrite Q. change 0%Z with (Z.of_nat 0). rewrite P0 by auto. unfold plane_ext, FVSpec.plane.
      rewrite mid_y_is. change (Qc_of_Z (Z.of_nat 0)) with 0%Qc. change (Qc_of_Z (-1)) with (- (1))%Qc. field. tnz.
    - replace (Z.of_nat (S i') - 1)%Z with (Z.of_nat i') by lia. apply P0; lia. }
  assert (PE : E (Z.of_nat i + 1)%Z (Z.of_nat j) = plane_ext (Z.of_nat i + 1) (Z.of_nat j)).
  { destruct (Nat.eq_dec (S i) nx) as [Q1|Q1].
    - destruct (Hwe j Hj) as (_ & Q). destruct (Dw j Hj) as (_ & D). rewrite D in Q. apply half_eq in Q.
      replace (Z.of_nat nx) with (Z.of_nat i + 1)%Z in Q by lia. rewrite Q.
      replace (Z.of_nat i + 1 - 1)%Z with (Z.of_nat i) by lia. rewrite P0 by auto. unfold plane_ext, FVSpec.plane.
      rewrite upper_x, mid_y_is, <- Q1, Qc_of_nat_S. unfold Qc_of_nat. rewrite !Qc_of_Z_add. change (Qc_of_Z 1) with 1%Qc. field. tnz.
    - replace (Z.of_nat i + 1)%Z with (Z.of_nat (S i)) by lia. apply P0; lia. }
  assert (PS : E (Z.of_nat i) (Z.of_nat j - 1)%Z = plane_ext (Z.of_nat i) (Z.of_nat j - 1)).
  { destruct j as [|j'].
    - destruct (Hsn i Hi) as (Q & _). destruct (Ds i Hi) as (D & _). rewrite D in Q. apply half_eq in Q.
      change (Z.of_nat 0 - 1)%Z with (-1)%Z. rewrite Q. change 0%Z with (Z.of_nat 0). rewrite P0 by auto. unfold plane_ext, FVSpec.plane.
      rewrite mid_x_is. change (Qc_of_Z (Z.of_nat 0)) with 0%Qc. change (Qc_of_Z (-1)) with (- (1))%Qc. field. tnz.
    - replace (Z.of_nat (S j') - 1)%Z with (Z.of_nat j') by lia. apply P0; lia. }
  assert (PN : E (Z.of_nat i) (Z.of_nat j + 1)%Z = plane_ext (Z.of_nat i) (Z.of_nat j + 1)).
  { destruct (Nat.eq_dec (S j) ny) as [Q1|Q1].
    - destruct (Hsn i Hi) as (_ & Q). destruct (Ds i Hi) as (_ & D). rewrite D in Q. apply half_eq in Q.
      replace (Z.of_nat ny) with (Z.of_nat j + 1)%Z in Q by lia. rewrite Q.
      replace (Z.of_nat j + 1 - 1)%Z with (Z.of_nat j) by lia. rewrite P0 by auto. unfold plane_ext, FVSpec.plane.
      rewrite upper_y, mid_x_is, <- Q1, Qc_of_nat_S. unfold Qc_of_nat. rewrite !Qc_of_Z_add. change (Qc_of_Z 1) with 1%Qc. field. tnz.
    - replace (Z.of_nat j + 1)%Z with (Z.of_nat (S j)) by lia. apply P0; lia. }
  rewrite (HF i j Hi Hj). cbv zeta. unfold elliptic. cbv zeta. rewrite PW, PE, PS, PN, P0 by auto.
  assert (SX : plane_ext (Z.of_nat i + 1) (Z.of_nat j) = (plane_ext (Z.of_nat i) (Z.of_nat j) + q * width_x G)%Qc).
  { unfold plane_ext, FVSpec.plane. rewrite Qc_of_Z_add. change (Qc_of_Z 1) with 1%Qc. ring. }
  assert (SW : plane_ext (Z.of_nat i - 1) (Z.of_nat j) = (plane_ext (Z.of_nat i) (Z.of_nat j) - q * width_x G)%Qc).
  { unfold plane_ext, FVSpec.plane, Z.sub. rewrite Qc_of_Z_add. change (Qc_of_Z (- (1))) with (- (1))%Qc. ring. }
  assert (SN' : plane_ext (Z.of_nat i) (Z.of_nat j + 1) = (plane_ext (Z.of_nat i) (Z.of_nat j) + r * width_y G)%Qc).
  { unfold plane_ext, FVSpec.plane. rewrite Qc_of_Z_add. change (Qc_of_Z 1) with 1%Qc. ring. }
  assert (SS : plane_ext (Z.of_nat i) (Z.of_nat j - 1) = (plane_ext (Z.of_nat i) (Z.of_nat j) - r * width_y G)%Qc).
  { unfold plane_ext, FVSpec.plane, Z.sub. rewrite Qc_of_Z_add. change (Qc_of_Z (- (1))) with (- (1))%Qc. ring. }
  rewrite SX, SW, SN', SS. 
  assert (PM : plane_ext (Z.of_nat i) (Z.of_nat j) = plane (mid_x G i) (mid_y G j)) by (rewrite mid_x_is, mid_y_is; reflexivity).
  rewrite PM. generalize (plane (mid_x G i) (mid_y G j)). intros P.
  generalize (c_alpha c (mid_x G i) (mid_y G j)) (c_lambda c (mid_x G i) (mid_y G j)) (c_beta c (face_x G (S i)) (mid_y G j))
    (c_beta c (face_x G i) (mid_y G j)) (c_beta c (mid_x G i) (face_y G (S j))) (c_beta c (mid_x G i) (face_y G j)).
  clear - Wx Wy. revert Wx Wy. generalize (width_x G) (width_y G). intros wx wy Wx Wy a l b1 b2 b3 b4. field. auto.
Qed.

Lemma plane_flux g : plane_data G p q r g ->
  boundary_flux G g plane_cells = repeat q ny ++ repeat q ny ++ repeat r nx ++ repeat r nx.
Proof.
  intros (Dw & Ds). pose proof (proper_widths G HP) as (Wx & Wy). destruct HP as (_ & _ & Nx & Ny).
  assert (X0 : forall y, ((plane (mid_x G 0) y - plane (gxl G) y) / (width_x G / (1 + 1)) = q)%Qc).
  { intros y. rewrite mid_x_is. unfold FVSpec.plane. change (Qc_of_Z (Z.of_nat 0)) with 0%Qc. revert Wx. generalize (width_x G). intros. field. split; auto; tnz. }
  assert (X1 : forall y, ((plane (gxu G) y - plane (mid_x G (nx - 1)) y) / (width_x G / (1 + 1)) = q)%Qc).
  { intros y. rewrite mid_x_is, upper_x. unfold FVSpec.plane. replace nx with (S (nx - 1)) at 1 by lia. rewrite Qc_of_nat_S. unfold Qc_of_nat.
    revert Wx. generalize (width_x G). intros. field. split; auto; tnz. }
  assert (Y0 : forall x, ((plane x (mid_y G 0) - plane x (gyl G)) / (width_y G / (1 + 1)) = r)%Qc).
  { intros y. rewrite mid_y_is. unfold FVSpec.plane. change (Qc_of_Z (Z.of_nat 0)) with 0%Qc. revert Wy. generalize (width_y G). intros. field. split; auto; tnz. }
  assert (Y1 : forall x, ((plane x (gyu G) - plane x (mid_y G (ny - 1))) / (width_y G / (1 + 1)) = r)%Qc).
  { intros y. rewrite mid_y_is, upper_y. unfold FVSpec.plane. replace ny with (S (ny - 1)) at 1 by lia. rewrite Qc_of_nat_S. unfold Qc_of_nat.
    revert Wy. generalize (width_y G). intros. field. split; auto; tnz. }
  unfold boundary_flux. rewrite !map_seq_vec, !repeat_vec.
  f_equal; [|f_equal; [|f_equal]]; apply vec_of_ext; intros k Hk.
  - rewrite plane_cell by lia. destruct (Dw k Hk) as (-> & _). apply X0.
  - rewrite plane_cell by lia. destruct (Dw k Hk) as (_ & ->). apply X1.
  - rewrite plane_cell by lia. destruct (Ds k Hk) as (-> & _). apply Y0.
  - rewrite plane_cell by lia. destruct (Ds k Hk) as (_ & ->). apply Y1.
Qed.
End LinearSol.
