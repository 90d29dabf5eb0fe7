(** Error of the discrete solution. *)
From Coq Require Import Lqa.
From Verif Require Import Base VectorModel MatrixModel LinSpec HPSModel HPSSpec FVModel FVSpec StageSpec GlobalSpec AdaptSpec CompareSpec ConvSpec.
From Verif Require Import MatProofs MatProofs2 LinProofs HPSProofs HPSProofs3 HPSProofs4 HPSStage2 FVProofs FVProofs2 FVProofs3 FVMax FVJoin FVGlobal FVFish FVCompare.
From Coq Require Import Lia.

Ltac tnz := first [exact two_nz | let HH := fresh in intros HH; apply (f_equal this) in HH; discriminate HH].

Section Ext.
Context (c : coefs) (G : grid) (HP : proper G) (X : Qc -> Qc -> Qc).
Notation nx := (gnx G).
Notation ny := (gny G).

Definition face_data : list Qc :=
  vec_of ny (fun j => across_x X G (gxl G) (mid_y G j)) ++ vec_of ny (fun j => across_x X G (gxu G) (mid_y G j)) ++
  vec_of nx (fun i => across_y X G (mid_x G i) (gyl G)) ++ vec_of nx (fun i => across_y X G (mid_x G i) (gyu G)).
Definition centre_x (I : Z) : Qc := (gxl G + (Qc_of_Z I + 1 / (1 + 1)) * width_x G)%Qc.
Definition centre_y (J : Z) : Qc := (gyl G + (Qc_of_Z J + 1 / (1 + 1)) * width_y G)%Qc.
Definition ext (I J : Z) : Qc := X (centre_x I) (centre_y J).

Lemma face_data_length : length face_data = 2 * ny + 2 * nx.
Proof. unfold face_data. rewrite !app_length, !vec_of_length. lia. Qed.

Lemma face_data_sides : each_face (fun v x y => v = across_x X G x y) (fun v x y => v = across_y X G x y) G face_data.
Proof.
  unfold each_face, west, east, south, north, face_data. split; intros k Hk; split; unfold vval.
  - rewrite app_nth1 by (rewrite vec_of_length; auto). apply vval_vec_of. auto.
  - rewrite app_nth2 by (rewrite vec_of_length; lia). rewrite vec_of_length.
    rewrite app_nth1 by (rewrite vec_of_length; lia). replace (ny + k - ny) with k by lia. apply vval_vec_of. auto.
  - rewrite app_nth2 by (rewrite vec_of_length; lia). rewrite vec_of_length.
    rewrite app_nth2 by (rewrite vec_of_length; lia). rewrite vec_of_length.
    rewrite app_nth1 by (rewrite vec_of_length; lia). replace (2 * ny + k - ny - ny) with k by lia. apply vval_vec_of. auto.
  - rewrite app_nth2 by (rewrite vec_of_length; lia). rewrite vec_of_length.
    rewrite app_nth2 by (rewrite vec_of_length; lia). rewrite vec_of_length.
    rewrite app_nth2 by (rewrite vec_of_length; lia). rewrite vec_of_length.
    replace (2 * ny + nx + k - ny - ny - nx) with k by lia. apply vval_vec_of. auto.
Qed.

Lemma cell_sampled V i j : i < nx -> j < ny -> cell G (sampled V G) i j = V (mid_x G i) (mid_y G j).
Proof.
  intros Hi Hj. unfold cell, sampled. rewrite map_seq_vec, vval_vec_of by nia.
  rewrite Nat.div_add, Nat.mod_add by lia. rewrite Nat.div_small, Nat.mod_small by auto. reflexivity.
Qed.

Lemma centre_prev I : centre_x (I - 1) = (centre_x I - width_x G)%Qc.
Proof. unfold centre_x, Z.sub. rewrite Qc_of_Z_add. change (Qc_of_Z (- (1))) with (- (1))%Qc. ring. Qed.
Lemma centre_next I : centre_x (I + 1) = (centre_x I + width_x G)%Qc.
Proof. unfold centre_x. rewrite Qc_of_Z_add. change (Qc_of_Z 1) with 1%Qc. ring. Qed.
Lemma centre_below J : centre_y (J - 1) = (centre_y J - width_y G)%Qc.
Proof. unfold centre_y, Z.sub. rewrite Qc_of_Z_add. change (Qc_of_Z (- (1))) with (- (1))%Qc. ring. Qed.
Lemma centre_above J : centre_y (J + 1) = (centre_y J + width_y G)%Qc.
Proof. unfold centre_y. rewrite Qc_of_Z_add. change (Qc_of_Z 1) with 1%Qc. ring. Qed.

Lemma edge_w : (gxl G - width_x G / (1 + 1))%Qc = centre_x (-1) /\ (gxl G + width_x G / (1 + 1))%Qc = centre_x 0.
Proof. unfold centre_x. change (Qc_of_Z (-1)) with (- (1))%Qc. change (Qc_of_Z 0) with 0%Qc. split; field; tnz. Qed.
Lemma edge_s : (gyl G - width_y G / (1 + 1))%Qc = centre_y (-1) /\ (gyl G + width_y G / (1 + 1))%Qc = centre_y 0.
Proof. unfold centre_y. change (Qc_of_Z (-1)) with (- (1))%Qc. change (Qc_of_Z 0) with 0%Qc. split; field; tnz. Qed.
Lemma edge_e : (gxu G - width_x G / (1 + 1))%Qc = centre_x (Z.of_nat nx - 1) /\ (gxu G + width_x G / (1 + 1))%Qc = centre_x (Z.of_nat nx).
Proof.
  rewrite centre_prev, (upper_x G HP). unfold centre_x, Qc_of_nat. split; field; tnz.
Qed.
Lemma edge_n : (gyu G - width_y G / (1 + 1))%Qc = centre_y (Z.of_nat ny - 1) /\ (gyu G + width_y G / (1 + 1))%Qc = centre_y (Z.of_nat ny).
Proof.
  rewrite centre_below, (upper_y G HP). unfold centre_y, Qc_of_nat. split; field; tnz.
Qed.

Lemma ext_solution : fv_solution c G face_data
  (vec_of (nx * ny) (fun k => elliptic c G ext (k / ny) (k mod ny))) (sampled X G).
Proof.
  split; [unfold sampled; rewrite map_length, seq_length; reflexivity|].
  intros E (Hc & Hwe & Hsn) i j Hi Hj. destruct HP as (_ & _ & Nx & Ny). destruct face_data_sides as (Dw & Ds).
  unfold cell. rewrite vval_vec_of by nia. rewrite Nat.div_add, Nat.mod_add, Nat.div_small, Nat.mod_small by auto.
  change (0 + i) with i.
  assert (P0 : forall i j, i < nx -> j < ny -> E (Z.of_nat i) (Z.of_nat j) = ext (Z.of_nat i) (Z.of_nat j)).
  { intros a b Ha Hb. rewrite Hc, cell_sampled, mid_x_is, mid_y_is by auto. reflexivity. }
  assert (two : forall a b w, ((a + b) / (1 + 1) = w)%Qc -> forall v, w = ((v + b) / (1 + 1))%Qc -> a = v).
  { intros a b w Q v ->. apply half_eq in Q. rewrite Q. field. tnz. }
  assert (two' : forall a b w, ((a + b) / (1 + 1) = w)%Qc -> forall v, w = ((b + v) / (1 + 1))%Qc -> a = v).
  { intros a b w Q v ->. apply half_eq in Q. rewrite Q. field. tnz. }
  assert (PW : E (Z.of_nat i - 1)%Z (Z.of_nat j) = ext (Z.of_nat i - 1) (Z.of_nat j)).
  { destruct i as [|i'].
    - destruct (Hwe j Hj) as (Q & _). destruct (Dw j Hj) as (D & _). apply (two _ _ _ Q). rewrite D.
      change 0%Z with (Z.of_nat 0). rewrite (P0 0 j) by auto. unfold across_x, ext. cbv zeta. destruct edge_w as (-> & ->).
      rewrite mid_y_is. reflexivity.
    - replace (Z.of_nat (S i') - 1)%Z with (Z.of_nat i') by lia. apply P0; lia. }
  assert (PE : E (Z.of_nat i + 1)%Z (Z.of_nat j) = ext (Z.of_nat i + 1) (Z.of_nat j)).
  { destruct (Nat.eq_dec (S i) nx) as [Q1|Q1].
    - destruct (Hwe j Hj) as (_ & Q). destruct (Dw j Hj) as (_ & D). replace (Z.of_nat i + 1)%Z with (Z.of_nat nx) by lia.
      apply (two' _ _ _ Q). rewrite D. replace (Z.of_nat nx - 1)%Z with (Z.of_nat (nx - 1)) by lia. rewrite P0 by lia.
      unfold across_x, ext. cbv zeta. destruct edge_e as (-> & ->). rewrite mid_y_is. replace (Z.of_nat (nx - 1)) with (Z.of_nat nx - 1)%Z by lia. reflexivity.
    - replace (Z.of_nat i + 1)%Z with (Z.of_nat (S i)) by lia. apply P0; lia. }
  assert (PS : E (Z.of_nat i) (Z.of_nat j - 1)%Z = ext (Z.of_nat i) (Z.of_nat j - 1)).
  { destruct j as [|j'].
    - destruct (Hsn i Hi) as (Q & _). destruct (Ds i Hi) as (D & _). apply (two _ _ _ Q). rewrite D.
      change 0%Z with (Z.of_nat 0). rewrite (P0 i 0) by auto. unfold across_y, ext. cbv zeta. destruct edge_s as (-> & ->).
      rewrite mid_x_is. reflexivity.
    - replace (Z.of_nat (S j') - 1)%Z with (Z.of_nat j') by lia. apply P0; lia. }
  assert (PN : E (Z.of_nat i) (Z.of_nat j + 1)%Z = ext (Z.of_nat i) (Z.of_nat j + 1)).
  { destruct (Nat.eq_dec (S j) ny) as [Q1|Q1].
    - destruct (Hsn i Hi) as (_ & Q). destruct (Ds i Hi) as (_ & D). replace (Z.of_nat j + 1)%Z with (Z.of_nat ny) by lia.
      apply (two' _ _ _ Q). rewrite D. replace (Z.of_nat ny - 1)%Z with (Z.of_nat (ny - 1)) by lia. rewrite P0 by lia.
      unfold across_y, ext. cbv zeta. destruct edge_n as (-> & ->). rewrite mid_x_is. replace (Z.of_nat (ny - 1)) with (Z.of_nat ny - 1)%Z by lia. reflexivity.
    - replace (Z.of_nat j + 1)%Z with (Z.of_nat (S j)) by lia. apply P0; lia. }
  unfold elliptic. cbv zeta. rewrite PW, PE, PS, PN, P0 by auto. reflexivity.
Qed.

(** With beta = 1. *)
Lemma ext_elliptic (Hb : forall x y, c_beta c x y = 1%Qc) i j : i < nx -> j < ny ->
  let x := mid_x G i in let y := mid_y G j in
  elliptic c G ext i j =
  (c_alpha c x y * (second_x X (width_x G) x y / (width_x G * width_x G) + second_y X (width_y G) x y / (width_y G * width_y G))
   + c_lambda c x y * X x y)%Qc.
Proof.
  intros Hi Hj. pose proof (proper_widths G HP) as (Wx & Wy). cbv zeta. unfold elliptic. cbv zeta. rewrite !Hb.
  unfold ext. rewrite centre_prev, centre_next, centre_below, centre_above.
  replace (centre_x (Z.of_nat i)) with (mid_x G i) by (rewrite mid_x_is; reflexivity).
  replace (centre_y (Z.of_nat j)) with (mid_y G j) by (rewrite mid_y_is; reflexivity).
  unfold second_x, second_y. revert Wx Wy. generalize (width_x G) (width_y G). intros wx wy Wx Wy.
  generalize (X (mid_x G i + wx)%Qc (mid_y G j)) (X (mid_x G i - wx)%Qc (mid_y G j)) (X (mid_x G i) (mid_y G j + wy)%Qc) (X (mid_x G i) (mid_y G j - wy)%Qc)
    (X (mid_x G i) (mid_y G j)) (c_alpha c (mid_x G i) (mid_y G j)) (c_lambda c (mid_x G i) (mid_y G j)). intros. field. auto.
Qed.
End Ext.

(** Inequalities through Q. *)
Ltac toQ := unfold within, Qclt, Qcle, Qcminus in *; rewrite ?this_plus, ?this_mult, ?this_opp in *;
  repeat rewrite ?this_plus, ?this_mult, ?this_opp; change (this 0%Qc) with 0%Q in *; change (this 1%Qc) with 1%Q in *.

Lemma le_minus a b : (a <= b)%Qc <-> (0 <= b - a)%Qc.
Proof. split; intros H; unfold Qcle in *; rewrite this_minus in *; change (this 0%Qc) with 0%Q in *; lra. Qed.
Lemma mul_nonneg a b : (0 <= a)%Qc -> (0 <= b)%Qc -> (0 <= a * b)%Qc.
Proof. unfold Qcle. rewrite this_mult. change (this 0%Qc) with 0%Q. nra. Qed.
Lemma sq_nonneg a : (0 <= a * a)%Qc.
Proof. unfold Qcle. rewrite this_mult. change (this 0%Qc) with 0%Q. nra. Qed.
Lemma add_nonneg a b : (0 <= a)%Qc -> (0 <= b)%Qc -> (0 <= a + b)%Qc.
Proof. unfold Qcle. rewrite this_plus. change (this 0%Qc) with 0%Q. lra. Qed.

Definition eight : Qc := ((1 + 1) * (1 + 1) * (1 + 1))%Qc.
Lemma eight_pos : (0 < eight)%Qc.
Proof. reflexivity. Qed.
Lemma inv_eight : (0 <= / eight)%Qc.
Proof. discriminate. Qed.

Lemma of_nat_le a b : a <= b -> (Qc_of_nat a <= Qc_of_nat b)%Qc.
Proof.
  intros H. unfold Qcle, Qc_of_nat, Qc_of_Z. rewrite !Qred_correct || idtac. cbn [this Q2Qc]. rewrite !Qred_correct. rewrite <- Zle_Qle. lia.
Qed.

Lemma widths_pos G : oriented G -> (0 < width_x G)%Qc /\ (0 < width_y G)%Qc.
Proof.
  intros (Hx & Hy & Nx & Ny). unfold width_x, width_y, Qcdiv.
  assert (Q : forall n, n <> 0 -> (0 < / Qc_of_nat n)%Qc).
  { intros n Hn. apply inv_pos. eapply Qclt_le_trans; [|apply (of_nat_le 1 n); lia]. reflexivity. }
  split; apply pos_mul; auto.
  - unfold Qclt in *. rewrite this_minus. change (this 0%Qc) with 0%Q. lra.
  - unfold Qclt in *. rewrite this_minus. change (this 0%Qc) with 0%Q. lra.
Qed.

Lemma mid_x_in G i : oriented G -> i < gnx G -> (gxl G <= mid_x G i)%Qc /\ (mid_x G i <= gxu G)%Qc.
Proof.
  intros HO Hi. destruct (widths_pos G HO) as (Wx & _). rewrite (upper_x G (orp _ HO)), mid_x_is.
  pose proof (of_nat_le 0 i ltac:(lia)) as A. pose proof (of_nat_le (S i) (gnx G) ltac:(lia)) as B. rewrite Qc_of_nat_S in B.
  change (Qc_of_Z (Z.of_nat i)) with (Qc_of_nat i). change (Qc_of_nat 0) with 0%Qc in A.
  apply Qclt_le_weak in Wx. split; apply le_minus.
  - replace (gxl G + (Qc_of_nat i + 1 / (1 + 1)) * width_x G - gxl G)%Qc with ((Qc_of_nat i + 1 / (1 + 1)) * width_x G)%Qc by ring.
    apply mul_nonneg; auto. apply add_nonneg; auto. discriminate.
  - replace (gxl G + Qc_of_nat (gnx G) * width_x G - (gxl G + (Qc_of_nat i + 1 / (1 + 1)) * width_x G))%Qc with
      ((Qc_of_nat (gnx G) - (Qc_of_nat i + 1) + 1 / (1 + 1)) * width_x G)%Qc by (field; tnz).
    apply mul_nonneg; auto. apply add_nonneg; [apply le_minus in B; exact B|discriminate].
Qed.
Lemma mid_y_in G j : oriented G -> j < gny G -> (gyl G <= mid_y G j)%Qc /\ (mid_y G j <= gyu G)%Qc.
Proof.
  intros HO Hi. destruct (widths_pos G HO) as (_ & Wx). rewrite (upper_y G (orp _ HO)), mid_y_is.
  pose proof (of_nat_le 0 j ltac:(lia)) as A. pose proof (of_nat_le (S j) (gny G) ltac:(lia)) as B. rewrite Qc_of_nat_S in B.
  change (Qc_of_Z (Z.of_nat j)) with (Qc_of_nat j). change (Qc_of_nat 0) with 0%Qc in A.
  apply Qclt_le_weak in Wx. split; apply le_minus.
  - replace (gyl G + (Qc_of_nat j + 1 / (1 + 1)) * width_y G - gyl G)%Qc with ((Qc_of_nat j + 1 / (1 + 1)) * width_y G)%Qc by ring.
    apply mul_nonneg; auto. apply add_nonneg; auto. discriminate.
  - replace (gyl G + Qc_of_nat (gny G) * width_y G - (gyl G + (Qc_of_nat j + 1 / (1 + 1)) * width_y G))%Qc with
      ((Qc_of_nat (gny G) - (Qc_of_nat j + 1) + 1 / (1 + 1)) * width_y G)%Qc by (field; tnz).
    apply mul_nonneg; auto. apply add_nonneg; [apply le_minus in B; exact B|discriminate].
Qed.

Section Err.
Context (c : coefs) (G : grid) (HO : oriented G) (HS : right_signs c) (Hb : forall x y, c_beta c x y = 1%Qc).
Notation nx := (gnx G).
Notation ny := (gny G).
Notation hx := (width_x G).
Notation hy := (width_y G).

Lemma sides_le g1 g2 : 
  (forall j, j < ny -> (west G g1 j <= west G g2 j)%Qc /\ (east G g1 j <= east G g2 j)%Qc) ->
  (forall i, i < nx -> (south G g1 i <= south G g2 i)%Qc /\ (north G g1 i <= north G g2 i)%Qc) -> data_le G g1 g2.
Proof.
  intros Hw Hs k Hk. destruct (lt_dec k ny) as [A|A]; [apply (Hw k A)|].
  destruct (lt_dec k (2 * ny)) as [B|B].
  { replace k with (ny + (k - ny)) by lia. apply (Hw (k - ny)). lia. }
  destruct (lt_dec k (2 * ny + nx)) as [C|C].
  { replace k with (2 * ny + (k - 2 * ny)) by lia. apply (Hs (k - 2 * ny)). lia. }
  replace k with (2 * ny + nx + (k - 2 * ny - nx)) by lia. apply (Hs (k - 2 * ny - nx)). lia.
Qed.

Definition bump (x : Qc) : Qc := ((x - gxl G) * (gxu G - x) / (1 + 1) + hx * hx / eight)%Qc.
Lemma bump_nonneg x : (gxl G <= x)%Qc -> (x <= gxu G)%Qc -> (0 <= bump x)%Qc.
Proof.
  intros A B. apply le_minus in A, B. unfold bump, Qcdiv. apply add_nonneg; apply mul_nonneg; try discriminate; [apply mul_nonneg; auto|apply sq_nonneg].
Qed.
Definition reach : Qc := (((gxu G - gxl G) * (gxu G - gxl G) + hx * hx) / eight)%Qc.
Lemma bump_le x : (bump x <= reach)%Qc.
Proof.
  apply le_minus. replace (reach - bump x)%Qc with ((x + x - gxl G - gxu G) * (x + x - gxl G - gxu G) * / eight)%Qc.
  - apply mul_nonneg; [apply sq_nonneg|discriminate].
  - unfold reach, bump, eight. field; repeat split; tnz.
Qed.

Section Upper.
Context (V : Qc -> Qc -> Qc) (K F : Qc) (HF : (0 <= F)%Qc) (HK : (0 <= K)%Qc).
Definition above (x y : Qc) : Qc := (V x y + (K + F * bump x))%Qc.

Lemma above_second_x x y : second_x above hx x y = (second_x V hx x y - F * (hx * hx))%Qc.
Proof. unfold second_x, above, bump, eight. field; repeat split; tnz. Qed.
Lemma above_second_y x y : second_y above hy x y = second_y V hy x y.
Proof. unfold second_y, above. ring. Qed.
Lemma above_xl y : across_x above G (gxl G) y = (across_x V G (gxl G) y + K)%Qc.
Proof. unfold across_x, above, bump, eight. cbv zeta. field; repeat split; tnz. Qed.
Lemma above_xu y : across_x above G (gxu G) y = (across_x V G (gxu G) y + K)%Qc.
Proof. unfold across_x, above, bump, eight. cbv zeta. field; repeat split; tnz. Qed.
Lemma above_y x y : across_y above G x y = (across_y V G x y + (K + F * bump x))%Qc.
Proof. unfold across_y, above. cbv zeta. field; repeat split; tnz. Qed.

Lemma upper_error g f u : length g = 2 * ny + 2 * nx -> length f = nx * ny -> fv_solution c G g f u ->
  each_face (fun v x y => v <= across_x V G x y + K)%Qc (fun v x y => v <= across_y V G x y + K)%Qc G g ->
  (forall i j, i < nx -> j < ny -> (- F <= residual c V G (mid_x G i) (mid_y G j) (cell G f i j))%Qc) ->
  forall i j, i < nx -> j < ny -> (cell G u i j <= V (mid_x G i) (mid_y G j) + (K + F * reach))%Qc.
Proof.
  intros Lg Lf Hu (Gw & Gs) Hf i j Hi Hj. pose proof (orp _ HO) as HP. pose proof (proper_widths G HP) as (Wx & Wy).
  pose proof (ext_solution c G HP above) as Ha. destruct (face_data_sides G above) as (Fw & Fs).
  apply Qcle_trans with (above (mid_x G i) (mid_y G j)).
  2:{ unfold above. apply Qcplus_le_compat; [apply Qcle_refl|]. apply Qcplus_le_compat; [apply Qcle_refl|].
      rewrite !(Qcmult_comm F). apply Qcmult_le_compat_r; [apply bump_le|exact HF]. }
  rewrite <- (cell_sampled G above i j Hi Hj). unfold cell.
  refine (comparison c G HP HS g (face_data G above) f _ u (sampled above G) _ _ Hu Ha _ _ (j + i * ny) _).
  - rewrite face_data_length. exact Lg.
  - rewrite vec_of_length. exact Lf.
  - apply sides_le.
    + intros k Hk. destruct (Fw k Hk) as (-> & ->). rewrite above_xl, above_xu. apply Gw. exact Hk.
    + intros k Hk. destruct (Fs k Hk) as (-> & ->). rewrite !above_y. destruct (Gs k Hk) as (A & B).
      destruct (mid_x_in G k HO Hk) as (M1 & M2).
      pose proof (mul_nonneg _ _ HF (bump_nonneg _ M1 M2)) as Hp. revert Hp. generalize (F * bump (mid_x G k))%Qc. intros P Hp.
      split; toQ; lra.
  - clear i j Hi Hj. intros i j Hi Hj. specialize (Hf i j Hi Hj). unfold cell at 1. rewrite vval_vec_of by nia.
    destruct HP as (_ & _ & Nx & Ny). rewrite Nat.div_add, Nat.mod_add, Nat.div_small, Nat.mod_small by auto. change (0 + i) with i.
    rewrite (ext_elliptic c G (orp _ HO) above Hb i j Hi Hj). cbv zeta. rewrite above_second_x, above_second_y.
    destruct (mid_x_in G i HO Hi) as (M1 & M2).
    pose proof (add_nonneg _ _ HK (mul_nonneg _ _ HF (bump_nonneg _ M1 M2))) as HPos. unfold above.
    destruct (HS (mid_x G i) (mid_y G j)) as (Ha0 & _ & Hl).
    set (P := (K + F * bump (mid_x G i))%Qc) in *. set (al := c_alpha c (mid_x G i) (mid_y G j)) in *. set (la := c_lambda c (mid_x G i) (mid_y G j)) in *.
    set (v := V (mid_x G i) (mid_y G j)) in *. set (r := residual c V G (mid_x G i) (mid_y G j) (cell G f i j)) in *.
    set (sx := second_x V hx (mid_x G i) (mid_y G j)) in *. set (sy := second_y V hy (mid_x G i) (mid_y G j)) in *.
    assert (Ef : cell G f i j = (al * (r + (sx / (hx * hx) + sy / (hy * hy))) + la * v)%Qc).
    { unfold r, residual. fold al la v sx sy. field. auto. }
    rewrite Ef. apply le_minus.
    replace (al * (al * (r + (sx / (hx * hx) + sy / (hy * hy))) + la * v) -
      al * (al * ((sx - F * (hx * hx)) / (hx * hx) + sy / (hy * hy)) + la * (v + P)))%Qc with
      (al * al * (r - - F) + P * - (al * la))%Qc by (field; auto).
    apply add_nonneg; apply mul_nonneg; auto; [apply sq_nonneg|apply le_minus in Hf; exact Hf|].
    apply Qcopp_le_compat in Hl. exact Hl.
  - nia.
Qed.
End Upper.

Lemma residual_opp V x y f : c_alpha c x y <> 0%Qc -> residual c (fun a b => (- V a b)%Qc) G x y (- f)%Qc = (- residual c V G x y f)%Qc.
Proof.
  intros Ha. pose proof (proper_widths G (orp _ HO)) as (Wx & Wy). unfold residual, second_x, second_y. field. auto.
Qed.

Theorem error_by_residual V K F g f u :
  length g = 2 * ny + 2 * nx -> length f = nx * ny -> fv_solution c G g f u -> (0 <= F)%Qc -> (0 <= K)%Qc ->
  each_face (fun v x y => within K (v - across_x V G x y)) (fun v x y => within K (v - across_y V G x y)) G g ->
  each_cell (fun x y v => within F (residual c V G x y v)) G f ->
  each_cell (fun x y v => within (K + F * reach) (v - V x y)) G u.
Proof.
  intros Lg Lf Hu HF HK (Gw & Gs) Hf i j Hi Hj. split.
  2:{ pose proof (upper_error V K F HF HK g f u Lg Lf Hu) as Q.
      assert ((cell G u i j <= V (mid_x G i) (mid_y G j) + (K + F * reach))%Qc) as A.
      { apply Q; auto.
        - split; intros k Hk; [destruct (Gw k Hk) as (A & B)|destruct (Gs k Hk) as (A & B)]; split; revert A B; unfold within, Qcle; rewrite !this_minus, !this_plus, !this_opp; intros; lra.
        - intros i' j' Hi' Hj'. apply (Hf i' j' Hi' Hj'). }
      revert A. unfold Qcle. rewrite this_minus, (this_plus (V _ _)). intros. lra. }
  pose proof (solution_lin c G (orp _ HO) (- (1) - 1)%Qc g g f f u u eq_refl eq_refl Hu Hu) as D.
  assert (N : forall v k, vval (lin (- (1) - 1) v v) k = (- vval v k)%Qc) by (intros; rewrite vval_lin by auto; ring).
  pose proof (upper_error (fun x y => - V x y)%Qc K F HF HK _ _ _ ltac:(rewrite lin_length; exact Lg) ltac:(rewrite lin_length; exact Lf) D) as Q.
  assert ((cell G (lin (- (1) - 1) u u) i j <= - V (mid_x G i) (mid_y G j) + (K + F * reach))%Qc) as A.
  { apply Q; auto.
    - assert (NX : forall x y, across_x (fun x y => - V x y)%Qc G x y = (- across_x V G x y)%Qc) by (intros; unfold across_x; cbv zeta; field; tnz).
      assert (NY : forall x y, across_y (fun x y => - V x y)%Qc G x y = (- across_y V G x y)%Qc) by (intros; unfold across_y; cbv zeta; field; tnz).
      split; intros k Hk; [destruct (Gw k Hk) as (A & B)|destruct (Gs k Hk) as (A & B)]; unfold west, east, south, north in *;
        rewrite !N, ?NX, ?NY; split; revert A B; unfold within, Qcle; rewrite !this_minus, !this_plus, !this_opp; intros; lra.
    - intros i' j' Hi' Hj'. unfold cell. rewrite N. fold (cell G f i' j'). destruct (HS (mid_x G i') (mid_y G j')) as (Ha0 & _).
      rewrite residual_opp by auto. apply Qcopp_le_compat. apply (Hf i' j' Hi' Hj'). }
  unfold cell in A. rewrite N in A. fold (cell G u i j) in A. revert A. unfold Qcle. rewrite !this_opp, this_minus, (this_plus (- V _ _)), this_opp. intros. lra.
Qed.

Theorem error_of_smooth V Vxx Vyy M2 M4 eg ef g f u :
  length g = 2 * ny + 2 * nx -> length f = nx * ny -> fv_solution c G g f u ->
  tame V Vxx Vyy M2 M4 G -> (0 <= M2)%Qc -> (0 <= M4)%Qc -> (0 <= eg)%Qc -> (0 <= ef)%Qc ->
  each_face (fun v x y => within eg (v - V x y)) (fun v x y => within eg (v - V x y)) G g ->
  each_cell (fun x y v => within ef ((v - c_lambda c x y * V x y) / c_alpha c x y - (Vxx x y + Vyy x y))) G f ->
  each_cell (fun x y v => within (eg + M2 * ((hx * hx + hy * hy) / eight) + (ef + M4 * (hx * hx + hy * hy)) * reach) (v - V x y)) G u.
Proof.
  intros Lg Lf Hu HT H2 H4 He Hf0 (Gw & Gs) Hf. destruct (widths_pos G HO) as (Px & Py).
  pose proof (proper_widths G (orp _ HO)) as (Wx & Wy).
  pose proof (sq_nonneg hx) as Sx. pose proof (sq_nonneg hy) as Sy.
  assert (XL : (gxl G <= gxu G)%Qc) by (apply Qclt_le_weak; apply HO). assert (YL : (gyl G <= gyu G)%Qc) by (apply Qclt_le_weak; apply HO).
  assert (hp : forall h, (0 < h)%Qc -> (0 < h / (1 + 1))%Qc /\ (h / (1 + 1) <= h)%Qc).
  { intros h Hh. unfold Qcdiv, Qclt, Qcle in *. rewrite !this_mult. change (this (/ (1 + 1))%Qc) with (1 # 2)%Q. change (this 0%Qc) with 0%Q in *. lra. }
  destruct (hp _ Px) as (Dx0 & Dx1), (hp _ Py) as (Dy0 & Dy1).
  assert (AX : forall x y v, (gxl G <= x)%Qc -> (x <= gxu G)%Qc -> (gyl G <= y)%Qc -> (y <= gyu G)%Qc -> within eg (v - V x y) ->
    within (eg + M2 * ((hx * hx + hy * hy) / eight)) (v - across_x V G x y)).
  { intros x y v A B C D Hv. destruct (HT x y _ A B C D Dx0) as (Q & _). destruct (Q Dx1) as (Q1 & _). clear Q.
    replace (v - across_x V G x y)%Qc with (v - V x y - second_x V (hx / (1 + 1)) x y / (1 + 1))%Qc
      by (unfold across_x, second_x; cbv zeta; field; tnz).
    replace (M2 * (hx / (1 + 1) * (hx / (1 + 1))))%Qc with ((1 + 1) * (M2 * (hx * hx / eight)))%Qc in Q1 by (unfold eight; field; repeat split; tnz).
    replace (M2 * ((hx * hx + hy * hy) / eight))%Qc with (M2 * (hx * hx / eight) + M2 * (hy * hy / eight))%Qc by (unfold eight; field; repeat split; tnz).
    assert (N1 : (0 <= M2 * (hy * hy / eight))%Qc) by (apply mul_nonneg; auto; apply mul_nonneg; auto; discriminate).
    revert Q1 N1 Hv. generalize (M2 * (hx * hx / eight))%Qc (M2 * (hy * hy / eight))%Qc (second_x V (hx / (1 + 1)) x y) (v - V x y)%Qc.
    intros a b s w. unfold within, Qcle, Qcdiv. rewrite !this_minus, !this_mult, !this_opp, !this_plus, !this_mult. change (this (/ (1 + 1))%Qc) with (1 # 2)%Q.
    change (this (1 + 1)%Qc) with 2%Q. change (this 1%Qc) with 1%Q. change (this 0%Qc) with 0%Q. intros. lra. }
  assert (AY : forall x y v, (gxl G <= x)%Qc -> (x <= gxu G)%Qc -> (gyl G <= y)%Qc -> (y <= gyu G)%Qc -> within eg (v - V x y) ->
    within (eg + M2 * ((hx * hx + hy * hy) / eight)) (v - across_y V G x y)).
  { intros x y v A B C D Hv. destruct (HT x y _ A B C D Dy0) as (_ & Q). destruct (Q Dy1) as (Q1 & _). clear Q.
    replace (v - across_y V G x y)%Qc with (v - V x y - second_y V (hy / (1 + 1)) x y / (1 + 1))%Qc
      by (unfold across_y, second_y; cbv zeta; field; tnz).
    replace (M2 * (hy / (1 + 1) * (hy / (1 + 1))))%Qc with ((1 + 1) * (M2 * (hy * hy / eight)))%Qc in Q1 by (unfold eight; field; repeat split; tnz).
    replace (M2 * ((hx * hx + hy * hy) / eight))%Qc with (M2 * (hx * hx / eight) + M2 * (hy * hy / eight))%Qc by (unfold eight; field; repeat split; tnz).
    assert (N1 : (0 <= M2 * (hx * hx / eight))%Qc) by (apply mul_nonneg; auto; apply mul_nonneg; auto; discriminate).
    revert Q1 N1 Hv. generalize (M2 * (hy * hy / eight))%Qc (M2 * (hx * hx / eight))%Qc (second_y V (hy / (1 + 1)) x y) (v - V x y)%Qc.
    intros a b s w. unfold within, Qcle, Qcdiv. rewrite !this_minus, !this_mult, !this_opp, !this_plus, !this_mult. change (this (/ (1 + 1))%Qc) with (1 # 2)%Q.
    change (this (1 + 1)%Qc) with 2%Q. change (this 1%Qc) with 1%Q. change (this 0%Qc) with 0%Q. intros. lra. }
  apply (error_by_residual V _ _ g f u Lg Lf Hu).
  - apply add_nonneg; auto. apply mul_nonneg; auto. apply add_nonneg; auto.
  - apply add_nonneg; auto. apply mul_nonneg; auto. apply mul_nonneg; [apply add_nonneg; auto|discriminate].
  - split; intros k Hk.
    + destruct (mid_y_in G k HO Hk) as (A & B). destruct (Gw k Hk) as (C & D). split; apply AX; auto using Qcle_refl.
    + destruct (mid_x_in G k HO Hk) as (A & B). destruct (Gs k Hk) as (C & D). split; apply AY; auto using Qcle_refl.
  - intros i j Hi Hj. specialize (Hf i j Hi Hj). cbv beta in Hf.
    destruct (mid_x_in G i HO Hi) as (A & B). destruct (mid_y_in G j HO Hj) as (C & D).
    destruct (HT _ _ _ A B C D Px) as (Q1 & _). destruct (Q1 (Qcle_refl _)) as (_ & QX).
    destruct (HT _ _ _ A B C D Py) as (_ & Q2). destruct (Q2 (Qcle_refl _)) as (_ & QY). clear Q1 Q2.
    unfold residual. set (x := mid_x G i) in *. set (y := mid_y G j) in *.
    assert (dv : forall h M s, h <> 0%Qc -> within (M * (h * h * (h * h))) s -> within (M * (h * h)) (s / (h * h))).
    { intros h M s Hh (R1 & R2). pose proof (inv_pos _ (sq_pos h Hh)) as Ip. apply Qclt_le_weak in Ip.
      split.
      - replace (- (M * (h * h)))%Qc with (- (M * (h * h * (h * h))) * / (h * h))%Qc by (field; auto). apply Qcmult_le_compat_r; auto.
      - replace (M * (h * h))%Qc with ((M * (h * h * (h * h))) * / (h * h))%Qc by (field; auto). apply Qcmult_le_compat_r; auto. }
    apply (dv _ _ _ Wx) in QX. apply (dv _ _ _ Wy) in QY.
    replace ((second_x V hx x y - hx * hx * Vxx x y) / (hx * hx))%Qc with (second_x V hx x y / (hx * hx) - Vxx x y)%Qc in QX by (field; auto).
    replace ((second_y V hy x y - hy * hy * Vyy x y) / (hy * hy))%Qc with (second_y V hy x y / (hy * hy) - Vyy x y)%Qc in QY by (field; auto).
    replace (M4 * (hx * hx + hy * hy))%Qc with (M4 * (hx * hx) + M4 * (hy * hy))%Qc by ring.
    revert Hf QX QY. generalize ((cell G f i j - c_lambda c x y * V x y) / c_alpha c x y)%Qc (second_x V hx x y / (hx * hx))%Qc (second_y V hy x y / (hy * hy))%Qc
      (M4 * (hx * hx))%Qc (M4 * (hy * hy))%Qc (Vxx x y) (Vyy x y). intros q s1 s2 a b v1 v2.
    unfold within, Qcle. rewrite !this_minus, !this_opp, !this_plus. intros. lra.
Qed.
End Err.
