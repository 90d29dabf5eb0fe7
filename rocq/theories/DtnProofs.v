(** Reflections of the discrete problem, and the blocks of the operator. *)
From Verif Require Import Base VectorModel MatrixModel LinSpec HPSModel HPSSpec FVModel FVSpec SymSpec DtnModel DtnSpec.
From Verif Require Import MatProofs MatProofs2 LinProofs BlockProofs HPSProofs HPSProofs3 HPSProofs4 HPSStage2 FVProofs FVProofs2 FVProofs3 FVMax SymProofs SymProps.
From Coq Require Import Lia.

Section Reflect.
Context (c : coefs) (G : grid) (n : nat) (HP : proper G) (HQ : square_patch n G) (HC : symmetric_coefs G c).

Let Ex : gnx G = n. Proof. apply HQ. Qed.
Let Ey : gny G = n. Proof. apply HQ. Qed.
Let Nn : n <> 0. Proof. destruct HP as (_ & _ & H & _). rewrite Ex in H. exact H. Qed.

Lemma sq_width : width_y G = width_x G.
Proof. destruct HQ as (_ & _ & E). unfold width_y, width_x. rewrite Ex, Ey, E. reflexivity. Qed.
Lemma face_y_sq i : face_y G i = (gyl G + (face_x G i - gxl G))%Qc.
Proof. unfold face_x, face_y. rewrite sq_width. ring. Qed.
Lemma mid_y_sq i : mid_y G i = (gyl G + (mid_x G i - gxl G))%Qc.
Proof. unfold mid_x, mid_y. rewrite !face_y_sq. field. apply two_nz. Qed.
Lemma face_mirror i : i <= n -> face_x G (n - i) = (gxl G + gxu G - face_x G i)%Qc.
Proof.
  intros Hi. unfold face_x. assert (W : (gxu G = gxl G + Qc_of_nat n * width_x G)%Qc).
  { unfold width_x. rewrite Ex. field. apply Qc_of_nat_nz; auto. }
  rewrite W. assert (S : (Qc_of_nat n = Qc_of_nat (n - i) + Qc_of_nat i)%Qc) by (rewrite <- Qc_of_nat_add; f_equal; lia).
  rewrite S. ring.
Qed.
Lemma mid_mirror i : i < n -> mid_x G (n - 1 - i) = (gxl G + gxu G - mid_x G i)%Qc.
Proof.
  intros Hi. unfold mid_x. replace (n - 1 - i) with (n - S i) by lia. replace (S (n - S i)) with (n - i) by lia.
  rewrite !face_mirror by lia. field. apply two_nz.
Qed.

(** Vectors given cell by cell and face by face. *)
Definition cells (F : nat -> nat -> Qc) : list Qc := vec_of (n * n) (fun k => F (k / n) (k mod n)).
Lemma cell_cells F i j : i < n -> j < n -> cell G (cells F) i j = F i j.
Proof.
  intros Hi Hj. unfold cell, cells. rewrite Ey, vval_vec_of by nia. f_equal.
  - rewrite Nat.div_add by exact Nn. rewrite Nat.div_small by exact Hj. lia.
  - rewrite Nat.mod_add by exact Nn. apply Nat.mod_small; exact Hj.
Qed.
Definition faces (W E S N : nat -> Qc) : list Qc :=
  vec_of (4 * n) (fun k => if k <? n then W k else if k <? 2 * n then E (k - n) else if k <? 3 * n then S (k - 2 * n) else N (k - 3 * n)).
Lemma faces_length W E S N : length (faces W E S N) = 4 * n.
Proof. apply vec_of_length. Qed.
Lemma faces_at W E S N i : i < n ->
  west G (faces W E S N) i = W i /\ east G (faces W E S N) i = E i /\ south G (faces W E S N) i = S i /\ north G (faces W E S N) i = N i.
Proof.
  intros Hi. unfold west, east, south, north, faces. rewrite Ex, Ey, !vval_vec_of by lia.
  destruct (Nat.ltb_spec i n); [|lia].
  destruct (Nat.ltb_spec (n + i) n); [lia|]. destruct (Nat.ltb_spec (n + i) (2 * n)); [|lia].
  destruct (Nat.ltb_spec (2 * n + i) n); [lia|]. destruct (Nat.ltb_spec (2 * n + i) (2 * n)); [lia|]. destruct (Nat.ltb_spec (2 * n + i) (3 * n)); [|lia].
  destruct (Nat.ltb_spec (2 * n + n + i) n); [lia|]. destruct (Nat.ltb_spec (2 * n + n + i) (2 * n)); [lia|]. destruct (Nat.ltb_spec (2 * n + n + i) (3 * n)); [lia|].
  repeat split; f_equal; lia.
Qed.
Lemma by_faces v w : length v = 4 * n -> length w = 4 * n ->
  (forall i, i < n -> west G v i = west G w i /\ east G v i = east G w i /\ south G v i = south G w i /\ north G v i = north G w i) -> v = w.
Proof.
  intros Lv Lw H. apply vval_ext; [congruence|]. rewrite Lv. intros k Hk. unfold west, east, south, north in H. rewrite Ex, Ey in H.
  destruct (lt_dec k n); [apply (H k); auto|]. destruct (lt_dec k (2 * n)).
  { destruct (H (k - n)) as (_ & E & _); [lia|]. replace (n + (k - n)) with k in E by lia. exact E. }
  destruct (lt_dec k (3 * n)).
  { destruct (H (k - 2 * n)) as (_ & _ & E & _); [lia|]. replace (2 * n + (k - 2 * n)) with k in E by lia. exact E. }
  destruct (H (k - 3 * n)) as (_ & _ & _ & E); [lia|]. replace (2 * n + n + (k - 3 * n)) with k in E by lia. exact E.
Qed.

(** ** Reflection in the vertical centre line *)
Definition mirror_c (u : list Qc) : list Qc := cells (fun i j => cell G u (n - 1 - i) j).
Definition mirror_b (g : list Qc) : list Qc :=
  faces (east G g) (west G g) (fun i => south G g (n - 1 - i)) (fun i => north G g (n - 1 - i)).

Lemma mirror_solution g f u : fv_solution c G g f u -> fv_solution c G (mirror_b g) (mirror_c f) (mirror_c u).
Proof.
  intros (Lu & H). split; [unfold mirror_c, cells; rewrite vec_of_length, Ex, Ey; reflexivity|].
  intros E (Hc & Hwe & Hsn) i j Hi Hj. rewrite Ex in Hi. rewrite Ey in Hj.
  set (E' := fun I J => E (Z.of_nat n - 1 - I)%Z J).
  assert (Rv : forall k, k < n -> (Z.of_nat n - 1 - Z.of_nat k)%Z = Z.of_nat (n - 1 - k)) by lia.
  assert (HG : ghosts G g u E').
  { split; [|split]; rewrite ?Ex, ?Ey in *.
    - intros a b Ha Hb. unfold E'. rewrite Rv by auto. rewrite Hc by lia. unfold mirror_c. rewrite cell_cells by lia. f_equal. lia.
    - intros b Hb. destruct (Hwe b Hb) as (Q1 & Q2). destruct (faces_at (east G g) (west G g) (fun i => south G g (n - 1 - i)) (fun i => north G g (n - 1 - i)) b Hb) as (F1 & F2 & _).
      unfold mirror_b in Q1, Q2. rewrite F1 in Q1. rewrite F2 in Q2. unfold E'.
      replace (Z.of_nat n - 1 - -1)%Z with (Z.of_nat n) by lia. replace (Z.of_nat n - 1 - 0)%Z with (Z.of_nat n - 1)%Z by lia.
      replace (Z.of_nat n - 1 - Z.of_nat n)%Z with (-1)%Z by lia. replace (Z.of_nat n - 1 - (Z.of_nat n - 1))%Z with 0%Z by lia. auto.
    - intros a Ha. destruct (Hsn (n - 1 - a)) as (Q1 & Q2); [lia|].
      destruct (faces_at (east G g) (west G g) (fun i => south G g (n - 1 - i)) (fun i => north G g (n - 1 - i)) (n - 1 - a)) as (_ & _ & F3 & F4); [lia|].
      unfold mirror_b in Q1, Q2. rewrite F3 in Q1. rewrite F4 in Q2. unfold E'. rewrite Rv by auto. replace (n - 1 - (n - 1 - a)) with a in * by lia. auto. }
  assert (Hi' : n - 1 - i < gnx G) by lia. assert (Hj' : j < gny G) by lia.
  pose proof (H E' HG (n - 1 - i) j Hi' Hj') as H'. unfold mirror_c. rewrite cell_cells by auto. rewrite <- H'.
  destruct HC as ((A & _) & (B & _) & (L & _) & _).
  unfold elliptic. cbv zeta. rewrite mid_mirror by exact Hi. rewrite A, L.
  replace (S (n - 1 - i)) with (n - i) by lia. rewrite face_mirror by lia. replace (n - 1 - i) with (n - S i) by lia. rewrite face_mirror by lia.
  rewrite !B. unfold E'. replace (Z.of_nat n - 1 - (Z.of_nat (n - S i) + 1))%Z with (Z.of_nat i - 1)%Z by lia.
  replace (Z.of_nat n - 1 - (Z.of_nat (n - S i) - 1))%Z with (Z.of_nat i + 1)%Z by lia. replace (Z.of_nat n - 1 - Z.of_nat (n - S i))%Z with (Z.of_nat i) by lia.
  unfold Qcdiv. ring.
Qed.

Lemma mirror_flux g u : boundary_flux G (mirror_b g) (mirror_c u) =
  let h := boundary_flux G g u in
  faces (fun j => - east G h j)%Qc (fun j => - west G h j)%Qc (fun i => south G h (n - 1 - i)) (fun i => north G h (n - 1 - i)).
Proof.
  cbv zeta. apply by_faces; [apply (boundary_flux_length G n Ex Ey)|apply faces_length|]. intros i Hi.
  assert (Hi' : i < gnx G) by lia. assert (Hj' : i < gny G) by lia. assert (Hk : n - 1 - i < gnx G) by lia.
  destruct (faces_at (fun j => - east G (boundary_flux G g u) j)%Qc (fun j => - west G (boundary_flux G g u) j)%Qc
     (fun i => south G (boundary_flux G g u) (n - 1 - i)) (fun i => north G (boundary_flux G g u) (n - 1 - i)) i Hi) as (-> & -> & -> & ->).
  destruct (flux_we G (mirror_b g) (mirror_c u) i Hj') as (-> & ->). destruct (flux_sn G (mirror_b g) (mirror_c u) i Hi') as (-> & ->).
  destruct (flux_we G g u i Hj') as (-> & ->). destruct (flux_sn G g u _ Hk) as (-> & ->).
  destruct (faces_at (east G g) (west G g) (fun i => south G g (n - 1 - i)) (fun i => north G g (n - 1 - i)) i Hi) as (F1 & F2 & F3 & F4).
  unfold mirror_b. rewrite F1, F2, F3, F4. unfold mirror_c. rewrite Ex, Ey, !cell_cells by lia.
  replace (n - 1 - 0) with (n - 1) by lia. replace (n - 1 - (n - 1)) with 0 by lia. repeat split; unfold Qcdiv; ring.
Qed.

(** ** Reflection in the diagonal *)
Definition swap_c (u : list Qc) : list Qc := cells (fun i j => cell G u j i).
Definition swap_b (g : list Qc) : list Qc := faces (south G g) (north G g) (west G g) (east G g).

Lemma swap_solution g f u : fv_solution c G g f u -> fv_solution c G (swap_b g) (swap_c f) (swap_c u).
Proof.
  intros (Lu & H). split; [unfold swap_c, cells; rewrite vec_of_length, Ex, Ey; reflexivity|].
  intros E (Hc & Hwe & Hsn) i j Hi Hj. rewrite Ex in Hi. rewrite Ey in Hj.
  set (E' := fun I J => E J I : Qc).
  assert (HG : ghosts G g u E').
  { split; [|split]; rewrite ?Ex, ?Ey in *.
    - intros a b Ha Hb. unfold E'. rewrite Hc by lia. unfold swap_c. rewrite cell_cells by lia. reflexivity.
    - intros b Hb. destruct (Hsn b Hb) as (Q1 & Q2). destruct (faces_at (south G g) (north G g) (west G g) (east G g) b Hb) as (_ & _ & F3 & F4).
      unfold swap_b in Q1, Q2. rewrite F3 in Q1. rewrite F4 in Q2. unfold E'. auto.
    - intros b Hb. destruct (Hwe b Hb) as (Q1 & Q2). destruct (faces_at (south G g) (north G g) (west G g) (east G g) b Hb) as (F1 & F2 & _).
      unfold swap_b in Q1, Q2. rewrite F1 in Q1. rewrite F2 in Q2. unfold E'. auto. }
  assert (Hi' : i < gny G) by lia. assert (Hj' : j < gnx G) by lia.
  pose proof (H E' HG j i Hj' Hi') as H'. unfold swap_c. rewrite cell_cells by auto. rewrite <- H'.
  destruct HC as ((_ & A) & (_ & B) & (_ & L) & _).
  assert (SW : forall k : Qc -> Qc -> Qc, (forall x y, k (gxl G + (y - gyl G))%Qc (gyl G + (x - gxl G))%Qc = k x y) ->
    forall x y, k y (gyl G + (x - gxl G))%Qc = k x (gyl G + (y - gxl G))%Qc).
  { intros k Hk x y. rewrite <- (Hk x (gyl G + (y - gxl G))%Qc). f_equal. ring. }
  unfold elliptic. cbv zeta. rewrite !mid_y_sq, !face_y_sq, sq_width.
  rewrite (SW _ A (mid_x G i) (mid_x G j)), (SW _ L (mid_x G i) (mid_x G j)).
  rewrite (SW _ B (mid_x G i) (face_x G (S j))), (SW _ B (mid_x G i) (face_x G j)), (SW _ B (face_x G (S i)) (mid_x G j)), (SW _ B (face_x G i) (mid_x G j)).
  unfold E', Qcdiv. ring.
Qed.

Lemma swap_flux g u : boundary_flux G (swap_b g) (swap_c u) = swap_b (boundary_flux G g u).
Proof.
  apply by_faces; [apply (boundary_flux_length G n Ex Ey)|apply faces_length|]. intros i Hi.
  assert (Hi' : i < gnx G) by lia. assert (Hj' : i < gny G) by lia.
  unfold swap_b at 2 4 6 8. set (h := boundary_flux G g u).
  destruct (faces_at (south G h) (north G h) (west G h) (east G h) i Hi) as (-> & -> & -> & ->). unfold h.
  destruct (flux_we G (swap_b g) (swap_c u) i Hj') as (-> & ->). destruct (flux_sn G (swap_b g) (swap_c u) i Hi') as (-> & ->).
  destruct (flux_we G g u i Hj') as (-> & ->). destruct (flux_sn G g u i Hi') as (-> & ->).
  destruct (faces_at (south G g) (north G g) (west G g) (east G g) i Hi) as (F1 & F2 & F3 & F4).
  unfold swap_b. rewrite F1, F2, F3, F4. unfold swap_c. rewrite Ex, Ey, !cell_cells by lia. rewrite sq_width. auto.
Qed.
End Reflect.

Section Blocks.
Context (c : coefs) (G : grid) (n : nat) (HP : proper G) (HQ : square_patch n G) (HC : symmetric_coefs G c) (HU : fv_unique c G).
Context (Ha : forall x y, c_alpha c x y <> 0%Qc) (Hb : c_beta c (gxl G) (gyl G) <> 0%Qc).
Context (solve : grid -> list Qc -> list Qc -> res (list Qc)).
Context (HS : forall g f, length g = 4 * n -> length f = n * n -> exists u, solve G g f = Ok u /\ fv_solution c G g f u).

Let Ex : gnx G = n. Proof. apply HQ. Qed.
Let Ey : gny G = n. Proof. apply HQ. Qed.
Let Nn : n <> 0. Proof. destruct HP as (_ & _ & H & _). rewrite Ex in H. exact H. Qed.

Notation e j := (unit_vec n j).
Notation Z0 := (zeros (n * n)).
Notation U j := (sol G solve (e j) Z0).
Notation H_ j := (hmap G solve (e j) Z0).

Lemma unit_len j : length (e j) = 4 * n.
Proof. apply vec_of_length. Qed.
Lemma vval_unit j k : k < 4 * n -> vval (e j) k = delta j k.
Proof. intros Hk. unfold unit_vec. rewrite vval_vec_of by exact Hk. reflexivity. Qed.
Lemma unit_at k i : i < n ->
  west G (e k) i = delta k i /\ east G (e k) i = delta k (n + i) /\ south G (e k) i = delta k (2 * n + i) /\ north G (e k) i = delta k (3 * n + i).
Proof.
  intros Hi. unfold west, east, south, north. rewrite Ex, Ey, !vval_unit by lia. repeat split. f_equal. lia.
Qed.
Ltac deltas := repeat match goal with |- context [delta ?a ?b] => unfold delta at 1; destruct (Nat.eqb_spec a b) end; try reflexivity; lia.

Lemma unit_mirror j : j < n -> e (n + j) = mirror_b G n (e j).
Proof.
  intros Hj. apply (by_faces G n HP HQ); [apply unit_len|apply faces_length|]. intros i Hi.
  unfold mirror_b. destruct (faces_at G n HP HQ (east G (e j)) (west G (e j)) (fun i => south G (e j) (n - 1 - i)) (fun i => north G (e j) (n - 1 - i)) i Hi) as (-> & -> & -> & ->).
  destruct (unit_at (n + j) i Hi) as (-> & -> & -> & ->). destruct (unit_at j i Hi) as (-> & -> & _).
  assert (Hk : n - 1 - i < n) by lia. destruct (unit_at j _ Hk) as (_ & _ & -> & ->). repeat split; deltas.
Qed.
Lemma unit_swap_w j : j < n -> e (2 * n + j) = swap_b G n (e j).
Proof.
  intros Hj. apply (by_faces G n HP HQ); [apply unit_len|apply faces_length|]. intros i Hi.
  unfold swap_b. destruct (faces_at G n HP HQ (south G (e j)) (north G (e j)) (west G (e j)) (east G (e j)) i Hi) as (-> & -> & -> & ->).
  destruct (unit_at (2 * n + j) i Hi) as (-> & -> & -> & ->). destruct (unit_at j i Hi) as (-> & -> & -> & ->). repeat split; deltas.
Qed.
Lemma unit_swap_e j : j < n -> e (3 * n + j) = swap_b G n (e (n + j)).
Proof.
  intros Hj. apply (by_faces G n HP HQ); [apply unit_len|apply faces_length|]. intros i Hi.
  unfold swap_b. destruct (faces_at G n HP HQ (south G (e (n + j))) (north G (e (n + j))) (west G (e (n + j))) (east G (e (n + j))) i Hi) as (-> & -> & -> & ->).
  destruct (unit_at (3 * n + j) i Hi) as (-> & -> & -> & ->). destruct (unit_at (n + j) i Hi) as (-> & -> & -> & ->). repeat split; deltas.
Qed.

Lemma unit_sol j : fv_solution c G (e j) Z0 (U j).
Proof. apply (sol_ok c G n Ex Ey solve HS); [apply unit_len|apply zeros_length]. Qed.
Lemma the_sol j u : fv_solution c G (e j) Z0 u -> U j = u.
Proof.
  intros S. apply (solution_unique c G HP (e j) Z0); auto; [rewrite unit_len; lia|rewrite zeros_length, Ex, Ey; reflexivity|apply unit_sol].
Qed.
Lemma cells_zero F : (forall i j, i < n -> j < n -> F i j = 0%Qc) -> cells n F = Z0.
Proof.
  intros H. apply zeros_eq; [apply vec_of_length|]. intros k Hk. unfold cells. rewrite vval_vec_of by exact Hk.
  apply H; [apply Nat.div_lt_upper_bound; lia|apply Nat.mod_upper_bound; exact Nn].
Qed.
Lemma mirror_zero : mirror_c G n Z0 = Z0.
Proof. apply cells_zero. intros. unfold cell. apply vval_zeros. Qed.
Lemma swap_zero : swap_c G n Z0 = Z0.
Proof. apply cells_zero. intros. unfold cell. apply vval_zeros. Qed.

Lemma H_east j : j < n -> H_ (n + j) =
  faces n (fun i => - east G (H_ j) i)%Qc (fun i => - west G (H_ j) i)%Qc (fun i => south G (H_ j) (n - 1 - i)) (fun i => north G (H_ j) (n - 1 - i)).
Proof.
  intros Hj. unfold hmap. rewrite (the_sol (n + j) (mirror_c G n (U j))).
  - rewrite unit_mirror by exact Hj. apply (mirror_flux G n HP HQ).
  - rewrite unit_mirror by exact Hj. rewrite <- mirror_zero at 1. apply (mirror_solution c G n HP HQ HC). apply unit_sol.
Qed.
Lemma H_south j : j < n -> H_ (2 * n + j) = swap_b G n (H_ j).
Proof.
  intros Hj. unfold hmap. rewrite (the_sol (2 * n + j) (swap_c G n (U j))).
  - rewrite unit_swap_w by exact Hj. apply (swap_flux G n HP HQ).
  - rewrite unit_swap_w by exact Hj. rewrite <- swap_zero at 1. apply (swap_solution c G n HP HQ HC). apply unit_sol.
Qed.
Lemma H_north j : j < n -> H_ (3 * n + j) = swap_b G n (H_ (n + j)).
Proof.
  intros Hj. unfold hmap. rewrite (the_sol (3 * n + j) (swap_c G n (U (n + j)))).
  - rewrite unit_swap_e by exact Hj. apply (swap_flux G n HP HQ).
  - rewrite unit_swap_e by exact Hj. rewrite <- swap_zero at 1. apply (swap_solution c G n HP HQ HC). apply unit_sol.
Qed.

(** Reciprocity between the east and the south side. *)
Lemma beta_sides x y : c_beta c (gxu G) y = c_beta c (gxl G) (gyl G) /\ c_beta c x (gyl G) = c_beta c (gxl G) (gyl G).
Proof.
  destruct HC as (_ & (B1 & B2) & _ & B3). split.
  - rewrite <- (B1 (gxu G) y). replace (gxl G + gxu G - gxu G)%Qc with (gxl G) by ring. apply B3.
  - rewrite <- (B2 x (gyl G)). replace (gxl G + (gyl G - gyl G))%Qc with (gxl G) by ring. apply B3.
Qed.
Lemma work_east h j : j < n -> boundary_work c G h (e (n + j)) = (width_x G * c_beta c (gxl G) (gyl G) * east G h j)%Qc.
Proof.
  intros Hj. unfold boundary_work. rewrite Ex, Ey, (sq_width G n HQ).
  transitivity (sum n (fun i => (width_x G * c_beta c (gxl G) (gyl G) * east G h i) * delta i j)%Qc + sum n (fun i => 0 * delta i j)%Qc)%Qc.
  2:{ rewrite !sum_delta_r by exact Hj. ring. }
  f_equal; apply sum_ext; intros i Hi; cbv zeta.
  - destruct (unit_at (n + j) i Hi) as (-> & -> & _). destruct (beta_sides 0 (mid_y G i)) as (-> & _).
    unfold delta. destruct (Nat.eqb_spec (n + j) i); [lia|]. destruct (Nat.eqb_spec (n + j) (n + i)), (Nat.eqb_spec i j); try lia; ring.
  - destruct (unit_at (n + j) i Hi) as (_ & _ & -> & ->).
    unfold delta. destruct (Nat.eqb_spec (n + j) (2 * n + i)); [lia|]. destruct (Nat.eqb_spec (n + j) (3 * n + i)); [lia|]. ring.
Qed.
Lemma work_south h j : j < n -> boundary_work c G h (e (2 * n + j)) = (- (width_x G * c_beta c (gxl G) (gyl G) * south G h j))%Qc.
Proof.
  intros Hj. unfold boundary_work. rewrite Ex, Ey.
  transitivity (sum n (fun i => 0 * delta i j)%Qc + sum n (fun i => - (width_x G * c_beta c (gxl G) (gyl G) * south G h i) * delta i j)%Qc)%Qc.
  2:{ rewrite !sum_delta_r by exact Hj. ring. }
  f_equal; apply sum_ext; intros i Hi; cbv zeta.
  - destruct (unit_at (2 * n + j) i Hi) as (-> & -> & _).
    unfold delta. destruct (Nat.eqb_spec (2 * n + j) i); [lia|]. destruct (Nat.eqb_spec (2 * n + j) (n + i)); [lia|]. ring.
  - destruct (unit_at (2 * n + j) i Hi) as (_ & _ & -> & ->). destruct (beta_sides (mid_x G i) 0) as (_ & ->).
    unfold delta. destruct (Nat.eqb_spec (2 * n + j) (3 * n + i)); [lia|]. destruct (Nat.eqb_spec (2 * n + j) (2 * n + i)), (Nat.eqb_spec i j); try lia; ring.
Qed.
Lemma recip i j : i < n -> j < n -> south G (H_ (n + j)) i = (- east G (H_ (2 * n + i)) j)%Qc.
Proof.
  intros Hi Hj. pose proof (green c G HP Ha _ _ _ _ _ _ (unit_sol (n + j)) (unit_sol (2 * n + i))) as Q.
  rewrite !load_zero in Q. change (boundary_flux G (e (n + j)) (U (n + j))) with (H_ (n + j)) in Q.
  change (boundary_flux G (e (2 * n + i)) (U (2 * n + i))) with (H_ (2 * n + i)) in Q.
  rewrite work_east, work_south in Q by auto. pose proof (proper_widths G HP) as (Wx & _).
  set (b := c_beta c (gxl G) (gyl G)) in *. set (s := south G (H_ (n + j)) i) in *. set (t := east G (H_ (2 * n + i)) j) in *.
  assert (Q' : (width_x G * b * s = width_x G * b * (- t))%Qc).
  { transitivity (- (- (width_x G * b * s) - width_x G * b * t) - width_x G * b * t)%Qc; [ring|]. rewrite Q. ring. }
  transitivity (width_x G * b * s / (width_x G * b))%Qc; [field; auto|]. rewrite Q'. field. auto.
Qed.

(** ** The blocks *)
Definition B (p q i j : nat) : Qc := vval (H_ (q * n + j)) (p * n + i).
Lemma B_side q i j : B 0 q i j = west G (H_ (q * n + j)) i /\ B 1 q i j = east G (H_ (q * n + j)) i /\
  B 2 q i j = south G (H_ (q * n + j)) i /\ B 3 q i j = north G (H_ (q * n + j)) i.
Proof. unfold B, west, east, south, north. rewrite Ex, Ey. repeat split; f_equal; lia. Qed.

Lemma col_0 i j : i < n -> j < n -> west G (H_ j) i = B 0 0 i j /\ east G (H_ j) i = B 1 0 i j /\ south G (H_ j) i = B 2 0 i j /\ north G (H_ j) i = B 3 0 i j.
Proof. intros Hi Hj. destruct (B_side 0 i j) as (-> & -> & -> & ->). cbn [Nat.mul Nat.add]. auto. Qed.
Lemma col_1 i j : i < n -> j < n -> B 0 1 i j = (- B 1 0 i j)%Qc /\ B 1 1 i j = (- B 0 0 i j)%Qc /\
  B 2 1 i j = B 2 0 (n - 1 - i) j /\ B 3 1 i j = B 3 0 (n - 1 - i) j.
Proof.
  intros Hi Hj. destruct (B_side 1 i j) as (-> & -> & -> & ->). rewrite Nat.mul_1_l, H_east by exact Hj.
  destruct (faces_at G n HP HQ (fun i => - east G (H_ j) i)%Qc (fun i => - west G (H_ j) i)%Qc (fun i => south G (H_ j) (n - 1 - i)) (fun i => north G (H_ j) (n - 1 - i)) i Hi) as (-> & -> & -> & ->).
  assert (Hk : n - 1 - i < n) by lia. destruct (col_0 i j Hi Hj) as (-> & -> & _). destruct (col_0 _ j Hk Hj) as (_ & _ & -> & ->). auto.
Qed.
Lemma col_2 i j : i < n -> j < n -> B 0 2 i j = B 2 0 i j /\ B 1 2 i j = B 3 0 i j /\ B 2 2 i j = B 0 0 i j /\ B 3 2 i j = B 1 0 i j.
Proof.
  intros Hi Hj. destruct (B_side 2 i j) as (-> & -> & -> & ->). rewrite H_south by exact Hj. unfold swap_b.
  destruct (faces_at G n HP HQ (south G (H_ j)) (north G (H_ j)) (west G (H_ j)) (east G (H_ j)) i Hi) as (-> & -> & -> & ->). destruct (col_0 i j Hi Hj) as (-> & -> & -> & ->). auto.
Qed.
Lemma se_block i j : i < n -> j < n -> B 2 1 i j = (- B 3 0 j i)%Qc.
Proof.
  intros Hi Hj. destruct (B_side 1 i j) as (_ & _ & -> & _). rewrite Nat.mul_1_l, recip by auto. f_equal.
  destruct (col_2 j i Hj Hi) as (_ & <- & _). destruct (B_side 2 j i) as (_ & -> & _). reflexivity.
Qed.
Lemma col_3 i j : i < n -> j < n -> B 0 3 i j = (- B 3 0 j i)%Qc /\ B 1 3 i j = B 3 0 (n - 1 - i) j /\ B 2 3 i j = (- B 1 0 i j)%Qc /\ B 3 3 i j = (- B 0 0 i j)%Qc.
Proof.
  intros Hi Hj. rewrite <- se_block by auto. destruct (col_1 i j Hi Hj) as (<- & <- & _ & <-).
  destruct (B_side 3 i j) as (-> & -> & -> & ->). destruct (B_side 1 i j) as (-> & -> & -> & ->). rewrite Nat.mul_1_l, H_north by exact Hj. unfold swap_b.
  set (h := H_ (n + j)). destruct (faces_at G n HP HQ (south G h) (north G h) (west G h) (east G h) i Hi) as (-> & -> & -> & ->). auto.
Qed.

Lemma mbuild_B f F : (forall i j, i < n -> j < n -> f i j = Ok (F i j)) -> exists b, mbuild n n f = Ok b /\ isB 1 1 n b (fun _ _ i j => F i j).
Proof.
  intros H. exists (mat_of n n F). split; [apply mbuild_ok; exact H|].
  replace (mat_of n n F) with (mat_of (1 * n) (1 * n) F) by (rewrite !Nat.mul_1_l; reflexivity).
  apply isB_mat_of. intros p q i j Hp Hq _ _. replace p with 0 by lia. replace q with 0 by lia. reflexivity.
Qed.
Lemma mget_B b F i j : isB 1 1 n b F -> i < n -> j < n -> mget b i j = Ok (F 0 0 i j).
Proof.
  intros H Hi Hj. rewrite (mget_ok 0%Qc) by (try apply H; rewrite ?(isB_nr _ _ _ _ _ H), ?(isB_nc _ _ _ _ _ H); lia).
  f_equal. apply (isB_ent _ _ _ _ _ H 0 0 i j); lia.
Qed.
Lemma getBlock_B m F p q : isB 4 4 n m F -> p < 4 -> q < 4 ->
  exists b, getBlock m (p * n) (q * n) n n = Ok b /\ isB 1 1 n b (fun _ _ i j => F p q i j).
Proof.
  intros H Hp Hq. rewrite (getBlock_ok 0%Qc) by (try apply H; rewrite ?(isB_nr _ _ _ _ _ H), ?(isB_nc _ _ _ _ _ H); nia).
  eexists. split; [reflexivity|].
  match goal with |- isB _ _ _ (mat_of n n ?f) _ => replace (mat_of n n f) with (mat_of (1 * n) (1 * n) f) by (rewrite !Nat.mul_1_l; reflexivity) end.
  apply isB_mat_of. intros a b i j Ha' Hb' Hi Hj. replace a with 0 by lia. replace b with 0 by lia. cbn [Nat.mul Nat.add]. apply (isB_ent _ _ _ _ _ H); auto.
Qed.
Lemma isB_eq m m' F : isB 4 4 n m F -> isB 4 4 n m' F -> m = m'.
Proof.
  intros H H'. apply (mat_ext 0%Qc); try apply H; try apply H'; [rewrite (isB_nr _ _ _ _ _ H), (isB_nr _ _ _ _ _ H'); reflexivity|rewrite (isB_nc _ _ _ _ _ H), (isB_nc _ _ _ _ _ H'); reflexivity|].
  rewrite (isB_nr _ _ _ _ _ H), (isB_nc _ _ _ _ _ H). intros i j Hi Hj.
  assert (D : forall k, k < 4 * n -> k / n < 4 /\ k mod n < n /\ k = k / n * n + k mod n).
  { intros k Hk. split; [apply Nat.div_lt_upper_bound; lia|]. split; [apply Nat.mod_upper_bound; exact Nn|]. rewrite Nat.mul_comm. apply Nat.div_mod. exact Nn. }
  destruct (D i Hi) as (I1 & I2 & I3). destruct (D j Hj) as (J1 & J2 & J3).
  pose proof (isB_ent _ _ _ _ _ H _ _ _ _ I1 J1 I2 J2) as Q1. pose proof (isB_ent _ _ _ _ _ H' _ _ _ _ I1 J1 I2 J2) as Q2. rewrite <- I3, <- J3 in Q1, Q2. congruence.
Qed.

Theorem opt_is_full : fv_build_opt (fv_map solve) G = fv_build (fv_map solve) G.
Proof.
  rewrite (build_ok_mat c G n HP Ex Ey solve HS).
  assert (FB : isB 4 4 n (Tmat G n solve) B) by (apply isB_mat_of; reflexivity).
  unfold fv_build_opt. cbv zeta. rewrite Ex, (build_cols c G n HP Ex Ey solve HS n) by lia. rewrite bind_Ok. cbn [snd].
  set (T0 := mat_of (4 * n) (4 * n) _).
  assert (B0 : isB 4 4 n T0 (fun p q i j => if q =? 0 then B p q i j else 0%Qc)).
  { apply isB_mat_of. intros p q i j Hp Hq Hi Hj. destruct (Nat.eqb_spec q 0) as [->|].
    - destruct (Nat.ltb_spec (0 * n + j) n); [reflexivity|lia].
    - destruct (Nat.ltb_spec (q * n + j) n); [nia|reflexivity]. }
  clearbody T0.
  destruct (getBlock_B T0 _ 0 0 B0) as (ww & -> & Bww); [lia|lia|]. rewrite bind_Ok.
  destruct (getBlock_B T0 _ 1 0 B0) as (ew & -> & Bew); [lia|lia|]. rewrite bind_Ok.
  destruct (getBlock_B T0 _ 2 0 B0) as (sw & -> & Bsw); [lia|lia|]. rewrite bind_Ok.
  destruct (getBlock_B T0 _ 3 0 B0) as (nw & -> & Bnw); [lia|lia|]. rewrite bind_Ok.
  cbn [Nat.eqb] in Bww, Bew, Bsw, Bnw.
  assert (Neg : forall b F, isB 1 1 n b F -> exists b', mbuild n n (fun i j => a <- mget b i j ;; Ok (- a)%Qc) = Ok b' /\ isB 1 1 n b' (fun _ _ i j => - F 0%nat 0%nat i j)%Qc).
  { intros b F Hb0. apply mbuild_B. intros i j Hi Hj. rewrite (mget_B _ _ _ _ Hb0) by auto. rewrite bind_Ok. reflexivity. }
  assert (NegT : forall b F, isB 1 1 n b F -> exists b', mbuild n n (fun i j => a <- mget b j i ;; Ok (- a)%Qc) = Ok b' /\ isB 1 1 n b' (fun _ _ i j => - F 0%nat 0%nat j i)%Qc).
  { intros b F Hb0. apply (mbuild_B _ (fun i j => - F 0%nat 0%nat j i)%Qc). intros i j Hi Hj. rewrite (mget_B _ _ _ _ Hb0) by auto. rewrite bind_Ok. reflexivity. }
  assert (Copy : forall b F, isB 1 1 n b F -> exists b', mbuild n n (fun i j => mget b i j) = Ok b' /\ isB 1 1 n b' (fun _ _ i j => F 0 0 i j)).
  { intros b F Hb0. apply mbuild_B. intros i j Hi Hj. apply (mget_B _ _ _ _ Hb0); auto. }
  assert (Flip : forall b F, isB 1 1 n b F -> exists b', mbuild n n (fun i j => mget b (n - 1 - i) j) = Ok b' /\ isB 1 1 n b' (fun _ _ i j => F 0 0 (n - 1 - i) j)).
  { intros b F Hb0. apply (mbuild_B _ (fun i j => F 0 0 (n - 1 - i) j)). intros i j Hi Hj. apply (mget_B _ _ _ _ Hb0); lia. }
  destruct (Neg _ _ Bew) as (we & Ewe & Bwe). rewrite Ewe, bind_Ok. destruct (Neg _ _ Bww) as (ee & Eee & Bee). rewrite Eee, bind_Ok.
  destruct (NegT _ _ Bnw) as (se & Ese & Bse). rewrite Ese, bind_Ok. destruct (Flip _ _ Bnw) as (ne & -> & Bne). rewrite bind_Ok.
  destruct (Copy _ _ Bsw) as (ws & -> & Bws). rewrite bind_Ok. destruct (Copy _ _ Bnw) as (es & -> & Bes). rewrite bind_Ok.
  destruct (Copy _ _ Bww) as (ss & -> & Bss). rewrite bind_Ok. destruct (Copy _ _ Bew) as (ns & -> & Bns). rewrite bind_Ok.
  rewrite bind_Ok. destruct (Copy _ _ Bne) as (en & -> & Ben). rewrite !bind_Ok.
  cbv beta in *. clear Neg NegT Copy Flip Ewe Eee Ese.
  destruct (setBlock_B 4 4 1 1 n T0 we _ _ 0 1 (0 * n) (1 * n) B0 Bwe) as (T1 & -> & B1); [lia|lia|lia|lia|]. rewrite bind_Ok.
  destruct (setBlock_B 4 4 1 1 n T1 ee _ _ 1 1 (1 * n) (1 * n) B1 Bee) as (T2 & -> & B2); [lia|lia|lia|lia|]. rewrite bind_Ok.
  destruct (setBlock_B 4 4 1 1 n T2 se _ _ 2 1 (2 * n) (1 * n) B2 Bse) as (T3 & -> & B3); [lia|lia|lia|lia|]. rewrite bind_Ok.
  destruct (setBlock_B 4 4 1 1 n T3 ne _ _ 3 1 (3 * n) (1 * n) B3 Bne) as (T4 & -> & B4); [lia|lia|lia|lia|]. rewrite bind_Ok.
  destruct (setBlock_B 4 4 1 1 n T4 ws _ _ 0 2 (0 * n) (2 * n) B4 Bws) as (T5 & -> & B5); [lia|lia|lia|lia|]. rewrite bind_Ok.
  destruct (setBlock_B 4 4 1 1 n T5 es _ _ 1 2 (1 * n) (2 * n) B5 Bes) as (T6 & -> & B6); [lia|lia|lia|lia|]. rewrite bind_Ok.
  destruct (setBlock_B 4 4 1 1 n T6 ss _ _ 2 2 (2 * n) (2 * n) B6 Bss) as (T7 & -> & B7); [lia|lia|lia|lia|]. rewrite bind_Ok.
  destruct (setBlock_B 4 4 1 1 n T7 ns _ _ 3 2 (3 * n) (2 * n) B7 Bns) as (T8 & -> & B8); [lia|lia|lia|lia|]. rewrite bind_Ok.
  destruct (setBlock_B 4 4 1 1 n T8 se _ _ 0 3 (0 * n) (3 * n) B8 Bse) as (T9 & -> & B9); [lia|lia|lia|lia|]. rewrite bind_Ok.
  destruct (setBlock_B 4 4 1 1 n T9 en _ _ 1 3 (1 * n) (3 * n) B9 Ben) as (T10 & -> & B10); [lia|lia|lia|lia|]. rewrite bind_Ok.
  destruct (setBlock_B 4 4 1 1 n T10 we _ _ 2 3 (2 * n) (3 * n) B10 Bwe) as (T11 & -> & B11); [lia|lia|lia|lia|]. rewrite bind_Ok.
  destruct (setBlock_B 4 4 1 1 n T11 ee _ _ 3 3 (3 * n) (3 * n) B11 Bee) as (T12 & -> & B12); [lia|lia|lia|lia|].
  f_equal. apply (isB_eq _ _ B); [|exact FB]. eapply isB_ext; [exact B12|]. intros p q i j Hp Hq Hi Hj.
  destruct (col_1 i j Hi Hj) as (Q1 & Q2 & _ & Q4). destruct (col_2 i j Hi Hj) as (R1 & R2 & R3 & R4). destruct (col_3 i j Hi Hj) as (S1 & S2 & S3 & S4).
  pose proof (se_block i j Hi Hj) as Q3.
  destruct p as [|[|[|[|p]]]]; [| | | |lia]; (destruct q as [|[|[|[|q]]]]; [| | | |lia]); unfold Bset;
    cbn [Nat.leb Nat.ltb Nat.add Nat.sub Nat.eqb andb]; rewrite ?Nat.sub_0_r; auto.
Qed.
End Blocks.
