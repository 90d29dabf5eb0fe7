(** Green's identity on the grid. *)
From Coq Require Import Lqa.
From Verif Require Import Base VectorModel MatrixModel LinSpec HPSModel HPSSpec FVModel FVSpec StageSpec SymSpec.
From Verif Require Import MatProofs MatProofs2 LinProofs HPSProofs HPSProofs3 HPSProofs4 HPSStage2 FVProofs FVProofs2 FVProofs3 FVMax AdaptProofs ConvProofs.
From Coq Require Import Lia.

(** ** One line of cells: index 0 is a ghost cell *)
Definition line (b u : nat -> Qc) (i : nat) : Qc := (b (S i) * (u (S (S i)) - u (S i)) - b i * (u (S i) - u i))%Qc.

Lemma line_green n b u v : sum n (fun i => line b u i * v (S i) - line b v i * u (S i))%Qc =
  (b n * (u (S n) * v n - v (S n) * u n) - b 0%nat * (u 1%nat * v 0%nat - v 1%nat * u 0%nat))%Qc.
Proof.
  rewrite <- (sum_telescope n (fun i => b i * (u (S i) * v i - v (S i) * u i))%Qc). apply sum_ext. intros i _. unfold line. ring.
Qed.

Lemma line_energy n b u : (forall i, (0 <= b i)%Qc) ->
  exists d, (0 <= d)%Qc /\
  ((1 + 1) * sum n (fun i => line b u i * u (S i))%Qc + d =
   b n * (u (S n) - u n) * (u (S n) + u n) - b 0%nat * (u 1%nat - u 0%nat) * (u 1%nat + u 0%nat))%Qc.
Proof.
  intros Hb. set (D := fun i => (b i * ((u (S i) - u i) * (u (S i) - u i)))%Qc).
  exists (sum n (fun i => D (S i) + D i)%Qc). split.
  - assert (HD : forall i, (0 <= D i)%Qc) by (intros i; unfold D; apply mul_nonneg; [apply Hb|apply sq_nonneg]).
    induction n as [|n IH]; cbn [sum]; [apply Qcle_refl|]. apply add_nonneg; [exact IH|]. apply add_nonneg; apply HD.
  - rewrite <- (sum_telescope n (fun i => b i * (u (S i) - u i) * (u (S i) + u i))%Qc), <- sum_scal_l, <- sum_plus.
    apply sum_ext. intros i _. unfold line, D. ring.
Qed.

Section Green.
Context (c : coefs) (G : grid) (HP : proper G) (Ha : forall x y, c_alpha c x y <> 0%Qc).
Notation nx := (gnx G).
Notation ny := (gny G).

Lemma face_x_0 : face_x G 0 = gxl G.
Proof. unfold face_x. change (Qc_of_nat 0) with 0%Qc. ring. Qed.
Lemma face_y_0 : face_y G 0 = gyl G.
Proof. unfold face_y. change (Qc_of_nat 0) with 0%Qc. ring. Qed.
Lemma face_x_n : face_x G nx = gxu G.
Proof. destruct HP as (_ & _ & Nx & _). unfold face_x, width_x. field. apply Qc_of_nat_nz; auto. Qed.
Lemma face_y_n : face_y G ny = gyu G.
Proof. destruct HP as (_ & _ & _ & Ny). unfold face_y, width_y. field. apply Qc_of_nat_nz; auto. Qed.

Lemma flux_we g u j : j < ny ->
  west G (boundary_flux G g u) j = ((cell G u 0 j - west G g j) / (width_x G / (1 + 1)))%Qc /\
  east G (boundary_flux G g u) j = ((east G g j - cell G u (nx - 1) j) / (width_x G / (1 + 1)))%Qc.
Proof.
  intros Hj. split.
  - change (west G (boundary_flux G g u) j) with (vval (boundary_flux G g u) j). unfold boundary_flux. cbv zeta. rewrite !map_seq_vec, !vval_app, !vec_of_length.
    destruct (Nat.ltb_spec j ny); [|lia]. rewrite !vval_vec_of by auto. auto.
  - change (east G (boundary_flux G g u) j) with (vval (boundary_flux G g u) (ny + j)). unfold boundary_flux. cbv zeta. rewrite !map_seq_vec, !vval_app, !vec_of_length.
    destruct (Nat.ltb_spec (ny + j) ny); [lia|].
    replace (ny + j - ny) with j by lia. destruct (Nat.ltb_spec j ny); [|lia]. rewrite !vval_vec_of by auto. auto.
Qed.
Lemma flux_sn g u i : i < nx ->
  south G (boundary_flux G g u) i = ((cell G u i 0 - south G g i) / (width_y G / (1 + 1)))%Qc /\
  north G (boundary_flux G g u) i = ((north G g i - cell G u i (ny - 1)) / (width_y G / (1 + 1)))%Qc.
Proof.
  intros Hi. split.
  - change (south G (boundary_flux G g u) i) with (vval (boundary_flux G g u) (2 * ny + i)). unfold boundary_flux. cbv zeta. rewrite !map_seq_vec, !vval_app, !vec_of_length.
    destruct (Nat.ltb_spec (2 * ny + i) ny); [lia|]. destruct (Nat.ltb_spec (2 * ny + i - ny) ny); [lia|].
    replace (2 * ny + i - ny - ny) with i by lia. destruct (Nat.ltb_spec i nx); [|lia]. rewrite !vval_vec_of by auto. auto.
  - change (north G (boundary_flux G g u) i) with (vval (boundary_flux G g u) (2 * ny + nx + i)). unfold boundary_flux. cbv zeta. rewrite !map_seq_vec, !vval_app, !vec_of_length.
    destruct (Nat.ltb_spec (2 * ny + nx + i) ny); [lia|]. destruct (Nat.ltb_spec (2 * ny + nx + i - ny) ny); [lia|].
    replace (2 * ny + nx + i - ny - ny) with (nx + i) by lia.
    destruct (Nat.ltb_spec (nx + i) nx); [lia|]. replace (nx + i - nx) with i by lia.
    rewrite !vval_vec_of by auto. auto.
Qed.

(** Coefficients and values along the lines of cells. *)
Definition bx (j i : nat) : Qc := c_beta c (face_x G i) (mid_y G j).
Definition by_ (i j : nat) : Qc := c_beta c (mid_x G i) (face_y G j).
Definition ux (E : Z -> Z -> Qc) (j i : nat) : Qc := E (Z.of_nat i - 1)%Z (Z.of_nat j).
Definition uy (E : Z -> Z -> Qc) (i j : nat) : Qc := E (Z.of_nat i) (Z.of_nat j - 1)%Z.

Section Sol.
Context (g f u : list Qc) (HU : fv_solution c G g f u).
Notation E := (ghost_of G g u).

Lemma sol_cell i j : i < nx -> j < ny ->
  (width_y G / width_x G * line (bx j) (ux E j) i + width_x G / width_y G * line (by_ i) (uy E i) j =
   width_x G * width_y G * ((cell G f i j - c_lambda c (mid_x G i) (mid_y G j) * cell G u i j) / c_alpha c (mid_x G i) (mid_y G j)))%Qc.
Proof.
  intros Hi Hj. pose proof (proper_widths G HP) as (Wx & Wy). destruct HP as (_ & _ & Nx & Ny). destruct HU as (_ & H).
  pose proof (ghost_of_ok G g u Nx Ny) as HG. specialize (H _ HG i j Hi Hj). destruct HG as (Hc & _).
  unfold elliptic in H. cbv zeta in H. rewrite <- H. rewrite (Hc i j Hi Hj) in *. unfold line, bx, by_, ux, uy.
  replace (Z.of_nat (S (S i)) - 1)%Z with (Z.of_nat i + 1)%Z by lia. replace (Z.of_nat (S (S j)) - 1)%Z with (Z.of_nat j + 1)%Z by lia.
  replace (Z.of_nat (S i) - 1)%Z with (Z.of_nat i) by lia. replace (Z.of_nat (S j) - 1)%Z with (Z.of_nat j) by lia. rewrite (Hc i j Hi Hj).
  pose proof (Ha (mid_x G i) (mid_y G j)). field. repeat split; auto.
Qed.

Lemma ux_cell i j : i < nx -> j < ny -> ux E j (S i) = cell G u i j.
Proof.
  intros Hi Hj. destruct HP as (_ & _ & Nx & Ny). destruct (ghost_of_ok G g u Nx Ny) as (Hc & _).
  unfold ux. replace (Z.of_nat (S i) - 1)%Z with (Z.of_nat i) by lia. apply Hc; auto.
Qed.
Lemma uy_cell i j : i < nx -> j < ny -> uy E i (S j) = cell G u i j.
Proof.
  intros Hi Hj. destruct HP as (_ & _ & Nx & Ny). destruct (ghost_of_ok G g u Nx Ny) as (Hc & _).
  unfold uy. replace (Z.of_nat (S j) - 1)%Z with (Z.of_nat j) by lia. apply Hc; auto.
Qed.
Lemma ux_ends j : j < ny ->
  ux E j 0 = (west G g j + west G g j - cell G u 0 j)%Qc /\ ux E j (S nx) = (east G g j + east G g j - cell G u (nx - 1) j)%Qc.
Proof.
  intros Hj. destruct HP as (_ & _ & Nx & Ny). destruct (ghost_of_ok G g u Nx Ny) as (Hc & Hwe & _). destruct (Hwe j Hj) as (Q1 & Q2).
  apply half_eq in Q1, Q2. split.
  - unfold ux. change (Z.of_nat 0 - 1)%Z with (-1)%Z. rewrite Q1. f_equal. f_equal. apply (Hc 0 j); lia.
  - unfold ux. replace (Z.of_nat (S nx) - 1)%Z with (Z.of_nat nx) by lia. rewrite Q2. f_equal. f_equal.
    replace (Z.of_nat nx - 1)%Z with (Z.of_nat (nx - 1)) by lia. apply Hc; lia.
Qed.
Lemma uy_ends i : i < nx ->
  uy E i 0 = (south G g i + south G g i - cell G u i 0)%Qc /\ uy E i (S ny) = (north G g i + north G g i - cell G u i (ny - 1))%Qc.
Proof.
  intros Hi. destruct HP as (_ & _ & Nx & Ny). destruct (ghost_of_ok G g u Nx Ny) as (Hc & _ & Hsn). destruct (Hsn i Hi) as (Q1 & Q2).
  apply half_eq in Q1, Q2. split.
  - unfold uy. change (Z.of_nat 0 - 1)%Z with (-1)%Z. rewrite Q1. f_equal. f_equal. apply (Hc i 0); lia.
  - unfold uy. replace (Z.of_nat (S ny) - 1)%Z with (Z.of_nat ny) by lia. rewrite Q2. f_equal. f_equal.
    replace (Z.of_nat ny - 1)%Z with (Z.of_nat (ny - 1)) by lia. apply Hc; lia.
Qed.
Lemma ux_last j : j < ny -> ux E j nx = cell G u (nx - 1) j.
Proof. intros Hj. pose proof HP as (_ & _ & Nx & Ny). rewrite <- ux_cell by lia. f_equal. lia. Qed.
Lemma uy_last i : i < nx -> uy E i ny = cell G u i (ny - 1).
Proof. intros Hi. pose proof HP as (_ & _ & Nx & Ny). rewrite <- uy_cell by lia. f_equal. lia. Qed.
End Sol.

Lemma sum_minus n a b : (sum n a - sum n b = sum n (fun i => a i - b i))%Qc.
Proof. induction n as [|n IH]; cbn [sum]; [ring|]. rewrite <- IH. ring. Qed.

Theorem green g f u g' f' u' : fv_solution c G g f u -> fv_solution c G g' f' u' ->
  (boundary_work c G (boundary_flux G g u) g' - boundary_work c G (boundary_flux G g' u') g =
   load_work c G f u' - load_work c G f' u)%Qc.
Proof.
  intros Hu Hu'. pose proof (proper_widths G HP) as (Wx & Wy). pose proof HP as (_ & _ & Nx & Ny).
  set (E := ghost_of G g u). set (E' := ghost_of G g' u').
  unfold load_work. rewrite sum_minus.
  rewrite (sum_ext nx _ (fun i => sum ny (fun j => width_y G / width_x G * (line (bx j) (ux E j) i * ux E' j (S i) - line (bx j) (ux E' j) i * ux E j (S i)))%Qc +
                                  sum ny (fun j => width_x G / width_y G * (line (by_ i) (uy E i) j * uy E' i (S j) - line (by_ i) (uy E' i) j * uy E i (S j)))%Qc)%Qc).
  2:{ intros i Hi. rewrite sum_minus, <- sum_plus. apply sum_ext. intros j Hj.
      pose proof (sol_cell g f u Hu i j Hi Hj) as S1. pose proof (sol_cell g' f' u' Hu' i j Hi Hj) as S2. fold E in S1. fold E' in S2.
      unfold E, E'. rewrite !ux_cell, !uy_cell by auto. fold E E'.
      set (X1 := line (bx j) (ux E j) i) in *. set (Y1 := line (by_ i) (uy E i) j) in *.
      set (X2 := line (bx j) (ux E' j) i) in *. set (Y2 := line (by_ i) (uy E' i) j) in *.
      set (v := cell G u i j) in *. set (v' := cell G u' i j) in *. pose proof (Ha (mid_x G i) (mid_y G j)) as An.
      transitivity (((width_y G / width_x G * X1 + width_x G / width_y G * Y1) * v' - (width_y G / width_x G * X2 + width_x G / width_y G * Y2) * v))%Qc; [|ring].
      rewrite S1, S2. field. exact An. }
  rewrite sum_plus, sum_swap.
  rewrite (sum_ext ny (fun j => sum nx (fun i => width_y G / width_x G * (line (bx j) (ux E j) i * ux E' j (S i) - line (bx j) (ux E' j) i * ux E j (S i)))%Qc)
     (fun j => let y := mid_y G j in width_y G *
        (c_beta c (gxu G) y * east G (boundary_flux G g u) j * east G g' j - c_beta c (gxl G) y * west G (boundary_flux G g u) j * west G g' j)
      - width_y G *
        (c_beta c (gxu G) y * east G (boundary_flux G g' u') j * east G g j - c_beta c (gxl G) y * west G (boundary_flux G g' u') j * west G g j))%Qc).
  2:{ intros j Hj. rewrite sum_scal_l, line_green. cbv zeta. unfold E, E'.
      destruct (ux_ends g u j Hj) as (A1 & A2). destruct (ux_ends g' u' j Hj) as (B1 & B2). rewrite A1, A2, B1, B2.
      rewrite !ux_last, !ux_cell by lia. destruct (flux_we g u j Hj) as (-> & ->). destruct (flux_we g' u' j Hj) as (-> & ->).
      unfold bx. rewrite face_x_0, face_x_n. field. split; [exact two_nz|exact Wx]. }
  rewrite (sum_ext nx (fun i => sum ny (fun j => width_x G / width_y G * (line (by_ i) (uy E i) j * uy E' i (S j) - line (by_ i) (uy E' i) j * uy E i (S j)))%Qc)
     (fun i => let x := mid_x G i in width_x G *
        (c_beta c x (gyu G) * north G (boundary_flux G g u) i * north G g' i - c_beta c x (gyl G) * south G (boundary_flux G g u) i * south G g' i)
      - width_x G *
        (c_beta c x (gyu G) * north G (boundary_flux G g' u') i * north G g i - c_beta c x (gyl G) * south G (boundary_flux G g' u') i * south G g i))%Qc).
  2:{ intros i Hi. rewrite sum_scal_l, line_green. cbv zeta. unfold E, E'.
      destruct (uy_ends g u i Hi) as (A1 & A2). destruct (uy_ends g' u' i Hi) as (B1 & B2). rewrite A1, A2, B1, B2.
      rewrite !uy_last, !uy_cell by lia. destruct (flux_sn g u i Hi) as (-> & ->). destruct (flux_sn g' u' i Hi) as (-> & ->).
      unfold by_. rewrite face_y_0, face_y_n. field. split; [exact two_nz|exact Wy]. }
  unfold boundary_work. cbv zeta. rewrite <- !sum_minus. ring.
Qed.

(** The work of the boundary flux on the boundary data is at least that of the load. *)
Theorem energy g f u : (0 < width_x G)%Qc -> (0 < width_y G)%Qc -> (forall x y, (0 < c_beta c x y)%Qc) ->
  (forall x y, (c_alpha c x y * c_lambda c x y <= 0)%Qc) -> fv_solution c G g f u ->
  (load_work c G f u <= boundary_work c G (boundary_flux G g u) g)%Qc.
Proof.
  intros Px Py Hb Hl Hu. pose proof (proper_widths G HP) as (Wx & Wy). pose proof HP as (_ & _ & Nx & Ny).
  set (E := ghost_of G g u).
  assert (Q : forall n (F H : nat -> Qc), (forall i, i < n -> (F i <= H i)%Qc) -> (sum n F <= sum n H)%Qc).
  { intros n F H HH. induction n as [|n IH]; cbn [sum]; [apply Qcle_refl|]. apply Qcplus_le_compat; [apply IH; intros; apply HH; lia|apply HH; lia]. }
  eapply Qcle_trans.
  { unfold load_work. apply (Q nx _ (fun i => sum ny (fun j => width_y G / width_x G * (line (bx j) (ux E j) i * ux E j (S i)))%Qc +
                                  sum ny (fun j => width_x G / width_y G * (line (by_ i) (uy E i) j * uy E i (S j)))%Qc)%Qc).
    intros i Hi. rewrite <- sum_plus. apply Q. intros j Hj.
    pose proof (sol_cell g f u Hu i j Hi Hj) as S1. fold E in S1. unfold E. rewrite ux_cell, uy_cell by auto. fold E.
    set (X1 := line (bx j) (ux E j) i) in *. set (Y1 := line (by_ i) (uy E i) j) in *. set (v := cell G u i j) in *.
    pose proof (Ha (mid_x G i) (mid_y G j)) as An. set (al := c_alpha c (mid_x G i) (mid_y G j)) in *. set (la := c_lambda c (mid_x G i) (mid_y G j)) in *.
    replace (width_y G / width_x G * (X1 * v) + width_x G / width_y G * (Y1 * v))%Qc with ((width_y G / width_x G * X1 + width_x G / width_y G * Y1) * v)%Qc by ring.
    rewrite S1. apply (proj2 (le_minus _ _)).
    replace (width_x G * width_y G * ((cell G f i j - la * v) / al) * v - width_x G * width_y G * (cell G f i j / al) * v)%Qc
      with (width_x G * width_y G * ((- (al * la)) * ((v / al) * (v / al))))%Qc by (field; exact An).
    apply mul_nonneg; [apply mul_nonneg; apply Qclt_le_weak; auto|]. apply mul_nonneg; [|apply sq_nonneg].
    specialize (Hl (mid_x G i) (mid_y G j)). fold al la in Hl. apply Qcopp_le_compat in Hl. exact Hl. }
  rewrite sum_plus, sum_swap. unfold boundary_work. cbv zeta. apply Qcplus_le_compat; apply Q.
  - intros j Hj. rewrite sum_scal_l. destruct (line_energy nx (bx j) (ux E j)) as (d & Hd & Ed); [intros; apply Qclt_le_weak, Hb|].
    destruct (ux_ends g u j Hj) as (A1 & A2). fold E in A1, A2. rewrite A1, A2 in Ed. unfold E in Ed. rewrite ux_last, ux_cell in Ed by lia.
    fold E in Ed. destruct (flux_we g u j Hj) as (-> & ->). unfold bx in Ed at 2 3. rewrite face_x_0, face_x_n in Ed.
    set (S := sum nx _) in *. apply (proj2 (le_minus _ _)).
    match goal with |- (0 <= ?X)%Qc => replace X with (width_y G / width_x G * (d / (1 + 1)))%Qc end.
    { apply mul_nonneg; [apply mul_nonneg; [apply Qclt_le_weak; auto|apply Qclt_le_weak, inv_pos; auto]|]. apply mul_nonneg; [exact Hd|discriminate]. }
    replace S with (((1 + 1) * S + d) / (1 + 1) - d / (1 + 1))%Qc by (field; exact two_nz). rewrite Ed. field. split; [exact two_nz|exact Wx].
  - intros i Hi. rewrite sum_scal_l. destruct (line_energy ny (by_ i) (uy E i)) as (d & Hd & Ed); [intros; apply Qclt_le_weak, Hb|].
    destruct (uy_ends g u i Hi) as (A1 & A2). fold E in A1, A2. rewrite A1, A2 in Ed. unfold E in Ed. rewrite uy_last, uy_cell in Ed by lia.
    fold E in Ed. destruct (flux_sn g u i Hi) as (-> & ->). unfold by_ in Ed at 2 3. rewrite face_y_0, face_y_n in Ed.
    set (S := sum ny _) in *. apply (proj2 (le_minus _ _)).
    match goal with |- (0 <= ?X)%Qc => replace X with (width_x G / width_y G * (d / (1 + 1)))%Qc end.
    { apply mul_nonneg; [apply mul_nonneg; [apply Qclt_le_weak; auto|apply Qclt_le_weak, inv_pos; auto]|]. apply mul_nonneg; [exact Hd|discriminate]. }
    replace S with (((1 + 1) * S + d) / (1 + 1) - d / (1 + 1))%Qc by (field; exact two_nz). rewrite Ed. field. split; [exact two_nz|exact Wy].
Qed.
End Green.
