(** The iterations of the thermal example are steps of backward Euler; bounds. *)
From Coq Require Import Lqa.
From Verif Require Import Base VectorModel MatrixModel LinSpec HPSModel HPSSpec StageSpec FVModel FVSpec GlobalSpec AdaptSpec CompareSpec MixSpec ThermalModel ThermalSpec.
From Verif Require Import MatProofs HPSProofs HPSProofs2 HPSProofs3 HPSHistory HPSStage2 FVProofs FVProofs2 FVProofs3 FVMax FVJoin FVGlobal FVCompare FVMixed ConvProofs MixProps SymProofs ThermalProofs.
From Coq Require Import Lia.

(** ** The load of one leaf *)
Lemma gx_mid G i : gx G i = mid_x G i.
Proof. unfold gx, gdx, mid_x, face_x. fold (width_x G). change (Q2Qc (2 # 1)) with (1 + 1)%Qc. rewrite Qc_of_nat_S. field. discriminate. Qed.
Lemma gy_mid G i : gy G i = mid_y G i.
Proof. unfold gy, gdy, mid_y, face_y. fold (width_y G). change (Q2Qc (2 # 1)) with (1 + 1)%Qc. rewrite Qc_of_nat_S. field. discriminate. Qed.

Lemma fill_rows (nx ny : nat) (h : nat -> Qc) (body : list Qc -> nat -> nat -> res (list Qc)) :
  (forall i j, i < nx -> j < ny -> body (filled 0%Qc (nx * ny) h (j + i * ny)) i j = Ok (filled 0%Qc (nx * ny) h (S (j + i * ny)))) ->
  foldM (fun f i => foldM (fun f j => body f i j) (seq 0 ny) f) (seq 0 nx) (repeat 0%Qc (nx * ny)) = Ok (vec_of (nx * ny) h).
Proof.
  intros HB. rewrite (filled_0 0%Qc (nx * ny) h).
  assert (R : forall i k, i < nx -> k <= ny -> foldM (fun f j => body f i j) (seq 0 k) (filled 0%Qc (nx * ny) h (i * ny)) = Ok (filled 0%Qc (nx * ny) h (k + i * ny))).
  { intros i k Hi. induction k as [|k IH]; intros Hk; [reflexivity|]. rewrite seq_S, foldM_app, IH, bind_Ok by lia. cbn [foldM Nat.add]. rewrite HB by lia. rewrite bind_Ok. reflexivity. }
  assert (C : forall k, k <= nx -> foldM (fun f i => foldM (fun f j => body f i j) (seq 0 ny) f) (seq 0 k) (filled 0%Qc (nx * ny) h 0) = Ok (filled 0%Qc (nx * ny) h (k * ny))).
  { induction k as [|k IH]; intros Hk; [reflexivity|]. rewrite seq_S, foldM_app, IH, bind_Ok by lia. cbn [foldM Nat.add]. rewrite R by lia. rewrite bind_Ok. reflexivity. }
  rewrite C by lia. rewrite filled_all. reflexivity.
Qed.

Definition heat_load (dt : Qc) (q : Qc -> Qc -> Qc) (x y u : Qc) : Qc := (- (1 / dt) * u - q x y)%Qc.

Lemma thermal_load_first P p : thermal_load P 0 p = Ok (zeros (gnx (pgrid p) * gny (pgrid p))).
Proof.
  unfold thermal_load. cbv zeta. cbn [Nat.eqb].
  rewrite (fill_rows (gnx (pgrid p)) (gny (pgrid p)) (fun _ => 0%Qc) (fun f i j => vset f (j + i * gny (pgrid p)) 0%Qc)).
  - unfold zeros. rewrite repeat_vec. reflexivity.
  - intros i j Hi Hj. apply filled_step; [nia|reflexivity].
Qed.
Lemma thermal_load_next P n p : n <> 0 -> length (pu p) = gnx (pgrid p) * gny (pgrid p) ->
  thermal_load P n p = Ok (pointwise (heat_load (th_dt P) (fun x y => th_sources P x y (th_time P n))) (pgrid p) (pu p)).
Proof.
  intros Hn LU. unfold thermal_load. cbv zeta. destruct (Nat.eqb_spec n 0) as [|_]; [contradiction|].
  set (G := pgrid p) in *.
  rewrite (fill_rows (gnx G) (gny G) (fun k => heat_load (th_dt P) (fun x y => th_sources P x y (th_time P n)) (mid_x G (k / gny G)) (mid_y G (k mod gny G)) (vval (pu p) k))
    (fun f i j => u <- vget (pu p) (j + i * gny G) ;; vset f (j + i * gny G) (- (1 / th_dt P) * u - th_sources P (gx G i) (gy G j) (th_time P n))%Qc)).
  - reflexivity.
  - intros i j Hi Hj. rewrite (vget_ok _ _ 0%Qc) by (rewrite LU; nia). rewrite bind_Ok. apply filled_step; [nia|].
    rewrite Nat.div_add, Nat.mod_add, Nat.div_small, Nat.mod_small by lia. rewrite gx_mid, gy_mid. reflexivity.
Qed.

(** ** Elliptic problems and steps *)
Section Heat.
Context (m : nat) (Hm : m <> 0) (l : nat) (xl xu yl yu : Qc) (Hx : (xl < xu)%Qc) (Hy : (yl < yu)%Qc).
Notation N := (m * 2 ^ l).
Notation G := (whole m l xl xu yl yu).
Context (beta : Qc -> Qc -> Qc) (dt : Qc) (Hb : forall x y, (0 < beta x y)%Qc) (Hdt : (0 < dt)%Qc).
Definition hc : coefs := Coefs (fun _ _ => 1%Qc) beta (fun _ _ => (- (1) / dt)%Qc).

Lemma dt_nz : dt <> 0%Qc.
Proof. intros E. rewrite E in Hdt. discriminate Hdt. Qed.
Lemma hc_signs : right_signs hc.
Proof.
  intros x y. cbn [hc c_alpha c_beta c_lambda]. split; [discriminate|]. split; [apply Hb|].
  pose proof (inv_pos _ Hdt) as P. unfold Qcdiv. unfold Qcle, Qclt in *. rewrite !this_mult, this_opp. change (this 1%Qc) with 1%Q. change (this 0%Qc) with 0%Q in *. lra.
Qed.
Lemma heat_admissible : admissible hc N G thermal_a thermal_b.
Proof.
  pose proof (pow_nz m Hm l) as Nn. split.
  - intros n i Hn Hi. unfold at_side, thermal_a, thermal_b. destruct n as [|[|n]].
    + split; [rewrite !Qcmult_0_r; discriminate|left; discriminate].
    + split; [rewrite !Qcmult_0_r; discriminate|left; discriminate].
    + split; [rewrite Qcmult_0_l, Qcmult_0_r; discriminate|right; discriminate].
  - left. exists 0, 0. split; [lia|]. split; [lia|]. unfold at_side. discriminate.
Qed.

Section Step.
Context (uW uE vS vN q : Qc -> Qc -> Qc).
Definition bc_r (n : nat) (x y : Qc) : Qc := match n with 0 => uW x y | 1 => uE x y | 2 => vS x y | 3 => vN x y | _ => 0%Qc end.

Lemma mixed_iff g u :
  mixed_condition N G thermal_a thermal_b bc_r g (boundary_flux G g u) <->
  (forall j, j < N -> west G g j = uW (gxl G) (mid_y G j) /\ east G g j = uE (gxu G) (mid_y G j)) /\
  (forall i, i < N ->
     ((cell G u i 0 - south G g i) / (width_y G / (1 + 1)) = vS (mid_x G i) (gyl G))%Qc /\
     ((north G g i - cell G u i (N - 1)) / (width_y G / (1 + 1)) = vN (mid_x G i) (gyu G))%Qc).
Proof.
  pose proof (side_mid m l xl xu yl yu Hm) as SP. cbv zeta in SP. set (G0 := whole m l xl xu yl yu) in *.
  assert (Ex : gnx G0 = N) by reflexivity. assert (Ey : gny G0 = N) by reflexivity.
  assert (I1 : forall v i, vval v (0 * N + i) = west G0 v i) by reflexivity.
  assert (I2 : forall v i, vval v (1 * N + i) = east G0 v i) by (intros; unfold east; rewrite Ey; f_equal; lia).
  assert (I3 : forall v i, vval v (2 * N + i) = south G0 v i) by (intros; unfold south; rewrite Ey; f_equal; lia).
  assert (I4 : forall v i, vval v (3 * N + i) = north G0 v i) by (intros; unfold north; rewrite Ey, Ex; f_equal; lia).
  split.
  - intros MC. split.
    + intros j Hj. destruct (SP j) as (P0 & P1 & _).
      pose proof (MC 0 j ltac:(lia) Hj) as C0. pose proof (MC 1 j ltac:(lia) Hj) as C1. unfold at_side in C0, C1.
      rewrite P0, I1 in C0. rewrite P1, I2 in C1. cbn [thermal_a thermal_b bc_r fst snd] in C0, C1. rewrite <- C0, <- C1. split; ring.
    + intros i Hi. destruct (SP i) as (_ & _ & P2 & P3).
      pose proof (MC 2 i ltac:(lia) Hi) as C0. pose proof (MC 3 i ltac:(lia) Hi) as C1. unfold at_side in C0, C1.
      rewrite P2, !I3 in C0. rewrite P3, !I4 in C1. cbn [thermal_a thermal_b bc_r fst snd] in C0, C1.
      destruct (flux_sn G0 g u i Hi) as (F0 & F1). rewrite F0 in C0. rewrite F1 in C1. rewrite Ey in C1. rewrite <- C0, <- C1. split; ring.
  - intros (HD & HN) n i Hn Hi. destruct (SP i) as (P0 & P1 & P2 & P3). destruct (HD i Hi) as (D0 & D1). destruct (HN i Hi) as (E0 & E1).
    destruct (flux_sn G0 g u i Hi) as (F0 & F1). rewrite Ey in F1. unfold at_side.
    destruct n as [|[|[|[|n]]]]; [| | | |lia].
    + rewrite P0, I1. cbn [thermal_a thermal_b bc_r fst snd]. rewrite D0. ring.
    + rewrite P1, I2. cbn [thermal_a thermal_b bc_r fst snd]. rewrite D1. ring.
    + rewrite P2, !I3. cbn [thermal_a thermal_b bc_r fst snd]. rewrite F0, E0. ring.
    + rewrite P3, !I4. cbn [thermal_a thermal_b bc_r fst snd]. rewrite F1, E1. ring.
Qed.

Lemma heat_cell E g u old i j : i < N -> j < N -> ghosts G g u E ->
  (elliptic hc G E i j = cell G (pointwise (heat_load dt q) G old) i j <->
   (cell G u i j - cell G old i j) / dt = elliptic (diffusion beta) G E i j + q (mid_x G i) (mid_y G j))%Qc.
Proof.
  intros Hi Hj (Hc & _). unfold cell at 1. rewrite pointwise_val by auto. fold (cell G old i j).
  assert (EH : (elliptic hc G E i j = elliptic (diffusion beta) G E i j - 1 / dt * cell G u i j)%Qc).
  { rewrite <- (Hc i j Hi Hj). unfold elliptic. cbv zeta. cbn [hc diffusion c_alpha c_beta c_lambda]. unfold Qcdiv. ring. }
  rewrite EH. unfold heat_load. set (e := elliptic _ _ _ _ _). pose proof dt_nz as Nd. split; intros Q.
  - transitivity (e - (e - 1 / dt * cell G u i j) - 1 / dt * cell G old i j)%Qc; [unfold Qcdiv; ring|]. rewrite Q. ring.
  - assert (Q2 : (e = (cell G u i j - cell G old i j) / dt - q (mid_x G i) (mid_y G j))%Qc) by (rewrite Q; ring). rewrite Q2. field. exact Nd.
Qed.

Lemma heat_iff old new :
  heat_step beta dt G uW uE vS vN q old new <->
  exists g, length g = 4 * N /\ fv_solution hc G g (pointwise (heat_load dt q) G old) new /\
    mixed_condition N G thermal_a thermal_b bc_r g (boundary_flux G g new).
Proof.
  split.
  - intros (L & g & Lg & HE & HD & HN). exists g. split; [rewrite Lg; cbn [whole gnx gny]; lia|]. split.
    + split; [exact L|]. intros E HG i j Hi Hj. apply (heat_cell E g new old i j Hi Hj HG). apply HE; auto.
    + apply mixed_iff. split; [exact HD|exact HN].
  - intros (g & Lg & (L & HE) & MC). split; [exact L|]. exists g. split; [rewrite Lg; cbn [whole gnx gny]; lia|]. apply mixed_iff in MC as (HD & HN).
    split; [|split; [exact HD|exact HN]]. intros E HG i j Hi Hj. apply (heat_cell E g new old i j Hi Hj HG). apply HE; auto.
Qed.

Lemma heat_unique old u u' : heat_step beta dt G uW uE vS vN q old u -> heat_step beta dt G uW uE vS vN q old u' -> u = u'.
Proof.
  intros H H'. apply heat_iff in H as (g & L & S & M). apply heat_iff in H' as (g' & L' & S' & M').
  exact (proj2 (mixed_same m Hm hc hc_signs l xl xu yl yu (pointwise (heat_load dt q) G old) Hx Hy (pointwise_length _ _ _) thermal_a thermal_b bc_r g g' u u' heat_admissible L L' S S' M M')).
Qed.
End Step.
End Heat.

(** ** Bounds *)
Lemma line_nonpos b u i : (0 < b i)%Qc -> (0 < b (S i))%Qc -> (u i <= u (S i))%Qc -> (u (S (S i)) <= u (S i))%Qc -> (line b u i <= 0)%Qc.
Proof.
  intros B0 B1 U0 U1. unfold line. unfold Qcle, Qclt in *. rewrite this_minus, !this_mult, !this_minus. change (this 0%Qc) with 0%Q in *. nra.
Qed.

Section Bound.
Context (G : grid) (HO : oriented G) (beta : Qc -> Qc -> Qc) (dt : Qc) (Hb : forall x y, (0 < beta x y)%Qc) (Hdt : (0 < dt)%Qc).
Context (uW uE vS vN q : Qc -> Qc -> Qc).
Notation nx := (gnx G).
Notation ny := (gny G).

Lemma step_upper K Q old new : heat_step beta dt G uW uE vS vN q old new -> (0 <= Q)%Qc ->
  (forall j, j < ny -> (uW (gxl G) (mid_y G j) <= K)%Qc /\ (uE (gxu G) (mid_y G j) <= K)%Qc) ->
  (forall i, i < nx -> (0 <= vS (mid_x G i) (gyl G))%Qc /\ (vN (mid_x G i) (gyu G) <= 0)%Qc) ->
  (forall i j, i < nx -> j < ny -> (q (mid_x G i) (mid_y G j) <= Q)%Qc) ->
  (forall i j, i < nx -> j < ny -> (cell G old i j <= K)%Qc) ->
  forall i j, i < nx -> j < ny -> (cell G new i j <= K + dt * Q)%Qc.
Proof.
  intros (L & g & Lg & HE & HD & HN) HQ BD BN Bq Bo.
  pose proof (orp _ HO) as HP. pose proof HP as (_ & _ & Nx & Ny).
  assert (KQ : (K <= K + dt * Q)%Qc).
  { pose proof (mul_nonneg _ _ (Qclt_le_weak _ _ Hdt) HQ) as Z. unfold Qcle in *. rewrite this_plus. change (this 0%Qc) with 0%Q in *. lra. }
  destruct (first_max (vval new) (nx * ny)) as (I & HI & Hmax & _); [nia|].
  set (i := I / ny). set (j := I mod ny).
  assert (Hj : j < ny) by (apply Nat.mod_upper_bound; auto).
  assert (Hi : i < nx) by (apply Nat.div_lt_upper_bound; auto; lia).
  assert (EI : I = j + i * ny) by (unfold i, j; rewrite (Nat.div_mod I ny Ny) at 1; lia).
  set (M := cell G new i j).
  assert (HM : forall a b, a < nx -> b < ny -> (cell G new a b <= M)%Qc).
  { intros a b A B. unfold M, cell. rewrite <- EI. apply Hmax. nia. }
  assert (Goal : (M <= K + dt * Q)%Qc).
  2:{ intros a b A B. eapply Qcle_trans; [apply HM; auto|exact Goal]. }
  destruct (Qclt_le_dec K M) as [KM|KM]; [|eapply Qcle_trans; eauto].
  set (f := map (fun k => (vval new k - vval old k) / dt - q (mid_x G (k / ny)) (mid_y G (k mod ny)))%Qc (seq 0 (nx * ny))).
  assert (Hf : forall a b, a < nx -> b < ny -> cell G f a b = ((cell G new a b - cell G old a b) / dt - q (mid_x G a) (mid_y G b))%Qc).
  { intros a b A B. unfold cell at 1. unfold f. rewrite map_seq_vec, vval_vec_of by nia. rewrite Nat.div_add, Nat.mod_add, Nat.div_small, Nat.mod_small by lia. reflexivity. }
  assert (SOL : fv_solution (diffusion beta) G g f new).
  { split; [exact L|]. intros E HG a b A B. rewrite (Hf a b A B), (HE E HG a b A B). ring. }
  destruct (widths_pos G HO) as (Px & Py).
  assert (NZ : forall w, (0 < w)%Qc -> w <> 0%Qc) by (intros w Hw E; rewrite E in Hw; now apply Qclt_not_eq in Hw).
  assert (Ha : forall x y, c_alpha (diffusion beta) x y <> 0%Qc) by discriminate.
  pose proof (sol_cell (diffusion beta) G HP Ha g f new SOL i j Hi Hj) as SC. cbn [diffusion c_alpha c_lambda] in SC.
  assert (X0 : (ux (ghost_of G g new) j i <= M)%Qc).
  { destruct i as [|i'] eqn:Ei.
    - destruct (ux_ends G HP g new j Hj) as (-> & _). destruct (HD j Hj) as (-> & _). destruct (BD j Hj) as (B & _). fold M.
      unfold Qcle, Qclt in *. rewrite this_minus, this_plus. lra.
    - rewrite (ux_cell G HP g new i' j) by lia. apply HM; lia. }
  assert (X1 : ux (ghost_of G g new) j (S i) = M) by (apply ux_cell; auto).
  assert (X2 : (ux (ghost_of G g new) j (S (S i)) <= M)%Qc).
  { destruct (Nat.eq_dec (S i) nx) as [Q1|Q1].
    - rewrite Q1. destruct (ux_ends G HP g new j Hj) as (_ & ->). destruct (HD j Hj) as (_ & ->). destruct (BD j Hj) as (_ & B).
      replace (nx - 1) with i by lia. fold M. unfold Qcle, Qclt in *. rewrite this_minus, this_plus. lra.
    - rewrite (ux_cell G HP g new (S i) j) by lia. apply HM; lia. }
  assert (SN : forall w v h, (0 < w)%Qc -> (h / (w / (1 + 1)) = v)%Qc -> (h = v * (w / (1 + 1)))%Qc).
  { intros w v h W <-. field. split; [discriminate|]. apply NZ. exact W. }
  assert (H2 : (0 < width_y G / (1 + 1))%Qc) by (apply pos_mul; [exact Py|reflexivity]).
  destruct (HN i Hi) as (S0 & N0). destruct (BN i Hi) as (BS & BNn). apply SN in S0; [|exact Py]. apply SN in N0; [|exact Py].
  assert (Y0 : (uy (ghost_of G g new) i j <= M)%Qc).
  { destruct j as [|j'] eqn:Ej.
    - destruct (uy_ends G HP g new i Hi) as (-> & _).
      assert (Z : (south G g i <= cell G new i 0)%Qc).
      { apply (proj2 (le_minus _ _)). rewrite S0. apply mul_nonneg; [exact BS|apply Qclt_le_weak; exact H2]. }
      fold M in Z |- *. unfold Qcle in *. rewrite this_minus, this_plus. lra.
    - rewrite (uy_cell G HP g new i j') by lia. apply HM; lia. }
  assert (Y1 : uy (ghost_of G g new) i (S j) = M) by (apply uy_cell; auto).
  assert (Y2 : (uy (ghost_of G g new) i (S (S j)) <= M)%Qc).
  { destruct (Nat.eq_dec (S j) ny) as [Q1|Q1].
    - rewrite Q1. destruct (uy_ends G HP g new i Hi) as (_ & ->). replace (ny - 1) with j in * by lia. fold M in N0 |- *.
      assert (Z : (north G g i <= M)%Qc).
      { apply (proj2 (le_minus _ _)). replace (M - north G g i)%Qc with (- (north G g i - M))%Qc by ring. rewrite N0.
        replace (- (vN (mid_x G i) (gyu G) * (width_y G / (1 + 1))))%Qc with ((- vN (mid_x G i) (gyu G)) * (width_y G / (1 + 1)))%Qc by ring.
        apply mul_nonneg; [|apply Qclt_le_weak; exact H2]. unfold Qcle in *. rewrite this_opp. change (this 0%Qc) with 0%Q in *. lra. }
      unfold Qcle in *. rewrite this_minus, this_plus. lra.
    - rewrite (uy_cell G HP g new i (S j)) by lia. apply HM; lia. }
  assert (L1 : (line (bx (diffusion beta) G j) (ux (ghost_of G g new) j) i <= 0)%Qc) by (apply line_nonpos; try apply Hb; rewrite X1; auto).
  assert (L2 : (line (by_ (diffusion beta) G i) (uy (ghost_of G g new) i) j <= 0)%Qc) by (apply line_nonpos; try apply Hb; rewrite Y1; auto).
  assert (R : (width_x G * width_y G * (cell G f i j) <= 0)%Qc).
  { replace (width_x G * width_y G * cell G f i j)%Qc with (width_x G * width_y G * ((cell G f i j - 0 * cell G new i j) / 1))%Qc by (field; discriminate).
    rewrite <- SC.
    pose proof (mul_nonpos _ _ (pos_mul _ _ Py (inv_pos _ Px)) L1) as Z1. pose proof (mul_nonpos _ _ (pos_mul _ _ Px (inv_pos _ Py)) L2) as Z2.
    unfold Qcdiv. unfold Qcle in *. rewrite this_plus. change (this 0%Qc) with 0%Q in *. lra. }
  assert (R2 : (cell G f i j <= 0)%Qc).
  { destruct (Qclt_le_dec 0 (cell G f i j)) as [Z|Z]; [|exact Z]. exfalso. apply (Qclt_not_le _ _ (pos_mul _ _ (pos_mul _ _ Px Py) Z)). exact R. }
  rewrite (Hf i j Hi Hj) in R2. fold M in R2.
  assert (R3 : (M <= cell G old i j + dt * q (mid_x G i) (mid_y G j))%Qc).
  { apply (proj2 (le_minus _ _)). replace (cell G old i j + dt * q (mid_x G i) (mid_y G j) - M)%Qc with (dt * (- ((M - cell G old i j) / dt - q (mid_x G i) (mid_y G j))))%Qc by (field; apply NZ; exact Hdt).
    apply mul_nonneg; [apply Qclt_le_weak; exact Hdt|]. unfold Qcle in *. rewrite this_opp. change (this 0%Qc) with 0%Q in *. lra. }
  specialize (Bo i j Hi Hj). specialize (Bq i j Hi Hj). eapply Qcle_trans; [exact R3|].
  assert (DQ : (dt * q (mid_x G i) (mid_y G j) <= dt * Q)%Qc).
  { apply (proj2 (le_minus _ _)). replace (dt * Q - dt * q (mid_x G i) (mid_y G j))%Qc with (dt * (Q - q (mid_x G i) (mid_y G j)))%Qc by ring.
    apply mul_nonneg; [apply Qclt_le_weak; exact Hdt|]. apply (proj1 (le_minus _ _)). exact Bq. }
  unfold Qcle in *. rewrite !this_plus. lra.
Qed.
End Bound.

(** ** The other bound *)
Definition neg (v : list Qc) : list Qc := map Qcopp v.
Lemma vval_neg v k : vval (neg v) k = (- vval v k)%Qc.
Proof. unfold vval, neg. change 0%Qc with (- 0)%Qc at 1. apply map_nth. Qed.
Lemma cell_neg G v i j : cell G (neg v) i j = (- cell G v i j)%Qc.
Proof. apply vval_neg. Qed.
Lemma neg_neg v : neg (neg v) = v.
Proof. unfold neg. rewrite map_map. rewrite <- (map_id v) at 2. apply map_ext. intros a. ring. Qed.

Lemma ghosts_neg G g u E : ghosts G (neg g) (neg u) E -> ghosts G g u (fun i j => - E i j)%Qc.
Proof.
  intros (A & B & C). assert (H : forall a b w, ((a + b) / (1 + 1) = - w)%Qc -> ((- a + - b) / (1 + 1) = w)%Qc).
  { intros a b w Q. replace ((- a + - b) / (1 + 1))%Qc with (- ((a + b) / (1 + 1)))%Qc by (field; discriminate). rewrite Q. ring. }
  split; [|split].
  - intros i j Hi Hj. rewrite A by auto. rewrite cell_neg. ring.
  - intros j Hj. destruct (B j Hj) as (B1 & B2). unfold west, east in *. rewrite vval_neg in B1, B2. split; apply H; auto.
  - intros i Hi. destruct (C i Hi) as (B1 & B2). unfold south, north in *. rewrite vval_neg in B1, B2. split; apply H; auto.
Qed.
Lemma elliptic_neg c G E i j : elliptic c G (fun a b => - E a b)%Qc i j = (- elliptic c G E i j)%Qc.
Proof. unfold elliptic. cbv zeta. unfold Qcdiv. ring. Qed.

Lemma heat_neg G beta dt uW uE vS vN q old new : heat_step beta dt G uW uE vS vN q old new ->
  heat_step beta dt G (fun x y => - uW x y)%Qc (fun x y => - uE x y)%Qc (fun x y => - vS x y)%Qc (fun x y => - vN x y)%Qc (fun x y => - q x y)%Qc (neg old) (neg new).
Proof.
  intros (L & g & Lg & HE & HD & HN). split; [unfold neg; rewrite map_length; exact L|]. exists (neg g). split; [unfold neg; rewrite map_length; exact Lg|]. split; [|split].
  - intros E HG i j Hi Hj. pose proof (HE _ (ghosts_neg _ _ _ _ HG) i j Hi Hj) as Q. rewrite elliptic_neg in Q. rewrite !cell_neg.
    replace ((- cell G new i j - - cell G old i j) / dt)%Qc with (- ((cell G new i j - cell G old i j) / dt))%Qc by (unfold Qcdiv; ring). rewrite Q. ring.
  - intros j Hj. destruct (HD j Hj) as (D1 & D2). unfold west, east in *. rewrite !vval_neg, D1, D2. auto.
  - intros i Hi. destruct (HN i Hi) as (D1 & D2). unfold south, north in *. rewrite !cell_neg, !vval_neg, <- D1, <- D2. unfold Qcdiv. split; ring.
Qed.

Lemma step_lower G (HO : oriented G) beta dt (Hb : forall x y, (0 < beta x y)%Qc) (Hdt : (0 < dt)%Qc) uW uE vS vN q K Q old new :
  heat_step beta dt G uW uE vS vN q old new -> (0 <= Q)%Qc ->
  (forall j, j < gny G -> (K <= uW (gxl G) (mid_y G j))%Qc /\ (K <= uE (gxu G) (mid_y G j))%Qc) ->
  (forall i, i < gnx G -> (vS (mid_x G i) (gyl G) <= 0)%Qc /\ (0 <= vN (mid_x G i) (gyu G))%Qc) ->
  (forall i j, i < gnx G -> j < gny G -> (- Q <= q (mid_x G i) (mid_y G j))%Qc) ->
  (forall i j, i < gnx G -> j < gny G -> (K <= cell G old i j)%Qc) ->
  forall i j, i < gnx G -> j < gny G -> (K - dt * Q <= cell G new i j)%Qc.
Proof.
  intros H HQ BD BN Bq Bo i j Hi Hj. apply heat_neg in H.
  assert (NG : forall a b, (a <= b)%Qc -> (- b <= - a)%Qc) by (intros; apply Qcopp_le_compat; auto).
  assert (Z : (cell G (neg new) i j <= - K + dt * Q)%Qc).
  { eapply (step_upper G HO beta dt Hb Hdt _ _ _ _ _ (- K)%Qc Q _ _ H HQ); auto.
    - intros k Hk. destruct (BD k Hk). split; apply NG; auto.
    - intros k Hk. destruct (BN k Hk) as (B1 & B2). split; unfold Qcle in *; rewrite this_opp; change (this 0%Qc) with 0%Q in *; lra.
    - intros a b A B. specialize (Bq a b A B). unfold Qcle in *. rewrite this_opp in *. lra.
    - intros a b A B. rewrite cell_neg. apply NG. auto. }
  rewrite cell_neg in Z. unfold Qcle in *. rewrite this_minus, this_mult. rewrite this_plus, !this_opp, this_mult in Z. lra.
Qed.
