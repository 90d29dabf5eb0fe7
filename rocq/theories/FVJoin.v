(** Four solved quarters with continuous fluxes are a solution on the union. *)
From Verif Require Import Base VectorModel MatrixModel LinSpec HPSModel HPSSpec FVModel FVSpec GlobalSpec StageSpec.
From Verif Require Import MatProofs MatProofs2 LinProofs HPSProofs HPSProofs3 HPSProofs4 HPSStage2 FVProofs FVProofs2 FVProofs3.

Ltac tnz := first [exact two_nz | let HH := fresh in intros HH; apply (f_equal this) in HH; discriminate HH].

Lemma app4_0 n (p q r s : list Qc) i : length p = n -> i < n -> vval (p ++ q ++ r ++ s) i = vval p i.
Proof. intros Lp H. rewrite vval_app, Lp. destruct (Nat.ltb_spec i n); [reflexivity|lia]. Qed.
Lemma app4_1 n (p q r s : list Qc) i : length p = n -> length q = n -> i < n -> vval (p ++ q ++ r ++ s) (n + i) = vval q i.
Proof.
  intros Lp Lq H. rewrite vval_app, Lp. destruct (Nat.ltb_spec (n + i) n); [lia|].
  replace (n + i - n) with i by lia. rewrite vval_app, Lq. destruct (Nat.ltb_spec i n); [reflexivity|lia].
Qed.
Lemma app4_2 n (p q r s : list Qc) i : length p = n -> length q = n -> length r = n -> i < n -> vval (p ++ q ++ r ++ s) (2 * n + i) = vval r i.
Proof.
  intros Lp Lq Lr H. rewrite vval_app, Lp. destruct (Nat.ltb_spec (2 * n + i) n); [lia|].
  rewrite vval_app, Lq. destruct (Nat.ltb_spec (2 * n + i - n) n); [lia|].
  replace (2 * n + i - n - n) with i by lia. rewrite vval_app, Lr. destruct (Nat.ltb_spec i n); [reflexivity|lia].
Qed.
Lemma app4_3 n (p q r s : list Qc) i : length p = n -> length q = n -> length r = n -> i < n -> vval (p ++ q ++ r ++ s) (2 * n + n + i) = vval s i.
Proof.
  intros Lp Lq Lr H. rewrite vval_app, Lp. destruct (Nat.ltb_spec (2 * n + n + i) n); [lia|].
  rewrite vval_app, Lq. destruct (Nat.ltb_spec (2 * n + n + i - n) n); [lia|].
  rewrite vval_app, Lr. destruct (Nat.ltb_spec (2 * n + n + i - n - n) n); [lia|].
  f_equal. lia.
Qed.

Lemma diff_quot (h a a' b b' : Qc) : a = a' -> b = b' -> ((a - b) / h = (a' - b') / h)%Qc.
Proof. intros -> ->. reflexivity. Qed.

(** ** Geometry of a quarter *)
Section Quarter.
Context (n : nat) (G : grid) (Hn : n <> 0) (Ex : gnx G = 2 * n) (Ey : gny G = 2 * n) (e t : bool).
Notation Q := (quarter n G e t).
Definition off (b : bool) : nat := if b then n else 0.

Lemma two_n : Qc_of_nat (2 * n) = ((1 + 1) * Qc_of_nat n)%Qc.
Proof. rewrite Qc_of_nat_mul. f_equal. Qed.
Lemma n_nz' : Qc_of_nat n <> 0%Qc.
Proof. apply Qc_of_nat_nz. exact Hn. Qed.

Lemma quarter_wx : width_x Q = width_x G.
Proof.
  unfold width_x. rewrite Ex, two_n. cbn [quarter gnx gxu gxl]. pose proof n_nz'. destruct e; field; split; auto; tnz.
Qed.
Lemma quarter_wy : width_y Q = width_y G.
Proof.
  unfold width_y. rewrite Ey, two_n. cbn [quarter gny gyu gyl]. pose proof n_nz'. destruct t; field; split; auto; tnz.
Qed.
Lemma quarter_fx i : face_x Q i = face_x G (i + off e).
Proof.
  unfold face_x. rewrite quarter_wx. rewrite Qc_of_nat_add. unfold off. cbn [quarter gxl].
  pose proof n_nz'. destruct e.
  - unfold width_x. rewrite Ex, two_n. field. split; auto; tnz.
  - change (Qc_of_nat 0) with 0%Qc. ring.
Qed.
Lemma quarter_fy i : face_y Q i = face_y G (i + off t).
Proof.
  unfold face_y. rewrite quarter_wy. rewrite Qc_of_nat_add. unfold off. cbn [quarter gyl].
  pose proof n_nz'. destruct t.
  - unfold width_y. rewrite Ey, two_n. field. split; auto; tnz.
  - change (Qc_of_nat 0) with 0%Qc. ring.
Qed.
Lemma quarter_mx i : mid_x Q i = mid_x G (i + off e).
Proof. unfold mid_x. rewrite !quarter_fx. reflexivity. Qed.
Lemma quarter_my i : mid_y Q i = mid_y G (i + off t).
Proof. unfold mid_y. rewrite !quarter_fy. reflexivity. Qed.

Definition shift (E : Z -> Z -> Qc) (I J : Z) : Qc := E (I + Z.of_nat (off e))%Z (J + Z.of_nat (off t))%Z.

Lemma quarter_elliptic c E i j : elliptic c Q (shift E) i j = elliptic c G E (i + off e) (j + off t).
Proof.
  unfold elliptic, shift. rewrite !quarter_mx, !quarter_my, !quarter_fx, !quarter_fy, quarter_wx, quarter_wy.
  change (S i + off e) with (S (i + off e)). change (S j + off t) with (S (j + off t)).
  replace (Z.of_nat (i + off e)) with (Z.of_nat i + Z.of_nat (off e))%Z by lia.
  replace (Z.of_nat (j + off t)) with (Z.of_nat j + Z.of_nat (off t))%Z by lia.
  replace (Z.of_nat i + 1 + Z.of_nat (off e))%Z with (Z.of_nat i + Z.of_nat (off e) + 1)%Z by lia.
  replace (Z.of_nat i - 1 + Z.of_nat (off e))%Z with (Z.of_nat i + Z.of_nat (off e) - 1)%Z by lia.
  replace (Z.of_nat j + 1 + Z.of_nat (off t))%Z with (Z.of_nat j + Z.of_nat (off t) + 1)%Z by lia.
  replace (Z.of_nat j - 1 + Z.of_nat (off t))%Z with (Z.of_nat j + Z.of_nat (off t) - 1)%Z by lia.
  reflexivity.
Qed.

Lemma quarter_proper : proper G -> proper Q.
Proof.
  intros HP. pose proof (proper_widths G HP) as (Wx & Wy). rewrite <- quarter_wx in Wx. rewrite <- quarter_wy in Wy.
  unfold width_x in Wx. unfold width_y in Wy.
  split; [|split; [|split; exact Hn]].
  - intros EE. apply Wx. rewrite EE. unfold Qcdiv, Qcminus. rewrite Qcplus_opp_r. ring.
  - intros EE. apply Wy. rewrite EE. unfold Qcdiv, Qcminus. rewrite Qcplus_opp_r. ring.
Qed.

Lemma block_cell u i j : i < n -> j < n -> cell Q (block n u e t) i j = cell G u (i + off e) (j + off t).
Proof.
  intros Hi Hj. unfold cell. rewrite Ey. cbn [quarter gny]. unfold block. rewrite map_seq_vec, vval_vec_of by nia.
  cbv zeta. replace ((j + i * n) / n) with i by (rewrite Nat.div_add by auto; rewrite Nat.div_small by auto; reflexivity).
  replace ((j + i * n) mod n) with j by (rewrite Nat.mod_add by auto; rewrite Nat.mod_small by auto; reflexivity).
  reflexivity.
Qed.

(** The ghost cells of a quarter, in terms of the values of the whole. *)
Lemma ghosts_quarter (V : Z -> Z -> Qc) p q r s u :
  length p = n -> length q = n -> length r = n ->
  (forall i j, i < n -> j < n -> V (Z.of_nat (i + off e)) (Z.of_nat (j + off t)) = cell Q u i j) ->
  (forall j, j < n -> ((V (Z.of_nat (off e) - 1)%Z (Z.of_nat (j + off t)) + V (Z.of_nat (off e)) (Z.of_nat (j + off t))) / (1 + 1) = vval p j)%Qc) ->
  (forall j, j < n -> ((V (Z.of_nat (off e + n)) (Z.of_nat (j + off t)) + V (Z.of_nat (off e + n) - 1)%Z (Z.of_nat (j + off t))) / (1 + 1) = vval q j)%Qc) ->
  (forall i, i < n -> ((V (Z.of_nat (i + off e)) (Z.of_nat (off t) - 1)%Z + V (Z.of_nat (i + off e)) (Z.of_nat (off t))) / (1 + 1) = vval r i)%Qc) ->
  (forall i, i < n -> ((V (Z.of_nat (i + off e)) (Z.of_nat (off t + n)) + V (Z.of_nat (i + off e)) (Z.of_nat (off t + n) - 1)%Z) / (1 + 1) = vval s i)%Qc) ->
  ghosts Q (p ++ q ++ r ++ s) u (shift V).
Proof.
  intros Lp Lq Lr Hc Hp Hq Hr Hs. unfold ghosts, shift. change (gnx Q) with n. change (gny Q) with n. cbv zeta.
  split; [|split].
  - intros i j Hi Hj. rewrite <- Hc by auto. f_equal; lia.
  - intros j Hj. unfold west, east. change (gny Q) with n.
    rewrite (app4_0 n), (app4_1 n) by auto. rewrite <- Hp, <- Hq by auto. split; f_equal; f_equal; f_equal; lia.
  - intros i Hi. unfold south, north. change (gny Q) with n. change (gnx Q) with n.
    rewrite (app4_2 n), (app4_3 n) by auto. rewrite <- Hr, <- Hs by auto. split; f_equal; f_equal; f_equal; lia.
Qed.
End Quarter.

(** ** The union *)
Section Join.
Context (n : nat) (G : grid) (Hn : n <> 0) (Ex : gnx G = 2 * n) (Ey : gny G = 2 * n) (HP : proper G).
Context (g z : list Qc) (Lg : length g = 8 * n) (Lz : length z = 4 * n).
Context (u : four (list Qc)).
Notation Ga := (quarter n G false false).
Notation Gb := (quarter n G true false).
Notation Gc := (quarter n G false true).
Notation Gd := (quarter n G true true).
Notation x := (children_data n g z).
Context (Lu : all4 (fun v => length v = n * n) u).
Context (HC : continuous n (Four (boundary_flux Ga (fa x) (fa u)) (boundary_flux Gb (fb x) (fb u))
                                 (boundary_flux Gc (fc x) (fc u)) (boundary_flux Gd (fd x) (fd u)))).

Definition joined : list Qc :=
  vec_of (2 * n * (2 * n)) (fun I => let i := I / (2 * n) in let j := I mod (2 * n) in
    if i <? n then if j <? n then vval (fa u) (j + i * n) else vval (fc u) (j - n + i * n)
    else if j <? n then vval (fb u) (j + (i - n) * n) else vval (fd u) (j - n + (i - n) * n)).

Definition quad (e t : bool) : list Qc := if e then (if t then fd u else fb u) else (if t then fc u else fa u).
Lemma cell_joined e t i j : i < n -> j < n ->
  cell G joined (i + off n e) (j + off n t) = cell (quarter n G e t) (quad e t) i j.
Proof.
  intros Hi Hj. unfold cell. rewrite Ey. unfold joined.
  assert (B : i + off n e < 2 * n /\ j + off n t < 2 * n) by (unfold off; destruct e, t; lia). destruct B as (B1 & B2).
  rewrite vval_vec_of by nia. cbv zeta.
  rewrite (Nat.div_add (j + off n t)), (Nat.mod_add (j + off n t)) by lia.
  rewrite Nat.div_small, Nat.mod_small by auto. cbn [Nat.add quarter gny].
  unfold off, quad in *. destruct e, t.
  - destruct (Nat.ltb_spec (i + n) n); [lia|]. destruct (Nat.ltb_spec (j + n) n); [lia|]. f_equal. rewrite !Nat.add_sub. lia.
  - destruct (Nat.ltb_spec (i + n) n); [lia|]. destruct (Nat.ltb_spec (j + 0) n); [|lia]. f_equal. rewrite !Nat.add_sub. lia.
  - destruct (Nat.ltb_spec (i + 0) n); [|lia]. destruct (Nat.ltb_spec (j + n) n); [lia|]. f_equal. rewrite !Nat.add_sub. lia.
  - destruct (Nat.ltb_spec (i + 0) n); [|lia]. destruct (Nat.ltb_spec (j + 0) n); [|lia]. f_equal. lia.
Qed.

Lemma joined_length : length joined = gnx G * gny G.
Proof. unfold joined. rewrite vec_of_length, Ex, Ey. reflexivity. Qed.

Lemma quad_length e t : length (quad e t) = n * n.
Proof. destruct Lu as (A & B & C & D). destruct e, t; cbn [quad]; auto. Qed.

Lemma block_joined e t : block n joined e t = quad e t.
Proof.
  apply vval_ext; [unfold block; rewrite map_length, seq_length, quad_length; reflexivity|].
  unfold block at 1. rewrite map_length, seq_length. intros I HI.
  assert (Hi : I / n < n) by (apply Nat.div_lt_upper_bound; auto).
  assert (Hj : I mod n < n) by (apply Nat.mod_upper_bound; auto).
  pose proof (block_cell n G Hn Ex Ey e t joined (I / n) (I mod n) Hi Hj) as Q1. rewrite cell_joined in Q1 by auto.
  unfold cell in Q1. cbn [quarter gny] in Q1.
  replace (I mod n + I / n * n) with I in Q1 by (rewrite (Nat.div_mod I n Hn) at 1; lia). exact Q1.
Qed.

Lemma lens : forall k, (k < 8 -> length (piece n g k) = n) /\ (k < 4 -> length (piece n z k) = n).
Proof. intros k. split; intros Hk; eapply piece_length; eauto. Qed.

Lemma widths_nz : width_x G <> 0%Qc /\ width_y G <> 0%Qc.
Proof. apply proper_widths. exact HP. Qed.

(** Equal fluxes on both sides put the interface value halfway. *)
Lemma halfway (w a b m : Qc) : w <> 0%Qc -> ((m - a) / (w / (1 + 1)) = (b - m) / (w / (1 + 1)))%Qc -> ((b + a) / (1 + 1) = m)%Qc.
Proof.
  intros Hw H. apply (f_equal (fun q => q * (w / (1 + 1)) / (1 + 1))%Qc) in H.
  replace ((m - a) / (w / (1 + 1)) * (w / (1 + 1)) / (1 + 1))%Qc with ((m - a) / (1 + 1))%Qc in H by (field; split; auto; tnz).
  replace ((b - m) / (w / (1 + 1)) * (w / (1 + 1)) / (1 + 1))%Qc with ((b - m) / (1 + 1))%Qc in H by (field; split; auto; tnz).
  replace m with ((m - a) / (1 + 1) + (m + a) / (1 + 1))%Qc at 1 by (field; tnz). rewrite H. field. tnz.
Qed.

Lemma interface :
  (forall i, i < n -> ((cell Gc (fc u) i 0 + cell Ga (fa u) i (n - 1)) / (1 + 1) = vval (piece n z 0) i)%Qc) /\
  (forall i, i < n -> ((cell Gd (fd u) i 0 + cell Gb (fb u) i (n - 1)) / (1 + 1) = vval (piece n z 1) i)%Qc) /\
  (forall j, j < n -> ((cell Gb (fb u) 0 j + cell Ga (fa u) (n - 1) j) / (1 + 1) = vval (piece n z 2) j)%Qc) /\
  (forall j, j < n -> ((cell Gd (fd u) 0 j + cell Gc (fc u) (n - 1) j) / (1 + 1) = vval (piece n z 3) j)%Qc).
Proof.
  pose proof widths_nz as (Wx & Wy). destruct HC as (C0 & C1 & C2 & C3). cbn [fa fb fc fd] in C0, C1, C2, C3.
  pose proof lens as LL.
  assert (PV : forall (e t : bool) y v k i, k < 4 -> i < n ->
     vval (piece n (boundary_flux (quarter n G e t) y v) k) i = vval (boundary_flux (quarter n G e t) y v) (k * n + i)).
  { intros. apply vval_piece. auto. }
  assert (VF := fun e t => vval_flux (quarter n G e t) n eq_refl eq_refl).
  split; [|split; [|split]]; intros i Hi.
  - apply (f_equal (fun l => vval l i)) in C0. rewrite !PV, !VF in C0 by (auto; lia).
    destruct (Nat.ltb_spec (3 * n + i) n); [lia|]. destruct (Nat.ltb_spec (3 * n + i) (2 * n)); [lia|]. destruct (Nat.ltb_spec (3 * n + i) (3 * n)); [lia|].
    destruct (Nat.ltb_spec (2 * n + i) n); [lia|]. destruct (Nat.ltb_spec (2 * n + i) (2 * n)); [lia|]. destruct (Nat.ltb_spec (2 * n + i) (3 * n)); [|lia].
    rewrite !quarter_wy in C0 by auto.
    replace (3 * n + i - 3 * n) with i in C0 by lia. replace (2 * n + i - 2 * n) with i in C0 by lia.
    unfold north, south, children_data in C0. cbn [quarter gnx gny fa fb fc fd] in C0.
    rewrite (app4_3 n), (app4_2 n) in C0 by (auto; apply LL; lia).
    apply (halfway (width_y G)); [exact Wy|exact C0].
  - apply (f_equal (fun l => vval l i)) in C1. rewrite !PV, !VF in C1 by (auto; lia).
    destruct (Nat.ltb_spec (3 * n + i) n); [lia|]. destruct (Nat.ltb_spec (3 * n + i) (2 * n)); [lia|]. destruct (Nat.ltb_spec (3 * n + i) (3 * n)); [lia|].
    destruct (Nat.ltb_spec (2 * n + i) n); [lia|]. destruct (Nat.ltb_spec (2 * n + i) (2 * n)); [lia|]. destruct (Nat.ltb_spec (2 * n + i) (3 * n)); [|lia].
    rewrite !quarter_wy in C1 by auto.
    replace (3 * n + i - 3 * n) with i in C1 by lia. replace (2 * n + i - 2 * n) with i in C1 by lia.
    unfold north, south, children_data in C1. cbn [quarter gnx gny fa fb fc fd] in C1.
    rewrite (app4_3 n), (app4_2 n) in C1 by (auto; apply LL; lia).
    apply (halfway (width_y G)); [exact Wy|exact C1].
  - apply (f_equal (fun l => vval l i)) in C2. rewrite !PV, !VF in C2 by (auto; lia).
    destruct (Nat.ltb_spec (1 * n + i) n); [lia|]. destruct (Nat.ltb_spec (1 * n + i) (2 * n)); [|lia].
    destruct (Nat.ltb_spec (0 * n + i) n); [|lia].
    rewrite !quarter_wx in C2 by auto.
    replace (1 * n + i - n) with i in C2 by lia. replace (0 * n + i) with i in C2 by lia.
    unfold east, west, children_data in C2. cbn [quarter gnx gny fa fb fc fd] in C2.
    rewrite (app4_1 n), (app4_0 n) in C2 by (auto; apply LL; lia).
    apply (halfway (width_x G)); [exact Wx|exact C2].
  - apply (f_equal (fun l => vval l i)) in C3. rewrite !PV, !VF in C3 by (auto; lia).
    destruct (Nat.ltb_spec (1 * n + i) n); [lia|]. destruct (Nat.ltb_spec (1 * n + i) (2 * n)); [|lia].
    destruct (Nat.ltb_spec (0 * n + i) n); [|lia].
    rewrite !quarter_wx in C3 by auto.
    replace (1 * n + i - n) with i in C3 by lia. replace (0 * n + i) with i in C3 by lia.
    unfold east, west, children_data in C3. cbn [quarter gnx gny fa fb fc fd] in C3.
    rewrite (app4_1 n), (app4_0 n) in C3 by (auto; apply LL; lia).
    apply (halfway (width_x G)); [exact Wx|exact C3].
Qed.

(** Every extension by ghost cells of the union extends the quarters. *)
Lemma ghosts_down E e t : ghosts G g joined E ->
  ghosts (quarter n G e t) (if e then (if t then fd x else fb x) else (if t then fc x else fa x)) (quad e t) (shift n e t E).
Proof.
  intros (Hc & Hwe & Hsn). rewrite Ex, Ey in Hc, Hwe, Hsn. pose proof lens as LL.
  destruct interface as (I0 & I1 & I2 & I3).
  assert (Hcell : forall e t i j, i < n -> j < n -> E (Z.of_nat (i + off n e)) (Z.of_nat (j + off n t)) = cell (quarter n G e t) (quad e t) i j).
  { intros e' t' i j Hi Hj. rewrite <- cell_joined by auto. apply Hc; unfold off; destruct e', t'; lia. }
  assert (HW : forall j, j < 2 * n -> ((E (-1)%Z (Z.of_nat j) + E 0%Z (Z.of_nat j)) / (1 + 1) = vval g j)%Qc) by (intros j Hj; apply Hwe; auto).
  assert (HE : forall j, j < 2 * n -> ((E (Z.of_nat (2 * n)) (Z.of_nat j) + E (Z.of_nat (2 * n) - 1)%Z (Z.of_nat j)) / (1 + 1) = vval g (2 * n + j))%Qc).
  { intros j Hj. destruct (Hwe j Hj) as (_ & Q). rewrite Q. unfold east. rewrite Ey. reflexivity. }
  assert (HSo : forall j, j < 2 * n -> ((E (Z.of_nat j) (-1)%Z + E (Z.of_nat j) 0%Z) / (1 + 1) = vval g (4 * n + j))%Qc).
  { intros j Hj. destruct (Hsn j Hj) as (Q & _). rewrite Q. unfold south. rewrite Ey. f_equal. lia. }
  assert (HN : forall j, j < 2 * n -> ((E (Z.of_nat j) (Z.of_nat (2 * n)) + E (Z.of_nat j) (Z.of_nat (2 * n) - 1)%Z) / (1 + 1) = vval g (6 * n + j))%Qc).
  { intros j Hj. destruct (Hsn j Hj) as (_ & Q). rewrite Q. unfold north. rewrite Ex, Ey. f_equal. lia. }
  clear Hc Hwe Hsn.
  assert (VP : forall k i, i < n -> vval (piece n g k) i = vval g (k * n + i)) by (intros; apply vval_piece; auto).
  assert (N1 : forall i, i < n -> (Z.of_nat n - 1 = Z.of_nat (n - 1))%Z) by (intros; lia).
  destruct e, t; unfold children_data; cbn [fa fb fc fd]; apply ghosts_quarter; try (apply LL; lia); auto;
    try (intros; apply Hcell; assumption); unfold off; intros i Hi.
  - rewrite <- I3 by auto. f_equal. rewrite Qcplus_comm. f_equal.
    + refine (eq_trans _ (Hcell true true 0 i _ Hi)); [f_equal; cbn [off]; lia|lia].
    + refine (eq_trans _ (Hcell false true (n - 1) i _ Hi)); [f_equal; cbn [off]; lia|lia].
  - rewrite VP by auto. replace (3 * n + i) with (2 * n + (i + n)) by lia. rewrite <- HE by lia.
    replace (n + n) with (2 * n) by lia. reflexivity.
  - rewrite <- I1 by auto. f_equal. rewrite Qcplus_comm. f_equal.
    + refine (eq_trans _ (Hcell true true i 0 Hi _)); [f_equal; cbn [off]; lia|lia].
    + refine (eq_trans _ (Hcell true false i (n - 1) Hi _)); [f_equal; cbn [off]; lia|lia].
  - rewrite VP by auto. replace (7 * n + i) with (6 * n + (i + n)) by lia. rewrite <- HN by lia.
    replace (n + n) with (2 * n) by lia. reflexivity.
  - rewrite <- I2 by auto. f_equal. rewrite Qcplus_comm. f_equal.
    + refine (eq_trans _ (Hcell true false 0 i _ Hi)); [f_equal; cbn [off]; lia|lia].
    + refine (eq_trans _ (Hcell false false (n - 1) i _ Hi)); [f_equal; cbn [off]; lia|lia].
  - rewrite VP by auto. replace (2 * n + i) with (2 * n + (i + 0)) by lia. rewrite <- HE by lia.
    replace (n + n) with (2 * n) by lia. reflexivity.
  - rewrite VP by auto. replace (5 * n + i) with (4 * n + (i + n)) by lia. rewrite <- HSo by lia.
    change (Z.of_nat 0 - 1)%Z with (-1)%Z. reflexivity.
  - rewrite <- I1 by auto. f_equal. f_equal.
    + refine (eq_trans _ (Hcell true true i 0 Hi _)); [f_equal; cbn [off]; lia|lia].
    + refine (eq_trans _ (Hcell true false i (n - 1) Hi _)); [f_equal; cbn [off]; lia|lia].
  - rewrite VP by auto. replace (1 * n + i) with (i + n) by lia. rewrite <- HW by lia.
    change (Z.of_nat 0 - 1)%Z with (-1)%Z. reflexivity.
  - rewrite <- I3 by auto. f_equal. f_equal.
    + refine (eq_trans _ (Hcell true true 0 i _ Hi)); [f_equal; cbn [off]; lia|lia].
    + refine (eq_trans _ (Hcell false true (n - 1) i _ Hi)); [f_equal; cbn [off]; lia|lia].
  - rewrite <- I0 by auto. f_equal. rewrite Qcplus_comm. f_equal.
    + refine (eq_trans _ (Hcell false true i 0 Hi _)); [f_equal; cbn [off]; lia|lia].
    + refine (eq_trans _ (Hcell false false i (n - 1) Hi _)); [f_equal; cbn [off]; lia|lia].
  - rewrite VP by auto. replace (6 * n + i) with (6 * n + (i + 0)) by lia. rewrite <- HN by lia.
    replace (n + n) with (2 * n) by lia. reflexivity.
  - rewrite VP by auto. replace (0 * n + i) with (i + 0) by lia. rewrite <- HW by lia.
    change (Z.of_nat 0 - 1)%Z with (-1)%Z. reflexivity.
  - rewrite <- I2 by auto. f_equal. f_equal.
    + refine (eq_trans _ (Hcell true false 0 i _ Hi)); [f_equal; cbn [off]; lia|lia].
    + refine (eq_trans _ (Hcell false false (n - 1) i _ Hi)); [f_equal; cbn [off]; lia|lia].
  - rewrite VP by auto. replace (4 * n + i) with (4 * n + (i + 0)) by lia. rewrite <- HSo by lia.
    change (Z.of_nat 0 - 1)%Z with (-1)%Z. reflexivity.
  - rewrite <- I0 by auto. f_equal. f_equal.
    + refine (eq_trans _ (Hcell false true i 0 Hi _)); [f_equal; cbn [off]; lia|lia].
    + refine (eq_trans _ (Hcell false false i (n - 1) Hi _)); [f_equal; cbn [off]; lia|lia].
Qed.

Theorem join_solution c F :
  fv_solution c Ga (fa x) (block n F false false) (fa u) -> fv_solution c Gb (fb x) (block n F true false) (fb u) ->
  fv_solution c Gc (fc x) (block n F false true) (fc u) -> fv_solution c Gd (fd x) (block n F true true) (fd u) ->
  fv_solution c G g F joined.
Proof.
  intros Ha Hb Hc Hd. split; [apply joined_length|]. intros E HE i j Hi Hj. rewrite Ex in Hi. rewrite Ey in Hj.
  assert (K : forall e t i j, i < n -> j < n ->
     elliptic c G E (i + off n e) (j + off n t) = cell G F (i + off n e) (j + off n t)).
  { intros e t i' j' Hi' Hj'. rewrite <- (block_cell n G Hn Ex Ey) by auto. rewrite <- (quarter_elliptic n G Hn Ex Ey).
    pose proof (ghosts_down E e t HE) as HG.
    destruct e, t; [destruct Hd as (_ & H)|destruct Hb as (_ & H)|destruct Hc as (_ & H)|destruct Ha as (_ & H)];
      apply H; auto. }
  destruct (lt_dec i n), (lt_dec j n).
  - specialize (K false false i j l l0). cbn [off] in K. rewrite !Nat.add_0_r in K. exact K.
  - specialize (K false true i (j - n) l ltac:(lia)). cbn [off] in K. rewrite !Nat.add_0_r in K.
    replace (j - n + n) with j in K by lia. exact K.
  - specialize (K true false (i - n) j ltac:(lia) l). cbn [off] in K. rewrite !Nat.add_0_r in K.
    replace (i - n + n) with i in K by lia. exact K.
  - specialize (K true true (i - n) (j - n) ltac:(lia) ltac:(lia)). cbn [off] in K.
    replace (j - n + n) with j in K by lia. replace (i - n + n) with i in K by lia. exact K.
Qed.

(** The flux through the boundary of the union. *)
Theorem join_flux :
  outer_flux n (Four (boundary_flux Ga (fa x) (fa u)) (boundary_flux Gb (fb x) (fb u))
                     (boundary_flux Gc (fc x) (fc u)) (boundary_flux Gd (fd x) (fd u))) = boundary_flux G g joined.
Proof.
  pose proof lens as LL.
  assert (BL : forall e t y v, length (boundary_flux (quarter n G e t) y v) = 4 * n) by (intros; apply boundary_flux_length; reflexivity).
  assert (PL : forall e t y v k, k < 4 -> length (piece n (boundary_flux (quarter n G e t) y v) k) = n) by (intros; eapply piece_length; [apply BL|auto]).
  assert (VF := fun e t => vval_flux (quarter n G e t) n eq_refl eq_refl).
  assert (VG := vval_flux G (2 * n) Ex Ey g joined).
  assert (HC0 := fun e t i j Hi Hj => eq_sym (cell_joined e t i j Hi Hj)).
  apply vval_ext.
  { unfold outer_flux. cbn [fa fb fc fd]. rewrite !app_length, !PL by lia.
    rewrite (boundary_flux_length G (2 * n) Ex Ey). lia. }
  unfold outer_flux at 1. cbn [fa fb fc fd]. rewrite !app_length, !PL by lia. intros I HI.
  rewrite VG by lia. unfold outer_flux. cbn [fa fb fc fd].
  assert (PV : forall (e t : bool) y v k i, i < n ->
     vval (piece n (boundary_flux (quarter n G e t) y v) k) i = vval (boundary_flux (quarter n G e t) y v) (k * n + i)).
  { intros. apply vval_piece. auto. }
  assert (VPg : forall k i, i < n -> vval (piece n g k) i = vval g (k * n + i)) by (intros; apply vval_piece; auto).
  assert (W0 : forall e t p q r s i, length p = n -> i < n -> west (quarter n G e t) (p ++ q ++ r ++ s) i = vval p i).
  { intros e t p q r s i Hp Hi. unfold west. apply (app4_0 n); auto. }
  assert (E0 : forall e t p q r s i, length p = n -> length q = n -> i < n -> east (quarter n G e t) (p ++ q ++ r ++ s) i = vval q i).
  { intros e t p q r s i Hp Hq Hi. unfold east. cbn [quarter gny]. apply (app4_1 n); auto. }
  assert (S0 : forall e t p q r s i, length p = n -> length q = n -> length r = n -> i < n -> south (quarter n G e t) (p ++ q ++ r ++ s) i = vval r i).
  { intros e t p q r s i Hp Hq Hr Hi. unfold south. cbn [quarter gny]. apply (app4_2 n); auto. }
  assert (N0 : forall e t p q r s i, length p = n -> length q = n -> length r = n -> i < n -> north (quarter n G e t) (p ++ q ++ r ++ s) i = vval s i).
  { intros e t p q r s i Hp Hq Hr Hi. unfold north. cbn [quarter gny gnx]. apply (app4_3 n); auto. }
  unfold children_data. cbn [fa fb fc fd].
  destruct (Nat.ltb_spec I (2 * n)) as [L1|L1]; [|destruct (Nat.ltb_spec I (2 * (2 * n))) as [L2|L2]; [|destruct (Nat.ltb_spec I (3 * (2 * n))) as [L3|L3]]].
  - rewrite vval_app, PL by lia. destruct (Nat.ltb_spec I n) as [L|L].
    + rewrite PV, VF by lia. destruct (Nat.ltb_spec (0 * n + I) n); [|lia]. rewrite quarter_wx by auto.
      replace (0 * n + I) with I by lia. rewrite W0 by (auto; apply LL; lia). rewrite VPg by auto.
      specialize (HC0 false false 0 I ltac:(lia) L). cbn [quad] in HC0. rewrite HC0. cbn [off]. rewrite !Nat.add_0_r. reflexivity.
    + rewrite vval_app, PL by lia. destruct (Nat.ltb_spec (I - n) n) as [L'|L']; [|lia].
      rewrite PV, VF by lia. destruct (Nat.ltb_spec (0 * n + (I - n)) n); [|lia]. rewrite quarter_wx by auto.
      replace (0 * n + (I - n)) with (I - n) by lia. rewrite W0 by (auto; apply LL; lia). rewrite VPg by auto.
      specialize (HC0 false true 0 (I - n) ltac:(lia) L'). cbn [quad] in HC0. rewrite HC0. cbn [off].
      unfold west. apply diff_quot; f_equal; lia.
  - rewrite vval_app, PL by lia. destruct (Nat.ltb_spec I n); [lia|]. rewrite vval_app, PL by lia. destruct (Nat.ltb_spec (I - n) n); [lia|].
    rewrite vval_app, PL by lia. destruct (Nat.ltb_spec (I - n - n) n) as [L'|L'].
    + rewrite PV, VF by lia. destruct (Nat.ltb_spec (1 * n + (I - n - n)) n); [lia|]. destruct (Nat.ltb_spec (1 * n + (I - n - n)) (2 * n)); [|lia].
      rewrite quarter_wx by auto. replace (1 * n + (I - n - n) - n) with (I - 2 * n) by lia.
      rewrite E0 by (first [apply LL; lia|lia]). rewrite VPg by lia.
      specialize (HC0 true false (n - 1) (I - 2 * n) ltac:(lia) ltac:(lia)). cbn [quad] in HC0. rewrite HC0. cbn [off].
      unfold east. rewrite Ey. apply diff_quot; f_equal; lia.
    + rewrite vval_app, PL by lia. destruct (Nat.ltb_spec (I - n - n - n) n) as [L4|L4]; [|lia].
      rewrite PV, VF by lia. destruct (Nat.ltb_spec (1 * n + (I - n - n - n)) n); [lia|]. destruct (Nat.ltb_spec (1 * n + (I - n - n - n)) (2 * n)); [|lia].
      rewrite quarter_wx by auto. replace (1 * n + (I - n - n - n) - n) with (I - 3 * n) by lia.
      rewrite E0 by (first [apply LL; lia|lia]). rewrite VPg by lia.
      specialize (HC0 true true (n - 1) (I - 3 * n) ltac:(lia) ltac:(lia)). cbn [quad] in HC0. rewrite HC0. cbn [off].
      unfold east. rewrite Ey. apply diff_quot; f_equal; lia.
  - do 4 (rewrite vval_app, PL by lia; match goal with |- context [?a <? n] => destruct (Nat.ltb_spec a n); [lia|] end).
    rewrite vval_app, PL by lia. match goal with |- context [?a <? n] => destruct (Nat.ltb_spec a n) as [L'|L'] end.
    + rewrite PV, VF by lia. set (k := I - n - n - n - n) in *. destruct (Nat.ltb_spec (2 * n + k) n); [lia|]. destruct (Nat.ltb_spec (2 * n + k) (2 * n)); [lia|].
      destruct (Nat.ltb_spec (2 * n + k) (3 * n)); [|lia].
      rewrite quarter_wy by auto. replace (2 * n + k - 2 * n) with k by lia.
      rewrite S0 by (first [apply LL; lia|lia]). rewrite VPg by lia.
      specialize (HC0 false false k 0 ltac:(lia) ltac:(lia)). cbn [quad] in HC0. rewrite HC0. cbn [off].
      unfold south. rewrite Ey. apply diff_quot; f_equal; lia.
    + rewrite vval_app, PL by lia. match goal with |- context [?a <? n] => destruct (Nat.ltb_spec a n) as [L4|L4]; [|lia] end.
      rewrite PV, VF by lia. set (k := I - n - n - n - n - n) in *. destruct (Nat.ltb_spec (2 * n + k) n); [lia|]. destruct (Nat.ltb_spec (2 * n + k) (2 * n)); [lia|].
      destruct (Nat.ltb_spec (2 * n + k) (3 * n)); [|lia].
      rewrite quarter_wy by auto. replace (2 * n + k - 2 * n) with k by lia.
      rewrite S0 by (first [apply LL; lia|lia]). rewrite VPg by lia.
      specialize (HC0 true false k 0 ltac:(lia) ltac:(lia)). cbn [quad] in HC0. rewrite HC0. cbn [off].
      unfold south. rewrite Ey. apply diff_quot; f_equal; lia.
  - do 6 (rewrite vval_app, PL by lia; match goal with |- context [?a <? n] => destruct (Nat.ltb_spec a n); [lia|] end).
    rewrite vval_app, PL by lia. match goal with |- context [?a <? n] => destruct (Nat.ltb_spec a n) as [L'|L'] end.
    + rewrite PV, VF by lia. set (k := I - n - n - n - n - n - n) in *. destruct (Nat.ltb_spec (3 * n + k) n); [lia|]. destruct (Nat.ltb_spec (3 * n + k) (2 * n)); [lia|].
      destruct (Nat.ltb_spec (3 * n + k) (3 * n)); [lia|].
      rewrite quarter_wy by auto. replace (3 * n + k - 3 * n) with k by lia.
      rewrite N0 by (first [apply LL; lia|lia]). rewrite VPg by lia.
      specialize (HC0 false true k (n - 1) ltac:(lia) ltac:(lia)). cbn [quad] in HC0. rewrite HC0. cbn [off].
      unfold north. rewrite Ex, Ey. apply diff_quot; f_equal; lia.
    + rewrite PV, VF by lia. set (k := I - n - n - n - n - n - n - n) in *. destruct (Nat.ltb_spec (3 * n + k) n); [lia|]. destruct (Nat.ltb_spec (3 * n + k) (2 * n)); [lia|].
      destruct (Nat.ltb_spec (3 * n + k) (3 * n)); [lia|].
      rewrite quarter_wy by auto. replace (3 * n + k - 3 * n) with k by lia.
      rewrite N0 by (first [apply LL; lia|lia]). rewrite VPg by lia.
      specialize (HC0 true true k (n - 1) ltac:(lia) ltac:(lia)). cbn [quad] in HC0. rewrite HC0. cbn [off].
      unfold north. rewrite Ex, Ey. apply diff_quot; f_equal; lia.
Qed.
End Join.
