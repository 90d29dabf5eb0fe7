(** Linear functions and conservation on locally refined quadtrees. *)
From Verif Require Import Base VectorModel MatrixModel LinSpec HPSModel HPSSpec FVModel FVSpec GlobalSpec StageSpec AdaptSpec.
From Verif Require Import MatProofs MatProofs2 LinProofs HPSProofs HPSProofs3 HPSProofs4 HPSStage2 HPSTree HPSTree2 HPSProps.
From Verif Require Import FVProofs FVProofs2 FVProofs3 FVMax FVJoin FVGlobal.
From Coq Require Import Lia.

Lemma seq_vec (F : nat -> Qc) n : map F (seq 0 n) = vec_of n F.
Proof. reflexivity. Qed.

(** ** Sums over sides *)
Definition total (n : nat) (v : list Qc) : Qc := sum n (vval v).

Lemma net_flux_pieces n G h : gnx G = n -> gny G = n ->
  net_flux G h = (width_y G * (total n (piece n h 1) - total n (piece n h 0)) +
                  width_x G * (total n (piece n h 3) - total n (piece n h 2)))%Qc.
Proof.
  intros Ex Ey. unfold net_flux, total, east, west, north, south. rewrite Ex, Ey, !sum_scal_l, !sum_minus.
  assert (P : forall k, sum n (vval (piece n h k)) = sum n (fun i => vval h (k * n + i))).
  { intros k. apply sum_ext. intros i Hi. apply vval_piece. exact Hi. }
  rewrite !P.
  rewrite (sum_ext n (fun i => vval h (1 * n + i)) (fun i => vval h (n + i))) by (intros; f_equal; lia).
  rewrite (sum_ext n (fun i => vval h (0 * n + i)) (vval h)) by (intros; f_equal; lia).
  rewrite (sum_ext n (fun i => vval h (3 * n + i)) (fun i => vval h (2 * n + n + i))) by (intros; f_equal; lia).
  reflexivity.
Qed.

Lemma sum_pairs n f : sum (2 * n) f = sum n (fun i => f (2 * i)%nat + f (2 * i + 1)%nat)%Qc.
Proof.
  induction n as [|n IH]; [reflexivity|].
  replace (2 * S n) with (S (S (2 * n))) by lia. cbn [sum]. rewrite IH.
  replace (2 * n + 1) with (S (2 * n)) by lia. ring.
Qed.

Lemma total_coarsen c v : ((1 + 1) * total c (coarsen_side c v) = total (2 * c) v)%Qc.
Proof.
  unfold total. rewrite sum_pairs, <- sum_scal_l. apply sum_ext. intros i Hi.
  unfold coarsen_side. rewrite vval_map_seq by auto.
  change (Q2Qc (1 # 2)) with (/ (1 + 1))%Qc. field. exact two_nz.
Qed.

Lemma piece_concat4 n (f : nat -> list Qc) k : (forall k, k < 4 -> length (f k) = n) -> k < 4 ->
  piece n (concat (map f [0; 1; 2; 3])) k = f k.
Proof.
  intros L Hk. cbn [map concat]. rewrite app_nil_r.
  pose proof (L 0 ltac:(lia)) as L0. pose proof (L 1 ltac:(lia)) as L1. pose proof (L 2 ltac:(lia)) as L2. pose proof (L 3 ltac:(lia)) as L3.
  unfold piece. destruct k as [|[|[|[|k]]]]; [| | | |lia].
  - cbn [Nat.mul]. rewrite skipn_O, firstn_app, L0, Nat.sub_diag, firstn_O, app_nil_r. apply firstn_all2. lia.
  - rewrite Nat.mul_1_l, skipn_app, L0, Nat.sub_diag, skipn_O, skipn_all2 by lia. cbn [app].
    rewrite firstn_app, L1, Nat.sub_diag, firstn_O, app_nil_r. apply firstn_all2. lia.
  - rewrite skipn_app, L0, skipn_all2 by lia. cbn [app]. replace (2 * n - n) with n by lia.
    rewrite skipn_app, L1, Nat.sub_diag, skipn_O, skipn_all2 by lia. cbn [app].
    rewrite firstn_app, L2, Nat.sub_diag, firstn_O, app_nil_r. apply firstn_all2. lia.
  - rewrite skipn_app, L0, skipn_all2 by lia. cbn [app]. replace (3 * n - n) with (2 * n) by lia.
    rewrite skipn_app, L1, skipn_all2 by lia. cbn [app]. replace (2 * n - n) with n by lia.
    rewrite skipn_app, L2, Nat.sub_diag, skipn_O, skipn_all2 by lia. cbn [app]. apply firstn_all2. lia.
Qed.

(** ** Geometry *)
Lemma rect_half_x n G : n <> 0 -> (width_x (rect n G) = (1 + 1) * width_x (rect (2 * n) G))%Qc.
Proof.
  intros Hn. unfold width_x. cbn [rect gnx gxu gxl]. rewrite two_n. pose proof (n_nz' n Hn). field. split; auto. exact two_nz.
Qed.
Lemma rect_half_y n G : n <> 0 -> (width_y (rect n G) = (1 + 1) * width_y (rect (2 * n) G))%Qc.
Proof.
  intros Hn. unfold width_y. cbn [rect gny gyu gyl]. rewrite two_n. pose proof (n_nz' n Hn). field. split; auto. exact two_nz.
Qed.

Lemma net_coarsen n G h : n <> 0 -> net_flux (rect n G) (coarsen4 n h) = net_flux (rect (2 * n) G) h.
Proof.
  intros Hn. rewrite (net_flux_pieces n) by reflexivity. rewrite (net_flux_pieces (2 * n)) by reflexivity.
  unfold coarsen4. rewrite !(piece_concat4 n (fun k => coarsen_side n (piece (2 * n) h k))) by (auto using coarsen_side_length; lia).
  rewrite rect_half_x, rect_half_y by auto. rewrite <- !total_coarsen. ring.
Qed.
Lemma net_coarsen_by k : forall n G h, n <> 0 -> net_flux (rect n G) (coarsen_by k n h) = net_flux (rect (n * 2 ^ k) G) h.
Proof.
  induction k as [|k IH]; intros n G h Hn; [cbn [coarsen_by Nat.pow]; rewrite Nat.mul_1_r; reflexivity|].
  cbn [coarsen_by]. rewrite net_coarsen by auto. rewrite IH by lia. f_equal. f_equal. cbn [Nat.pow]. lia.
Qed.

Lemma outer_pieces n x k : all4 (fun v => length v = 4 * n) x -> k < 8 ->
  piece n (outer_flux n x) k =
  match k with 0 => piece n (fa x) 0 | 1 => piece n (fc x) 0 | 2 => piece n (fb x) 1 | 3 => piece n (fd x) 1
             | 4 => piece n (fa x) 2 | 5 => piece n (fb x) 2 | 6 => piece n (fc x) 3 | _ => piece n (fd x) 3 end.
Proof.
  intros (La & Lb & Lc & Ld) Hk. unfold outer_flux.
  assert (P : forall v j, length v = 4 * n -> j < 4 -> length (piece n v j) = n) by (intros; eapply piece_length; eauto).
  apply vval_ext.
  - rewrite (piece_length n _ k 8); auto.
    + destruct k as [|[|[|[|[|[|[|[|k]]]]]]]]; try lia; symmetry; apply P; auto; lia.
    + rewrite !app_length, !P by (auto; lia). lia.
  - rewrite (piece_length n _ k 8); auto; [|rewrite !app_length, !P by (auto; lia); lia].
    intros i Hi. rewrite vval_piece by auto. rewrite !vval_app, !P by (auto; lia).
    destruct k as [|[|[|[|[|[|[|[|k]]]]]]]]; try lia;
      repeat match goal with |- context [?a <? n] => destruct (Nat.ltb_spec a n); try lia end; f_equal; lia.
Qed.

Lemma total_two n v : length v = 2 * n -> (total (2 * n) v = total n (firstn n v) + total n (skipn n v))%Qc.
Proof.
  intros L. unfold total. replace (2 * n) with (n + n) by lia. rewrite sum_app. f_equal; apply sum_ext; intros i Hi; unfold vval.
  - rewrite <- (firstn_skipn n v) at 1. rewrite app_nth1; [reflexivity|]. rewrite firstn_length. lia.
  - rewrite <- (firstn_skipn n v) at 1. rewrite app_nth2; rewrite firstn_length; [f_equal; lia|lia].
Qed.
Lemma total_piece2 n v k : (total (2 * n) (piece (2 * n) v k) = total n (piece n v (2 * k)) + total n (piece n v (2 * k + 1)))%Qc.
Proof.
  unfold total. replace (2 * n) with (n + n) by lia. rewrite sum_app. f_equal; apply sum_ext; intros i Hi; rewrite !vval_piece by lia; f_equal; lia.
Qed.

Lemma net_outer n G x : n <> 0 -> all4 (fun v => length v = 4 * n) x -> continuous n x ->
  net_flux (rect (2 * n) G) (outer_flux n x) =
  (net_flux (quarter n G false false) (fa x) + net_flux (quarter n G true false) (fb x) +
   net_flux (quarter n G false true) (fc x) + net_flux (quarter n G true true) (fd x))%Qc.
Proof.
  intros Hn L (C0 & C1 & C2 & C3). rewrite (net_flux_pieces (2 * n)) by reflexivity. rewrite !(net_flux_pieces n) by reflexivity.
  rewrite !total_piece2.
  change (2 * 0) with 0. change (2 * 1) with 2. change (2 * 2) with 4. change (2 * 3) with 6.
  change (0 + 1) with 1. change (2 + 1) with 3. change (4 + 1) with 5. change (6 + 1) with 7.
  rewrite !outer_pieces by (auto; lia).
  change (quarter n G false false) with (quarter n (rect (2 * n) G) false false). change (quarter n G true false) with (quarter n (rect (2 * n) G) true false).
  change (quarter n G false true) with (quarter n (rect (2 * n) G) false true). change (quarter n G true true) with (quarter n (rect (2 * n) G) true true).
  rewrite !(quarter_wx n), !(quarter_wy n) by auto. rewrite C0, C1, C2, C3. ring.
Qed.

(** ** Balance on one leaf *)
Lemma sum_telescope n F : sum n (fun i => F (S i) - F i)%Qc = (F n - F 0%nat)%Qc.
Proof. induction n as [|n IH]; cbn [sum]; [ring|]. rewrite IH. ring. Qed.

Lemma leaf_balance c b G n g f u : proper G -> gnx G = n -> gny G = n ->
  (forall x y, c_alpha c x y <> 0%Qc) -> (forall x y, c_beta c x y = b) ->
  fv_solution c G g f u -> (b * net_flux G (boundary_flux G g u))%Qc = leaf_source c G f u.
Proof.
  intros HP Ex Ey Ha Hb (Lu & H). pose proof (proper_widths G HP) as (Wx & Wy). destruct HP as (_ & _ & Nx & Ny).
  pose proof (ghost_of_ok G g u Nx Ny) as HG. set (E := ghost_of G g u) in *. specialize (H E HG).
  destruct HG as (Hc & Hwe & Hsn). rewrite Ex, Ey in Hc, Hwe, Hsn, H.
  set (fx := fun (j i : nat) => (b * ((E (Z.of_nat i) (Z.of_nat j) - E (Z.of_nat i - 1)%Z (Z.of_nat j)) / width_x G))%Qc).
  set (fy := fun (i j : nat) => (b * ((E (Z.of_nat i) (Z.of_nat j) - E (Z.of_nat i) (Z.of_nat j - 1)%Z) / width_y G))%Qc).
  assert (C : forall i j, i < n -> j < n ->
    (width_x G * width_y G * ((cell G f i j - c_lambda c (mid_x G i) (mid_y G j) * cell G u i j) / c_alpha c (mid_x G i) (mid_y G j)) =
     width_y G * (fx j (S i) - fx j i) + width_x G * (fy i (S j) - fy i j))%Qc).
  { intros i j Hi Hj. specialize (H i j Hi Hj). unfold elliptic in H. cbv zeta in H. rewrite !Hb in H.
    rewrite Hc in H by auto. rewrite <- H. unfold fx, fy.
    replace (Z.of_nat (S i)) with (Z.of_nat i + 1)%Z by lia. replace (Z.of_nat (S j)) with (Z.of_nat j + 1)%Z by lia.
    replace (Z.of_nat i + 1 - 1)%Z with (Z.of_nat i) by lia. replace (Z.of_nat j + 1 - 1)%Z with (Z.of_nat j) by lia.
    rewrite Hc by auto. field. repeat split; auto. }
  unfold leaf_source. rewrite Ex, Ey. cbv zeta.
  rewrite (sum_ext n _ (fun i => sum n (fun j => width_y G * (fx j (S i) - fx j i))%Qc + sum n (fun j => width_x G * (fy i (S j) - fy i j))%Qc)%Qc).
  2:{ intros i Hi. rewrite <- sum_plus. apply sum_ext. intros j Hj. apply C; auto. }
  rewrite sum_plus, sum_swap.
  rewrite (sum_ext n (fun j => sum n (fun i => width_y G * (fx j (S i) - fx j i))%Qc) (fun j => width_y G * (fx j n - fx j 0%nat))%Qc)
    by (intros; rewrite sum_scal_l, sum_telescope; reflexivity).
  rewrite (sum_ext n (fun i => sum n (fun j => width_x G * (fy i (S j) - fy i j))%Qc) (fun i => width_x G * (fy i n - fy i 0%nat))%Qc)
    by (intros; rewrite sum_scal_l, sum_telescope; reflexivity).
  unfold net_flux. rewrite Ex, Ey, Qcmult_plus_distr_r, <- !sum_scal_l.
  pose proof (vval_flux G n Ex Ey g u) as V. f_equal; apply sum_ext; intros k Hk.
  - unfold east at 1, west at 1. rewrite !V by lia. rewrite Ey.
    destruct (Nat.ltb_spec (n + k) n), (Nat.ltb_spec (n + k) (2 * n)), (Nat.ltb_spec k n); try lia.
    replace (n + k - n) with k by lia. unfold fx.
    destruct (Hwe k Hk) as (Q1 & Q2). apply half_eq in Q1, Q2.
    change (Z.of_nat 0 - 1)%Z with (-1)%Z. change (Z.of_nat 0) with 0%Z. rewrite Q1, Q2.
    replace (Z.of_nat n - 1)%Z with (Z.of_nat (n - 1)) by lia. rewrite Hc by lia.
    change 0%Z with (Z.of_nat 0). rewrite Hc by lia. field. split; auto. exact two_nz.
  - unfold north at 1, south at 1. rewrite !V by lia. rewrite Ex, Ey.
    destruct (Nat.ltb_spec (2 * n + n + k) n), (Nat.ltb_spec (2 * n + n + k) (2 * n)), (Nat.ltb_spec (2 * n + n + k) (3 * n)),
      (Nat.ltb_spec (2 * n + k) n), (Nat.ltb_spec (2 * n + k) (2 * n)), (Nat.ltb_spec (2 * n + k) (3 * n)); try lia.
    replace (2 * n + n + k - 3 * n) with k by lia. replace (2 * n + k - 2 * n) with k by lia. unfold fy.
    destruct (Hsn k Hk) as (Q1 & Q2). apply half_eq in Q1, Q2.
    change (Z.of_nat 0 - 1)%Z with (-1)%Z. change (Z.of_nat 0) with 0%Z. rewrite Q1, Q2.
    replace (Z.of_nat n - 1)%Z with (Z.of_nat (n - 1)) by lia. rewrite Hc by lia.
    change 0%Z with (Z.of_nat 0). rewrite Hc by lia. field. split; auto. exact two_nz.
Qed.

(** ** Balance on a quadtree *)
Lemma total_source_app c l l' us us' : length l = length us ->
  total_source c (l ++ l') (us ++ us') = (total_source c l us + total_source c l' us')%Qc.
Proof.
  unfold total_source. revert us. induction l as [|z l IH]; intros [|u us] L; try discriminate; cbn [app combine map fold_right]; [ring|].
  rewrite IH by (injection L; auto). ring.
Qed.
Lemma leaves_length m L s : forall g h U, glued m L s g h U -> length (leaves s) = length (map snd (leaf_values U)).
Proof.
  induction s as [G f|a IHa b IHb c IHc d IHd]; intros g h [g' u|z Ua Ub Uc Ud] H; try contradiction; [reflexivity|].
  cbn [glued] in H. destruct H as (_ & _ & H & A & B & C & D & _). cbn [leaves leaf_values]. rewrite !map_app, !app_length.
  rewrite (IHa _ _ _ A), (IHb _ _ _ B), (IHc _ _ _ C), (IHd _ _ _ D). reflexivity.
Qed.

Lemma quarter_orient n k G e t : n <> 0 -> k <> 0 -> oriented (rect k G) -> oriented (quarter n G e t).
Proof.
  intros Hn Hk (Hx & Hy & _). cbn [rect gxl gxu gyl gyu] in *.
  pose proof (half_between _ _ Hx) as (A & B). pose proof (half_between _ _ Hy) as (C & D).
  destruct e, t; repeat split; cbn [quarter gxl gxu gyl gyu gnx gny]; auto.
Qed.

Section Balance.
Context (m : nat) (Hm : m <> 0) (c : coefs) (b : Qc).
Context (Ha : forall x y, c_alpha c x y <> 0%Qc) (Hb : forall x y, c_beta c x y = b).
Context (L : leaf_relation).

Lemma balance s : forall G g h U, oriented (rect m G) -> tiled m G s ->
  (forall G f g u h, In (G, f) (leaves s) -> oriented G -> gnx G = m -> gny G = m -> length f = m * m -> length g = 4 * m ->
     L G f g u h -> fv_solution c G g f u /\ h = boundary_flux G g u) ->
  glued m L s g h U ->
  length h = 4 * (m * 2 ^ level s) /\
  (b * net_flux (rect (m * 2 ^ level s) G) h)%Qc = total_source c (leaves s) (map snd (leaf_values U)).
Proof.
  induction s as [G0 f|sa IHa sb IHb sc IHc sd IHd]; intros G g h [g' u|z Ua Ub Uc Ud] HO HT HL HG; try contradiction.
  - destruct HT as (-> & Lf). cbn [glued] in HG. destruct HG as (-> & Lg & HG).
    destruct (HL _ _ _ _ _ (or_introl eq_refl) HO eq_refl eq_refl Lf Lg HG) as (S & ->). cbn [level Nat.pow]. rewrite Nat.mul_1_r.
    split; [apply boundary_flux_length; reflexivity|].
    rewrite (leaf_balance c b (rect m G) m g f u (orp _ HO) eq_refl eq_refl Ha Hb S).
    unfold total_source. cbn [leaves leaf_values map combine fold_right fst snd]. ring.
  - destruct HT as (Ta & Tb & Tc & Td). cbn [glued] in HG. cbv zeta in HG.
    destruct HG as (Lg & Lz & H & Ga & Gb & Gc & Gd & HC & ->).
    pose proof (min_level_le sa sb sc sd) as (Ma & Mb & Mc & Md). set (l := min_level sa sb sc sd) in *. set (n := m * 2 ^ l) in *.
    assert (Nn : n <> 0) by (unfold n; apply pow_nz; exact Hm).
    assert (QO : forall e t, oriented (rect m (quarter m G e t))).
    { intros e t. apply (quarter_orient m m G e t Hm Hm HO). }
    assert (ina : forall z, In z (leaves sa) -> In z (leaves (QNode sa sb sc sd))) by (intros; cbn [leaves]; rewrite !in_app_iff; auto).
    assert (inb : forall z, In z (leaves sb) -> In z (leaves (QNode sa sb sc sd))) by (intros; cbn [leaves]; rewrite !in_app_iff; auto).
    assert (inc : forall z, In z (leaves sc) -> In z (leaves (QNode sa sb sc sd))) by (intros; cbn [leaves]; rewrite !in_app_iff; auto).
    assert (ind : forall z, In z (leaves sd) -> In z (leaves (QNode sa sb sc sd))) by (intros; cbn [leaves]; rewrite !in_app_iff; auto).
    destruct (IHa _ _ _ _ (QO _ _) Ta (fun G f g u h I => HL G f g u h (ina _ I)) Ga) as (La & Ea). destruct (IHb _ _ _ _ (QO _ _) Tb (fun G f g u h I => HL G f g u h (inb _ I)) Gb) as (Lb & Eb).
    destruct (IHc _ _ _ _ (QO _ _) Tc (fun G f g u h I => HL G f g u h (inc _ I)) Gc) as (Lc & Ec). destruct (IHd _ _ _ _ (QO _ _) Td (fun G f g u h I => HL G f g u h (ind _ I)) Gd) as (Ld & Ed).
    assert (El : m * 2 ^ level (QNode sa sb sc sd) = 2 * n).
    { cbn [level]. fold (min_level sa sb sc sd). fold l. unfold n. cbn [Nat.add Nat.pow]. lia. }
    rewrite El.
    set (x := Four _ _ _ _) in *.
    assert (LX : all4 (fun v => length v = 4 * n) x).
    { unfold x. repeat split; cbn [fa fb fc fd]; apply coarsen_by_length; unfold n; rewrite scale_level by auto; auto. }
    split; [rewrite outer_flux_length by exact LX; lia|].
    rewrite net_outer by auto. unfold x. cbn [fa fb fc fd].
    change (quarter n G false false) with (rect n (quarter m G false false)). change (quarter n G true false) with (rect n (quarter m G true false)).
    change (quarter n G false true) with (rect n (quarter m G false true)). change (quarter n G true true) with (rect n (quarter m G true true)).
    rewrite !net_coarsen_by by auto. unfold n. rewrite !scale_level by auto.
    cbn [leaves leaf_values]. rewrite !map_app.
    rewrite (total_source_app c (leaves sa)) by (eapply leaves_length; eauto).
    rewrite (total_source_app c (leaves sb)) by (eapply leaves_length; eauto).
    rewrite (total_source_app c (leaves sc)) by (eapply leaves_length; eauto).
    rewrite <- Ea, <- Eb, <- Ec, <- Ed. ring.
Qed.
End Balance.
