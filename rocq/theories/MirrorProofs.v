(** Mirrored problems. *)
From Verif Require Import Base VectorModel MatrixModel LinSpec HPSModel HPSSpec FVModel FVSpec GlobalSpec StageSpec AdaptSpec MirrorSpec.
From Verif Require Import MatProofs MatProofs2 LinProofs HPSProofs HPSProofs3 HPSProofs4 HPSStage2 HPSTree HPSTree2 HPSProps.
From Verif Require Import FVProofs FVProofs2 FVProofs3 FVMax FVJoin FVGlobal FVFish SymProofs AdaptProofs AdaptPlane AdaptEnd.
From Coq Require Import Lia.

(** ** Sides *)
Lemma sc_length r v : length (vscale r v) = length v.
Proof. unfold vscale. apply map_length. Qed.
Lemma vval_rev v i : i < length v -> vval (rev v) i = vval v (length v - 1 - i).
Proof. intros Hi. unfold vval. rewrite rev_nth by exact Hi. f_equal. lia. Qed.
Lemma firstn_rev2 n (v : list Qc) : length v = 2 * n -> firstn n (rev v) = rev (skipn n v).
Proof. intros L. rewrite firstn_rev. f_equal. f_equal. lia. Qed.
Lemma skipn_rev2 n (v : list Qc) : length v = 2 * n -> skipn n (rev v) = rev (firstn n v).
Proof. intros L. rewrite skipn_rev. f_equal. f_equal. lia. Qed.
Lemma firstn_scale n r v : firstn n (vscale r v) = vscale r (firstn n v).
Proof. unfold vscale. apply firstn_map. Qed.
Lemma skipn_scale n r v : skipn n (vscale r v) = vscale r (skipn n v).
Proof. unfold vscale. apply skipn_map. Qed.

Section Piece.
Context (n : nat) (v : list Qc) (L : length v = 4 * n).
Lemma p_len k : k < 4 -> length (piece n v k) = n.
Proof. intros Hk. eapply piece_length; eauto. Qed.
Lemma sym_data_length s : length (sym_data s n v) = 4 * n.
Proof. destruct s; unfold sym_data; rewrite !app_length, ?rev_length, !p_len by lia; lia. Qed.
Lemma sym_flux_length s : length (sym_flux s n v) = 4 * n.
Proof. destruct s; unfold sym_flux; rewrite !app_length, ?rev_length, ?sc_length, !p_len by lia; lia. Qed.
Lemma sym_data_piece s k : k < 4 -> piece n (sym_data s n v) k =
  match s with
  | Mirror => match k with 0 => piece n v 1 | 1 => piece n v 0 | 2 => rev (piece n v 2) | _ => rev (piece n v 3) end
  | Swap => match k with 0 => piece n v 2 | 1 => piece n v 3 | 2 => piece n v 0 | _ => piece n v 1 end
  end.
Proof.
  intros Hk. destruct s; unfold sym_data.
  - destruct (piece4 n (piece n v 1) (piece n v 0) (rev (piece n v 2)) (rev (piece n v 3))) as (A & B & C & D);
      rewrite ?rev_length; try (apply p_len; lia). destruct k as [|[|[|[|k]]]]; auto; lia.
  - destruct (piece4 n (piece n v 2) (piece n v 3) (piece n v 0) (piece n v 1)) as (A & B & C & D);
      try (apply p_len; lia). destruct k as [|[|[|[|k]]]]; auto; lia.
Qed.
Lemma sym_flux_piece s k : k < 4 -> piece n (sym_flux s n v) k =
  match s with
  | Mirror => match k with 0 => vscale (- (1)) (piece n v 1) | 1 => vscale (- (1)) (piece n v 0) | 2 => rev (piece n v 2) | _ => rev (piece n v 3) end
  | Swap => match k with 0 => piece n v 2 | 1 => piece n v 3 | 2 => piece n v 0 | _ => piece n v 1 end
  end.
Proof.
  intros Hk. destruct s; unfold sym_flux.
  - destruct (piece4 n (vscale (- (1)) (piece n v 1)) (vscale (- (1)) (piece n v 0)) (rev (piece n v 2)) (rev (piece n v 3))) as (A & B & C & D);
      rewrite ?rev_length, ?sc_length; try (apply p_len; lia). destruct k as [|[|[|[|k]]]]; auto; lia.
  - destruct (piece4 n (piece n v 2) (piece n v 3) (piece n v 0) (piece n v 1)) as (A & B & C & D);
      try (apply p_len; lia). destruct k as [|[|[|[|k]]]]; auto; lia.
Qed.
End Piece.

Lemma vv v i j : i = j -> vval v i = vval v j.
Proof. congruence. Qed.
Ltac vvs := repeat first [apply (f_equal2 Qcplus) | apply (f_equal2 Qcmult) | (apply vv; lia) | reflexivity].
Lemma refine_rev c v : 3 <= c -> length v = c -> refine_side c (rev v) = rev (refine_side c v).
Proof.
  intros Hc L. apply vval_ext; [rewrite rev_length, !refine_side_length; reflexivity|]. rewrite refine_side_length. intros i Hi.
  rewrite vval_rev by (rewrite refine_side_length; exact Hi). rewrite refine_side_length. unfold refine_side.
  rewrite !vval_map_seq by lia. unfold fine_value. subst c.
  destruct (Nat.eqb_spec i 0) as [->|N0].
  { replace (2 * length v - 1 - 0) with (2 * length v - 1) by lia. destruct (Nat.eqb_spec (2 * length v - 1) 0); [lia|].
    rewrite Nat.eqb_refl. rewrite !vval_rev by lia. vvs. }
  destruct (Nat.eqb_spec i (2 * length v - 1)) as [->|N1].
  { replace (2 * length v - 1 - (2 * length v - 1)) with 0 by lia. cbn [Nat.eqb]. rewrite !vval_rev by lia. vvs. }
  destruct (Nat.eqb_spec (2 * length v - 1 - i) 0); [lia|]. destruct (Nat.eqb_spec (2 * length v - 1 - i) (2 * length v - 1)); [lia|].
  destruct (Nat.Even_or_Odd i) as [(j & Ej)|(j & Ej)].
  - assert (O1 : Nat.odd i = false) by (rewrite Ej, Nat.odd_mul; reflexivity).
    assert (O2 : Nat.odd (2 * length v - 1 - i) = true).
    { replace (2 * length v - 1 - i) with (1 + 2 * (length v - 1 - j)) by lia. rewrite Nat.odd_add_mul_2. reflexivity. }
    assert (D1 : i / 2 = j) by (rewrite Ej, Nat.mul_comm, Nat.div_mul; lia).
    assert (D2 : (2 * length v - 1 - i) / 2 = length v - 1 - j).
    { replace (2 * length v - 1 - i) with (1 + (length v - 1 - j) * 2) by lia. rewrite Nat.div_add by lia. reflexivity. }
    rewrite O1, O2, D1, D2. rewrite !vval_rev by lia. vvs.
  - assert (O1 : Nat.odd i = true) by (replace i with (1 + 2 * j) by lia; rewrite Nat.odd_add_mul_2; reflexivity).
    assert (O2 : Nat.odd (2 * length v - 1 - i) = false).
    { replace (2 * length v - 1 - i) with (2 * (length v - 1 - j)) by lia. rewrite Nat.odd_mul. reflexivity. }
    assert (D1 : i / 2 = j) by (replace i with (1 + j * 2) by lia; rewrite Nat.div_add by lia; reflexivity).
    assert (D2 : (2 * length v - 1 - i) / 2 = length v - 1 - j).
    { replace (2 * length v - 1 - i) with ((length v - 1 - j) * 2) by lia. rewrite Nat.div_mul; lia. }
    rewrite O1, O2, D1, D2. rewrite !vval_rev by lia. vvs.
Qed.
Lemma coarsen_rev c v : length v = 2 * c -> coarsen_side c (rev v) = rev (coarsen_side c v).
Proof.
  intros L. apply vval_ext; [rewrite rev_length, !coarsen_side_length; reflexivity|]. rewrite coarsen_side_length. intros i Hi.
  rewrite vval_rev by (rewrite coarsen_side_length; exact Hi). rewrite coarsen_side_length. unfold coarsen_side.
  rewrite !vval_map_seq by lia. rewrite !vval_rev by lia. rewrite L.
  replace (2 * c - 1 - 2 * i) with (2 * (c - 1 - i) + 1) by lia. replace (2 * c - 1 - (2 * i + 1)) with (2 * (c - 1 - i)) by lia. ring.
Qed.
Lemma coarsen_scale c r v : coarsen_side c (vscale r v) = vscale r (coarsen_side c v).
Proof.
  apply vval_ext; [rewrite sc_length, !coarsen_side_length; reflexivity|]. rewrite coarsen_side_length. intros i Hi.
  rewrite vval_scale. unfold coarsen_side. rewrite !vval_map_seq by lia. rewrite !vval_scale. ring.
Qed.

Lemma cat4 (a b c d a' b' c' d' : list Qc) : a = a' -> b = b' -> c = c' -> d = d' -> a ++ b ++ c ++ d = a' ++ b' ++ c' ++ d'.
Proof. congruence. Qed.
Lemma refine4_piece n v k : k < 4 -> piece (2 * n) (refine4 n v) k = refine_side n (piece n v k).
Proof. intros Hk. unfold refine4. apply (piece_concat4 (2 * n) (fun k => refine_side n (piece n v k))); auto. intros. apply refine_side_length. Qed.
Lemma coarsen4_piece n v k : k < 4 -> piece n (coarsen4 n v) k = coarsen_side n (piece (2 * n) v k).
Proof. intros Hk. unfold coarsen4. apply (piece_concat4 n (fun k => coarsen_side n (piece (2 * n) v k))); auto. intros. apply coarsen_side_length. Qed.

Lemma refine4_sym s n g : 3 <= n -> length g = 4 * n -> refine4 n (sym_data s n g) = sym_data s (2 * n) (refine4 n g).
Proof.
  intros Hn L. unfold refine4 at 1. cbn [map concat]. rewrite app_nil_r. rewrite !(sym_data_piece n g L) by lia.
  destruct s; unfold sym_data; apply cat4; rewrite !refine4_piece by lia; try reflexivity; apply refine_rev; auto; apply (p_len n g L); lia.
Qed.
Lemma coarsen4_sym s n h : length h = 4 * (2 * n) -> coarsen4 n (sym_flux s (2 * n) h) = sym_flux s n (coarsen4 n h).
Proof.
  intros L. unfold coarsen4 at 1. cbn [map concat]. rewrite app_nil_r. rewrite !(sym_flux_piece (2 * n) h L) by lia.
  destruct s; unfold sym_flux; apply cat4; rewrite !coarsen4_piece by lia; rewrite ?coarsen_scale; try reflexivity;
    apply coarsen_rev; apply (p_len (2 * n) h L); lia.
Qed.
Lemma refine_by_sym s k : forall n g, 3 <= n \/ k = 0 -> length g = 4 * n ->
  refine_by k n (sym_data s n g) = sym_data s (n * 2 ^ k) (refine_by k n g).
Proof.
  induction k as [|k IH]; intros n g Hn L; cbn [refine_by]; [cbn [Nat.pow]; rewrite Nat.mul_1_r; reflexivity|].
  destruct Hn as [Hn|]; [|discriminate]. rewrite refine4_sym by auto. rewrite IH by (try apply refine4_length; lia).
  f_equal. cbn [Nat.pow]. lia.
Qed.
Lemma coarsen_by_sym s k : forall n h, length h = 4 * (n * 2 ^ k) ->
  coarsen_by k n (sym_flux s (n * 2 ^ k) h) = sym_flux s n (coarsen_by k n h).
Proof.
  induction k as [|k IH]; intros n h L; cbn [coarsen_by]; [cbn [Nat.pow]; rewrite Nat.mul_1_r; reflexivity|].
  assert (E : n * 2 ^ S k = 2 * n * 2 ^ k) by (cbn [Nat.pow]; lia). rewrite E in *. rewrite IH by exact L.
  apply coarsen4_sym. apply coarsen_by_length. exact L.
Qed.

(** ** Four patches side by side *)
Definition sym_z (s : symmetry) (n : nat) (z : list Qc) : list Qc :=
  match s with
  | Mirror => rev (piece n z 1) ++ rev (piece n z 0) ++ piece n z 2 ++ piece n z 3
  | Swap => piece n z 2 ++ piece n z 3 ++ piece n z 0 ++ piece n z 1
  end.
Definition map4 {A B} (f : A -> B) (x : four A) : four B := Four (f (fa x)) (f (fb x)) (f (fc x)) (f (fd x)).

Lemma sym_z_piece s n z k : length z = 4 * n -> k < 4 -> piece n (sym_z s n z) k =
  match s with
  | Mirror => match k with 0 => rev (piece n z 1) | 1 => rev (piece n z 0) | 2 => piece n z 2 | _ => piece n z 3 end
  | Swap => match k with 0 => piece n z 2 | 1 => piece n z 3 | 2 => piece n z 0 | _ => piece n z 1 end
  end.
Proof.
  intros L Hk. destruct s; unfold sym_z.
  - destruct (piece4 n (rev (piece n z 1)) (rev (piece n z 0)) (piece n z 2) (piece n z 3)) as (A & B & C & D);
      rewrite ?rev_length; try (apply p_len; auto; lia). destruct k as [|[|[|[|k]]]]; auto; lia.
  - destruct (piece4 n (piece n z 2) (piece n z 3) (piece n z 0) (piece n z 1)) as (A & B & C & D);
      try (apply p_len; auto; lia). destruct k as [|[|[|[|k]]]]; auto; lia.
Qed.
Lemma sym_z_length s n z : length z = 4 * n -> length (sym_z s n z) = 4 * n.
Proof. intros L. destruct s; unfold sym_z; rewrite !app_length, ?rev_length, !(p_len n z L) by lia; lia. Qed.

Lemma even_piece n v k : k < 4 -> length v = 4 * (2 * n) -> piece n v (2 * k) = firstn n (piece (2 * n) v k) /\ piece n v (2 * k + 1) = skipn n (piece (2 * n) v k).
Proof. intros Hk L. split; [apply piece_half|]. apply (piece_half' n v k 4); auto. Qed.

Lemma halves n v : length v = 4 * (2 * n) ->
  piece n v 0 = firstn n (piece (2 * n) v 0) /\ piece n v 1 = skipn n (piece (2 * n) v 0) /\
  piece n v 2 = firstn n (piece (2 * n) v 1) /\ piece n v 3 = skipn n (piece (2 * n) v 1) /\
  piece n v 4 = firstn n (piece (2 * n) v 2) /\ piece n v 5 = skipn n (piece (2 * n) v 2) /\
  piece n v 6 = firstn n (piece (2 * n) v 3) /\ piece n v 7 = skipn n (piece (2 * n) v 3).
Proof.
  intros L. pose proof (even_piece n v 0 ltac:(lia) L). pose proof (even_piece n v 1 ltac:(lia) L).
  pose proof (even_piece n v 2 ltac:(lia) L). pose proof (even_piece n v 3 ltac:(lia) L). tauto.
Qed.
Lemma children_sym s n g z : length g = 4 * (2 * n) -> length z = 4 * n ->
  children_data n (sym_data s (2 * n) g) (sym_z s n z) = sym_four s (map4 (sym_data s n) (children_data n g z)).
Proof.
  intros Lg Lz. unfold children_data at 1. rewrite !(sym_z_piece s n z) by (auto; lia).
  pose proof (sym_data_length (2 * n) g Lg s) as L'.
  destruct (halves n _ L') as (A0 & A1 & A2 & A3 & A4 & A5 & A6 & A7). rewrite A0, A1, A2, A3, A4, A5, A6, A7.
  destruct (halves n _ Lg) as (B0 & B1 & B2 & B3 & B4 & B5 & B6 & B7).
  assert (PL : forall k, k < 8 -> length (piece n g k) = n) by (intros k Hk; eapply piece_length; [|exact Hk]; lia).
  assert (ZL : forall k, k < 4 -> length (piece n z k) = n) by (intros k Hk; eapply piece_length; [|exact Hk]; lia).
  assert (P4 : forall (a b c d : list Qc), length a = n -> length b = n -> length c = n -> length d = n ->
    sym_data s n (a ++ b ++ c ++ d) = match s with Mirror => b ++ a ++ rev c ++ rev d | Swap => c ++ d ++ a ++ b end).
  { intros a b c d La Lb Lc Ld. destruct (piece4 n a b c d) as (Q0 & Q1 & Q2 & Q3); auto.
    destruct s; unfold sym_data; rewrite Q0, Q1, Q2, Q3; reflexivity. }
  rewrite !(sym_data_piece (2 * n) g Lg) by lia.
  unfold map4, children_data. cbn [fa fb fc fd]. rewrite !P4 by (first [apply PL; lia|apply ZL; lia]).
  pose proof (fun k Hk => p_len (2 * n) g Lg k Hk) as HL.
  destruct s; unfold sym_four; cbn [fa fb fc fd].
  - rewrite !firstn_rev2, !skipn_rev2 by (apply HL; lia). rewrite <- B0, <- B1, <- B2, <- B3, <- B4, <- B5, <- B6, <- B7. reflexivity.
  - rewrite <- B0, <- B1, <- B2, <- B3, <- B4, <- B5, <- B6, <- B7. reflexivity.
Qed.

Lemma vscale_inj a b : vscale (- (1)) a = vscale (- (1)) b -> a = b.
Proof.
  intros E. assert (L : length a = length b) by (rewrite <- (sc_length (- (1))%Qc a), E; apply sc_length).
  apply vval_ext; [exact L|]. intros i _. pose proof (f_equal (fun v => vval v i) E) as Q. cbv beta in Q. rewrite !vval_scale in Q.
  replace (vval a i) with (- (- (1) * vval a i))%Qc by ring. rewrite Q. ring.
Qed.

Lemma continuous_sym s n h : all4 (fun v => length v = 4 * n) h -> continuous n h -> continuous n (sym_four s (map4 (sym_flux s n) h)).
Proof.
  intros (La & Lb & Lc & Ld) (C1 & C2 & C3 & C4). unfold continuous, map4.
  destruct s; cbn [sym_four fa fb fc fd];
    rewrite !(sym_flux_piece n (fa h) La), !(sym_flux_piece n (fb h) Lb), !(sym_flux_piece n (fc h) Lc), !(sym_flux_piece n (fd h) Ld) by lia.
  - rewrite C1, C2, C3, C4. auto.
  - rewrite C1, C2, C3, C4. auto.
Qed.
Lemma outer_sym s n h : all4 (fun v => length v = 4 * n) h ->
  outer_flux n (sym_four s (map4 (sym_flux s n) h)) = sym_flux s (2 * n) (outer_flux n h).
Proof.
  intros (La & Lb & Lc & Ld).
  assert (PA : forall k, k < 4 -> length (piece n (fa h) k) = n) by (apply p_len; exact La).
  assert (PB : forall k, k < 4 -> length (piece n (fb h) k) = n) by (apply p_len; exact Lb).
  assert (PC : forall k, k < 4 -> length (piece n (fc h) k) = n) by (apply p_len; exact Lc).
  assert (PD : forall k, k < 4 -> length (piece n (fd h) k) = n) by (apply p_len; exact Ld).
  assert (E : outer_flux n h = (piece n (fa h) 0 ++ piece n (fc h) 0) ++ (piece n (fb h) 1 ++ piece n (fd h) 1) ++
    (piece n (fa h) 2 ++ piece n (fb h) 2) ++ (piece n (fc h) 3 ++ piece n (fd h) 3)) by (unfold outer_flux; rewrite <- !app_assoc; reflexivity).
  destruct (piece4 (2 * n) (piece n (fa h) 0 ++ piece n (fc h) 0) (piece n (fb h) 1 ++ piece n (fd h) 1)
    (piece n (fa h) 2 ++ piece n (fb h) 2) (piece n (fc h) 3 ++ piece n (fd h) 3)) as (Q0 & Q1 & Q2 & Q3);
    try (rewrite app_length, ?PA, ?PB, ?PC, ?PD by lia; lia). rewrite <- E in Q0, Q1, Q2, Q3.
  unfold outer_flux at 1, map4. destruct s; cbn [sym_four fa fb fc fd];
    rewrite !(sym_flux_piece n (fa h) La), !(sym_flux_piece n (fb h) Lb), !(sym_flux_piece n (fc h) Lc), !(sym_flux_piece n (fd h) Ld) by lia;
    unfold sym_flux; rewrite Q0, Q1, Q2, Q3.
  - rewrite !rev_app_distr. unfold vscale. rewrite !map_app, <- !app_assoc. reflexivity.
  - rewrite <- !app_assoc. reflexivity.
Qed.

Lemma pieces_ext n v w : length v = 4 * n -> length w = 4 * n ->
  (forall i, i < n -> vval (piece n v 0) i = vval (piece n w 0) i /\ vval (piece n v 1) i = vval (piece n w 1) i /\
                      vval (piece n v 2) i = vval (piece n w 2) i /\ vval (piece n v 3) i = vval (piece n w 3) i) -> v = w.
Proof.
  intros Lv Lw H. apply vval_ext; [congruence|]. rewrite Lv. intros k Hk.
  assert (Q : forall i, i < n -> vval v i = vval w i /\ vval v (n + i) = vval w (n + i) /\ vval v (2 * n + i) = vval w (2 * n + i) /\ vval v (3 * n + i) = vval w (3 * n + i)).
  { intros i Hi. pose proof (H i Hi) as A. rewrite !vval_piece in A by exact Hi. rewrite Nat.mul_0_l, Nat.mul_1_l in A. exact A. }
  destruct (lt_dec k n); [apply (Q k); auto|]. destruct (lt_dec k (2 * n)).
  { destruct (Q (k - n)) as (_ & E & _); [lia|]. replace (n + (k - n)) with k in E by lia. exact E. }
  destruct (lt_dec k (3 * n)).
  { destruct (Q (k - 2 * n)) as (_ & _ & E & _); [lia|]. replace (2 * n + (k - 2 * n)) with k in E by lia. exact E. }
  destruct (Q (k - 3 * n)) as (_ & _ & _ & E); [lia|]. replace (3 * n + (k - 3 * n)) with k in E by lia. exact E.
Qed.

(** ** One leaf *)
Lemma sym_cells_length s n u : length (sym_cells s n u) = n * n.
Proof. unfold sym_cells. rewrite map_length, seq_length. reflexivity. Qed.
Lemma sym_grid_twice s G : sym_grid s (sym_grid s G) = G.
Proof. destruct s, G as [a b c d e f]; cbn; [|reflexivity]. f_equal; ring. Qed.
Lemma sym_coefs_flip s c c' : sym_coefs s c c' -> sym_coefs s c' c.
Proof.
  intros H x y. cbv zeta. destruct s; cbn [sym_point fst snd].
  - pose proof (H (- x)%Qc y) as Q. cbv zeta in Q. cbn [sym_point fst snd] in Q. replace (- - x)%Qc with x in Q by ring. intuition auto.
  - pose proof (H y x) as Q. cbv zeta in Q. cbn [sym_point fst snd] in Q. intuition auto.
Qed.
Lemma sym_signs s c c' : sym_coefs s c c' -> right_signs c -> right_signs c'.
Proof.
  intros H HS x y. pose proof (sym_coefs_flip _ _ _ H x y) as Q. cbv zeta in Q.
  destruct (HS (fst (sym_point s x y)) (snd (sym_point s x y))) as (A & B & C). destruct Q as (E1 & E2 & E3).
  rewrite E1 in A, C. rewrite E2 in B. rewrite E3 in C. auto.
Qed.
Lemma sym_oriented s G : oriented G -> oriented (sym_grid s G).
Proof.
  intros (A & B & C & D). destruct s; unfold oriented, sym_grid; cbn [gnx gny gxl gxu gyl gyu]; auto.
  split; [|auto]. apply Qclt_minus_iff. replace (- gxl G + - - gxu G)%Qc with (gxu G + - gxl G)%Qc by ring.
  apply (proj1 (Qclt_minus_iff _ _)). exact A.
Qed.

Section Leaf.
Context (s : symmetry) (c c' : coefs) (G : grid) (n : nat) (HC : sym_coefs s c c') (HP : oriented G).
Context (Ex : gnx G = n) (Ey : gny G = n).
Notation G' := (sym_grid s G).

Let Nn : n <> 0. Proof. destruct HP as (_ & _ & H & _). rewrite Ex in H. exact H. Qed.
Lemma sgx : gnx G' = n.
Proof using Ex Ey. clear HC. destruct s; cbn; auto. Qed.
Lemma sgy : gny G' = n.
Proof using Ex Ey. clear HC. destruct s; cbn; auto. Qed.

Lemma cell_sym u i j : i < n -> j < n -> cell G' (sym_cells s n u) i j = match s with Mirror => cell G u (n - 1 - i) j | Swap => cell G u j i end.
Proof using Ex Ey HP. clear HC.
  intros Hi Hj. unfold cell, sym_cells. rewrite sgy, Ey. rewrite vval_map_seq by nia.
  rewrite Nat.div_add, Nat.mod_add by exact Nn. rewrite Nat.div_small, Nat.mod_small by exact Hj. destruct s; f_equal; lia.
Qed.

Lemma side_pieces G0 v i : gnx G0 = n -> gny G0 = n -> i < n -> west G0 v i = vval (piece n v 0) i /\ east G0 v i = vval (piece n v 1) i /\
  south G0 v i = vval (piece n v 2) i /\ north G0 v i = vval (piece n v 3) i.
Proof.
  intros E1 E2 Hi. unfold west, east, south, north. rewrite E1, E2, !vval_piece by exact Hi. repeat split; f_equal; lia.
Qed.
Lemma sides_sym g i : length g = 4 * n -> i < n ->
  west G' (sym_data s n g) i = match s with Mirror => east G g i | Swap => south G g i end /\
  east G' (sym_data s n g) i = match s with Mirror => west G g i | Swap => north G g i end /\
  south G' (sym_data s n g) i = match s with Mirror => south G g (n - 1 - i) | Swap => west G g i end /\
  north G' (sym_data s n g) i = match s with Mirror => north G g (n - 1 - i) | Swap => east G g i end.
Proof using Ex Ey HP. clear HC.
  intros Lg Hi. destruct (side_pieces G' (sym_data s n g) i sgx sgy Hi) as (-> & -> & -> & ->).
  rewrite !(sym_data_piece n g Lg) by lia. destruct (side_pieces G g i Ex Ey Hi) as (A & B & C & D).
  destruct (side_pieces G g (n - 1 - i) Ex Ey) as (A' & B' & C' & D'); [lia|].
  destruct s; rewrite ?A, ?B, ?C, ?D, ?A', ?B', ?C', ?D'; [|auto].
  rewrite !vval_rev by (rewrite p_len; auto). rewrite !p_len by auto. auto.
Qed.

Lemma sym_width_x : width_x G' = match s with Mirror => width_x G | Swap => width_y G end.
Proof using. clear HC. destruct s; [|reflexivity]. unfold width_x. cbn [sym_grid gnx gxu gxl]. f_equal. ring. Qed.
Lemma sym_width_y : width_y G' = match s with Mirror => width_y G | Swap => width_x G end.
Proof using. clear HC. destruct s; reflexivity. Qed.
Lemma sym_face_x i : i <= n -> face_x G' i = match s with Mirror => (- face_x G (n - i))%Qc | Swap => face_y G i end.
Proof using Ex Ey HP. clear HC.
  intros Hi. unfold face_x. rewrite sym_width_x. destruct s; [|reflexivity]. cbn [sym_grid gxl].
  assert (W : (gxu G = gxl G + Qc_of_nat n * width_x G)%Qc).
  { unfold width_x. rewrite Ex. field. apply Qc_of_nat_nz; auto. }
  rewrite W. assert (S : (Qc_of_nat n = Qc_of_nat (n - i) + Qc_of_nat i)%Qc) by (rewrite <- Qc_of_nat_add; f_equal; lia).
  rewrite S. ring.
Qed.
Lemma sym_face_y i : face_y G' i = match s with Mirror => face_y G i | Swap => face_x G i end.
Proof using. clear HC. destruct s; reflexivity. Qed.
Lemma sym_mid_x i : i < n -> mid_x G' i = match s with Mirror => (- mid_x G (n - 1 - i))%Qc | Swap => mid_y G i end.
Proof using Ex Ey HP. clear HC.
  intros Hi. unfold mid_x, mid_y. rewrite !sym_face_x by lia. destruct s; [|reflexivity].
  replace (n - 1 - i) with (n - S i) by lia. replace (S (n - S i)) with (n - i) by lia. field. apply two_nz.
Qed.
Lemma sym_mid_y i : mid_y G' i = match s with Mirror => mid_y G i | Swap => mid_x G i end.
Proof using. clear HC. destruct s; reflexivity. Qed.

Lemma sym_solution_leaf g f u : length g = 4 * n -> fv_solution c G g f u ->
  fv_solution c' G' (sym_data s n g) (sym_cells s n f) (sym_cells s n u).
Proof.
  intros Lg (Lu & H). split; [rewrite sym_cells_length, sgx, sgy; reflexivity|].
  intros E (Hc & Hwe & Hsn) i j Hi Hj. rewrite sgx in Hi. rewrite sgy in Hj. rewrite ?sgx, ?sgy in *.
  set (E' := match s with Mirror => fun I J => E (Z.of_nat n - 1 - I)%Z J | Swap => fun I J => E J I end).
  assert (Rv : forall k, k < n -> (Z.of_nat n - 1 - Z.of_nat k)%Z = Z.of_nat (n - 1 - k)) by lia.
  assert (HG : ghosts G g u E').
  { split; [|split]; rewrite ?Ex, ?Ey in *; pose proof (sides_sym g) as SS; pose proof (cell_sym u) as CS; pose proof HC as HC0; clear HC; destruct s.
    - intros a b Ha Hb. unfold E'. rewrite Rv by auto. rewrite Hc by lia. rewrite CS by lia. f_equal. lia.
    - intros a b Ha Hb. unfold E'. rewrite Hc by lia. rewrite CS by lia. reflexivity.
    - intros b Hb. destruct (Hwe b Hb) as (Q1 & Q2). destruct (SS b Lg Hb) as (F1 & F2 & _). rewrite F1 in Q1. rewrite F2 in Q2. unfold E'.
      replace (Z.of_nat n - 1 - -1)%Z with (Z.of_nat n) by lia. replace (Z.of_nat n - 1 - 0)%Z with (Z.of_nat n - 1)%Z by lia.
      replace (Z.of_nat n - 1 - Z.of_nat n)%Z with (-1)%Z by lia. replace (Z.of_nat n - 1 - (Z.of_nat n - 1))%Z with 0%Z by lia. auto.
    - intros b Hb. destruct (Hsn b Hb) as (Q1 & Q2). destruct (SS b Lg Hb) as (_ & _ & F3 & F4). rewrite F3 in Q1. rewrite F4 in Q2. unfold E'. auto.
    - intros a Ha. destruct (Hsn (n - 1 - a)) as (Q1 & Q2); [lia|]. destruct (SS (n - 1 - a) Lg) as (_ & _ & F3 & F4); [lia|].
      rewrite F3 in Q1. rewrite F4 in Q2. unfold E'. rewrite Rv by auto. replace (n - 1 - (n - 1 - a)) with a in * by lia. auto.
    - intros b Hb. destruct (Hwe b Hb) as (Q1 & Q2). destruct (SS b Lg Hb) as (F1 & F2 & _). rewrite F1 in Q1. rewrite F2 in Q2. unfold E'. auto. }
  rewrite cell_sym by auto. unfold elliptic. cbv zeta. rewrite !sym_mid_x, !sym_face_x, sym_mid_y, !sym_face_y, sym_width_x, sym_width_y by lia.
  clear Hc Hwe Hsn. pose proof HC as HC0. clear HC. unfold E' in *. clear E'. destruct s.
  - assert (Hi' : n - 1 - i < gnx G) by lia. assert (Hj' : j < gny G) by lia. rewrite <- (H _ HG (n - 1 - i) j Hi' Hj').
    assert (HA : forall x y, c_alpha c' (- x)%Qc y = c_alpha c x y) by (intros x y; apply (HC0 x y)).
    assert (HB : forall x y, c_beta c' (- x)%Qc y = c_beta c x y) by (intros x y; apply (HC0 x y)).
    assert (HLm : forall x y, c_lambda c' (- x)%Qc y = c_lambda c x y) by (intros x y; apply (HC0 x y)).
    unfold elliptic. cbv zeta. rewrite HA, HLm, !HB. replace (S (n - 1 - i)) with (n - i) by lia. replace (n - 1 - i) with (n - S i) by lia.
    replace (Z.of_nat n - 1 - (Z.of_nat (n - S i) + 1))%Z with (Z.of_nat i - 1)%Z by lia.
    replace (Z.of_nat n - 1 - (Z.of_nat (n - S i) - 1))%Z with (Z.of_nat i + 1)%Z by lia. replace (Z.of_nat n - 1 - Z.of_nat (n - S i))%Z with (Z.of_nat i) by lia.
    unfold Qcdiv. ring.
  - assert (Hi' : i < gny G) by lia. assert (Hj' : j < gnx G) by lia. rewrite <- (H _ HG j i Hj' Hi').
    assert (HA : forall x y, c_alpha c' y x = c_alpha c x y) by (intros x y; apply (HC0 x y)).
    assert (HB : forall x y, c_beta c' y x = c_beta c x y) by (intros x y; apply (HC0 x y)).
    assert (HLm : forall x y, c_lambda c' y x = c_lambda c x y) by (intros x y; apply (HC0 x y)).
    unfold elliptic. cbv zeta. rewrite HA, HLm, !HB. unfold Qcdiv. ring.
Qed.

Lemma sym_flux_leaf g u : length g = 4 * n -> boundary_flux G' (sym_data s n g) (sym_cells s n u) = sym_flux s n (boundary_flux G g u).
Proof using Ex Ey HP. clear HC.
  intros Lg. pose proof (boundary_flux_length G n Ex Ey g u) as BL.
  apply (pieces_ext n); [apply (boundary_flux_length G' n sgx sgy)|apply sym_flux_length; exact BL|].
  intros i Hi. destruct (side_pieces G' (boundary_flux G' (sym_data s n g) (sym_cells s n u)) i sgx sgy Hi) as (<- & <- & <- & <-).
  rewrite !(sym_flux_piece n _ BL) by lia.
  assert (Hx : i < gnx G') by (rewrite sgx; exact Hi). assert (Hy : i < gny G') by (rewrite sgy; exact Hi).
  destruct (flux_we G' (sym_data s n g) (sym_cells s n u) i Hy) as (-> & ->). destruct (flux_sn G' (sym_data s n g) (sym_cells s n u) i Hx) as (-> & ->).
  destruct (sides_sym g i Lg Hi) as (-> & -> & -> & ->). rewrite sym_width_x, sym_width_y, sgx, sgy, !cell_sym by lia.
  assert (PL : forall k, k < 4 -> length (piece n (boundary_flux G g u) k) = n) by (apply p_len; exact BL).
  assert (Hx1 : i < gnx G) by lia. assert (Hy1 : i < gny G) by lia. assert (Hk : n - 1 - i < gnx G) by lia.
  destruct (side_pieces G (boundary_flux G g u) i Ex Ey Hi) as (A & B & C & D).
  destruct (side_pieces G (boundary_flux G g u) (n - 1 - i) Ex Ey) as (A' & B' & C' & D'); [lia|].
  destruct s.
  - rewrite !vval_scale, !vval_rev, !PL by (rewrite ?PL; lia). rewrite <- A, <- B, <- C', <- D'.
    destruct (flux_we G g u i Hy1) as (-> & ->). destruct (flux_sn G g u _ Hk) as (-> & ->). rewrite Ex, Ey.
    replace (n - 1 - 0) with (n - 1) by lia. replace (n - 1 - (n - 1)) with 0 by lia. repeat split; unfold Qcdiv; ring.
  - rewrite <- A, <- B, <- C, <- D. destruct (flux_we G g u i Hy1) as (-> & ->). destruct (flux_sn G g u i Hx1) as (-> & ->). rewrite Ex, Ey. auto.
Qed.
End Leaf.

(** ** Quadtrees *)
Fixpoint sym_solution (s : symmetry) (m : nat) (U : solution) : solution :=
  match U with
  | SLeaf g u => SLeaf (sym_data s m g) (sym_cells s m u)
  | SNode z a b c d =>
      let z' := sym_z s (length z / 4) z in
      match s with
      | Mirror => SNode z' (sym_solution s m b) (sym_solution s m a) (sym_solution s m d) (sym_solution s m c)
      | Swap => SNode z' (sym_solution s m a) (sym_solution s m c) (sym_solution s m b) (sym_solution s m d)
      end
  end.
Fixpoint srel (s : symmetry) (R : grid -> list Qc -> grid -> list Qc -> Prop) (q q' : qtree) : Prop :=
  match q, q' with
  | QLeaf G f, QLeaf G' f' => R G f G' f'
  | QNode a b c d, QNode a' b' c' d' =>
      match s with
      | Mirror => srel s R a b' /\ srel s R b a' /\ srel s R c d' /\ srel s R d c'
      | Swap => srel s R a a' /\ srel s R b c' /\ srel s R c b' /\ srel s R d d'
      end
  | _, _ => False
  end.

Lemma srel_level s R q : forall q', srel s R q q' -> level q' = level q.
Proof.
  induction q as [G f|a IHa b IHb c IHc d IHd]; intros [G' f'|a' b' c' d']; cbn [srel]; try tauto.
  destruct s; intros (A & B & C & D); cbn [level]; rewrite <- (IHa _ A), <- (IHb _ B), <- (IHc _ C), <- (IHd _ D); lia.
Qed.
Lemma srel_equal s R q : forall q', srel s R q q' -> equal_levels q -> equal_levels q'.
Proof.
  induction q as [G f|a IHa b IHb c IHc d IHd]; intros [G' f'|a' b' c' d']; cbn [srel]; try tauto.
  destruct s; intros (A & B & C & D); cbn [equal_levels];
    rewrite (srel_level _ _ _ _ A), (srel_level _ _ _ _ B), (srel_level _ _ _ _ C), (srel_level _ _ _ _ D); intros H;
    decompose [and] H; repeat split; eauto; congruence.
Qed.
Lemma srel_flip s R q : forall q', srel s R q q' -> srel s (fun G' f' G f => R G f G' f') q' q.
Proof.
  induction q as [G f|a IHa b IHb c IHc d IHd]; intros [G' f'|a' b' c' d']; cbn [srel]; try tauto.
  destruct s; intros (A & B & C & D); auto.
Qed.
Lemma srel_sub s R q : forall q' x', srel s R q q' -> subtree x' q' -> exists x, subtree x q /\ srel s R x x'.
Proof.
  induction q as [G f|a IHa b IHb c IHc d IHd]; intros [G' f'|a' b' c' d'] x'; cbn [srel]; try tauto.
  - intros H [E|[]]. subst x'. exists (QLeaf G f). split; [left; reflexivity|exact H].
  - intros H0 [E|HS].
    + subst x'. exists (QNode a b c d). split; [left; reflexivity|exact H0].
    + assert (Q : forall k k', srel s R k k' -> (forall q' x', srel s R k q' -> subtree x' q' -> exists x, subtree x k /\ srel s R x x') ->
        subtree x' k' -> (forall x, subtree x k -> subtree x (QNode a b c d)) -> exists x, subtree x (QNode a b c d) /\ srel s R x x').
      { intros k k' A IH S I. destruct (IH _ _ A S) as (x & X1 & X2). exists x. auto. }
      assert (Ia : forall x, subtree x a -> subtree x (QNode a b c d)) by (intros; cbn [subtree]; auto).
      assert (Ib : forall x, subtree x b -> subtree x (QNode a b c d)) by (intros; cbn [subtree]; auto).
      assert (Ic : forall x, subtree x c -> subtree x (QNode a b c d)) by (intros; cbn [subtree]; auto).
      assert (Id : forall x, subtree x d -> subtree x (QNode a b c d)) by (intros; cbn [subtree]; auto).
      destruct s; destruct H0 as (A & B & C & D); destruct HS as [HS|[HS|[HS|HS]]]; eauto.
Qed.

Lemma min4 a b c d : Nat.min (Nat.min b a) (Nat.min d c) = Nat.min (Nat.min a b) (Nat.min c d).
Proof. lia. Qed.
Lemma min4' a b c d : Nat.min (Nat.min a c) (Nat.min b d) = Nat.min (Nat.min a b) (Nat.min c d).
Proof. lia. Qed.

Lemma glued_sym s m (L L' : leaf_relation) R q : forall q' g h U, srel s R q q' -> 3 <= m \/ equal_levels q ->
  (forall G f G' f' g u h, R G f G' f' -> length g = 4 * m -> L G f g u h -> length h = 4 * m /\ L' G' f' (sym_data s m g) (sym_cells s m u) (sym_flux s m h)) ->
  glued m L q g h U ->
  length h = 4 * (m * 2 ^ level q) /\ glued m L' q' (sym_data s (m * 2 ^ level q) g) (sym_flux s (m * 2 ^ level q) h) (sym_solution s m U).
Proof.
  induction q as [G f|a IHa b IHb c IHc d IHd]; intros [G' f'|a' b' c' d'] g h U HR H3 HL; cbn [srel] in HR; try tauto.
  - destruct U as [g' u|]; cbn [glued]; [|tauto]. intros (E & Lg & H). subst g'. cbn [level Nat.pow]. rewrite Nat.mul_1_r.
    destruct (HL _ _ _ _ _ _ _ HR Lg H) as (Lh & HL'). split; [exact Lh|]. cbn [sym_solution]. split; [reflexivity|].
    split; [apply sym_data_length; exact Lg|exact HL'].
  - destruct U as [|z Ua Ub Uc Ud]; cbn [glued]; [tauto|].
    change (level (QNode a b c d)) with (S (min_level a b c d)).
    set (l := min_level a b c d). set (n := m * 2 ^ l). cbv zeta.
    intros (Lg & Lz & H & Ga & Gb & Gc & Gd & HC & Eh).
    replace (m * 2 ^ S l) with (2 * n) by (unfold n; cbn [Nat.pow]; lia).
    assert (Ll : l <= level a /\ l <= level b /\ l <= level c /\ l <= level d) by (unfold l, min_level; lia).
    assert (H3s : forall x, level x - l = 0 \/ 3 <= m -> 3 <= n \/ level x - l = 0).
    { intros x [Hx|Hx]; [right; exact Hx|left]. unfold n. pose proof (Nat.pow_nonzero 2 l). nia. }
    assert (Hk : (level a - l = 0 \/ 3 <= m) /\ (level b - l = 0 \/ 3 <= m) /\ (level c - l = 0 \/ 3 <= m) /\ (level d - l = 0 \/ 3 <= m)).
    { destruct H3 as [H3|H3]; [auto|]. cbn [equal_levels] in H3. unfold l, min_level. lia. }
    assert (H3c : (3 <= m \/ equal_levels a) /\ (3 <= m \/ equal_levels b) /\ (3 <= m \/ equal_levels c) /\ (3 <= m \/ equal_levels d)).
    { destruct H3 as [H3|H3]; [auto|]. cbn [equal_levels] in H3. tauto. }
    destruct Hk as (Ka & Kb & Kc & Kd). destruct H3c as (Ta & Tb & Tc & Td).
    assert (NL : forall x, l <= level x -> n * 2 ^ (level x - l) = m * 2 ^ level x).
    { intros x Hx. unfold n. rewrite <- Nat.mul_assoc, <- Nat.pow_add_r. do 2 f_equal. lia. }
    assert (Lg2 : length g = 4 * (2 * n)) by lia.
    assert (CL : all4 (fun v => length v = 4 * n) (children_data n g z)).
    { assert (PL : forall k, k < 8 -> length (piece n g k) = n) by (intros k Hk0; eapply piece_length; [|exact Hk0]; lia).
      assert (ZL : forall k, k < 4 -> length (piece n z k) = n) by (intros k Hk0; eapply piece_length; [|exact Hk0]; lia).
      unfold children_data, all4. cbn [fa fb fc fd]. rewrite !app_length, !PL, !ZL by lia. lia. }
    assert (KID : forall x k v H0 Ux x', l <= level x -> (level x - l = 0 \/ 3 <= m) -> length v = 4 * n -> k = level x - l ->
      (length H0 = 4 * (m * 2 ^ level x) /\ glued m L' x' (sym_data s (m * 2 ^ level x) (refine_by k n v)) (sym_flux s (m * 2 ^ level x) H0) Ux) ->
      length (coarsen_by k n H0) = 4 * n /\
      glued m L' x' (refine_by k n (sym_data s n v)) (sym_flux s (n * 2 ^ k) H0) Ux /\
      coarsen_by k n (sym_flux s (n * 2 ^ k) H0) = sym_flux s n (coarsen_by k n H0)).
    { intros x k v H0 Ux x' Hl Hx Lv -> (LH & GH). rewrite <- (NL x Hl) in LH, GH.
      split; [apply coarsen_by_length; exact LH|]. split; [|apply coarsen_by_sym; exact LH].
      rewrite refine_by_sym; auto. }
    destruct CL as (CLa & CLb & CLc & CLd). destruct Ll as (La & Lb & Lc & Ld).
    assert (Ez : length z / 4 = n) by (rewrite Lz, Nat.mul_comm; apply Nat.div_mul; lia).
    assert (Xa : forall x', srel s R a x' -> _) by (intros x' Rx; exact (KID a _ _ _ _ _ La Ka CLa eq_refl (IHa _ _ _ _ Rx Ta HL Ga))).
    assert (Xb : forall x', srel s R b x' -> _) by (intros x' Rx; exact (KID b _ _ _ _ _ Lb Kb CLb eq_refl (IHb _ _ _ _ Rx Tb HL Gb))).
    assert (Xc : forall x', srel s R c x' -> _) by (intros x' Rx; exact (KID c _ _ _ _ _ Lc Kc CLc eq_refl (IHc _ _ _ _ Rx Tc HL Gc))).
    assert (Xd : forall x', srel s R d x' -> _) by (intros x' Rx; exact (KID d _ _ _ _ _ Ld Kd CLd eq_refl (IHd _ _ _ _ Rx Td HL Gd))).
    cbv beta in Xa, Xb, Xc, Xd.
    assert (OL : all4 (fun v => length v = 4 * n) (Four (coarsen_by (level a - l) n (fa H)) (coarsen_by (level b - l) n (fb H))
                       (coarsen_by (level c - l) n (fc H)) (coarsen_by (level d - l) n (fd H))) -> length h = 4 * (2 * n)).
    { intros (A & B & C & D). rewrite Eh. unfold outer_flux.
      rewrite !app_length. rewrite !(p_len n _ A), !(p_len n _ B), !(p_len n _ C), !(p_len n _ D) by lia. lia. }
    pose proof (children_sym s n g z Lg2 Lz) as CS. pose proof (continuous_sym s n) as CO. pose proof (outer_sym s n) as OU.
    pose proof (sym_data_length (2 * n) g Lg2 s) as SDL. pose proof (sym_z_length s n z Lz) as SZL.
    clear IHa IHb IHc IHd Ga Gb Gc Gd KID.
    destruct s; destruct HR as (Ra & Rb & Rc & Rd); cbn [sym_solution glued]; rewrite Ez.
    + assert (Em : min_level a' b' c' d' = l).
      { unfold min_level. rewrite (srel_level _ _ _ _ Ra), (srel_level _ _ _ _ Rb), (srel_level _ _ _ _ Rc), (srel_level _ _ _ _ Rd). apply min4. }
      rewrite Em. fold n. rewrite (srel_level _ _ _ _ Ra), (srel_level _ _ _ _ Rb), (srel_level _ _ _ _ Rc), (srel_level _ _ _ _ Rd).
      specialize (Xa _ Ra). specialize (Xb _ Rb). specialize (Xc _ Rc). specialize (Xd _ Rd).
      destruct Xa as (A1 & A2 & A3), Xb as (B1 & B2 & B3), Xc as (C1 & C2 & C3), Xd as (D1 & D2 & D3).
      split; [apply OL; repeat split; assumption|]. split; [lia|]. split; [lia|].
      rewrite CS. cbn [map4 sym_four fa fb fc fd].
      exists (Four (sym_flux Mirror (n * 2 ^ (level b - l)) (fb H)) (sym_flux Mirror (n * 2 ^ (level a - l)) (fa H))
                   (sym_flux Mirror (n * 2 ^ (level d - l)) (fd H)) (sym_flux Mirror (n * 2 ^ (level c - l)) (fc H))). cbn [fa fb fc fd].
      split; [exact B2|]. split; [exact A2|]. split; [exact D2|]. split; [exact C2|]. rewrite A3, B3, C3, D3.
      match type of HC with continuous _ ?x => set (x0 := x) in * end.
      assert (AL : all4 (fun v => length v = 4 * n) x0) by (repeat split; assumption).
      split; [exact (CO x0 AL HC)|]. rewrite Eh. symmetry. exact (OU x0 AL).
    + assert (Em : min_level a' b' c' d' = l).
      { unfold min_level. rewrite (srel_level _ _ _ _ Ra), (srel_level _ _ _ _ Rb), (srel_level _ _ _ _ Rc), (srel_level _ _ _ _ Rd). apply min4'. }
      rewrite Em. fold n. rewrite (srel_level _ _ _ _ Ra), (srel_level _ _ _ _ Rb), (srel_level _ _ _ _ Rc), (srel_level _ _ _ _ Rd).
      specialize (Xa _ Ra). specialize (Xb _ Rb). specialize (Xc _ Rc). specialize (Xd _ Rd).
      destruct Xa as (A1 & A2 & A3), Xb as (B1 & B2 & B3), Xc as (C1 & C2 & C3), Xd as (D1 & D2 & D3).
      split; [apply OL; repeat split; assumption|]. split; [lia|]. split; [lia|].
      rewrite CS. cbn [map4 sym_four fa fb fc fd].
      exists (Four (sym_flux Swap (n * 2 ^ (level a - l)) (fa H)) (sym_flux Swap (n * 2 ^ (level c - l)) (fc H))
                   (sym_flux Swap (n * 2 ^ (level b - l)) (fb H)) (sym_flux Swap (n * 2 ^ (level d - l)) (fd H))). cbn [fa fb fc fd].
      split; [exact A2|]. split; [exact C2|]. split; [exact B2|]. split; [exact D2|]. rewrite A3, B3, C3, D3.
      match type of HC with continuous _ ?x => set (x0 := x) in * end.
      assert (AL : all4 (fun v => length v = 4 * n) x0) by (repeat split; assumption).
      split; [exact (CO x0 AL HC)|]. rewrite Eh. symmetry. exact (OU x0 AL).
Qed.

(** ** One leaf with a patch solver *)
Lemma pieces4 n v : length v = 4 * n -> v = piece n v 0 ++ piece n v 1 ++ piece n v 2 ++ piece n v 3.
Proof.
  intros L. apply (pieces_ext n); [exact L|rewrite !app_length, !(p_len n v L) by lia; lia|]. intros i Hi.
  destruct (piece4 n (piece n v 0) (piece n v 1) (piece n v 2) (piece n v 3)) as (A & B & C & D); try (apply p_len; auto; lia).
  rewrite A, B, C, D. auto.
Qed.
Lemma sym_z_twice s n z : length z = 4 * n -> sym_z s n (sym_z s n z) = z.
Proof.
  intros L. unfold sym_z at 1. destruct s; rewrite !sym_z_piece by (auto; lia); rewrite ?rev_involutive; symmetry; apply pieces4; exact L.
Qed.
Lemma zeros_piece n K k : k < K -> piece n (zeros (K * n)) k = zeros n.
Proof.
  intros Hk. apply zeros_eq; [apply (piece_length n _ k K); [apply zeros_length|exact Hk]|]. intros i Hi. rewrite vval_piece by exact Hi. apply vval_zeros.
Qed.
Lemma zeros_rev n : rev (zeros n) = zeros n.
Proof.
  apply zeros_eq; [rewrite rev_length; apply zeros_length|]. intros i Hi.
  rewrite vval_rev by (rewrite zeros_length; exact Hi). apply vval_zeros.
Qed.
Lemma zeros_four n : zeros n ++ zeros n ++ zeros n ++ zeros n = zeros (4 * n).
Proof. unfold zeros. rewrite <- !repeat_app. f_equal. lia. Qed.
Lemma sym_data_zeros s n : sym_data s n (zeros (4 * n)) = zeros (4 * n).
Proof. unfold sym_data. destruct s; rewrite !zeros_piece, ?zeros_rev by lia; apply zeros_four. Qed.
Lemma sym_z_zeros s n : sym_z s n (zeros (4 * n)) = zeros (4 * n).
Proof. unfold sym_z. destruct s; rewrite !zeros_piece, ?zeros_rev by lia; apply zeros_four. Qed.
Lemma sym_cells_zeros s n : sym_cells s n (zeros (n * n)) = zeros (n * n).
Proof. apply zeros_eq; [apply sym_cells_length|]. intros i Hi. unfold sym_cells. rewrite vval_map_seq by exact Hi. apply vval_zeros. Qed.

Section Solver.
Context (s : symmetry) (c c' : coefs) (G : grid) (n : nat) (HC : sym_coefs s c c') (HO : oriented G).
Context (Ex : gnx G = n) (Ey : gny G = n) (HU : fv_unique c G) (HU' : fv_unique c' (sym_grid s G)).
Context (solve solve' : grid -> list Qc -> list Qc -> res (list Qc)).
Notation G' := (sym_grid s G).
Context (HS : forall g f, length g = 4 * n -> length f = n * n -> exists u, solve G g f = Ok u /\ fv_solution c G g f u).
Context (HS' : forall g f, length g = 4 * n -> length f = n * n -> exists u, solve' G' g f = Ok u /\ fv_solution c' G' g f u).

Lemma leaf_sols g f : length g = 4 * n -> length f = n * n -> exists u, solve G g f = Ok u /\
  solve' G' (sym_data s n g) (sym_cells s n f) = Ok (sym_cells s n u) /\
  fv_map solve G g f = Ok (boundary_flux G g u) /\
  fv_map solve' G' (sym_data s n g) (sym_cells s n f) = Ok (sym_flux s n (boundary_flux G g u)).
Proof.
  intros Lg Lf. destruct (HS g f Lg Lf) as (u & E & S). pose proof (sym_data_length n g Lg s) as Lg'. pose proof (sym_cells_length s n f) as Lf'.
  pose proof (sgx s G n Ex Ey) as Ex'. pose proof (sgy s G n Ex Ey) as Ey'.
  destruct (HS' _ _ Lg' Lf') as (u' & E' & S').
  assert (u' = sym_cells s n u) as ->.
  { eapply (solution_unique c' G' (orp _ (sym_oriented s G HO)) (sym_data s n g) (sym_cells s n f)); eauto;
      try (rewrite Ex', Ey'; lia). apply (sym_solution_leaf s c c' G n); auto. }
  exists u. split; [exact E|]. split; [exact E'|]. pose proof S as (Lu & _). rewrite Ex, Ey in Lu.
  assert (Hn : n <> 0) by (destruct HO as (_ & _ & H & _); congruence).
  split; [exact (fv_map_ok G n Ex Ey solve g f u Hn Lg E Lu)|].
  rewrite <- (sym_flux_leaf s G n HO Ex Ey g u Lg).
  exact (fv_map_ok G' n Ex' Ey' solve' _ _ _ Hn Lg' E' (sym_cells_length s n u)).
Qed.

Lemma leaf_sym f g u h : length g = 4 * n -> length f = n * n -> solver_leaf (solver_of solve) G f g u h ->
  length h = 4 * n /\ solver_leaf (solver_of solve') G' (sym_cells s n f) (sym_data s n g) (sym_cells s n u) (sym_flux s n h).
Proof.
  intros Lg Lf (E1 & E2). cbn [solver_of sv_solve sv_map] in *. destruct (leaf_sols g f Lg Lf) as (u0 & A & B & C & D).
  rewrite E1 in A. apply Ok_inj in A. subst u0. rewrite E2 in C. apply Ok_inj in C. subst h.
  split; [apply (boundary_flux_length G n Ex Ey)|]. split; cbn [solver_of sv_solve sv_map]; auto.
Qed.
End Solver.

Lemma tmat_flux c G n solve : oriented G -> gnx G = n -> gny G = n -> fv_unique c G ->
  (forall g f, length g = 4 * n -> length f = n * n -> exists u, solve G g f = Ok u /\ fv_solution c G g f u) ->
  forall g, length g = 4 * n -> Ok (apply_op (Tmat G n solve) g) = fv_map solve G g (zeros (n * n)).
Proof.
  intros HO Ex Ey HU HS g Lg. pose proof (zeros_length (n * n)) as LZ. pose proof (zeros_length (4 * n)) as LZ4.
  rewrite (map_ok c G n (orp _ HO) Ex Ey solve HS g _ Lg LZ). f_equal.
  rewrite (map_affine c G n (orp _ HO) HU Ex Ey solve HS g _ Lg LZ).
  assert (H0 : hmap G solve (zeros (4 * n)) (zeros (n * n)) = zeros (4 * n)).
  { pose proof (hmap_lin c G n (orp _ HO) HU Ex Ey solve HS (- (1))%Qc _ _ _ _ LZ4 LZ4 LZ LZ) as Q.
    assert (Zl : forall k, lin (- (1))%Qc (zeros k) (zeros k) = zeros k).
    { intros k. apply zeros_eq; [rewrite lin_length; apply zeros_length|]. intros i _. rewrite vval_lin by reflexivity. rewrite vval_zeros. ring. }
    rewrite !Zl in Q. apply zeros_eq; [apply (hmap_length G n Ex Ey)|]. intros i _. rewrite Q. rewrite vval_lin by reflexivity. ring. }
  rewrite H0. apply vval_ext; [rewrite vplus_length; reflexivity|]. rewrite apply_op_length. intros i Hi.
  rewrite vval_vplus by (rewrite apply_op_length; exact Hi). rewrite vval_zeros. ring.
Qed.

Lemma equal_sub x q : subtree x q -> equal_levels q -> equal_levels x.
Proof.
  induction q as [G f|a IHa b IHb c IHc d IHd]; intros [->|HS]; auto; [destruct HS|].
  cbn [equal_levels]. intros H. decompose [and] H. destruct HS as [HS|[HS|[HS|HS]]]; auto.
Qed.

(** ** The stages *)
Section Tree.
Context (m : nat) (Hm : 1 <= m) (s : symmetry) (c c' : coefs) (HC : sym_coefs s c c').
Context (solve solve' : grid -> list Qc -> list Qc -> res (list Qc)).
Context (G : grid) (q : qtree) (HO : oriented (rect m G)) (HT : tiled m G q).
Context (HU : forall G0, oriented G0 -> gnx G0 = m -> gny G0 = m -> fv_unique c G0).
Context (HU' : forall G0, oriented G0 -> gnx G0 = m -> gny G0 = m -> fv_unique c' G0).
Context (HS : forall G0 g f, oriented G0 -> gnx G0 = m -> gny G0 = m -> length g = 4 * m -> length f = m * m ->
  exists u, solve G0 g f = Ok u /\ fv_solution c G0 g f u).
Context (HS' : forall G0 g f, oriented G0 -> gnx G0 = m -> gny G0 = m -> length g = 4 * m -> length f = m * m ->
  exists u, solve' G0 g f = Ok u /\ fv_solution c' G0 g f u).

Definition sym_leaf (G0 : grid) (f : list Qc) (G1 : grid) (f1 : list Qc) : Prop :=
  oriented G0 /\ gnx G0 = m /\ gny G0 = m /\ length f = m * m /\ G1 = sym_grid s G0 /\ f1 = sym_cells s m f.

Lemma sym_related : srel s sym_leaf q (sym_tree s m q).
Proof using HO HT Hm.
  pose proof (tiled_leaf m q G ltac:(lia) HO HT) as TL. clear HO HT HU HU' HS HS' HC. induction q as [G0 f0|a IHa b IHb d IHd e IHe].
  - cbn [sym_tree srel]. destruct (TL G0 f0 (or_introl eq_refl)) as (O & Ex & Ey & L). repeat split; auto; apply O.
  - cbn [leaves] in TL. assert (Ta : srel s sym_leaf a (sym_tree s m a)) by (apply IHa; intros; apply TL; rewrite !in_app_iff; auto).
    assert (Tb : srel s sym_leaf b (sym_tree s m b)) by (apply IHb; intros; apply TL; rewrite !in_app_iff; auto).
    assert (Td : srel s sym_leaf d (sym_tree s m d)) by (apply IHd; intros; apply TL; rewrite !in_app_iff; auto).
    assert (Te : srel s sym_leaf e (sym_tree s m e)) by (apply IHe; intros; apply TL; rewrite !in_app_iff; auto).
    cbn [sym_tree]. clear - Ta Tb Td Te. unfold sym_leaf in *. destruct s; cbn [sym_four fa fb fc fd srel]; auto.
Qed.

Lemma good_sym q0 : forall q1, srel s sym_leaf q0 q1 -> good_leaves m (solver_of solve) q0 /\ good_leaves m (solver_of solve') q1.
Proof.
  induction q0 as [G0 f0|a IHa b IHb d IHd e IHe]; intros [G1 f1|a1 b1 d1 e1]; cbn [srel]; try tauto.
  - intros (O & Ex & Ey & L & -> & ->). cbn [good_leaves].
    pose proof (sgx s G0 m Ex Ey) as Ex'. pose proof (sgy s G0 m Ex Ey) as Ey'. pose proof (sym_oriented s G0 O) as O'. split.
    + split; [|exact L]. apply (solver_affine c); auto. apply orp. exact O.
    + split; [|apply sym_cells_length]. apply (solver_affine c'); auto. apply orp. exact O'.
  - intros H0. cbn [good_leaves]. unfold sym_leaf in *. clear HC. destruct s; destruct H0 as (A & B & D & E); destruct (IHa _ A), (IHb _ B), (IHd _ D), (IHe _ E); repeat split; auto.
Qed.

Lemma sym_posed : 3 <= m \/ equal_levels q -> well_posed m (solver_of solve) q -> well_posed m (solver_of solve') (sym_tree s m q).
Proof.
  intros H3 HW a b d e HSub h z Ua Ub Uc Ud Gl.
  destruct (srel_sub _ _ _ _ _ sym_related HSub) as (q0 & S0 & R0).
  destruct q0 as [|a0 b0 d0 e0]; [destruct R0|].
  assert (Lv : level (QNode a b d e) = level (QNode a0 b0 d0 e0)) by (eapply srel_level; exact R0).
  assert (Em : min_level a b d e = min_level a0 b0 d0 e0).
  { change (S (min_level a b d e) = S (min_level a0 b0 d0 e0)) in Lv. lia. }
  set (n := m * 2 ^ min_level a b d e) in *.
  assert (Lz : length z = 4 * n) by (cbn [glued] in Gl; destruct Gl as (_ & Lz & _); exact Lz).
  assert (H3' : 3 <= m \/ equal_levels (QNode a b d e)).
  { destruct H3 as [H3|H3]; [left; exact H3|right]. eapply srel_equal; [exact R0|]. eapply equal_sub; eauto. }
  assert (LL : forall G1 f1 G0 f0 g0 u0 h0, sym_leaf G0 f0 G1 f1 -> length g0 = 4 * m -> linear_leaf (solver_of solve') G1 f1 g0 u0 h0 ->
    length h0 = 4 * m /\ linear_leaf (solver_of solve) G0 f0 (sym_data s m g0) (sym_cells s m u0) (sym_flux s m h0)).
  { intros G1 f1 G0 f0 g0 u0 h0 (O & Ex & Ey & L & -> & ->) Lg (T' & ET' & ->).
    pose proof (sgx s G0 m Ex Ey) as Ex'. pose proof (sgy s G0 m Ex Ey) as Ey'. pose proof (sym_oriented s G0 O) as O'.
    assert (B' : fv_build (fv_map solve') (sym_grid s G0) = Ok (Tmat (sym_grid s G0) m solve')) by (apply (build_ok_mat c'); auto; apply orp; exact O').
    assert (B : fv_build (fv_map solve) G0 = Ok (Tmat G0 m solve)) by (apply (build_ok_mat c); auto; apply orp; exact O).
    cbn [solver_of sv_build] in ET'. rewrite B' in ET'. apply Ok_inj in ET'. subst T'.
    split; [rewrite apply_op_length; reflexivity|]. exists (Tmat G0 m solve). cbn [solver_of sv_build]. split; [exact B|].
    apply Ok_inj. rewrite (tmat_flux c G0 m solve O Ex Ey); auto; [|apply sym_data_length; exact Lg].
    pose proof (tmat_flux c' (sym_grid s G0) m solve' O' Ex' Ey' (HU' _ O' Ex' Ey') ltac:(auto) g0 Lg) as Q.
    destruct (leaf_sols s c' c (sym_grid s G0) m (sym_coefs_flip _ _ _ HC) O' Ex' Ey') with (solve := solve') (solve' := solve) (g := g0) (f := zeros (m * m))
      as (u & A1 & A2 & A3 & A4); auto using zeros_length; try (rewrite sym_grid_twice; auto).
    rewrite A3 in Q. apply Ok_inj in Q. rewrite Q. rewrite sym_grid_twice, sym_cells_zeros in A4. symmetry. exact A4. }
  destruct (glued_sym s m _ _ _ _ _ _ _ _ (srel_flip _ _ _ _ R0) H3' LL Gl) as (_ & Gl').
  rewrite Lv in Gl'. replace (m * 2 ^ level (QNode a0 b0 d0 e0)) with (2 * n) in Gl'.
  2:{ unfold n. rewrite Em. change (level (QNode a0 b0 d0 e0)) with (S (min_level a0 b0 d0 e0)). cbn [Nat.pow]. lia. }
  replace (8 * n) with (4 * (2 * n)) in Gl' by lia. rewrite sym_data_zeros in Gl'. replace (4 * (2 * n)) with (8 * n) in Gl' by lia.
  assert (Ez : length z / 4 = n) by (rewrite Lz, Nat.mul_comm; apply Nat.div_mul; lia).
  assert (Z0 : sym_z s n z = zeros (4 * n)).
  { cbn [sym_solution] in Gl'. rewrite Ez in Gl'. unfold n in Gl' |- *. rewrite Em in *. clear - HW S0 Gl'.
    destruct s; exact (HW a0 b0 d0 e0 S0 _ _ _ _ _ _ Gl'). }
  rewrite <- (sym_z_twice s n z Lz), Z0. apply sym_z_zeros.
Qed.

Lemma glued_count L x : forall g h U, glued m L x g h U -> length (leaf_values U) = length (leaves x).
Proof.
  induction x as [G0 f0|a IHa b IHb d IHd e IHe]; intros g h [g' u|z Ua Ub Uc Ud]; cbn [glued]; try tauto; try (intros _; reflexivity).
  - intros (_ & _ & H & A & B & C & D & _). cbn [leaf_values leaves]. rewrite !app_length.
    rewrite (IHa _ _ _ A), (IHb _ _ _ B), (IHd _ _ _ C), (IHe _ _ _ D). reflexivity.
Qed.
Lemma skipn_len {A} (x y : list A) : skipn (length x) (x ++ y) = y.
Proof. rewrite skipn_app, skipn_all, Nat.sub_diag. reflexivity. Qed.
Lemma firstn_len {A} (x y : list A) : firstn (length x) (x ++ y) = x.
Proof. rewrite firstn_app, firstn_all, Nat.sub_diag. apply app_nil_r. Qed.
Lemma glued_values L x : forall g h U, glued m L x g h U -> leaf_values (sym_solution s m U) = sym_values s m x (leaf_values U).
Proof.
  induction x as [G0 f0|a IHa b IHb d IHd e IHe]; intros g h [g' u|z Ua Ub Uc Ud]; cbn [glued]; try tauto; try (intros _; reflexivity).
  - intros (_ & _ & H & A & B & C & D & _). cbn [sym_values leaf_values].
    pose proof (glued_count _ _ _ _ _ A) as La. pose proof (glued_count _ _ _ _ _ B) as Lb. pose proof (glued_count _ _ _ _ _ C) as Lc.
    rewrite <- La, <- Lb, <- Lc. rewrite !skipn_len, !firstn_len.
    rewrite <- (IHa _ _ _ A), <- (IHb _ _ _ B), <- (IHd _ _ _ C), <- (IHe _ _ _ D).
    clear. destruct s; cbn [sym_solution leaf_values sym_four fa fb fc fd]; reflexivity.
Qed.

Theorem sym_stages gesv gesv' load load' t t' st st' g :
  gesv_contract gesv -> gesv_contract gesv' -> fresh load q t -> fresh load' (sym_tree s m q) t' ->
  well_posed m (solver_of solve) q -> 3 <= m \/ equal_levels q -> length g = 4 * (m * 2 ^ level q) ->
  let n := m * 2 ^ level q in let g' := sym_data s n g in
  exists st1 t1 t2 t3 st1' t1' t2' t3',
    buildStage (solver_of solve) gesv false st t = Ok (st1, t1) /\
    upwardsStage (solver_of solve) gesv false load t1 = Ok t2 /\
    solveStage (solver_of solve) false g t2 = Ok t3 /\
    buildStage (solver_of solve') gesv' false st' t' = Ok (st1', t1') /\
    upwardsStage (solver_of solve') gesv' false load' t1' = Ok t2' /\
    solveStage (solver_of solve') false g' t2' = Ok t3' /\
    length (computed_values t3) = length (leaves q) /\
    computed_values t3' = sym_values s m q (computed_values t3) /\
    vplus (apply_op (pT (data t2')) g') (ph (data t2')) = sym_flux s n (vplus (apply_op (pT (data t2)) g) (ph (data t2))).
Proof.
  intros Hg Hg' HF HF' HW H3 Lg n g'. destruct (good_sym q _ sym_related) as (GL & GL').
  destruct (solver_glued_pf m (solver_of solve) gesv load q t st g) as (st1 & t1 & t2 & t3 & U & h & E1 & E2 & E3 & Gl & Ev & Eh & _); auto.
  destruct (solver_glued_pf m (solver_of solve') gesv' load' (sym_tree s m q) t' st' g')
    as (st1' & t1' & t2' & t3' & U' & h' & E1' & E2' & E3' & Gl' & Ev' & Eh' & Un'); auto.
  { apply sym_posed; auto. }
  { destruct H3 as [H3|H3]; [left; exact H3|right; eapply srel_equal; [apply sym_related|exact H3]]. }
  { rewrite (srel_level _ _ _ _ sym_related). unfold g', n. apply sym_data_length. exact Lg. }
  exists st1, t1, t2, t3, st1', t1', t2', t3'. repeat (split; [assumption|]).
  destruct (glued_sym s m (solver_leaf (solver_of solve)) (solver_leaf (solver_of solve')) _ q (sym_tree s m q) g h U sym_related H3) as (_ & Gm); [|exact Gl|].
  { intros G0 f0 G1 f1 g0 u0 h0 (O & Ex & Ey & L & -> & ->) Lg0 HL.
    pose proof (sgx s G0 m Ex Ey) as Ex'. pose proof (sgy s G0 m Ex Ey) as Ey'. pose proof (sym_oriented s G0 O) as O'.
    eapply (leaf_sym s c c' G0 m); eauto. }
  destruct (Un' _ _ Gm) as (EU & EH). split; [rewrite Ev; eapply glued_count; exact Gl|].
  split; [rewrite Ev, Ev', <- EU; eapply glued_values; exact Gl|].
  rewrite <- Eh', <- EH, Eh. reflexivity.
Qed.
End Tree.
