(** Vector algebra, one family in the build, upwards and solve stage. *)
From Coq Require Import Permutation.
From Verif Require Import Base VectorModel MatrixModel LinSpec MatProofs MatProofs2 MatProofs3 LinProofs.
From Verif Require Import BlockProofs HPSModel HPSSpec HPSProofs HPSProofs2 HPSProofs3.

(** * Sums of vectors *)
Lemma vplus_length v w : length (vplus v w) = length v.
Proof. unfold vplus. rewrite map_length, seq_length. reflexivity. Qed.

Lemma vval_vplus v w i : i < length v -> vval (vplus v w) i = (vval v i + vval w i)%Qc.
Proof.
  intros H. exact (vval_vec_of (length v) (fun i => (vval v i + vval w i)%Qc) i H).
Qed.

Lemma vval_ext v w : length v = length w -> (forall i, i < length v -> vval v i = vval w i) -> v = w.
Proof. intros L H. apply (nth_ext v w 0%Qc 0%Qc); auto. Qed.

Lemma vval_app v w i : vval (v ++ w) i = if i <? length v then vval v i else vval w (i - length v).
Proof.
  unfold vval. destruct (Nat.ltb_spec i (length v)).
  - apply app_nth1. auto.
  - apply app_nth2. auto.
Qed.

Lemma vplus_app a b c d : length a = length c -> length b = length d ->
  vplus (a ++ b) (c ++ d) = vplus a c ++ vplus b d.
Proof.
  intros L1 L2. apply vval_ext.
  - rewrite vplus_length, !app_length, !vplus_length. reflexivity.
  - intros i Hi. rewrite vplus_length, app_length in Hi. rewrite vval_vplus by (rewrite app_length; auto).
    rewrite !vval_app, vplus_length, <- L1. destruct (Nat.ltb_spec i (length a)).
    + rewrite vval_vplus by auto. reflexivity.
    + rewrite vval_vplus by lia. reflexivity.
Qed.

Lemma vval_piece n v k i : i < n -> vval (piece n v k) i = vval v (k * n + i).
Proof. apply vpiece_nth. Qed.

Lemma piece_length n v k K : length v = K * n -> k < K -> length (piece n v k) = n.
Proof. apply vpiece_length. Qed.

Lemma piece_vplus n v w k K : length v = K * n -> length w = K * n -> k < K ->
  piece n (vplus v w) k = vplus (piece n v k) (piece n w k).
Proof.
  intros Lv Lw Hk. apply vval_ext.
  - rewrite vplus_length. rewrite !(piece_length n _ k K); auto. rewrite vplus_length. auto.
  - intros i Hi. rewrite (piece_length n _ k K) in Hi; auto; [|rewrite vplus_length; auto].
    rewrite vval_piece by auto. rewrite vval_vplus by (rewrite Lv; apply blk_bound; auto).
    rewrite vval_vplus by (rewrite (piece_length n _ k K); auto).
    rewrite !vval_piece by auto. reflexivity.
Qed.

Lemma vval_map_seq n (f : nat -> Qc) i : i < n -> vval (map f (seq 0 n)) i = f i.
Proof. exact (vval_vec_of n f i). Qed.

Lemma coarsen_side_vplus c v w : length v = 2 * c -> length w = 2 * c ->
  coarsen_side c (vplus v w) = vplus (coarsen_side c v) (coarsen_side c w).
Proof.
  intros Lv Lw. apply vval_ext.
  - rewrite vplus_length, !coarsen_side_length. reflexivity.
  - intros i Hi. rewrite coarsen_side_length in Hi.
    rewrite vval_vplus by (rewrite coarsen_side_length; auto). unfold coarsen_side.
    rewrite !vval_map_seq by auto. rewrite !vval_vplus by lia. ring.
Qed.

Lemma coarsen4_vplus c v w : length v = 4 * (2 * c) -> length w = 4 * (2 * c) ->
  coarsen4 c (vplus v w) = vplus (coarsen4 c v) (coarsen4 c w).
Proof.
  intros Lv Lw. unfold coarsen4. cbn [map concat]. rewrite !app_nil_r.
  rewrite !(piece_vplus (2 * c) v w _ 4) by (auto; lia).
  rewrite !coarsen_side_vplus by (apply (piece_length (2 * c) _ _ 4); auto; lia).
  rewrite !vplus_app; rewrite ?app_length, ?coarsen_side_length; auto.
Qed.

Lemma coarsen_by_vplus k c v w : length v = 4 * (c * 2 ^ k) -> length w = 4 * (c * 2 ^ k) ->
  coarsen_by k c (vplus v w) = vplus (coarsen_by k c v) (coarsen_by k c w).
Proof.
  revert c; induction k as [|k IH]; intros c Lv Lw; cbn [coarsen_by]; [reflexivity|].
  rewrite Nat.pow_succ_r' in Lv, Lw.
  assert (length v = 4 * (2 * c * 2 ^ k)) by lia. assert (length w = 4 * (2 * c * 2 ^ k)) by lia.
  rewrite IH by auto. apply coarsen4_vplus; apply coarsen_by_length; auto.
Qed.

Lemma vplus_zeros_n n v : length v = n -> vplus v (zeros n) = v.
Proof. intros <-. apply vplus_zeros. Qed.

Lemma zeros_eq n v : length v = n -> (forall i, i < n -> vval v i = 0%Qc) -> v = zeros n.
Proof.
  intros L H. apply vval_ext; [rewrite zeros_length; auto|].
  intros i Hi. rewrite vval_zeros. apply H. lia.
Qed.

Lemma coarsen_side_zeros c : coarsen_side c (zeros (2 * c)) = zeros c.
Proof.
  apply zeros_eq; [apply coarsen_side_length|]. intros i Hi. unfold coarsen_side.
  rewrite vval_map_seq by auto. rewrite !vval_zeros. ring.
Qed.

Lemma piece_zeros n k K : k < K -> piece n (zeros (K * n)) k = zeros n.
Proof.
  intros Hk. apply zeros_eq; [apply (piece_length n _ k K); auto using zeros_length|].
  intros i Hi. rewrite vval_piece by auto. apply vval_zeros.
Qed.

Lemma zeros_app a b : zeros a ++ zeros b = zeros (a + b).
Proof. unfold zeros. symmetry. apply repeat_app. Qed.

Lemma coarsen4_zeros c : coarsen4 c (zeros (4 * (2 * c))) = zeros (4 * c).
Proof.
  unfold coarsen4. cbn [map concat]. rewrite !(piece_zeros (2 * c) _ 4) by lia.
  rewrite !coarsen_side_zeros, app_nil_r, !zeros_app. f_equal. lia.
Qed.

Lemma coarsen_by_zeros k c : coarsen_by k c (zeros (4 * (c * 2 ^ k))) = zeros (4 * c).
Proof.
  revert c; induction k as [|k IH]; intros c; cbn [coarsen_by].
  - simpl. f_equal. lia.
  - replace (c * 2 ^ S k) with (2 * c * 2 ^ k) by (rewrite Nat.pow_succ_r'; lia). rewrite IH. apply coarsen4_zeros.
Qed.

Lemma apply_op_zeros T n : apply_op T (zeros n) = zeros (nr T).
Proof.
  apply zeros_eq; [apply apply_op_length|]. intros i Hi. unfold apply_op.
  rewrite vval_map_seq by auto. apply sum_zero. intros. rewrite vval_zeros. ring.
Qed.

Lemma children_data_zeros n :
  children_data n (zeros (8 * n)) (zeros (4 * n)) =
  Four (zeros (4 * n)) (zeros (4 * n)) (zeros (4 * n)) (zeros (4 * n)).
Proof.
  unfold children_data. rewrite !(piece_zeros n _ 8), !(piece_zeros n _ 4) by lia.
  rewrite !zeros_app. replace (n + (n + (n + n))) with (4 * n) by lia. reflexivity.
Qed.

Lemma children_data_length n g z : length g = 8 * n -> length z = 4 * n ->
  all4 (fun x => length x = 4 * n) (children_data n g z).
Proof.
  intros Lg Lz. unfold children_data, all4. cbn [fa fb fc fd].
  rewrite !app_length. rewrite !(piece_length n g _ 8), !(piece_length n z _ 4) by (auto; lia).
  lia.
Qed.

Lemma outer_flux_length n h : all4 (fun x => length x = 4 * n) h -> length (outer_flux n h) = 8 * n.
Proof.
  intros (A & B & C & D). unfold outer_flux. rewrite !app_length.
  rewrite !(piece_length n _ _ 4) by (auto; lia). lia.
Qed.

(** * One family *)

Lemma child_psize n p k : child_ok n p k -> psize p = n * 2 ^ k.
Proof. intros (H & E & _). unfold psize. rewrite H, E. cbn [Nat.pow]. apply Nat.div_1_r. Qed.

Lemma coarsen_ok n ch k : n <> 0 -> levels_ok n k ->
  child_ok n (fa ch) (fa k) -> child_ok n (fb ch) (fb k) ->
  child_ok n (fc ch) (fc k) -> child_ok n (fd ch) (fd k) ->
  exists Tc,
    coarsen ch = Ok (Four (set_nc (set_T (fa ch) (fa Tc)) (fa k)) (set_nc (set_T (fb ch) (fb Tc)) (fb k))
                          (set_nc (set_T (fc ch) (fc Tc)) (fc k)) (set_nc (set_T (fd ch) (fd Tc)) (fd k))) /\
    resolved (fa k) n (pT (fa ch)) (fa Tc) /\ resolved (fb k) n (pT (fb ch)) (fb Tc) /\
    resolved (fc k) n (pT (fc ch)) (fc Tc) /\ resolved (fd k) n (pT (fd ch)) (fd Tc).
Proof.
  intros Hn (Hmin & Hk) A B C D. unfold coarsen.
  rewrite (tagPatches_ok n ch (fa k) (fb k) (fc k) (fd k)) by (auto using child_psize).
  rewrite Hmin, !Nat.sub_0_r, bind_Ok. cbn [fa fb fc fd].
  destruct A as (A1 & A2 & A3), B as (B1 & B2 & B3), C as (C1 & C2 & C3), D as (D1 & D2 & D3).
  destruct (coarsen_one_ok (fa ch) (fa k) n) as (Ta & Ea & Ra); auto; [destruct Hk; tauto|].
  destruct (coarsen_one_ok (fb ch) (fb k) n) as (Tb & Eb & Rb); auto; [destruct Hk; tauto|].
  destruct (coarsen_one_ok (fc ch) (fc k) n) as (Tc & Ec & Rc); auto; [destruct Hk; tauto|].
  destruct (coarsen_one_ok (fd ch) (fd k) n) as (Td & Ed & Rd); auto; [destruct Hk; tauto|].
  rewrite Ea, bind_Ok, Eb, bind_Ok, Ec, bind_Ok, Ed, bind_Ok.
  rewrite A1, B1, C1, D1. exists (Four Ta Tb Tc Td). split; [reflexivity|]. split4; assumption.
Qed.

Lemma psize_coarse n p k T : gnx (pgrid p) = n * 2 ^ k -> psize (set_nc (set_T p T) k) = n.
Proof.
  intros E. unfold psize. cbn [pgrid pnc set_nc set_T]. rewrite E. apply Nat.div_mul. apply Nat.pow_nonzero. lia.
Qed.

Lemma family_build gesv tau ch n k : gesv_contract gesv -> n <> 0 -> levels_ok n k ->
  child_ok n (fa ch) (fa k) -> child_ok n (fb ch) (fb k) ->
  child_ok n (fc ch) (fc k) -> child_ok n (fd ch) (fd k) ->
  (forall Tc, resolved (fa k) n (pT (fa ch)) (fa Tc) -> resolved (fb k) n (pT (fb ch)) (fb Tc) ->
     resolved (fc k) n (pT (fc ch)) (fc Tc) -> resolved (fd k) n (pT (fd ch)) (fd Tc) ->
     interface_unique n Tc) ->
  exists Tc X S H T,
    let ch' := Four (set_nc (set_T (fa ch) (fa Tc)) (fa k)) (set_nc (set_T (fb ch) (fb Tc)) (fb k))
                    (set_nc (set_T (fc ch) (fc Tc)) (fc k)) (set_nc (set_T (fd ch) (fd Tc)) (fd k)) in
    merge4to1 gesv tau ch =
      Ok (set_grid (set_T (set_S (set_H (set_X tau X) H) S) T)
            (Grid (n + n) (n + n) (gxl (pgrid (fa ch))) (gxu (pgrid (fb ch)))
                                  (gyl (pgrid (fa ch))) (gyu (pgrid (fc ch)))), ch') /\
    resolved (fa k) n (pT (fa ch)) (fa Tc) /\ resolved (fb k) n (pT (fb ch)) (fb Tc) /\
    resolved (fc k) n (pT (fc ch)) (fc Tc) /\ resolved (fd k) n (pT (fd ch)) (fd Tc) /\
    family_ops n Tc S H T /\ interface_unique n Tc.
Proof.
  intros Hg Hn Hk A B C D HU. rewrite merge4to1_rest.
  destruct (coarsen_ok n ch k) as (Tc & E & RA & RB & RC & RD); auto. rewrite E, bind_Ok. clear E.
  set (ch' := Four _ _ _ _).
  assert (HT : four_T ch' = Tc) by (destruct Tc; reflexivity).
  destruct A as (_ & A & _), B as (_ & B & _), C as (_ & C & _), D as (_ & D & _).
  assert (Hs : all4 (fun p => psize p = n) ch').
  { unfold all4, ch'. cbn [fa fb fc fd]. rewrite !(psize_coarse n) by auto. auto. }
  destruct (merge_rest_ok gesv tau ch' n) as (X & S & H & T & E & F & _); auto.
  { rewrite HT. split4; [apply RA|apply RB|apply RC|apply RD]. }
  rewrite HT in F. rewrite E, bind_Ok. exists Tc, X, S, H, T. split; [|repeat (split; [assumption|]); auto].
  unfold mergePatch. destruct Hs as (-> & -> & -> & _). reflexivity.
Qed.

Lemma family_up gesv tau ch n : gesv_contract gesv -> n <> 0 ->
  all4 (fun p => gnx (pgrid p) = n * 2 ^ pnc p /\ length (ph p) = 4 * (n * 2 ^ pnc p) /\ square (4 * n) (pT p)) ch ->
  interface_unique n (four_T ch) -> isB 8 4 n (pH tau) (HFT n (four_T ch)) ->
  let hc := fmap (fun p => coarsen_by (pnc p) n (ph p)) ch in
  exists X w h,
    upwards4to1 gesv false tau ch = Ok (set_h (set_w (set_X tau X) w) h,
      Four (set_h (fa ch) (fa hc)) (set_h (fb ch) (fb hc)) (set_h (fc ch) (fc hc)) (set_h (fd ch) (fd hc))) /\
    length w = 4 * n /\ length h = 8 * n /\
    continuous n (total_fluxes (four_T ch) hc (children_data n (zeros (8 * n)) w)) /\
    h = outer_flux n (total_fluxes (four_T ch) hc (children_data n (zeros (8 * n)) w)).
Proof.
  intros Hg Hn ((A1 & A2 & A3) & (B1 & B2 & B3) & (C1 & C2 & C3) & (D1 & D2 & D3)) HU HH hc.
  rewrite upwards4to1_rest. unfold coarsenUpwards, fmapM.
  rewrite !(coarsenUp_one_ok _ _ n) by (reflexivity || assumption || (right; assumption)).
  rewrite !bind_Ok.
  set (ch' := Four _ _ _ _).
  assert (HT : four_T ch' = four_T ch) by (destruct ch; reflexivity).
  assert (Hh : four_h ch' = hc) by reflexivity.
  destruct (up_rest_ok gesv tau ch' n) as (X & w & h & E & R); auto.
  - unfold all4, ch', psize. cbn [fa fb fc fd pgrid pnc set_h]. rewrite A1, B1, C1, D1.
    rewrite !Nat.div_mul by (apply Nat.pow_nonzero; lia). auto.
  - change (all4 (square (4 * n)) (four_T ch)). unfold all4, four_T, fmap. cbn [fa fb fc fd]. auto.
  - rewrite Hh. unfold all4, hc, fmap. cbn [fa fb fc fd]. rewrite !coarsen_by_length by auto. auto.
  - rewrite E, bind_Ok. exists X, w, h. rewrite HT, Hh in R. split; [reflexivity|exact R].
Qed.

Lemma family_split hom tau ch n : n <> 0 ->
  psize (fa ch) = n -> well_formed (pS tau) -> nr (pS tau) = 4 * n -> nc (pS tau) = 8 * n ->
  (hom = false -> length (pw tau) = 4 * n) ->
  forall k c, pnc tau = k -> gnx (pgrid tau) = c * 2 ^ k -> c * 2 ^ k = 2 * n -> (k = 0 \/ 3 <= c) ->
  length (pg tau) = 4 * c ->
  let g := refine_by k c (pg tau) in
  let u := if hom then apply_op (pS tau) g else vplus (apply_op (pS tau) g) (pw tau) in
  let x := children_data n g u in
  split1to4 hom tau ch = Ok (set_g tau g, Four (set_g (fa ch) (fa x)) (set_g (fb ch) (fb x))
                               (set_g (fc ch) (fc x)) (set_g (fd ch) (fd x))).
Proof.
  intros Hn Hp WS NS CS Lw k c Hk Hx Hc H3 Lg g u x. unfold split1to4.
  rewrite (uncoarsen_ok tau k c) by auto. rewrite bind_Ok.
  rewrite (applyS_ok hom (set_g tau (refine_by k c (pg tau))) ch n); auto.
  cbn [pg set_g]. rewrite refine_by_length by auto. lia.
Qed.
