(** Change of resolution in double arithmetic. *)
From Coq Require Import Reals Lra Permutation.
From Flocq Require Import Core Binary Bits.
From Verif Require Import Base VectorModel MatrixModel LinSpec MatProofs MatProofs2 MatProofs3 HPSModel FloatModel FloatSpec
  FloatProofs FloatProofs2 FProdModel FProdSpec FProdProofs FProdProofs2 FProdProofs3.

Local Open Scope R_scope.
Local Notation val := FloatSpec.val.

(** ** Sums that do not overflow *)
Lemma rounding_total n A : A + rounding n A = pw n * (A + INR n * eta).
Proof. rewrite rounding_pw. ring. Qed.

Lemma sum_bound l r : sum_value l r -> finite r -> Rabs (val r) <= pw (terms l) * (size_sum l + INR (terms l) * eta).
Proof.
  intros S F. rewrite <- rounding_total. pose proof (sum_error _ _ S F). pose proof (exact_size l).
  replace (val r) with (exact_sum l + (val r - exact_sum l)) by ring. eapply Rle_trans; [apply Rabs_triang|]. lra.
Qed.

Lemma repr_1023 : repr (bpow radix2 1023).
Proof. apply generic_format_bpow. vm_compute. discriminate. Qed.
Lemma rnd_1023 x : Rabs x <= bpow radix2 1023 -> Rabs (rnd x) < bpow radix2 1024.
Proof.
  intros H. apply Rabs_def2b in H || idtac. assert (K : - bpow radix2 1023 <= x <= bpow radix2 1023) by (revert H; unfold Rabs; destruct (Rcase_abs x); lra).
  pose proof (rnd_between _ _ x (repr_opp _ repr_1023) repr_1023 K) as B.
  assert (L : bpow radix2 1023 < bpow radix2 1024) by (apply bpow_lt; lia).
  apply Rabs_def1; lra.
Qed.

Lemma mono_total n n' A A' : (n <= n')%nat -> 0 <= A <= A' -> pw n * (A + INR n * eta) <= pw n' * (A' + INR n' * eta).
Proof.
  intros Hn HA. pose proof (pw_le _ _ Hn). pose proof (pw_1 n). pose proof (pos_INR n). apply le_INR in Hn. pose proof eta_pos.
  apply Rmult_le_compat; [lra|nra|assumption|nra].
Qed.

Lemma sum_finite l r : sum_value l r -> numbers l -> pw (terms l) * (size_sum l + INR (terms l) * eta) <= bpow radix2 1023 -> finite r.
Proof.
  induction 1 as [|a b Z|a b|a b l l' x Sx IH P|l1 l2 l' x y S1 IH1 S2 IH2 P]; intros N H; try reflexivity.
  - inversion N as [|? ? (Fa & Fb) _]; subst. cbn [fst snd] in Fa, Fb. apply dmul_ok; [exact Fa|exact Fb|]. apply rnd_1023.
    eapply Rle_trans; [|exact H]. unfold size_sum, Rsum, product. cbn [map fold_right fst snd].
    set (n := terms [(a, b)]). pose proof (pw_1 n) as K1. pose proof (pos_INR n). pose proof eta_pos. pose proof (Rabs_pos (val a * val b)) as K2.
    assert (K3 : 0 <= INR n * eta) by (apply Rmult_le_pos; lra). rewrite Rplus_0_r.
    set (t := Rabs (val a * val b)) in *. clearbody t. set (q := INR n * eta) in *. clearbody q. set (p := pw n) in *. clearbody p. clear - K1 K2 K3. nra.
  - assert (N' : numbers ((a, b) :: l)) by (eapply Permutation_Forall; [exact P|exact N]).
    inversion N' as [|? ? (Fa & Fb) Nl]; subst. cbn [fst snd] in Fa, Fb.
    rewrite (size_perm _ _ P), (terms_perm _ _ P) in H. change ((a, b) :: l) with ([(a, b)] ++ l) in H.
    rewrite size_app, terms_app in H. pose proof (size_nonneg [(a, b)]) as Z1. pose proof (size_nonneg l) as Z2.
    assert (Fx : finite x).
    { apply IH; [exact Nl|]. eapply Rle_trans; [|exact H]. apply mono_total; [lia|lra]. }
    apply fma_ok; try assumption. apply rnd_1023. eapply Rle_trans; [apply Rabs_triang|]. eapply Rle_trans; [|exact H].
    pose proof (sum_bound _ _ Sx Fx) as B.
    assert (E : size_sum [(a, b)] = Rabs (val a * val b)) by (unfold size_sum, Rsum, product; cbn; ring). rewrite <- E.
    set (n1 := terms [(a, b)]) in *. set (n := terms l) in *.
    pose proof (pw_le n (n1 + n) ltac:(lia)) as PW. pose proof (pw_1 n). pose proof (pw_1 (n1 + n)). pose proof (pos_INR n). pose proof (pos_INR n1).
    pose proof eta_pos. rewrite plus_INR.
    assert (pw n * (size_sum l + INR n * eta) <= pw (n1 + n) * (size_sum l + INR n * eta)) by (apply Rmult_le_compat_r; [nra|exact PW]).
    assert (K3 : 0 <= INR n1 * eta) by (apply Rmult_le_pos; lra).
    assert (size_sum [(a, b)] <= pw (n1 + n) * (size_sum [(a, b)] + INR n1 * eta)).
    { apply Rle_trans with (1 * (size_sum [(a, b)] + INR n1 * eta)); [lra|]. apply Rmult_le_compat_r; lra. }
    lra.
  - assert (N' : numbers (l1 ++ l2)) by (eapply Permutation_Forall; [exact P|exact N]).
    apply Forall_app in N'. destruct N' as (N1 & N2).
    rewrite (size_perm _ _ P), (terms_perm _ _ P), size_app, terms_app in H.
    pose proof (size_nonneg l1) as Z1. pose proof (size_nonneg l2) as Z2.
    assert (Fx : finite x). { apply IH1; [exact N1|]. eapply Rle_trans; [|exact H]. apply mono_total; [lia|lra]. }
    assert (Fy : finite y). { apply IH2; [exact N2|]. eapply Rle_trans; [|exact H]. apply mono_total; [lia|lra]. }
    apply dadd_ok; try assumption. apply rnd_1023. eapply Rle_trans; [apply Rabs_triang|]. eapply Rle_trans; [|exact H].
    pose proof (sum_bound _ _ S1 Fx) as B1. pose proof (sum_bound _ _ S2 Fy) as B2.
    set (n1 := terms l1) in *. set (n := terms l2) in *.
    pose proof (pw_le n (n1 + n) ltac:(lia)) as PW. pose proof (pw_le n1 (n1 + n) ltac:(lia)) as PW1.
    pose proof (pos_INR n). pose proof (pos_INR n1). pose proof eta_pos. rewrite plus_INR.
    assert (pw n * (size_sum l2 + INR n * eta) <= pw (n1 + n) * (size_sum l2 + INR n * eta)) by (apply Rmult_le_compat_r; [nra|exact PW]).
    assert (pw n1 * (size_sum l1 + INR n1 * eta) <= pw (n1 + n) * (size_sum l1 + INR n1 * eta)) by (apply Rmult_le_compat_r; [nra|exact PW1]).
    lra.
Qed.

(** ** Products that are multiples of a power of two *)
Lemma zabs_size E l ks : Forall2 (fun p k => product p = IZR k * bpow radix2 E) l ks ->
  size_sum l = IZR (zabs_sum ks) * bpow radix2 E.
Proof.
  induction 1 as [|p k l ks H F IH]; [unfold size_sum, Rsum; cbn; ring|].
  change (zabs_sum (k :: ks)) with (Z.abs k + zabs_sum ks)%Z. rewrite plus_IZR, Rmult_plus_distr_r, <- IH.
  unfold size_sum, Rsum. cbn [map fold_right]. rewrite H, Rabs_mult, (Rabs_pos_eq (bpow _ _)) by apply bpow_ge_0.
  rewrite abs_IZR. reflexivity.
Qed.
Lemma multiples_list E l : Forall (fun p => exists k, product p = IZR k * bpow radix2 E) l ->
  exists ks, Forall2 (fun p k => product p = IZR k * bpow radix2 E) l ks.
Proof.
  induction 1 as [|p l (k & H) F (ks & IH)]; [exists []; constructor|]. exists (k :: ks). constructor; assumption.
Qed.
Lemma sum_exact_multiples E l r : sum_value l r -> numbers l ->
  Forall (fun p => exists k, product p = IZR k * bpow radix2 E) l -> size_sum l < bpow radix2 (53 + E) -> (-1074 <= E <= 971)%Z ->
  finite r /\ val r = exact_sum l.
Proof.
  intros S N F B HE. destruct (multiples_list _ _ F) as (ks & Fk). apply (sum_exact_scaled E l ks r S N Fk); [|exact HE].
  rewrite (zabs_size _ _ _ Fk), bpow_plus in B. apply Rmult_lt_reg_r in B; [|apply bpow_gt_0].
  change (bpow radix2 53) with (IZR (2 ^ 53)) in B. apply lt_IZR, B.
Qed.

(** ** The matrices of a change of resolution *)
Lemma relres_ok {A B} (P : A -> B -> Prop) x b : relres P x (Ok b) -> exists a, x = Ok a /\ P a b.
Proof. destruct x; cbn; intros H; try contradiction. eauto. Qed.

Lemma four_diag_shape L : well_formed L -> exists M, four_diag L = Ok M /\ well_formed M /\ nr M = (4 * nr L)%nat /\ nc M = (4 * nc L)%nat.
Proof.
  intros W. unfold four_diag. rewrite blockDiagonalMatrix_ok by (intros d [<-|[<-|[<-|[<-|[]]]]]; exact W).
  eexists. split; [reflexivity|]. split; [apply mat_of_wf|]. cbn [nr nc mat_of]. unfold rows_of, cols_of. cbn. lia.
Qed.

Definition refine_rows (M : matrix Qc) (c : nat) : Prop :=
  well_formed M /\ nr M = (8 * c)%nat /\ nc M = (4 * c)%nat /\
  forall i, (i < 8 * c)%nat -> exists ws, refine_ws ws /\ row_ws (fun j => qval (qent M i j)) (4 * c) ws.

Lemma refine_moved s ws : refine_ws ws -> refine_ws (moved s ws).
Proof. intros [(a & b & d & ->)|(a & b & ->)]; [left|right]; cbn; eauto. Qed.

Lemma refine_matrix c : (3 <= c)%nat -> exists L M, Coarse2Fine (2 * c) = Ok L /\ four_diag L = Ok M /\ refine_rows M c.
Proof.
  intros Hc. rewrite (Coarse2Fine_ok c Hc). eexists.
  destruct (four_diag_shape (mat_of (2 * c) c (c2f_entry c)) (mat_of_wf _ _ _)) as (M & E & W & R & C).
  exists M. split; [reflexivity|]. split; [exact E|]. cbn [nr nc mat_of] in R, C. split; [exact W|]. split; [lia|]. split; [lia|].
  intros i Hi.
  assert (Hm : (i mod (2 * c) < 2 * c)%nat) by (apply Nat.mod_upper_bound; lia).
  destruct (c2f_row c (i mod (2 * c)) Hc Hm) as (ws & RW & RO).
  destruct (four_row _ M i (mat_of_wf _ _ _) E) with (ws := ws) as (s & Hs & H).
  - cbn [nr mat_of]. lia.
  - cbn [nr mat_of]. lia.
  - cbn [nr nc mat_of]. destruct RO as (R1 & R2 & R3). split; [exact R1|]. split.
    + rewrite Forall_forall in *. intros w Hw. destruct (R2 w Hw) as (K1 & K2). split; [exact K1|].
      rewrite mat_of_ent by assumption. exact K2.
    + intros j Hj K. rewrite mat_of_ent by assumption. apply R3; assumption.
  - cbn [nc mat_of] in H. exists (moved s ws). split; [apply refine_moved, RW|exact H].
Qed.

Definition average_rows (M : matrix Qc) (c : nat) : Prop :=
  well_formed M /\ nr M = (4 * c)%nat /\ nc M = (8 * c)%nat /\
  forall i, (i < 4 * c)%nat -> exists a b, row_ws (fun j => qval (qent M i j)) (8 * c) [(a, 1 / 2); (b, 1 / 2)].

Lemma average_matrix c : (0 < c)%nat -> exists L M, Fine2Coarse c = Ok L /\ four_diag L = Ok M /\ average_rows M c.
Proof.
  intros Hc. rewrite (Fine2Coarse_ok c). eexists.
  match goal with |- context [mat_of c (2 * c) ?f] => set (F := f) end.
  destruct (four_diag_shape (mat_of c (2 * c) F) (mat_of_wf _ _ _)) as (M & E & W & R & C).
  exists M. split; [reflexivity|]. split; [exact E|]. cbn [nr nc mat_of] in R, C. split; [exact W|]. split; [lia|]. split; [lia|].
  intros i Hi.
  assert (Hm : (i mod c < c)%nat) by (apply Nat.mod_upper_bound; lia).
  pose proof (f2c_row c (i mod c) Hm) as RO.
  destruct (four_row _ M i (mat_of_wf _ _ _) E) with (ws := [((2 * (i mod c))%nat, 1 / 2); ((2 * (i mod c) + 1)%nat, 1 / 2)]) as (s & Hs & H).
  - cbn [nr mat_of]. lia.
  - cbn [nr mat_of]. lia.
  - cbn [nr nc mat_of]. destruct RO as (R1 & R2 & R3). split; [exact R1|]. split.
    + rewrite Forall_forall in *. intros w Hw. destruct (R2 w Hw) as (K1 & K2). split; [exact K1|].
      rewrite mat_of_ent by assumption. exact K2.
    + intros j Hj K. rewrite mat_of_ent by assumption. apply R3; assumption.
  - cbn [nc mat_of] in H. replace (8 * c)%nat with (4 * (2 * c))%nat by lia. cbn in H. eexists. eexists. exact H.
Qed.

(** The outcome of one pass: entries that are sums over the rows of the matrix. *)
Lemma refine_out c g r : (3 <= c)%nat -> drefine (2 * c) g r ->
  exists D M, same_matrix D M /\ refine_rows M c /\ (L <- Coarse2Fine (2 * c) ;; four_diag L) = Ok M /\ dmulv_outcome D g r.
Proof.
  intros Hc. unfold drefine. destruct (refine_matrix c Hc) as (L & M & EL & EM & RR).
  pose proof (coarse2fine_same (2 * c)) as S. rewrite EL in S. destruct (relres_ok _ _ _ S) as (DL & ED & SL).
  pose proof (four_same DL L SL) as S4. rewrite EM in S4. destruct (relres_ok _ _ _ S4) as (D & E4 & SD).
  rewrite ED, bind_Ok, E4. intros O. exists D, M. split; [exact SD|]. split; [exact RR|]. split; [|exact O].
  rewrite EL, bind_Ok. exact EM.
Qed.
Lemma average_out c h r : (0 < c)%nat -> daverage (2 * c) h r ->
  exists D M, same_matrix D M /\ average_rows M c /\ (L <- Fine2Coarse c ;; four_diag L) = Ok M /\ dmulv_outcome D h r.
Proof.
  intros Hc. unfold daverage. rewrite even_div. destruct (average_matrix c Hc) as (L & M & EL & EM & RR).
  pose proof (fine2coarse_same c) as S. rewrite EL in S. destruct (relres_ok _ _ _ S) as (DL & ED & SL).
  pose proof (four_same DL L SL) as S4. rewrite EM in S4. destruct (relres_ok _ _ _ S4) as (D & E4 & SD).
  rewrite ED, bind_Ok, E4. intros O. exists D, M. split; [exact SD|]. split; [exact RR|]. split; [|exact O].
  rewrite EL, bind_Ok. exact EM.
Qed.

Lemma same_of_finite x : Forall finite x -> exists xq, same_vector x xq.
Proof.
  induction 1 as [|a l H F (xq & IH)]; [exists []; constructor|].
  assert (Q : exists q, val a = qval q).
  { clear - H. destruct a as [s|s|s pl E|s m e E]; try discriminate H.
    - exists 0%Qc. rewrite qval_0. reflexivity.
    - destruct e as [|p|p].
      + exists (Q2Qc (SpecFloat.cond_Zopp s (Z.pos m) # 1)). rewrite qval_frac. cbn. unfold F2R. cbn. lra.
      + exists (Q2Qc (SpecFloat.cond_Zopp s (Z.pos m) * 2 ^ Z.pos p # 1)). rewrite qval_frac. unfold FloatSpec.val, B2R, F2R. cbn [Fnum Fexp].
        rewrite mult_IZR. rewrite (IZR_Zpower radix2) by lia. lra.
      + exists (Q2Qc (SpecFloat.cond_Zopp s (Z.pos m) # (2 ^ p)%positive)). rewrite qval_frac. unfold FloatSpec.val, B2R, F2R. cbn [Fnum Fexp].
        change (Z.neg p) with (- Z.pos p)%Z. rewrite bpow_opp. unfold Rdiv. rewrite Pos2Z.inj_pow, (IZR_Zpower radix2) by lia. reflexivity. }
  destruct Q as (q & Q). exists (q :: xq). constructor; [split; assumption|exact IH].
Qed.

(** What one entry of the product is, in terms of the weights of its row. *)
Lemma row_value D M x xq i ws n : well_formed M -> same_matrix D M -> same_vector x xq -> length xq = nc M -> nc M = n -> (i < nr M)%nat ->
  row_ws (fun j => qval (qent M i j)) n ws ->
  numbers (combine (row_of D i) x) /\
  exact_sum (combine (row_of D i) x) = Rsum (map (fun w => snd w * val (nth (fst w) x (dint 0))) ws) /\
  size_sum (combine (row_of D i) x) = Rsum (map (fun w => Rabs (snd w * val (nth (fst w) x (dint 0)))) ws) /\
  (terms (combine (row_of D i) x) <= length ws)%nat /\
  Forall (fun p => product p = 0 \/ exists w, In w ws /\ product p = snd w * val (nth (fst w) x (dint 0))) (combine (row_of D i) x).
Proof.
  intros W S Sx L C Hi RW. destruct (row_exact D M x xq i W S Sx L Hi) as (N & P). split; [exact N|].
  assert (Q : qproducts M xq i = map (fun j => qval (qent M i j) * val (nth j x (dint 0))) (seq 0 n)).
  { unfold qproducts. rewrite <- C. apply map_ext_in. intros j Hj. apply in_seq in Hj.
    rewrite (proj2 (same_nth x xq j Sx ltac:(lia))). reflexivity. }
  destruct (row_sums _ _ _ (fun j => val (nth j x (dint 0))) RW) as (R1 & R2 & R3).
  unfold exact_sum. rewrite size_map, terms_map, P, Q. split; [exact R1|]. split; [exact R2|]. split; [exact R3|].
  apply Forall_forall. intros p Hp. apply (in_map product) in Hp. rewrite P, Q in Hp. apply in_map_iff in Hp as (j & Ej & Hj).
  apply in_seq in Hj. rewrite <- Ej. destruct RW as (_ & F & Z).
  destruct (in_dec Nat.eq_dec j (map fst ws)) as [K|K].
  - right. apply in_map_iff in K as (w & <- & Hw). exists w. split; [exact Hw|]. rewrite Forall_forall in F. rewrite (proj2 (F w Hw)). reflexivity.
  - left. rewrite (Z j ltac:(lia) K). ring.
Qed.

Lemma ws_size ws (g : nat -> R) B : refine_ws ws -> (forall j, Rabs (g j) <= B) ->
  Rsum (map (fun w => Rabs (snd w * g (fst w))) ws) <= 17 / 8 * B /\ (length ws <= 3)%nat.
Proof.
  intros H G. assert (B0 : 0 <= B) by (eapply Rle_trans; [apply Rabs_pos|apply (G 0%nat)]).
  destruct H as [(a & b & d & ->)|(a & b & ->)]; unfold Rsum; cbn [map fold_right fst snd length]; (split; [|lia]); rewrite !Rabs_mult.
  - rewrite (Rabs_pos_eq (45 / 32)), Rabs_Ropp, (Rabs_pos_eq (9 / 16)), (Rabs_pos_eq (5 / 32)) by lra.
    pose proof (G a). pose proof (G b). pose proof (G d). lra.
  - rewrite (Rabs_pos_eq (3 / 4)), (Rabs_pos_eq (1 / 4)) by lra. pose proof (G a). pose proof (G b). lra.
Qed.

Lemma uu_val : uu = / 9007199254740992.
Proof. reflexivity. Qed.
Lemma rounding_3 n A B : (n <= 3)%nat -> 0 <= A <= 17 / 8 * B ->
  rounding n A <= bpow radix2 (-50) * B + bpow radix2 (-1073).
Proof.
  intros Hn HA. rewrite rounding_pw. pose proof (pw_le _ _ Hn) as P. pose proof (pw_1 n). apply le_INR in Hn. pose proof (pos_INR n).
  assert (P3 : pw 3 <= 1 + 32 / 9 * uu).
  { unfold pw. cbn [pow]. rewrite uu_val. lra. }
  assert (E50 : bpow radix2 (-50) = 8 * uu) by (change (-50)%Z with (3 + -53)%Z; rewrite bpow_plus; reflexivity).
  assert (E73 : bpow radix2 (-1073) = 4 * eta) by (change (-1073)%Z with (2 + -1075)%Z; rewrite bpow_plus; reflexivity).
  rewrite E50, E73. cbn [INR] in Hn. pose proof uu_pos. pose proof eta_pos.
  apply Rplus_le_compat.
  - apply Rle_trans with (32 / 9 * uu * (17 / 8 * B)); [|nra]. apply Rmult_le_compat; lra.
  - apply Rmult_le_compat_r; [lra|]. apply Rle_trans with (3 * (1 + 32 / 9 * uu)).
    + apply Rmult_le_compat; lra.
    + rewrite uu_val. lra.
Qed.
Lemma rounding_2 n A B : (n <= 2)%nat -> 0 <= A <= B ->
  rounding n A <= bpow radix2 (-51) * B + bpow radix2 (-1073).
Proof.
  intros Hn HA. rewrite rounding_pw. pose proof (pw_le _ _ Hn) as P. pose proof (pw_1 n). apply le_INR in Hn. pose proof (pos_INR n).
  assert (P3 : pw 2 <= 1 + 4 * uu).
  { unfold pw. cbn [pow]. rewrite uu_val. lra. }
  assert (E50 : bpow radix2 (-51) = 4 * uu) by (change (-51)%Z with (2 + -53)%Z; rewrite bpow_plus; reflexivity).
  assert (E73 : bpow radix2 (-1073) = 4 * eta) by (change (-1073)%Z with (2 + -1075)%Z; rewrite bpow_plus; reflexivity).
  rewrite E50, E73. cbn [INR] in Hn. pose proof uu_pos. pose proof eta_pos.
  apply Rplus_le_compat.
  - apply Rmult_le_compat; lra.
  - apply Rmult_le_compat_r; [lra|]. apply Rle_trans with (2 * (1 + 4 * uu)).
    + apply Rmult_le_compat; lra.
    + rewrite uu_val. lra.
Qed.

Lemma bounded_nth B x j : bounded B x -> 0 <= B -> Rabs (val (nth j x (dint 0))) <= B.
Proof.
  intros F HB. destruct (Nat.lt_ge_cases j (length x)) as [H|H].
  - unfold bounded in F. rewrite Forall_forall in F. apply F, nth_In, H.
  - rewrite nth_overflow by exact H. rewrite val0, Rabs_R0. exact HB.
Qed.
