(** Passes between resolutions in double arithmetic. *)
From Coq Require Import Reals Lra Permutation.
From Flocq Require Import Core Binary Bits.
From Verif Require Import Base VectorModel MatrixModel LinSpec MatProofs MatProofs2 MatProofs3 HPSModel FloatModel FloatSpec
  FloatProofs FloatProofs2 FProdModel FProdSpec FProdProofs FProdProofs2 FProdProofs3 FProdProofs4.

Local Open Scope R_scope.
Local Notation val := FloatSpec.val.

Lemma bounded_pos B x : bounded B x -> x <> [] -> 0 <= B.
Proof. intros F N. destruct x as [|a x]; [congruence|]. inversion F; subst. pose proof (Rabs_pos (val a)). lra. Qed.

Lemma total_3 n A B : (n <= 3)%nat -> 0 <= A <= 17 / 8 * B -> B <= bpow radix2 1020 ->
  pw n * (A + INR n * eta) <= bpow radix2 1023.
Proof.
  intros Hn HA HB. eapply Rle_trans; [apply (mono_total n 3 A (17 / 8 * B) Hn HA)|].
  assert (P3 : pw 3 <= 2) by (unfold pw; cbn [pow]; rewrite uu_val; lra).
  pose proof (pw_1 3).
  assert (E : bpow radix2 1023 = 8 * bpow radix2 1020) by (change 1023%Z with (3 + 1020)%Z; rewrite bpow_plus; reflexivity).
  assert (eta <= / 24 * bpow radix2 1020).
  { unfold eta. apply Rle_trans with (bpow radix2 0); [apply bpow_le; lia|]. apply Rle_trans with (/ 24 * bpow radix2 5); [cbn; lra|].
    apply Rmult_le_compat_l; [lra|]. apply bpow_le; lia. }
  pose proof eta_pos. rewrite E. cbn [INR]. apply Rle_trans with (2 * (17 / 8 * B + (1 + 1 + 1) * eta)); [|lra].
  apply Rmult_le_compat_r; lra.
Qed.

Section Rows.
  Variables (D : matrix double) (M : matrix Qc) (x : list double) (r : res (list double)) (n : nat).
  Hypothesis W : well_formed M.
  Hypothesis SD : same_matrix D M.
  Hypothesis Lx : length x = n.
  Hypothesis HC : nc M = n.
  Hypothesis Hn : n <> 0%nat.
  Hypothesis Fx : Forall finite x.
  Hypothesis O : dmulv_outcome D x r.

  Lemma rows_out : exists y, r = Ok y /\ length y = nr M /\
    forall i ws, (i < nr M)%nat -> row_ws (fun j => qval (qent M i j)) n ws ->
    exists l, sum_value l (nth i y (dint 0)) /\ numbers l /\
      exact_sum l = Rsum (map (fun w => snd w * val (nth (fst w) x (dint 0))) ws) /\
      size_sum l = Rsum (map (fun w => Rabs (snd w * val (nth (fst w) x (dint 0)))) ws) /\
      (terms l <= length ws)%nat /\
      Forall (fun p => product p = 0 \/ exists w, In w ws /\ product p = snd w * val (nth (fst w) x (dint 0))) l.
  Proof.
    pose proof (same_wf _ _ SD W) as WD. destruct (same_of_finite x Fx) as (xq & Sx). pose proof (F2_length _ _ _ Sx) as Lq.
    pose proof SD as (S1 & S2 & S3).
    destruct (mulv_rows D x r WD ltac:(lia) ltac:(lia) O) as (y & -> & Ly & H). exists y. split; [reflexivity|]. split; [lia|].
    intros i ws Hi RW. exists (combine (row_of D i) x). split; [apply H; lia|].
    apply (row_value D M x xq i ws n W SD Sx); [lia|exact HC|exact Hi|exact RW].
  Qed.
End Rows.

(** The exact value of an entry of the refined data. *)
Lemma exact_row M xq yq i ws n x : well_formed M -> mulv M xq = Ok yq -> nc M = n -> (i < nr M)%nat -> same_vector x xq ->
  row_ws (fun j => qval (qent M i j)) n ws ->
  qval (nth i yq 0%Qc) = Rsum (map (fun w => snd w * val (nth (fst w) x (dint 0))) ws).
Proof.
  intros W E <- Hi Sx RW. destruct (mulv_dims _ _ _ W E) as (L & N & Ly). rewrite (mulv_row M xq yq i W E Hi).
  destruct (row_sums _ _ _ (fun j => val (nth j x (dint 0))) RW) as (R1 & _). rewrite <- R1. f_equal. unfold qproducts.
  apply map_ext_in. intros j Hj. apply in_seq in Hj. rewrite (proj2 (same_nth x xq j Sx ltac:(lia))). reflexivity.
Qed.

Lemma two_steps {A B C} (m : res A) (f : A -> res B) (k : B -> res C) b c :
  (x <- m ;; f x) = Ok b -> (x <- m ;; y <- f x ;; k y) = Ok c -> k b = Ok c.
Proof. destruct m as [a| |]; cbn; try discriminate. intros ->. cbn. auto. Qed.

Lemma same_finite x xq : same_vector x xq -> Forall finite x.
Proof. induction 1 as [|a b l l' (H & _) F IH]; constructor; assumption. Qed.

Lemma refine_error c g gq yq r B : (3 <= c)%nat -> same_vector g gq -> length gq = (4 * c)%nat ->
  bounded B g -> B <= bpow radix2 1020 ->
  (L <- Coarse2Fine (2 * c) ;; M <- four_diag L ;; mulv M gq) = Ok yq -> drefine (2 * c) g r ->
  exists y, r = Ok y /\ length y = (8 * c)%nat /\
    forall i, (i < 8 * c)%nat -> finite (nth i y (dint 0)) /\
      Rabs (val (nth i y (dint 0)) - qval (nth i yq 0%Qc)) <= bpow radix2 (-50) * B + bpow radix2 (-1073).
Proof.
  intros Hc Sg Lg Bg HB E O. destruct (refine_out c g r Hc O) as (D & M & SD & (W & R & C & RR) & EM & OM).
  pose proof (F2_length _ _ _ Sg) as Ll.
  assert (B0 : 0 <= B) by (apply (bounded_pos _ _ Bg); intros ->; cbn in Ll; lia).
  assert (EY : mulv M gq = Ok yq).
  { exact (two_steps _ _ (fun M => mulv M _) _ _ EM E). }
  destruct (rows_out D M g r (4 * c) W SD ltac:(lia) C ltac:(lia) (same_finite _ _ Sg) OM) as (y & -> & Ly & H).
  exists y. split; [reflexivity|]. split; [lia|]. intros i Hi. destruct (RR i Hi) as (ws & RW & RO).
  destruct (H i ws ltac:(lia) RO) as (l & S & N & X & Z & T & _).
  rewrite (exact_row M gq yq i ws (4 * c) g W EY C ltac:(lia) Sg RO), <- X.
  destruct (ws_size ws (fun j => val (nth j g (dint 0))) B RW (fun j => bounded_nth B g j Bg B0)) as (WS & WL).
  rewrite <- Z in WS. pose proof (size_nonneg l).
  assert (F : finite (nth i y (dint 0))).
  { apply (sum_finite l _ S N). apply (total_3 _ _ B); [lia|lra|exact HB]. }
  split; [exact F|]. eapply Rle_trans; [apply (sum_error _ _ S F)|]. apply rounding_3; [lia|lra].
Qed.

(** Numbers with few digits. *)
Lemma weight_multiple ws w E v : refine_ws ws -> In w ws -> (exists m, v = IZR m * bpow radix2 E) ->
  exists k, snd w * v = IZR k * bpow radix2 (E + -5).
Proof.
  intros RW Hw (m & ->). rewrite bpow_plus. change (bpow radix2 (-5)) with (/ 32).
  assert (K : exists z, snd w = IZR z / 32).
  { destruct RW as [(a & b & d & ->)|(a & b & ->)]; repeat (destruct Hw as [<-|Hw]); try destruct Hw; cbn [snd].
    - exists 45%Z. lra.
    - exists (-18)%Z. lra.
    - exists 5%Z. lra.
    - exists 24%Z. lra.
    - exists 8%Z. lra. }
  destruct K as (z & ->). exists (z * m)%Z. rewrite mult_IZR. field.
Qed.

Lemma few_bound E x : few_digits E x -> Rabs (val x) <= bpow radix2 (46 + E).
Proof.
  intros (_ & m & -> & H). rewrite Rabs_mult, (Rabs_pos_eq (bpow radix2 E)) by apply bpow_ge_0. rewrite bpow_plus.
  apply Rmult_le_compat_r; [apply bpow_ge_0|]. rewrite <- abs_IZR. change (bpow radix2 46) with (IZR (2 ^ 46)). apply IZR_le, H.
Qed.

Lemma refine_exact_rows c g r E : (3 <= c)%nat -> length g = (4 * c)%nat -> Forall (few_digits E) g -> (-1069 <= E <= 976)%Z ->
  drefine (2 * c) g r ->
  exists D M y, same_matrix D M /\ refine_rows M c /\ (L <- Coarse2Fine (2 * c) ;; four_diag L) = Ok M /\
    r = Ok y /\ length y = (8 * c)%nat /\
    forall i ws, (i < 8 * c)%nat -> refine_ws ws -> row_ws (fun j => qval (qent M i j)) (4 * c) ws ->
      finite (nth i y (dint 0)) /\ val (nth i y (dint 0)) = Rsum (map (fun w => snd w * val (nth (fst w) g (dint 0))) ws).
Proof.
  intros Hc Lg Fg HE O. destruct (refine_out c g r Hc O) as (D & M & SD & RR & EM & OM). pose proof RR as (W & R & C & _).
  assert (Ff : Forall finite g) by (eapply Forall_impl; [|exact Fg]; intros a (K & _); exact K).
  assert (Bg : bounded (bpow radix2 (46 + E)) g) by (eapply Forall_impl; [|exact Fg]; intros a K; apply few_bound, K).
  destruct (rows_out D M g r (4 * c) W SD ltac:(lia) C ltac:(lia) Ff OM) as (y & -> & Ly & H).
  exists D, M, y. do 4 (split; [assumption || reflexivity|]). split; [lia|]. intros i ws Hi RW RO.
  destruct (H i ws ltac:(lia) RO) as (l & S & N & X & Z & T & P). rewrite <- X.
  apply (sum_exact_multiples (E + -5) l _ S N); [| |lia].
  - eapply Forall_impl; [|exact P]. intros p [K|(w & Hw & K)]; [exists 0%Z; rewrite K; ring|]. rewrite K.
    apply (weight_multiple ws w E _ RW Hw). destruct RO as (_ & F & _). rewrite Forall_forall in F. destruct (F w Hw) as (F1 & _).
    rewrite Forall_forall in Fg. destruct (Fg (nth (fst w) g (dint 0))) as (_ & m & Em & _); [apply nth_In; lia|]. eauto.
  - rewrite Z. destruct (ws_size ws (fun j => val (nth j g (dint 0))) _ RW (fun j => bounded_nth _ g j Bg (bpow_ge_0 _ _))) as (WS & _).
    eapply Rle_lt_trans; [exact WS|]. replace (53 + (E + -5))%Z with (2 + (46 + E))%Z by lia. rewrite (bpow_plus radix2 2).
    pose proof (bpow_gt_0 radix2 (46 + E)). change (bpow radix2 2) with 4. lra.
Qed.

Lemma refine_exact c g gq yq r E : (3 <= c)%nat -> same_vector g gq -> length gq = (4 * c)%nat -> Forall (few_digits E) g ->
  (-1069 <= E <= 976)%Z ->
  (L <- Coarse2Fine (2 * c) ;; M <- four_diag L ;; mulv M gq) = Ok yq -> drefine (2 * c) g r ->
  exists y, r = Ok y /\ length y = (8 * c)%nat /\
    forall i, (i < 8 * c)%nat -> is_double (nth i y (dint 0)) (nth i yq 0%Qc).
Proof.
  intros Hc Sg Lg Fg HE EY O. pose proof (F2_length _ _ _ Sg) as Ll.
  destruct (refine_exact_rows c g r E Hc ltac:(lia) Fg HE O) as (D & M & y & SD & (W & R & C & RR) & EM & -> & Ly & H).
  assert (EY' : mulv M gq = Ok yq).
  { exact (two_steps _ _ (fun M => mulv M _) _ _ EM EY). }
  exists y. split; [reflexivity|]. split; [exact Ly|]. intros i Hi. destruct (RR i Hi) as (ws & RW & RO).
  destruct (H i ws Hi RW RO) as (F & V). split; [exact F|]. rewrite V. symmetry.
  apply (exact_row M gq yq i ws (4 * c) g W EY' C ltac:(lia) Sg RO).
Qed.

(** Constants. *)
Lemma constant_nth v g j : constant v g -> (j < length g)%nat -> val (nth j g (dint 0)) = v.
Proof. intros C H. unfold constant in C. rewrite Forall_forall in C. apply C, nth_In, H. Qed.

Lemma nth_constant v y : (forall i, (i < length y)%nat -> finite (nth i y (dint 0)) /\ val (nth i y (dint 0)) = v) -> constant v y.
Proof.
  intros H. apply Forall_forall. intros a Ha. destruct (In_nth _ _ (dint 0) Ha) as (i & Hi & <-). apply H, Hi.
Qed.

Lemma refine_constant c g r E m : (3 <= c)%nat -> length g = (4 * c)%nat -> constant (IZR m * bpow radix2 E) g -> (Z.abs m <= 2 ^ 46)%Z ->
  (-1069 <= E <= 976)%Z -> drefine (2 * c) g r ->
  exists y, r = Ok y /\ length y = (8 * c)%nat /\ constant (IZR m * bpow radix2 E) y.
Proof.
  intros Hc Lg Cg Hm HE O.
  assert (Fg : Forall (few_digits E) g).
  { eapply Forall_impl; [|exact Cg]. intros a (F & V). split; [exact F|]. exists m. split; [exact V|exact Hm]. }
  destruct (refine_exact_rows c g r E Hc Lg Fg HE O) as (D & M & y & SD & (W & R & C & RR) & EM & -> & Ly & H).
  exists y. split; [reflexivity|]. split; [exact Ly|]. apply nth_constant. intros i Hi. rewrite Ly in Hi. destruct (RR i Hi) as (ws & RW & RO).
  destruct (H i ws Hi RW RO) as (F & V). split; [exact F|]. rewrite V.
  assert (K : forall w, In w ws -> val (nth (fst w) g (dint 0)) = IZR m * bpow radix2 E).
  { intros w Hw. apply constant_nth; [exact Cg|]. destruct RO as (_ & Fo & _). rewrite Forall_forall in Fo. destruct (Fo w Hw) as (F1 & _). lia. }
  destruct RW as [(a & b & d & ->)|(a & b & ->)]; unfold Rsum; cbn [map fold_right fst snd].
  - pose proof (K (a, 45 / 32) ltac:(cbn; auto)) as K1. pose proof (K (b, - (9 / 16)) ltac:(cbn; auto)) as K2.
    pose proof (K (d, 5 / 32) ltac:(cbn; auto)) as K3. cbn [fst] in K1, K2, K3. rewrite K1, K2, K3. lra.
  - pose proof (K (a, 3 / 4) ltac:(cbn; auto)) as K1. pose proof (K (b, 1 / 4) ltac:(cbn; auto)) as K2.
    cbn [fst] in K1, K2. rewrite K1, K2. lra.
Qed.

Lemma pow2_split a b : (2 ^ (a + b) = 2 ^ a * 2 ^ b)%nat.
Proof. apply Nat.pow_add_r. Qed.

Lemma uncoarsen_constant n0 nc E m : (3 <= n0)%nat -> (Z.abs m <= 2 ^ 46)%Z -> (-1069 <= E <= 976)%Z ->
  forall n g g', (n <= nc)%nat -> duncoarsen (2 ^ nc * n0) nc n g g' -> length g = (4 * (2 ^ n * n0))%nat ->
  constant (IZR m * bpow radix2 E) g ->
  length g' = (4 * (2 ^ nc * n0))%nat /\ constant (IZR m * bpow radix2 E) g'.
Proof.
  intros H0 Hm HE n g g' Hn U. induction U as [g|n g g1 g' Hlt O U IH]; intros Lg Cg; [split; assumption|].
  assert (P0 : (2 ^ (nc - (n + 1)) <> 0)%nat) by (apply Nat.pow_nonzero; lia).
  assert (P1 : (2 ^ n <> 0)%nat) by (apply Nat.pow_nonzero; lia).
  assert (Q : (2 ^ nc * n0 / 2 ^ (nc - (n + 1)) = 2 * (2 ^ n * n0))%nat).
  { replace (2 ^ nc)%nat with (2 ^ (nc - (n + 1)) * 2 ^ (n + 1))%nat by (rewrite <- pow2_split; f_equal; lia).
    rewrite <- Nat.mul_assoc, Nat.mul_comm, Nat.div_mul by exact P0. rewrite pow2_split. cbn [Nat.pow]. lia. }
  rewrite Q in O. assert (Hc : (3 <= 2 ^ n * n0)%nat) by nia.
  destruct (refine_constant _ g (Ok g1) E m Hc Lg Cg Hm HE O) as (y & Ey & Ly & Cy). apply Ok_inj in Ey. subst y.
  apply IH; [lia| |exact Cy]. rewrite Ly, pow2_split. cbn [Nat.pow]. lia.
Qed.

Lemma average_error c h hq yq r B : (0 < c)%nat -> same_vector h hq -> length hq = (8 * c)%nat ->
  bounded B h -> B <= bpow radix2 1020 ->
  (L <- Fine2Coarse c ;; M <- four_diag L ;; mulv M hq) = Ok yq -> daverage (2 * c) h r ->
  exists y, r = Ok y /\ length y = (4 * c)%nat /\
    forall i, (i < 4 * c)%nat -> finite (nth i y (dint 0)) /\
      Rabs (val (nth i y (dint 0)) - qval (nth i yq 0%Qc)) <= bpow radix2 (-51) * B + bpow radix2 (-1073).
Proof.
  intros Hc Sg Lg Bg HB E O. destruct (average_out c h r Hc O) as (D & M & SD & (W & R & C & RR) & EM & OM).
  pose proof (F2_length _ _ _ Sg) as Ll.
  assert (B0 : 0 <= B) by (apply (bounded_pos _ _ Bg); intros ->; cbn in Ll; lia).
  assert (EY : mulv M hq = Ok yq).
  { exact (two_steps _ _ (fun M => mulv M _) _ _ EM E). }
  destruct (rows_out D M h r (8 * c) W SD ltac:(lia) C ltac:(lia) (same_finite _ _ Sg) OM) as (y & -> & Ly & H).
  exists y. split; [reflexivity|]. split; [lia|]. intros i Hi. destruct (RR i Hi) as (a & b & RO).
  destruct (H i _ ltac:(lia) RO) as (l & S & N & X & Z & T & _). cbn [length] in T.
  rewrite (exact_row M hq yq i _ (8 * c) h W EY C ltac:(lia) Sg RO), <- X.
  assert (WS : size_sum l <= B).
  { rewrite Z. unfold Rsum. cbn [map fold_right fst snd]. rewrite !Rabs_mult, (Rabs_pos_eq (1 / 2)) by lra.
    pose proof (bounded_nth B h a Bg B0). pose proof (bounded_nth B h b Bg B0). lra. }
  pose proof (size_nonneg l).
  assert (F : finite (nth i y (dint 0))).
  { apply (sum_finite l _ S N). apply (total_3 _ _ B); [lia|lra|exact HB]. }
  split; [exact F|]. eapply Rle_trans; [apply (sum_error _ _ S F)|]. apply rounding_2; [lia|lra].
Qed.

(** A sum of equal products. *)
Lemma equal_products h l : Forall (fun p => product p = 0 \/ product p = h) l -> h <> 0 -> exact_sum l = INR (terms l) * h.
Proof.
  intros F Hh. induction F as [|p l H F IH]; [unfold exact_sum, Rsum, terms; cbn; ring|].
  change (p :: l) with ([p] ++ l). rewrite exact_app, terms_app, plus_INR, IH, Rmult_plus_distr_r. f_equal.
  unfold exact_sum, terms, Rsum. cbn [map fold_right filter]. destruct H as [H|H]; rewrite H.
  - rewrite Req_bool_true by reflexivity. cbn. ring.
  - rewrite Req_bool_false by exact Hh. cbn. ring.
Qed.

Lemma average_constant c h r v : (0 < c)%nat -> length h = (8 * c)%nat -> constant v h ->
  (exists d, finite d /\ val d = v / 2) -> daverage (2 * c) h r ->
  exists y, r = Ok y /\ length y = (4 * c)%nat /\ constant v y.
Proof.
  intros Hc Lh Ch (d & Fd & Vd) O. destruct (average_out c h r Hc O) as (D & M & SD & (W & R & C & RR) & EM & OM).
  assert (Ff : Forall finite h) by (eapply Forall_impl; [|exact Ch]; intros a (K & _); exact K).
  destruct (rows_out D M h r (8 * c) W SD ltac:(lia) C ltac:(lia) Ff OM) as (y & -> & Ly & H).
  exists y. split; [reflexivity|]. split; [lia|]. apply nth_constant. intros i Hi. rewrite Ly in Hi.
  destruct (RR i ltac:(lia)) as (a & b & RO). destruct (H i _ Hi RO) as (l & S & N & X & Z & T & P). cbn [length] in T.
  destruct RO as (_ & Fo & _). rewrite Forall_forall in Fo.
  assert (K : forall w, In w [(a, 1 / 2); (b, 1 / 2)] -> snd w * val (nth (fst w) h (dint 0)) = v / 2).
  { intros w Hw. destruct (Fo w Hw) as (F1 & _). rewrite (constant_nth v h) by (assumption || lia).
    destruct Hw as [<-|[<-|[]]]; cbn [snd]; lra. }
  assert (X' : exact_sum l = v).
  { rewrite X. unfold Rsum. cbn [map fold_right]. rewrite (K (a, 1 / 2)), (K (b, 1 / 2)) by (cbn; auto). lra. }
  assert (P' : Forall (fun p => product p = 0 \/ product p = v / 2) l).
  { eapply Forall_impl; [|exact P]. intros p [Q|(w & Hw & Q)]; [left; exact Q|right]. rewrite Q. apply K, Hw. }
  rewrite <- X'. apply (sum_exact l _ S N). intros l1 l2 PM.
  destruct (Req_dec v 0) as [V0|V0].
  - exists (dint 0). split; [reflexivity|]. rewrite val0. symmetry.
    assert (P1 : Forall (fun p => product p = 0) l1).
    { pose proof (Permutation_Forall PM P') as Q. apply Forall_app in Q. destruct Q as (Q & _). eapply Forall_impl; [|exact Q].
      intros p [J|J]; rewrite J; lra. }
    unfold exact_sum. apply Rsum_zero. intros p Hp. rewrite Forall_forall in P1. apply P1, Hp.
  - assert (P1 : Forall (fun p => product p = 0 \/ product p = v / 2) l1).
    { pose proof (Permutation_Forall PM P') as Q. apply Forall_app in Q. exact (proj1 Q). }
    rewrite (equal_products (v / 2) l1 P1) by lra.
    rewrite (terms_perm _ _ PM), terms_app in T. destruct (terms l1) as [|[|[|k]]]; [| | |lia].
    + exists (dint 0). split; [reflexivity|]. rewrite val0. cbn. ring.
    + exists d. split; [exact Fd|]. rewrite Vd. cbn. ring.
    + destruct h as [|x h]; [cbn in Lh; lia|]. inversion Ch as [|? ? (Fx & Vx) _]; subst. exists x. split; [exact Fx|]. cbn. lra.
Qed.

(** The sums of a loop that starts with zero and adds the products one after the other. *)
Lemma loop_sum l l0 x : sum_value l0 x -> sum_value (l0 ++ l) (fold_left (fun s p => dadd s (dmul (fst p) (snd p))) l x).
Proof.
  revert l0 x. induction l as [|(a, b) l IH]; intros l0 x S; cbn [fold_left]; [rewrite app_nil_r; exact S|].
  replace (l0 ++ (a, b) :: l) with ((l0 ++ [(a, b)]) ++ l) by (rewrite <- app_assoc; reflexivity). apply IH.
  eapply sum_add; [exact S|apply sum_mul|reflexivity].
Qed.
