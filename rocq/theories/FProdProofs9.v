(** Between the ends of a side every constant is kept. *)
From Coq Require Import Reals Lra Permutation.
From Flocq Require Import Core Binary Bits Round_NE.
From Verif Require Import Base VectorModel MatrixModel LinSpec MatProofs MatProofs2 MatProofs3 HPSModel FloatModel FloatSpec
  FloatProofs FloatProofs2 FProdModel FProdSpec FProdProofs FProdProofs2 FProdProofs3 FProdProofs4 FProdProofs5.

Local Open Scope R_scope.
Local Notation val := FloatSpec.val.
Local Notation fx := (FLT_exp (-1074) 53).

Lemma nearest_even_half m : Z.even m = true -> ZnearestE (IZR m + / 2) = m /\ ZnearestE (IZR m - / 2) = m.
Proof.
  intros H. split.
  - assert (F : Zfloor (IZR m + / 2) = m) by (apply Zfloor_imp; rewrite plus_IZR; lra).
    unfold Znearest. rewrite F. replace (IZR m + / 2 - IZR m) with (/ 2) by ring. rewrite Rcompare_Eq by reflexivity. rewrite H. reflexivity.
  - assert (F : Zfloor (IZR m - / 2) = (m - 1)%Z) by (apply Zfloor_imp; rewrite plus_IZR, minus_IZR; lra).
    assert (C : Zceil (IZR m - / 2) = m) by (apply Zceil_imp; rewrite minus_IZR; lra).
    unfold Znearest. rewrite F, C, minus_IZR. replace (IZR m - / 2 - (IZR m - 1)) with (/ 2) by lra. rewrite Rcompare_Eq by reflexivity.
    rewrite Z.even_sub, H. reflexivity.
Qed.

Lemma rnd_at x e s : cexp radix2 fx x = e -> x = s * bpow radix2 e -> rnd x = IZR (ZnearestE s) * bpow radix2 e.
Proof.
  intros C E. unfold rnd. rewrite fe_flt. unfold round, scaled_mantissa, F2R. cbn [Fnum Fexp]. rewrite C.
  rewrite E at 1. rewrite Rmult_assoc, <- bpow_plus. replace (e + - e)%Z with 0%Z by lia. cbn [bpow]. rewrite Rmult_1_r. reflexivity.
Qed.

Lemma cexp_at s e : (-1074 <= e)%Z -> bpow radix2 52 <= s < bpow radix2 53 -> cexp radix2 fx (s * bpow radix2 e) = e.
Proof.
  intros He Hs. unfold cexp. rewrite (mag_unique_pos radix2 (s * bpow radix2 e) (53 + e)).
  - unfold FLT_exp. lia.
  - replace (53 + e - 1)%Z with (52 + e)%Z by lia. rewrite !bpow_plus. pose proof (bpow_gt_0 radix2 e). split.
    + apply Rmult_le_compat_r; lra.
    + apply Rmult_lt_compat_r; lra.
Qed.

Lemma three_quarters_pos c : 0 < c -> repr c -> repr (c / 4) -> rnd (rnd (3 / 4 * c) + c / 4) = c.
Proof.
  intros Hp Rc R4. pose proof Rc as Rc'. pose proof R4 as R4'. unfold repr in Rc', R4'. rewrite fe_flt in Rc', R4'.
  unfold generic_format in Rc', R4'.
  set (e := cexp radix2 fx c) in *. set (m := Ztrunc (scaled_mantissa radix2 fx c)) in *.
  set (e4 := cexp radix2 fx (c / 4)) in *. set (k := Ztrunc (scaled_mantissa radix2 fx (c / 4))) in *.
  unfold F2R in Rc', R4'. cbn [Fnum Fexp] in Rc', R4'.
  assert (He : (-1074 <= e)%Z) by (unfold e, cexp, FLT_exp; lia).
  assert (He4 : (-1074 <= e4)%Z) by (unfold e4, cexp, FLT_exp; lia).
  pose proof (bpow_gt_0 radix2 e) as Pe.
  assert (Exact : forall z, 3 / 4 * c = IZR z * bpow radix2 (-1074) -> (Z.abs z < 2 ^ 53)%Z -> rnd (rnd (3 / 4 * c) + c / 4) = c).
  { intros z Ez Hz. rewrite (rnd_repr (3 / 4 * c)).
    - replace (3 / 4 * c + c / 4) with c by field. apply rnd_repr, Rc.
    - unfold repr. rewrite fe_flt, Ez. apply generic_format_FLT. exists (Float radix2 z (-1074)); [reflexivity|exact Hz|cbn; lia]. }
  destruct (mag radix2 c) as (p, Hmag). specialize (Hmag ltac:(lra)) as Hm2. rewrite Rabs_pos_eq in Hm2 by lra.
  assert (Ep : e = Z.max (p - 53) (-1074)).
  { unfold e, cexp. rewrite (mag_unique_pos radix2 c p Hm2). reflexivity. }
  assert (Mpos : 0 < IZR m). { apply Rmult_lt_reg_r with (bpow radix2 e); [exact Pe|]. rewrite Rmult_0_l, <- Rc'. exact Hp. }
  assert (Mub : IZR m < bpow radix2 53).
  { apply Rmult_lt_reg_r with (bpow radix2 e); [exact Pe|]. rewrite <- Rc', <- bpow_plus. eapply Rlt_le_trans; [apply Hm2|]. apply bpow_le. lia. }
  change (bpow radix2 53) with (IZR (2 ^ 53)) in Mub. apply lt_IZR in Mub. apply (lt_IZR 0) in Mpos.
  destruct (Z.eq_dec e (-1074)) as [E0|E0].
  - (* no smaller exponent: a quarter of c is a multiple of the unit *)
    assert (E4 : IZR m = IZR (4 * (k * 2 ^ (e4 + 1074)))).
    { apply Rmult_eq_reg_r with (bpow radix2 e); [|lra]. rewrite <- Rc'. rewrite !mult_IZR, (IZR_Zpower radix2) by lia.
      rewrite E0. rewrite Rmult_assoc, Rmult_assoc, <- bpow_plus. replace (e4 + 1074 + -1074)%Z with e4 by lia. rewrite <- R4'. field. }
    apply eq_IZR in E4. set (q := (k * 2 ^ (e4 + 1074))%Z) in *.
    apply (Exact (3 * q)%Z); [|lia]. rewrite Rc', E0, E4, !mult_IZR. lra.
  - assert (Ee : e = (p - 53)%Z) by lia.
    assert (Mlb : (2 ^ 52 <= m)%Z).
    { apply le_IZR. change (IZR (2 ^ 52)) with (bpow radix2 52). apply Rmult_le_reg_r with (bpow radix2 e); [exact Pe|].
      rewrite <- Rc', <- bpow_plus. replace (52 + e)%Z with (p - 1)%Z by lia. apply Hm2. }
    assert (B52 : bpow radix2 52 = IZR (2 ^ 52)) by reflexivity. assert (B53 : bpow radix2 53 = IZR (2 ^ 53)) by reflexivity.
    destruct (Z_lt_le_dec (3 * m) (4 * 2 ^ 52)) as [Hs|Hs].
    + (* three quarters of c have a smaller exponent *)
      assert (Y : rnd (3 / 4 * c) = IZR (ZnearestE (3 / 2 * IZR m)) * bpow radix2 (e + -1)).
      { apply rnd_at.
        - replace (3 / 4 * c) with (3 / 2 * IZR m * bpow radix2 (e + -1)).
          + apply cexp_at; [lia|]. rewrite B52, B53. apply IZR_lt in Hs. apply IZR_le in Mlb. rewrite !mult_IZR in Hs.
            change (IZR (2 ^ 53)) with (2 * IZR (2 ^ 52)). lra.
          + rewrite Rc'. rewrite bpow_plus. change (bpow radix2 (-1)) with (/ 2). field.
        - rewrite Rc'. rewrite bpow_plus. change (bpow radix2 (-1)) with (/ 2). field. }
      set (z := ZnearestE (3 / 2 * IZR m)) in *.
      assert (Hz : Rabs (3 / 2 * IZR m - IZR z) <= / 2) by apply Znearest_half.
      set (s := IZR z / 2 + IZR m / 4).
      assert (ES : rnd (3 / 4 * c) + c / 4 = s * bpow radix2 e).
      { rewrite Y. unfold s. rewrite Rc'. rewrite bpow_plus. change (bpow radix2 (-1)) with (/ 2). field. }
      destruct (Z.eq_dec m (2 ^ 52)) as [Em|Em].
      * assert (Ez : z = (3 * 2 ^ 51)%Z).
        { unfold z. rewrite Em. replace (3 / 2 * IZR (2 ^ 52)) with (IZR (3 * 2 ^ 51)).
          - apply Znearest_imp. rewrite Rminus_diag_eq by reflexivity. rewrite Rabs_R0. lra.
          - rewrite mult_IZR. change (IZR (2 ^ 52)) with (2 * IZR (2 ^ 51)). lra. }
        assert (Es : s = IZR m).
        { unfold s. rewrite Ez, Em, mult_IZR. change (IZR (2 ^ 52)) with (2 * IZR (2 ^ 51)). lra. }
        rewrite ES, Es, <- Rc'. apply rnd_repr, Rc.
      * assert (Hd : Rabs (s - IZR m) <= / 4).
        { unfold s. apply Rabs_le_inv in Hz. apply Rabs_le. lra. }
        rewrite (rnd_at _ e s); [|rewrite ES; apply cexp_at; [exact He|]|exact ES].
        -- rewrite (Znearest_imp _ s m) by lra. symmetry. exact Rc'.
        -- apply Rabs_le_inv in Hd. rewrite B52, B53. assert (M1 : (2 ^ 52 + 1 <= m)%Z) by lia. apply IZR_le in M1. rewrite plus_IZR in M1.
           assert (M2 : (m + 1 <= 2 ^ 53)%Z) by lia. apply IZR_le in M2. rewrite plus_IZR in M2. lra.
    + assert (Y : rnd (3 / 4 * c) = IZR (ZnearestE (3 / 4 * IZR m)) * bpow radix2 e).
      { apply rnd_at.
        - replace (3 / 4 * c) with (3 / 4 * IZR m * bpow radix2 e) by (rewrite Rc'; ring).
          apply cexp_at; [lia|]. rewrite B52, B53. apply IZR_le in Hs. apply IZR_lt in Mub, Mpos. rewrite !mult_IZR in Hs. lra.
        - rewrite Rc'. ring. }
      set (z := ZnearestE (3 / 4 * IZR m)) in *.
      assert (Hz : Rabs (3 / 4 * IZR m - IZR z) <= / 2) by apply Znearest_half.
      set (s := IZR z + IZR m / 4).
      assert (ES : rnd (3 / 4 * c) + c / 4 = s * bpow radix2 e).
      { rewrite Y. unfold s. rewrite Rc'. field. }
      assert (Hd : Rabs (s - IZR m) <= / 2).
      { unfold s. apply Rabs_le_inv in Hz. apply Rabs_le. lra. }
      rewrite (rnd_at _ e s); [|rewrite ES; apply cexp_at; [exact He|]|exact ES].
      * assert (G : ZnearestE s = m).
        { destruct (Rle_lt_or_eq_dec _ _ Hd) as [Hl|Hq]; [apply Znearest_imp; exact Hl|].
          assert (Even : Z.even m = true).
          { assert (D : (4 * (z - m) + m = 2 \/ 4 * (z - m) + m = -2)%Z).
            { unfold s in Hq. unfold Rabs in Hq. destruct (Rcase_abs _) in Hq; [right|left]; apply eq_IZR; rewrite plus_IZR, mult_IZR, minus_IZR; lra. }
            assert (Dm : (m = 2 * (- 2 * (z - m) + 1) \/ m = 2 * (- 2 * (z - m) - 1))%Z) by lia.
            destruct Dm as [-> | ->]; apply Z.even_spec; eexists; reflexivity. }
          destruct (nearest_even_half m Even) as (G1 & G2).
          unfold Rabs in Hq. destruct (Rcase_abs _) in Hq.
          - replace s with (IZR m - / 2) by lra. exact G2.
          - replace s with (IZR m + / 2) by lra. exact G1. }
        rewrite G. symmetry. exact Rc'.
      * apply Rabs_le_inv in Hd. rewrite B52, B53. assert (M1 : (2 ^ 52 + 1 <= m)%Z) by lia. apply IZR_le in M1. rewrite plus_IZR in M1.
        assert (M2 : (m + 1 <= 2 ^ 53)%Z) by lia. apply IZR_le in M2. rewrite plus_IZR in M2. lra.
Qed.

Lemma rnd_opp x : rnd (- x) = - rnd x.
Proof. unfold rnd. apply round_NE_opp. Qed.

Lemma three_quarters c : repr c -> repr (c / 4) -> rnd (rnd (3 / 4 * c) + c / 4) = c.
Proof.
  intros Rc R4. destruct (Rtotal_order c 0) as [H|[->|H]].
  - assert (K := three_quarters_pos (- c) ltac:(lra) (repr_opp _ Rc) ltac:(replace (- c / 4) with (- (c / 4)) by field; apply repr_opp, R4)).
    replace (3 / 4 * - c) with (- (3 / 4 * c)) in K by ring. rewrite rnd_opp in K.
    replace (- rnd (3 / 4 * c) + - c / 4) with (- (rnd (3 / 4 * c) + c / 4)) in K by field. rewrite rnd_opp in K. lra.
  - rewrite Rmult_0_r, rnd0. replace (0 + 0 / 4) with 0 by field. apply rnd0.
  - apply three_quarters_pos; assumption.
Qed.

(** ** Sums of 3/4 v and v/4 *)
Definition cnt (x : R) (l : list (double * double)) : nat := length (filter (fun p => Req_bool (product p) x) l).
Lemma cnt_app x l1 l2 : cnt x (l1 ++ l2) = (cnt x l1 + cnt x l2)%nat.
Proof. unfold cnt. rewrite filter_app. apply app_length. Qed.
Lemma cnt_perm x l l' : Permutation l l' -> cnt x l = cnt x l'.
Proof. intros P. apply Permutation_length, filter_perm, P. Qed.

Definition part_value (v : R) (i j : nat) : R :=
  match i, j with O, O => 0 | S _, O => rnd (3 / 4 * v) | O, S _ => v / 4 | _, _ => v end.

Lemma quarter_parts d q l r : finite d -> finite q -> val q = val d / 4 -> val d <> 0 -> sum_value l r -> numbers l ->
  Forall (fun p => product p = 0 \/ product p = 3 / 4 * val d \/ product p = val d / 4) l ->
  (cnt (3 / 4 * val d) l <= 1)%nat -> (cnt (val d / 4) l <= 1)%nat ->
  finite r /\ val r = part_value (val d) (cnt (3 / 4 * val d) l) (cnt (val d / 4) l).
Proof.
  intros Fd Fq Vq Nz S. set (v := val d) in *.
  assert (Rv : repr v) by apply repr_val. assert (Rq : repr (v / 4)) by (rewrite <- Vq; apply repr_val).
  assert (Bv : Rabs v < bpow radix2 1024) by apply lt_emax_val.
  assert (Bq : Rabs (v / 4) < bpow radix2 1024).
  { unfold Rdiv. rewrite Rabs_mult, (Rabs_pos_eq (/ 4)) by lra. pose proof (Rabs_pos v). lra. }
  assert (TQ := three_quarters v Rv Rq).
  assert (Bt : Rabs (rnd (3 / 4 * v)) < bpow radix2 1024).
  { eapply Rle_lt_trans; [|exact Bv]. unfold Rabs. destruct (Rcase_abs v) as [Hv|Hv].
    - destruct (rnd_between v 0 (3 / 4 * v) Rv repr0 ltac:(lra)) as (K1 & K2). destruct (Rcase_abs _); lra.
    - destruct (rnd_between 0 v (3 / 4 * v) repr0 Rv ltac:(lra)) as (K1 & K2). destruct (Rcase_abs _); lra. }
  assert (Rt : repr (rnd (3 / 4 * v))) by (unfold repr, rnd; apply generic_format_round; [apply fexp_correct; reflexivity|apply valid_rnd_N]).
  assert (B0 : Rabs 0 < bpow radix2 1024) by (rewrite Rabs_R0; apply bpow_gt_0).
  assert (C1 : forall p, product p = 0 -> cnt (3 / 4 * v) [p] = 0%nat /\ cnt (v / 4) [p] = 0%nat).
  { intros p H. unfold cnt. cbn [filter]. rewrite H. rewrite !Req_bool_false by lra. split; reflexivity. }
  assert (C2 : forall p, product p = 3 / 4 * v -> cnt (3 / 4 * v) [p] = 1%nat /\ cnt (v / 4) [p] = 0%nat).
  { intros p H. unfold cnt. cbn [filter]. rewrite H. rewrite Req_bool_true by reflexivity. rewrite Req_bool_false by lra. split; reflexivity. }
  assert (C3 : forall p, product p = v / 4 -> cnt (3 / 4 * v) [p] = 0%nat /\ cnt (v / 4) [p] = 1%nat).
  { intros p H. unfold cnt. cbn [filter]. rewrite H. rewrite Req_bool_false by lra. rewrite Req_bool_true by reflexivity. split; reflexivity. }
  induction S as [|a b Z|a b|a b l l' x Sx IH P|l1 l2 l' x y S1 IH1 S2 IH2 P]; intros N F H3 H1.
  - split; [reflexivity|]. exact val0.
  - split; [reflexivity|]. rewrite val0. symmetry.
    assert (Z0 : product (a, b) = 0).
    { unfold product. cbn [fst snd]. apply orb_prop in Z as [Z|Z]; rewrite (zero_val _ Z); ring. }
    destruct (C1 _ Z0) as (-> & ->). reflexivity.
  - inversion N as [|? ? (Fa & Fb) _]; subst. cbn [fst snd] in Fa, Fb. inversion F as [|? ? Hp _]; subst.
    assert (K : Rabs (rnd (product (a, b))) < bpow radix2 1024 /\ rnd (product (a, b)) = part_value v (cnt (3 / 4 * v) [(a, b)]) (cnt (v / 4) [(a, b)])).
    { destruct Hp as [Hp|[Hp|Hp]]; [destruct (C1 _ Hp) as (-> & ->)|destruct (C2 _ Hp) as (-> & ->)|destruct (C3 _ Hp) as (-> & ->)]; rewrite Hp; cbn [part_value].
      - rewrite rnd0. split; [exact B0|reflexivity].
      - split; [exact Bt|reflexivity].
      - rewrite (rnd_repr _ Rq). split; [exact Bq|reflexivity]. }
    destruct K as (K1 & K2). destruct (dmul_ok a b Fa Fb K1) as (Fm & Vm). split; [exact Fm|]. rewrite Vm. exact K2.
  - assert (N' : numbers ((a, b) :: l)) by (eapply Permutation_Forall; [exact P|exact N]).
    assert (F' := Permutation_Forall P F). rewrite (cnt_perm _ _ _ P) in H3 |- *. rewrite (cnt_perm _ _ _ P) in H1 |- *.
    change ((a, b) :: l) with ([(a, b)] ++ l) in *. rewrite cnt_app in H3 |- *. rewrite cnt_app in H1 |- *.
    inversion N' as [|? ? (Fa & Fb) Nl]; subst. cbn [fst snd] in Fa, Fb. inversion F' as [|? ? Hp Fl]; subst.
    destruct (IH Nl Fl ltac:(lia) ltac:(lia)) as (Fx & Vx).
    assert (K : rnd (product (a, b) + val x) = part_value v (cnt (3 / 4 * v) [(a, b)] + cnt (3 / 4 * v) l) (cnt (v / 4) [(a, b)] + cnt (v / 4) l) /\
                Rabs (rnd (product (a, b) + val x)) < bpow radix2 1024).
    { destruct Hp as [Hp|[Hp|Hp]]; [destruct (C1 _ Hp) as (E1 & E2)|destruct (C2 _ Hp) as (E1 & E2)|destruct (C3 _ Hp) as (E1 & E2)];
        rewrite E1 in H3 |- *; rewrite E2 in H1 |- *; rewrite Hp, Vx;
        destruct (cnt (3 / 4 * v) l) as [|[|?]]; try lia; destruct (cnt (v / 4) l) as [|[|?]]; try lia; cbn [part_value Nat.add];
        rewrite ?Rplus_0_l, ?Rplus_0_r, ?rnd0, ?(rnd_repr _ Rq), ?(rnd_repr _ Rt), ?(rnd_repr _ Rv); try (split; [reflexivity|assumption]).
      - replace (3 / 4 * v + v / 4) with v by field. rewrite (rnd_repr _ Rv). split; [reflexivity|assumption].
      - rewrite (Rplus_comm (v / 4)), TQ. split; [reflexivity|assumption]. }
    destruct K as (K1 & K2). destruct (fma_ok a b x Fa Fb Fx K2) as (Fm & Vm). split; [exact Fm|]. rewrite Vm. exact K1.
  - assert (N' : numbers (l1 ++ l2)) by (eapply Permutation_Forall; [exact P|exact N]).
    assert (F' := Permutation_Forall P F). rewrite (cnt_perm _ _ _ P) in H3 |- *. rewrite (cnt_perm _ _ _ P) in H1 |- *.
    rewrite cnt_app in H3 |- *. rewrite cnt_app in H1 |- *.
    apply Forall_app in N' as (N1 & N2). apply Forall_app in F' as (F1 & F2).
    destruct (IH1 N1 F1 ltac:(lia) ltac:(lia)) as (Fx & Vx). destruct (IH2 N2 F2 ltac:(lia) ltac:(lia)) as (Fy & Vy).
    assert (K : rnd (val x + val y) = part_value v (cnt (3 / 4 * v) l1 + cnt (3 / 4 * v) l2) (cnt (v / 4) l1 + cnt (v / 4) l2) /\
                Rabs (rnd (val x + val y)) < bpow radix2 1024).
    { rewrite Vx, Vy.
      destruct (cnt (3 / 4 * v) l1) as [|[|?]]; try lia; destruct (cnt (3 / 4 * v) l2) as [|[|?]]; try lia;
      destruct (cnt (v / 4) l1) as [|[|?]]; try lia; destruct (cnt (v / 4) l2) as [|[|?]]; try lia; cbn [part_value Nat.add];
        rewrite ?Rplus_0_l, ?Rplus_0_r, ?rnd0, ?(rnd_repr _ Rq), ?(rnd_repr _ Rt), ?(rnd_repr _ Rv), ?TQ, ?(Rplus_comm (v / 4)), ?TQ;
        split; reflexivity || assumption. }
    destruct K as (K1 & K2). destruct (dadd_ok x y Fx Fy K2) as (Fm & Vm). split; [exact Fm|]. rewrite Vm. exact K1.
Qed.

Lemma cnt_sums v l : v <> 0 -> Forall (fun p => product p = 0 \/ product p = 3 / 4 * v \/ product p = v / 4) l ->
  exact_sum l = INR (3 * cnt (3 / 4 * v) l + cnt (v / 4) l) * (v / 4) /\ terms l = (cnt (3 / 4 * v) l + cnt (v / 4) l)%nat.
Proof.
  intros Nz. induction 1 as [|p l Hp F (IH1 & IH2)]; [unfold exact_sum, Rsum, cnt, terms; cbn; split; [ring|reflexivity]|].
  change (p :: l) with ([p] ++ l). rewrite exact_app, terms_app, !cnt_app, IH1, IH2.
  assert (K : exact_sum [p] = INR (3 * cnt (3 / 4 * v) [p] + cnt (v / 4) [p]) * (v / 4) /\ terms [p] = (cnt (3 / 4 * v) [p] + cnt (v / 4) [p])%nat).
  { unfold exact_sum, Rsum, cnt, terms. cbn [filter map fold_right]. destruct Hp as [Hp|[Hp|Hp]]; rewrite Hp.
    - rewrite (Req_bool_true 0 0) by reflexivity. rewrite !Req_bool_false by lra. cbn. split; [ring|reflexivity].
    - rewrite (Req_bool_true (3 / 4 * v) (3 / 4 * v)) by reflexivity. rewrite !Req_bool_false by lra. cbn. split; [field|reflexivity].
    - rewrite (Req_bool_true (v / 4) (v / 4)) by reflexivity. rewrite !Req_bool_false by lra. cbn. split; [field|reflexivity]. }
  destruct K as (-> & ->). split; [|lia]. rewrite <- Rmult_plus_distr_r, <- plus_INR. f_equal. f_equal. lia.
Qed.

(** The rows between the ends. *)
Lemma c2f_inner c i : (3 <= c)%nat -> (i < 2 * c)%nat -> i <> 0%nat -> i <> (2 * c - 1)%nat ->
  exists a b, row_ws (fun j => qval (c2f_entry c i j)) c [(a, 3 / 4); (b, 1 / 4)].
Proof.
  intros Hc Hi E E1. unfold c2f_entry. destruct (Nat.eqb_spec i 0) as [K|_]; [lia|]. destruct (Nat.eqb_spec i (2 * c - 1)) as [K|_]; [lia|].
  destruct (parity i) as (s & [Hs|Hs]); subst i; rewrite ?even_mod, ?odd_mod, ?even_div, ?odd_div; cbn [Nat.eqb].
  + exists s, (s - 1)%nat. split; [|split].
    * cbn. repeat constructor; cbn; lia.
    * entries.
    * cbn [map fst]. intros j Hj K. cbn [In] in K. eqbs. apply qval_0.
  + exists s, (s + 1)%nat. split; [|split].
    * cbn. repeat constructor; cbn; lia.
    * entries.
    * cbn [map fst]. intros j Hj K. cbn [In] in K. eqbs. apply qval_0.
Qed.
Lemma refine_inner c M i : (3 <= c)%nat -> (L <- Coarse2Fine (2 * c) ;; four_diag L) = Ok M -> (i < 8 * c)%nat ->
  (i mod (2 * c))%nat <> 0%nat -> (i mod (2 * c))%nat <> (2 * c - 1)%nat ->
  exists a b, row_ws (fun j => qval (qent M i j)) (4 * c) [(a, 3 / 4); (b, 1 / 4)].
Proof.
  intros Hc EM Hi E0 E1. rewrite (Coarse2Fine_ok c Hc), bind_Ok in EM.
  assert (Hm : (i mod (2 * c) < 2 * c)%nat) by (apply Nat.mod_upper_bound; lia).
  destruct (c2f_inner c (i mod (2 * c)) Hc Hm E0 E1) as (a & b & RO).
  destruct (four_row _ M i (mat_of_wf _ _ _) EM) with (ws := [(a, 3 / 4); (b, 1 / 4)]) as (s & Hs & H).
  - cbn [nr mat_of]. lia.
  - cbn [nr mat_of]. lia.
  - cbn [nr nc mat_of]. destruct RO as (R1 & R2 & R3). split; [exact R1|]. split.
    + rewrite Forall_forall in *. intros w Hw. destruct (R2 w Hw) as (K1 & K2). split; [exact K1|].
      rewrite mat_of_ent by assumption. exact K2.
    + intros j Hj K. rewrite mat_of_ent by assumption. apply R3; assumption.
  - cbn [nc mat_of] in H. cbn in H. eexists. eexists. exact H.
Qed.

Lemma refine_inner_constant c g r v : (3 <= c)%nat -> length g = (4 * c)%nat -> constant v g ->
  (exists q, finite q /\ val q = v / 4) -> drefine (2 * c) g r ->
  exists y, r = Ok y /\ length y = (8 * c)%nat /\
    forall i, (i < 8 * c)%nat -> (i mod (2 * c))%nat <> 0%nat -> (i mod (2 * c))%nat <> (2 * c - 1)%nat ->
      finite (nth i y (dint 0)) /\ val (nth i y (dint 0)) = v.
Proof.
  intros Hc Lg Cg (q & Fq & Vq) O. destruct (refine_out c g r Hc O) as (D & M & SD & (W & R & C & RR) & EM & OM).
  assert (Ff : Forall finite g) by (eapply Forall_impl; [|exact Cg]; intros a (K & _); exact K).
  destruct (rows_out D M g r (4 * c) W SD ltac:(lia) C ltac:(lia) Ff OM) as (y & -> & Ly & H).
  exists y. split; [reflexivity|]. split; [lia|]. intros i Hi E0 E1.
  destruct (refine_inner c M i Hc EM Hi E0 E1) as (a & b & RO).
  destruct (H i _ ltac:(lia) RO) as (l & S & N & X & Z & T & P). cbn [length] in T.
  destruct g as [|d g]; [cbn in Lg; lia|].
  assert (Hd : finite d /\ val d = v) by (inversion Cg; assumption). destruct Hd as (Fd & Vd).
  destruct RO as (_ & Fo & _). rewrite Forall_forall in Fo.
  assert (K : forall w, In w [(a, 3 / 4); (b, 1 / 4)] -> val (nth (fst w) (d :: g) (dint 0)) = v).
  { intros w Hw. destruct (Fo w Hw) as (F1 & _). apply constant_nth; [exact Cg|lia]. }
  assert (K1 := K (a, 3 / 4) ltac:(cbn; auto)). assert (K2 := K (b, 1 / 4) ltac:(cbn; auto)). cbn [fst] in K1, K2.
  assert (X' : exact_sum l = v).
  { rewrite X. unfold Rsum. cbn [map fold_right fst snd]. rewrite K1, K2. lra. }
  assert (P' : Forall (fun p => product p = 0 \/ product p = 3 / 4 * v \/ product p = v / 4) l).
  { eapply Forall_impl; [|exact P]. intros p [Q|(w & [<-|[<-|[]]] & Q)]; [left; exact Q| |]; rewrite Q; cbn [fst snd].
    - rewrite K1. right. left. reflexivity.
    - rewrite K2. right. right. lra. }
  destruct (Req_dec v 0) as [V0|V0].
  - assert (G : finite (nth i y (dint 0)) /\ val (nth i y (dint 0)) = exact_sum l).
    { apply (sum_exact l _ S N). intros l1 l2 PM. exists (dint 0). split; [reflexivity|]. rewrite val0. symmetry.
      pose proof (Permutation_Forall PM P') as Q. apply Forall_app in Q. destruct Q as (Q & _). rewrite Forall_forall in Q.
      unfold exact_sum. apply Rsum_zero. intros p Hp. destruct (Q p Hp) as [J|[J|J]]; rewrite J; lra. }
    rewrite X' in G. exact G.
  - destruct (cnt_sums v l V0 P') as (C1 & C2).
    assert (CC : (3 * cnt (3 / 4 * v) l + cnt (v / 4) l)%nat = 4%nat).
    { apply INR_eq. apply Rmult_eq_reg_r with (v / 4); [|lra]. rewrite <- C1, X'. cbn. lra. }
    assert (D1 : cnt (3 / 4 * v) l = 1%nat) by lia. assert (D2 : cnt (v / 4) l = 1%nat) by lia.
    rewrite <- Vd in *.
    destruct (quarter_parts d q l _ Fd Fq Vq V0 S N P' ltac:(lia) ltac:(lia)) as (G1 & G2). split; [exact G1|].
    rewrite G2, D1, D2. reflexivity.
Qed.
