(** Proofs about interpolation. *)
From Verif Require Import Base VectorModel InterpModel InterpSpec.

Lemma Qcge_true a b : (b <= a)%Qc -> Qcge_b a b = true.
Proof. unfold Qcge_b. intros H. destruct (Qclt_le_dec a b) as [Q|]; [|reflexivity]. exfalso. exact (Qclt_not_le _ _ Q H). Qed.
Lemma Qcge_false a b : (a < b)%Qc -> Qcge_b a b = false.
Proof. unfold Qcge_b. intros H. destruct (Qclt_le_dec a b) as [|Q]; [reflexivity|]. exfalso. exact (Qclt_not_le _ _ H Q). Qed.
Lemma Qcge_spec a b : reflect (b <= a)%Qc (Qcge_b a b).
Proof. unfold Qcge_b. destruct (Qclt_le_dec a b) as [Q|Q]; constructor; [exact (Qclt_not_le _ _ Q)|exact Q]. Qed.

Lemma tab_ok v i : (0 <= i < Z.of_nat (length v))%Z -> tab v i = Ok (at_ v (Z.to_nat i)).
Proof.
  intros H. unfold tab. destruct (Z.ltb_spec i 0); [lia|]. unfold vget. destruct (Nat.ltb_spec (length v) (Z.to_nat i)); [lia|].
  unfold at_. rewrite (nth_error_nth' v 0%Qc) by lia. reflexivity.
Qed.

Section Search.
Variables (xs : list Qc) (x : Qc) (asc : bool).
Hypothesis Hn : 2 <= length xs.
Hypothesis Hmono : (asc = true /\ ascending xs) \/ (asc = false /\ descending xs).
Let n := Z.of_nat (length xs).

(** The point of the table is not after [x]. *)
Definition side (i : Z) : bool := Bool.eqb (Qcge_b x (at_ xs (Z.to_nat i))) asc.

Lemma side_mono i j : (0 <= i <= j)%Z -> (j < n)%Z -> side j = true -> side i = true.
Proof.
  unfold side, n. intros H1 H2 H. destruct (Z.eq_dec i j) as [->|N]; [exact H|].
  apply eqb_prop in H. apply eqb_true_iff.
  destruct Hmono as [ [Ha M] |[Ha M] ]; rewrite Ha in *; specialize (M (Z.to_nat i) (Z.to_nat j)).
  - apply Qcge_true. destruct (Qcge_spec x (at_ xs (Z.to_nat j))); [|discriminate].
    apply Qcle_trans with (at_ xs (Z.to_nat j)); [|assumption]. apply Qclt_le_weak, M; lia.
  - apply Qcge_false. destruct (Qcge_spec x (at_ xs (Z.to_nat j))); [discriminate|].
    apply Qclt_trans with (at_ xs (Z.to_nat j)); [apply Qcnot_le_lt; assumption|]. apply M; lia.
Qed.

Definition lo_ok (j : Z) : Prop := (0 <= j < n)%Z /\ (j = 0%Z \/ side j = true).
Definition hi_ok (j : Z) : Prop := (0 <= j < n)%Z /\ (j = (n - 1)%Z \/ side j = false).

Lemma bisect_ok fuel : forall jl ju, (ju - jl <= Z.of_nat fuel)%Z -> lo_ok jl -> hi_ok ju -> (jl <= ju)%Z ->
  exists jl' ju', bisect fuel xs x asc jl ju = Ok jl' /\ lo_ok jl' /\ hi_ok ju' /\ (jl' <= ju' <= jl' + 1)%Z /\ (jl <= jl')%Z /\ (ju' <= ju)%Z.
Proof.
  induction fuel as [|fuel IH]; intros jl ju Hf Hl Hh Hle; cbn [bisect].
  - destruct (Z.ltb_spec 1 (ju - jl)); [lia|]. exists jl, ju. repeat (split; [assumption || reflexivity || lia|]). lia.
  - destruct (Z.ltb_spec 1 (ju - jl)) as [G|G].
    2:{ exists jl, ju. repeat (split; [assumption || reflexivity || lia|]). lia. }
    cbv zeta. rewrite Z.shiftr_div_pow2 by lia. change (2 ^ 1)%Z with 2%Z.
    assert (Hm : (jl < (ju + jl) / 2 < ju)%Z).
    { split; [apply Z.lt_le_trans with (jl + 1)%Z; [lia|]; apply Z.div_le_lower_bound; lia|apply Z.div_lt_upper_bound; lia]. }
    set (jm := ((ju + jl) / 2)%Z) in *. destruct Hl as [Hl1 Hl2], Hh as [Hh1 Hh2].
    rewrite tab_ok by (fold n; lia). rewrite bind_Ok. fold (side jm). destruct (side jm) eqn:S.
    + destruct (IH jm ju) as (jl' & ju' & E & A1 & A2 & A3 & A4 & A5); [lia|split; [lia|auto]|split; assumption|lia|].
      exists jl', ju'. repeat (split; [assumption|]). lia.
    + destruct (IH jl jm) as (jl' & ju' & E & A1 & A2 & A3 & A4 & A5); [lia|split; assumption|split; [lia|auto]|lia|].
      exists jl', ju'. repeat (split; [assumption|]). lia.
Qed.

Lemma lt_side i : Bool.eqb (Qclt_b' x (at_ xs (Z.to_nat i))) asc = negb (side i).
Proof. unfold side, Qclt_b'. destruct (Qcge_b _ _), asc; reflexivity. Qed.

Lemma hunt_up_ok fuel : forall jl inc, (1 <= inc)%Z -> (n - 1 - jl < Z.of_nat fuel)%Z -> (0 <= jl < n)%Z -> side jl = true ->
  exists jl' ju', hunt_up fuel n xs x asc jl inc = Ok (jl', ju') /\ lo_ok jl' /\ hi_ok ju' /\ (jl' <= ju')%Z.
Proof.
  induction fuel as [|fuel IH]; intros jl inc Hi Hf Hj Hs; [lia|]. cbn [hunt_up]. cbv zeta.
  destruct (Z.leb_spec (n - 1) (jl + inc)).
  - eexists _, _. split; [reflexivity|]. split; [split; [lia|auto]|]. split; [split; [lia|auto]|lia].
  - rewrite tab_ok by (fold n; lia). rewrite bind_Ok, lt_side. destruct (side (jl + inc)) eqn:S; cbn [negb].
    + apply IH; [lia|lia|lia|exact S].
    + eexists _, _. split; [reflexivity|]. split; [split; [lia|auto]|]. split; [split; [lia|auto]|lia].
Qed.
Lemma hunt_down_ok fuel : forall jl inc, (1 <= inc)%Z -> (jl < Z.of_nat fuel)%Z -> (0 <= jl < n)%Z -> side jl = false ->
  exists jl' ju', hunt_down fuel xs x asc jl jl inc = Ok (jl', ju') /\ lo_ok jl' /\ hi_ok ju' /\ (jl' <= ju')%Z.
Proof.
  induction fuel as [|fuel IH]; intros jl inc Hi Hf Hj Hs; [lia|]. cbn [hunt_down]. cbv zeta.
  destruct (Z.leb_spec (jl - inc) 0).
  - eexists _, _. split; [reflexivity|]. split; [split; [lia|auto]|]. split; [split; [lia|auto]|lia].
  - rewrite tab_ok by (fold n; lia). rewrite bind_Ok. fold (side (jl - inc)). destruct (side (jl - inc)) eqn:S.
    + eexists _, _. split; [reflexivity|]. split; [split; [lia|auto]|]. split; [split; [lia|auto]|lia].
    + apply IH; [lia|lia|lia|exact S].
Qed.

(** The interval found is the last one that starts on the side of [x]. *)
Lemma found_covers jl ju : lo_ok jl -> hi_ok ju -> (jl <= ju <= jl + 1)%Z ->
  covers xs x (Z.to_nat (Z.max 0 (Z.min (n - 2) jl))).
Proof.
  intros [L1 L2] [H1 H2] B. unfold n in *. set (j := Z.max 0 (Z.min (Z.of_nat (length xs) - 2) jl)).
  assert (Hj : (0 <= j <= Z.of_nat (length xs) - 2)%Z) by lia.
  assert (A : j = 0%Z \/ side j = true).
  { destruct L2 as [L2|L2]; [left; lia|]. destruct (Z.eq_dec j 0); [left; assumption|]. right.
    apply (side_mono j jl); [lia|unfold n; lia|exact L2]. }
  assert (C : (j = Z.of_nat (length xs) - 2)%Z \/ side (j + 1) = false).
  { destruct H2 as [H2|H2]; [left; lia|]. destruct (Z.eq_dec j (Z.of_nat (length xs) - 2)); [left; assumption|]. right.
    destruct (side (j + 1)) eqn:S; [|reflexivity]. rewrite <- H2. symmetry. 
    destruct L2 as [L2|L2].
    - apply (side_mono ju (j + 1)); [lia|unfold n; lia|exact S].
    - apply (side_mono ju (j + 1)); [lia|unfold n; lia|exact S]. }
  split; [lia|]. replace (Z.to_nat (j + 1)) with (Z.to_nat j + 1) in * by lia.
  unfold side in A, C. replace (Z.to_nat (j + 1)) with (Z.to_nat j + 1) in C by lia.
  destruct Hmono as [ [Ha M] |[Ha M] ]; rewrite Ha in *; [left|right]; (split; [exact M|]).
  - split.
    + destruct A as [A|A]; [left; lia|right]. destruct (Qcge_spec x (at_ xs (Z.to_nat j))); [assumption|discriminate].
    + destruct C as [C|C]; [left; lia|right]. destruct (Qcge_spec x (at_ xs (Z.to_nat j + 1))) as [|Q]; [discriminate|]. apply Qclt_le_weak, Qcnot_le_lt, Q.
  - split.
    + destruct A as [A|A]; [left; lia|right]. destruct (Qcge_spec x (at_ xs (Z.to_nat j))) as [|Q]; [discriminate|]. apply Qclt_le_weak, Qcnot_le_lt, Q.
    + destruct C as [C|C]; [left; lia|right]. destruct (Qcge_spec x (at_ xs (Z.to_nat j + 1))); [assumption|discriminate].
Qed.
End Search.

(** States of a linear interpolant for a table of [n] points. *)
Definition linear_state (k : nat) (o : interp) : Prop := i_n o = Z.of_nat k /\ i_mm o = 2%Z.

Lemma ends_ascend xs : 2 <= length xs -> ascending xs \/ descending xs ->
  let a := Qcge_b (at_ xs (Z.to_nat (Z.of_nat (length xs) - 1))) (at_ xs 0) in
  (a = true /\ ascending xs) \/ (a = false /\ descending xs).
Proof.
  intros H [M|M]; cbv zeta; [left|right]; (split; [|exact M]).
  - apply Qcge_true, Qclt_le_weak, M; lia.
  - apply Qcge_false, M; lia.
Qed.

Lemma finish_linear o k jl : linear_state k o -> fst (finish o jl) = Z.max 0 (Z.min (Z.of_nat k - 2) jl) /\ linear_state k (snd (finish o jl)).
Proof.
  intros [H1 H2]. unfold finish, linear_state. cbn [fst snd i_n i_mm]. rewrite H1, H2. change (Z.shiftr (2 - 2) 1) with 0%Z.
  rewrite Z.sub_0_r. auto.
Qed.

Lemma linear_no_error o (xs : list Qc) : linear_state (length xs) o -> 2 <= length xs -> size_error o = false.
Proof.
  intros [E1 E2] H. unfold size_error. rewrite E1, E2. destruct (Z.ltb_spec (Z.of_nat (length xs)) 2); [lia|reflexivity].
Qed.

Lemma search_ok o xs ys x : linear_state (length xs) o -> table xs ys ->
  exists j o', (if i_cor o then hunt_ o xs x else locate_ o xs x) = Ok (Z.of_nat j, o') /\ covers xs x j /\ linear_state (length xs) o'.
Proof.
  intros S (H & _ & M). pose proof (ends_ascend xs H M) as Ha. cbv zeta in Ha.
  pose proof S as [E1 E2]. set (n := Z.of_nat (length xs)) in *.
  set (asc := Qcge_b (at_ xs (Z.to_nat (n - 1))) (at_ xs 0)) in *.
  assert (Fin : forall jl ju, lo_ok xs x asc jl ->
    hi_ok xs x asc ju -> (jl <= ju)%Z ->
    exists j o', (jl <- bisect (fuel_for o) xs x asc jl ju ;; Ok (finish o jl)) = Ok (Z.of_nat j, o') /\ covers xs x j /\ linear_state (length xs) o').
  { intros jl ju L U B. destruct (bisect_ok xs x asc H (fuel_for o) jl ju) as (jl' & ju' & E & A1 & A2 & A3 & _); try assumption.
    { unfold fuel_for. rewrite E1. fold n. destruct L as [L1 _], U as [U1 _]. lia. }
    rewrite E, bind_Ok. destruct (finish_linear o (length xs) jl' S) as [F1 F2]. fold n in F1.
    exists (Z.to_nat (Z.max 0 (Z.min (n - 2) jl'))), (snd (finish o jl')). split; [|split; [|exact F2] ].
    - rewrite Z2Nat.id by lia. rewrite <- F1. destruct (finish o jl'). reflexivity.
    - apply (found_covers xs x asc H Ha jl' ju'); assumption. }
  pose proof (linear_no_error o xs S H) as SE.
  assert (T1 : tab xs (i_n o - 1) = Ok (at_ xs (Z.to_nat (n - 1)))) by (rewrite E1; apply tab_ok; lia).
  assert (T0 : tab xs 0 = Ok (at_ xs 0)) by (apply tab_ok; lia).
  assert (W : lo_ok xs x asc 0) by (split; [lia|auto]).
  assert (W' : hi_ok xs x asc (n - 1)) by (split; [lia|auto]).
  destruct (i_cor o).
  - unfold hunt_. rewrite SE, T1, bind_Ok, T0, bind_Ok. fold asc. cbv zeta.
    destruct ((i_jsav o <? 0)%Z || (i_n o - 1 <? i_jsav o)%Z) eqn:Ej.
    + rewrite bind_Ok, E1. apply Fin; [exact W|exact W'|lia].
    + apply orb_false_iff in Ej as [J1 J2]. apply Z.ltb_ge in J1, J2. rewrite E1 in J2. fold n in J2.
      rewrite tab_ok by (fold n; lia). rewrite bind_Ok.
      fold (side xs x asc (i_jsav o)).
      destruct (side xs x _ (i_jsav o)) eqn:Sd.
      * destruct (hunt_up_ok xs x asc H Ha (fuel_for o) (i_jsav o) 1) as (jl & ju & E & L & U & B); try assumption; try lia.
        { unfold fuel_for. rewrite E1. fold n. lia. }
        rewrite E1. fold n. fold n in E. rewrite E, bind_Ok. apply Fin; assumption.
      * destruct (hunt_down_ok xs x asc H (fuel_for o) (i_jsav o) 1) as (jl & ju & E & L & U & B); try assumption; try lia.
        { unfold fuel_for. rewrite E1. fold n. lia. }
        rewrite E, bind_Ok. apply Fin; assumption.
  - unfold locate_. rewrite SE, T1, bind_Ok, T0, bind_Ok. fold asc. rewrite E1. apply Fin; [exact W|exact W'|lia].
Qed.

Lemma Qc_sub_nz a b : a <> b -> (a - b <> 0)%Qc.
Proof. intros H E. apply H. rewrite <- (Qcplus_0_l b), <- E. ring. Qed.
Lemma covers_diff xs x j : covers xs x j -> at_ xs j <> at_ xs (j + 1).
Proof. intros (H & [ [M _] |[M _] ]) E; specialize (M j (j + 1) ltac:(lia) ltac:(lia)); rewrite E in M; exact (Qclt_not_eq _ _ M eq_refl). Qed.

Lemma raw_line xs ys x j : table xs ys -> covers xs x j -> rawInterp xs ys (Z.of_nat j) x = Ok (line xs ys j x).
Proof.
  intros (H & Hl & M) C. pose proof (covers_diff xs x j C) as D. destruct C as (Hj & _). unfold rawInterp.
  replace (Z.of_nat j + 1)%Z with (Z.of_nat (j + 1)) by lia.
  rewrite !tab_ok by lia. rewrite !Nat2Z.id, !bind_Ok. destruct (Qc_eq_dec _ _) as [E|_]; [contradiction|]. f_equal.
  unfold line. field. apply Qc_sub_nz. congruence.
Qed.

Lemma line_unique xs ys x j k : covers xs x j -> covers xs x k -> line xs ys j x = line xs ys k x.
Proof.
  assert (W : forall j k, j < k -> covers xs x j -> covers xs x k -> line xs ys j x = line xs ys k x).
  { clear j k. intros j k L Cj Ck. assert (Q : k = j + 1 /\ x = at_ xs k).
    { pose proof Cj as (Hj & _). pose proof Ck as (Hk & _).
      destruct Cj as (_ & [ (M & _ & B) |(M & _ & B) ]), Ck as (_ & [ (M' & A & _) |(M' & A & _) ]).
      - destruct A as [A|A], B as [B|B]; try lia. destruct (Nat.eq_dec k (j + 1)) as [E|E].
        + split; [exact E|]. subst k. apply Qcle_antisym; assumption.
        + exfalso. specialize (M (j + 1) k ltac:(lia) ltac:(lia)). apply (Qclt_not_le _ _ M). eapply Qcle_trans; eassumption.
      - exfalso. specialize (M 0 1 ltac:(lia) ltac:(lia)). specialize (M' 0 1 ltac:(lia) ltac:(lia)). exact (Qclt_not_le _ _ M (Qclt_le_weak _ _ M')).
      - exfalso. specialize (M 0 1 ltac:(lia) ltac:(lia)). specialize (M' 0 1 ltac:(lia) ltac:(lia)). exact (Qclt_not_le _ _ M (Qclt_le_weak _ _ M')).
      - destruct A as [A|A], B as [B|B]; try lia. destruct (Nat.eq_dec k (j + 1)) as [E|E].
        + split; [exact E|]. subst k. apply Qcle_antisym; assumption.
        + exfalso. specialize (M (j + 1) k ltac:(lia) ltac:(lia)). apply (Qclt_not_le _ _ M). eapply Qcle_trans; eassumption. }
    destruct Q as [-> E]. pose proof (covers_diff _ _ _ Cj) as D1. pose proof (covers_diff _ _ _ Ck) as D2. unfold line.
    rewrite E. field. split; apply Qc_sub_nz; congruence. }
  intros Cj Ck. destruct (Nat.lt_trichotomy j k) as [H|[H|H] ]; [auto|subst; reflexivity|symmetry; auto].
Qed.

Lemma evaluate_ok o xs ys x : linear_state (length xs) o -> table xs ys ->
  exists v o', evaluate o xs ys x = Ok (v, o') /\ piecewise_linear xs ys x v /\ linear_state (length xs) o'.
Proof.
  intros S T. destruct (search_ok o xs ys x S T) as (j & o' & E & C & S'). unfold evaluate. rewrite E, bind_Ok.
  rewrite (raw_line xs ys x j T C), bind_Ok. exists (line xs ys j x), o'. split; [reflexivity|]. split; [|exact S'].
  split; [exists j; exact C|]. intros k Ck. apply line_unique; assumption.
Qed.
Lemma piecewise_fun xs ys x v w : piecewise_linear xs ys x v -> piecewise_linear xs ys x w -> v = w.
Proof. intros [ [j C] H] [_ H']. rewrite (H j C), (H' j C). reflexivity. Qed.

Lemma evaluate_all_ok xs ys x : table xs ys -> forall o, linear_state (length xs) o ->
  exists v o', evaluate_all o xs ys x = Ok (v, o') /\ Forall2 (piecewise_linear xs ys) x v /\ linear_state (length xs) o'.
Proof.
  intros T. induction x as [|a x IH]; intros o S; cbn [evaluate_all].
  - eexists _, _. split; [reflexivity|]. split; [constructor|exact S].
  - destruct (evaluate_ok o xs ys a S T) as (v & o1 & E & P & S1). rewrite E, bind_Ok.
    destruct (IH o1 S1) as (vs & o2 & E2 & P2 & S2). rewrite E2, bind_Ok. eexists _, _. split; [reflexivity|]. split; [constructor; assumption|exact S2].
Qed.
Lemma calls_ok k qs : Forall (fun q => table (fst (fst q)) (snd (fst q)) /\ length (fst (fst q)) = k) qs ->
  forall o, linear_state k o ->
  exists vs o', calls o qs = Ok (vs, o') /\ Forall2 (fun q v => Forall2 (piecewise_linear (fst (fst q)) (snd (fst q))) (snd q) v) qs vs /\ linear_state k o'.
Proof.
  induction 1 as [|[[xs ys] x] qs [T L] H IH]; intros o S; cbn [calls].
  - eexists _, _. split; [reflexivity|]. split; [constructor|exact S].
  - cbn [fst snd] in *. subst k. unfold call. destruct (evaluate_all_ok xs ys x T o S) as (v & o1 & E & P & S1). rewrite E, bind_Ok.
    destruct (IH o1 S1) as (vs & o2 & E2 & P2 & S2). rewrite E2, bind_Ok. eexists _, _. split; [reflexivity|]. split; [constructor; assumption|exact S2].
Qed.

Lemma make_linear_state (xs : list Qc) : linear_state (length xs) (make_linear xs).
Proof. split; reflexivity. Qed.

(** ** Table points and linear data *)
Lemma covers_point xs ys i : table xs ys -> i < length xs -> exists j, covers xs (at_ xs i) j /\ (i = j \/ i = j + 1).
Proof.
  intros (H & _ & M) Hi. destruct (Nat.eq_dec i 0) as [->|N].
  - exists 0. split; [|auto]. split; [lia|]. destruct M as [M|M]; [left|right]; (split; [exact M|]); (split; [auto|]); right; apply Qclt_le_weak, M; lia.
  - exists (i - 1). split; [|lia]. split; [lia|].
    replace (i - 1 + 1) with i by lia.
    destruct M as [M|M]; [left|right]; (split; [exact M|]); (split; right; [apply Qclt_le_weak, M; lia|apply Qcle_refl]).
Qed.
Lemma piecewise_point xs ys i v : table xs ys -> i < length xs -> piecewise_linear xs ys (at_ xs i) v -> v = at_ ys i.
Proof.
  intros T Hi [_ P]. destruct (covers_point xs ys i T Hi) as (j & C & Hj). rewrite (P j C). pose proof (covers_diff _ _ _ C) as D.
  unfold line. destruct Hj as [-> | ->]; field; apply Qc_sub_nz; congruence.
Qed.
Lemma piecewise_exact xs ys x v a b : (forall i, i < length xs -> at_ ys i = (a * at_ xs i + b)%Qc) ->
  piecewise_linear xs ys x v -> v = (a * x + b)%Qc.
Proof.
  intros L [ [j C] P]. rewrite (P j C). pose proof (covers_diff _ _ _ C) as D. destruct C as (Hj & _).
  unfold line. rewrite !L by lia. field. apply Qc_sub_nz. congruence.
Qed.
