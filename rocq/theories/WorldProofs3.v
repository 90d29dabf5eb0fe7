(** Collective calls inside leaf solves: splits and sequences of stages. *)
From Verif Require Import Base VectorModel MatrixModel HPSModel TreeModel TreeSpec TreeProofs TreeCtor
  TreeOrder TreeMap TreeOrder2 ParModel ParSpec ParProofs ParRun ParSearch ParStages WorldModel WorldSpec WorldProofs WorldProofs2.

Ltac kid Es := first [apply (sub_child _ _ _ _ _ Es); reflexivity | apply valid_child; [assumption|cbn [depth] in *; lia|lia]
  | rewrite path_child by (try assumption; cbn [depth] in *; lia); match goal with H : quadrant_path _ = _ |- _ => rewrite H end; reflexivity
  | cbn [depth qlevel qchild] in *; lia | assumption].

Section splits.
Context {D S R : Type} (F : forest) (dflt : D) (size n : nat).
Hypothesis HC : contiguous F.
Hypothesis HG : gapless F.
Variable fn : S -> qnode D -> res (S * D * bool).
Variable fam : S -> qnode D -> four (qnode D) -> res (S * D * four D * bool).
Variable gl : path -> D -> res D.
Variable gf : path -> D -> four D -> res (D * four D * bool).
Hypothesis Hfn : leaf_fun fn gl.
Hypothesis Hfam : family_fun fam gf.
Hypothesis Hgo : forall s nd ch s' d ds b, fam s nd ch = Ok (s', d, ds, b) -> b = true.
Hypothesis HA : aligned F.
Notation state := (S * nmap D)%type.
Notation smw := (fun r => leaf_calls size n (search_merge_split (R := R) r BROADCAST dflt fn fam)).
Definition W2 (f : forest) (q : quadrant) (r : nat) (st : state) (k : state -> cmd D R) : cmd D R :=
  search_reorder r (smw r) no_callback f q st k.

(** A split on all ranks; the calls of each rank are still to be made. *)
Definition split_goal (f : forest) (st : nat -> state) (e' : path -> D) (k : nat -> state -> cmd D R)
  (w : nat -> nat) (s : @config D R) : Prop :=
  exists N s' st', runs N s s' /\ (forall r, coh F r e' (snd (st' r))) /\
    (forall r, In r (owners f) -> s' r = worlds size (w r + n * leaves_of r f) (k r (st' r))) /\
    (forall r, ~ In r (owners f) -> s' r = s r /\ st' r = st r).
Definition split_ok (f : forest) : Prop :=
  forall ds q st e e' k w s, sub F ds = Some f -> valid_quadrant q -> quadrant_path q = 0 :: ds -> qlevel q + depth f <= qmaxlevel ->
  (forall r, coh F r e (snd (st r))) -> env_split gl gf f (0 :: ds) e = Ok e' ->
  (pfirst f <> plast f -> forall r, In r (owners f) -> w r = 0) ->
  (forall r, In r (owners f) -> s r = worlds size (w r) (W2 f q r (st r) (k r))) -> split_goal f st e' k w s.

Lemma split_one_rank f : pfirst f = plast f -> split_ok f.
Proof.
  intros Q ds q st e e' k w s Es VQ Ep HL HCo Ee _ Hs. set (o := pfirst f).
  assert (ONE : forall r, In r (owners f) <-> r = o).
  { intros r. rewrite <- (range_owners F HC HG ds f r Es), <- Q. apply own_range. }
  destruct (split_own (R := R) F dflt size n HC fn fam gl gf Hfn Hfam Hgo f ds q o (st o) e e' Es eq_refl (eq_sym Q) VQ Ep HL (HCo o) Ee)
    as (st' & C' & K).
  exists 0, s, (fun r => if Nat.eqb r o then st' else st r). split; [constructor; reflexivity|]. split; [|split].
  - intros r. destruct (Nat.eqb_spec r o) as [->|Hr]; [exact C'|].
    apply (coh_skip F HC HG r ds f e e'); auto; [intros X; apply Hr; apply ONE; exact X|].
    intros key. apply (env_split_outside fam gl gf Hfam Hgo (fst (st o)) f (0 :: ds) e e' key Ee).
  - intros r Hr. rewrite (Hs r Hr). apply ONE in Hr. subst r. rewrite Nat.eqb_refl. unfold W2. rewrite K, worlds_app. reflexivity.
  - intros r Hr. split; [reflexivity|]. destruct (Nat.eqb_spec r o) as [->|]; [|reflexivity]. exfalso. apply Hr. apply ONE. reflexivity.
Qed.

(** One of the children. *)
Lemma split_step a b c d ds q i g st e e' (kk : nat -> state -> cmd D R) w s :
  split_ok g -> sub F ds = Some (FNode a b c d) -> fchild (FNode a b c d) i = Some g -> i < 4 ->
  valid_quadrant q -> quadrant_path q = 0 :: ds -> qlevel q + depth (FNode a b c d) <= qmaxlevel -> depth g < depth (FNode a b c d) ->
  (forall r, coh F r e (snd (st r))) -> env_split gl gf g (0 :: ds ++ [i]) e = Ok e' ->
  (pfirst g <> plast g -> forall r, In r (owners g) -> w r = 0) ->
  (forall r, In r (owners (FNode a b c d)) -> s r = worlds size (w r) (W2 g (qchild q i) r (st r) (kk r))) ->
  exists N s' st', runs N s s' /\ (forall r, coh F r e' (snd (st' r))) /\
    (forall r, In r (owners (FNode a b c d)) -> s' r = worlds size (w r + n * leaves_of r g) (kk r (st' r))) /\
    (forall r, ~ In r (owners (FNode a b c d)) -> s' r = s r /\ st' r = st r).
Proof.
  intros IH Es Eg Hi VQ Ep HL Hd HCo Ee Hw Hs.
  assert (Es' : sub F (ds ++ [i]) = Some g) by (apply (sub_child F ds (FNode a b c d)); auto).
  assert (SO : forall r, In r (owners g) -> In r (owners (FNode a b c d))) by (intros r; apply (owners_child (FNode a b c d) i g); auto).
  destruct (IH (ds ++ [i]) (qchild q i) st e e' kk w s) as (N & s' & st' & RUN & C' & I' & O'); auto.
  - apply valid_child; auto. lia.
  - rewrite path_child by (auto; lia). rewrite Ep. reflexivity.
  - cbn [qlevel qchild]. lia.
  - exists N, s', st'. split; [exact RUN|]. split; [exact C'|]. split.
    + intros r Hr. destruct (in_dec Nat.eq_dec r (owners g)) as [Hg|Hg]; [auto|].
      destruct (O' r Hg) as [-> ->]. rewrite (Hs r Hr), (leaves_none r g Hg), Nat.mul_0_r, Nat.add_0_r.
      unfold W2. rewrite skip by exact Hg. reflexivity.
    + intros r Hr. apply O'. intros X. apply Hr. auto.
Qed.

Lemma split_all_ok f : split_ok f.
Proof.
  induction f as [o|a IHa b IHb c IHc d IHd]; [apply split_one_rank; reflexivity|].
  destruct (Nat.eq_dec (pfirst (FNode a b c d)) (plast (FNode a b c d))) as [Q|Q]; [apply split_one_rank; exact Q|].
  intros ds q st e e' k w s Es VQ Ep HL HCo Ee Hw Hs. specialize (Hw Q).
  cbn [env_split] in Ee. apply bind_inv in Ee as (y & Ey & Ee).
  pose proof (env_true fam gl gf Hfam Hgo (fst (st 0)) _ _ _ _ _ _ _ Ey) as Yt. rewrite Yt in Ee.
  apply bind_inv in Ee as (e1 & E1 & Ee). apply bind_inv in Ee as (e2 & E2 & Ee). apply bind_inv in Ee as (e3 & E3 & E4).
  set (k3 := fun r s3 => W2 d (qchild q 3) r s3 (k r)).
  set (k2 := fun r s2 => W2 c (qchild q 2) r s2 (k3 r)).
  set (k1 := fun r s1 => W2 b (qchild q 1) r s1 (k2 r)).
  destruct (cb_run (R := R) F dflt HC HG fn fam gl gf Hfn Hfam (noT (S := S)) (fun _ _ _ _ _ _ => I) (fun _ _ _ _ _ _ _ _ => I)
    (FNode a b c d) ds q st e y (fun r x => if snd x then W2 a (qchild q 0) r (fst x) (k1 r) else k r (fst x)) s Ey Es Ep HCo)
    as (n0 & s0 & st0 & bb & R0 & C0 & I0 & O0 & _ & X0).
  { intros r Hr. rewrite (Hs r Hr), (Hw r Hr). cbn [worlds]. unfold W2 at 1. cbn [search_reorder]. rewrite (local_eq r _ Hr). reflexivity. }
  specialize (X0 eq_refl).
  assert (H0 : forall r, In r (owners (FNode a b c d)) -> s0 r = worlds size 0 (W2 a (qchild q 0) r (st0 r) (k1 r))).
  { intros r Hr. destruct (I0 r Hr) as [-> _]. cbn [fst snd]. rewrite (X0 r Hr), Yt. reflexivity. }
  pose proof (fun r i g => shared_only F HC HA a b c d ds r i g Es) as ONLY.
  pose proof (fun r => leaves_node r a b c d) as LN.
  destruct (split_step a b c d ds q 0 a st0 (fst y) e1 k1 (fun _ => 0) s0 IHa Es eq_refl ltac:(lia) VQ Ep HL)
    as (na & sa & sta & Ra & Ca & Ia & Oa); auto; [cbn [depth]; lia|].
  destruct (split_step a b c d ds q 1 b sta e1 e2 k2 (fun r => 0 + n * leaves_of r a) sa IHb Es eq_refl ltac:(lia) VQ Ep HL)
    as (nb & sb & stb & Rb & Cb & Ib & Ob); auto; [cbn [depth]; lia| |].
  { intros Sg r Hg. pose proof (ONLY r 1 b eq_refl Sg Hg) as X. rewrite LN in X. replace (leaves_of r a) with 0 by lia. lia. }
  destruct (split_step a b c d ds q 2 c stb e2 e3 k3 (fun r => 0 + n * leaves_of r a + n * leaves_of r b) sb IHc Es eq_refl ltac:(lia) VQ Ep HL)
    as (nc & sc & stc & Rc & Cc & Ic & Oc); auto; [cbn [depth]; lia| |].
  { intros Sg r Hg. pose proof (ONLY r 2 c eq_refl Sg Hg) as X. rewrite LN in X.
    replace (leaves_of r a) with 0 by lia. replace (leaves_of r b) with 0 by lia. lia. }
  destruct (split_step a b c d ds q 3 d stc e3 e' k (fun r => 0 + n * leaves_of r a + n * leaves_of r b + n * leaves_of r c) sc IHd Es eq_refl ltac:(lia) VQ Ep HL)
    as (nd & sd & std & Rd & Cd & Id & Od); auto; [cbn [depth]; lia| |].
  { intros Sg r Hg. pose proof (ONLY r 3 d eq_refl Sg Hg) as X. rewrite LN in X.
    replace (leaves_of r a) with 0 by lia. replace (leaves_of r b) with 0 by lia. replace (leaves_of r c) with 0 by lia. lia. }
  exists (n0 + (na + (nb + (nc + nd)))), sd, std. split; [|split; [exact Cd|split]].
  - apply (runs_app n0 _ s s0 sd); auto. apply (runs_app na _ s0 sa sd); auto. apply (runs_app nb _ sa sb sd); auto.
    apply (runs_app nc _ sb sc sd); auto.
  - intros r Hr. rewrite (Id r Hr), (Hw r Hr), LN. f_equal. lia.
  - intros r Hr. destruct (Od r Hr) as [-> ->]. destruct (Oc r Hr) as [-> ->]. destruct (Ob r Hr) as [-> ->].
    destruct (Oa r Hr) as [-> ->]. apply (O0 r Hr).
Qed.
End splits.

(** ** Sequences of stages *)
Section lists.
Context {D S R : Type} (F : forest) (dflt : D) (size cnt : nat).
Hypothesis HC : contiguous F.
Hypothesis HG : gapless F.
Hypothesis HL : depth F <= qmaxlevel.
Hypothesis HA : aligned F.
Hypothesis HO : forall r, In r (owners F) <-> r < size.
Hypothesis HN : forall r, r < size -> leaves_of r F = cnt.
Notation state := (S * nmap D)%type.

Lemma size_pos : 0 < size.
Proof. pose proof (proj1 (HO _) (pfirst_in F)). lia. Qed.

Lemma stage_run_w n g i st e e' (k : nat -> state -> cmd D R) s : means g i -> descends g -> env_stage F i e = Ok e' ->
  (forall r, coh F r e (snd (st r))) ->
  (forall r, In r (owners F) -> ceq (run_stage_w size n r dflt F g (st r) (k r)) (s r)) ->
  exists N s' st', runs N s s' /\
    (forall r, coh F r e' (snd (st' r))) /\
    (forall r, In r (owners F) -> ceq (k r (st' r)) (s' r)) /\
    (forall r, ~ In r (owners F) -> ceq (s r) (s' r) /\ st' r = st r).
Proof.
  intros M G Ee HCo Hs.
  set (s0 := fun r => if has_local r F then run_stage_w size n r dflt F g (st r) (k r) else s r).
  assert (Q0 : forall r, ceq (s0 r) (s r)).
  { intros r. unfold s0. destruct (has_local r F) eqn:E; [apply Hs; apply has_local_iff; exact E|apply ceq_refl]. }
  assert (X : exists N s' st', runs N s0 s' /\ (forall r, coh F r e' (snd (st' r))) /\
    (forall r, In r (owners F) -> ceq (k r (st' r)) (s' r)) /\ (forall r, ~ In r (owners F) -> ceq (s0 r) (s' r) /\ st' r = st r)).
  { assert (IN0 : forall r, In r (owners F) -> s0 r = run_stage_w size n r dflt F g (st r) (k r)).
    { intros r Hr. unfold s0. rewrite (local_eq r F Hr). reflexivity. }
    destruct g as [fn fam|fn fam|h].
    - (* merge: all calls first *)
      destruct i as [gl gf|gl gf|gr]; try contradiction. destruct M as [M1 M2]. cbn [env_stage] in Ee.
      assert (FIRST : forall r, exists c, In r (owners F) ->
        s0 r = worlds size (n * cnt) c /\ ceq c (run_stage r dflt F (Merge fn fam) (st r) (k r))).
      { intros r. destruct (in_dec Nat.eq_dec r (owners F)) as [Hr|Hr]; [|exists (Fin UB); contradiction].
        destruct (merge_first (R := R) F dflt size n HC HG fn fam gl gf M1 M2 HA F [] root_quadrant r (st r) e e' (k r)
          eq_refl Hr root_valid eq_refl HL (HCo r) Ee) as (c & Ec & Qc).
        exists c. intros _. rewrite (IN0 r Hr). cbn [run_stage_w]. rewrite Ec, HN by (apply HO; exact Hr). split; [reflexivity|exact Qc]. }
      assert (s1e : exists s1 : @config D R, (forall r, In r (owners F) -> s0 r = worlds size (n * cnt) (s1 r) /\ ceq (s1 r) (run_stage r dflt F (Merge fn fam) (st r) (k r)))
         /\ forall r, ~ In r (owners F) -> s1 r = s0 r).
      { set (peel := fix peel m (c : cmd D R) : cmd D R := match m with 0 => c | Datatypes.S m' => match c with Allreduce _ _ kk => peel m' (kk 0) | _ => c end end).
        assert (PW : forall m c, peel m (worlds size m c) = c) by (induction m; intros c; cbn; auto).
        exists (fun r => if has_local r F then peel (n * cnt) (s0 r) else s0 r). split.
        - intros r Hr. rewrite (local_eq r F Hr). destruct (FIRST r) as (c & Hc). destruct (Hc Hr) as [E1 E2].
          rewrite E1, PW. split; [reflexivity|exact E2].
        - intros r Hr. destruct (has_local r F) eqn:E; [apply has_local_iff in E; contradiction|reflexivity]. }
      destruct s1e as (s1 & S1 & S1o).
      assert (RW : runs (n * cnt) s0 s1).
      { apply (worlds_run size); [apply size_pos| |].
        - intros r Hr. apply S1. apply HO. exact Hr.
        - intros r Hr. apply S1o. intros X. apply HO in X. lia. }
      set (s2 := fun r => if has_local r F then run_stage r dflt F (Merge fn fam) (st r) (k r) else s1 r).
      assert (Q2 : forall r, ceq (s2 r) (s1 r)).
      { intros r. unfold s2. destruct (has_local r F) eqn:E; [|apply ceq_refl]. apply ceq_sym. apply S1. apply has_local_iff. exact E. }
      destruct (stage_run F dflt HC HG HL (Merge fn fam) (IMerge gl gf) st e e' k s2 (conj M1 M2) Ee HCo)
        as (N & s3 & st' & R3 & C3 & I3 & O3).
      { intros r Hr. unfold s2. rewrite (local_eq r F Hr). reflexivity. }
      destruct (ceq_runs N s2 s3 R3 s1 Q2) as (s4 & R4 & Q4).
      exists (n * cnt + N), s4, st'. split; [apply (runs_app _ _ s0 s1 s4); auto|]. split; [exact C3|]. split.
      + intros r Hr. rewrite <- (I3 r Hr). apply Q4.
      + intros r Hr. destruct (O3 r Hr) as [E1 E2]. split; [|exact E2].
        specialize (Q4 r). rewrite E1 in Q4. unfold s2 in Q4.
        destruct (has_local r F) eqn:E; [apply has_local_iff in E; contradiction|]. rewrite (S1o r Hr) in Q4. exact Q4.
    - (* split: all calls last *)
      destruct i as [gl gf|gl gf|gr]; try contradiction. destruct M as [M1 M2]. cbn [env_stage] in Ee.
      destruct (split_all_ok (R := R) F dflt size n HC HG fn fam gl gf M1 M2 G HA F [] root_quadrant st e e' k (fun _ => 0) s0
        eq_refl root_valid eq_refl HL HCo Ee) as (N & s1 & st' & R1 & C1 & I1 & O1); [reflexivity|exact IN0|].
      set (s2 := fun r => if has_local r F then k r (st' r) else s1 r).
      exists (N + n * cnt), s2, st'. split; [|split; [exact C1|split]].
      + apply (runs_app N _ s0 s1 s2); auto. apply (worlds_run size); [apply size_pos| |].
        * intros r Hr. pose proof (proj2 (HO r) Hr) as Hin. rewrite (I1 r Hin), (HN r Hr). unfold s2. rewrite (local_eq r F Hin). reflexivity.
        * intros r Hr. unfold s2. destruct (has_local r F) eqn:E; [|reflexivity]. apply has_local_iff in E. apply HO in E. lia.
      + intros r Hr. unfold s2. rewrite (local_eq r F Hr). apply ceq_refl.
      + intros r Hr. destruct (O1 r Hr) as [E1 E2]. split; [|exact E2]. unfold s2.
        destruct (has_local r F) eqn:E; [apply has_local_iff in E; contradiction|]. rewrite E1. apply ceq_refl.
    - destruct (stage_run F dflt HC HG HL (AtRoot h) i st e e' k s0 M Ee HCo) as (N & s1 & st' & R1 & C1 & I1 & O1); [exact IN0|].
      exists N, s1, st'. split; [exact R1|]. split; [exact C1|]. split.
      + intros r Hr. rewrite (I1 r Hr). apply ceq_refl.
      + intros r Hr. destruct (O1 r Hr) as [-> ->]. split; [apply ceq_refl|reflexivity]. }
  destruct X as (N & s1 & st' & R1 & C1 & I1 & O1). destruct (ceq_runs N s0 s1 R1 s Q0) as (s' & R' & Q').
  exists N, s', st'. split; [exact R'|]. split; [exact C1|]. split.
  - intros r Hr. apply (ceq_trans _ (s1 r)); auto.
  - intros r Hr. destruct (O1 r Hr) as [X ->]. split; [|reflexivity].
    apply (ceq_trans _ (s0 r)); [apply ceq_sym; apply Q0|]. apply (ceq_trans _ (s1 r)); auto.
Qed.

Lemma stages_run_w l is : Forall2 means (map snd l) is -> Forall descends (map snd l) -> forall st e e' (k : nat -> state -> cmd D R) s,
  env_stages F is e = Ok e' -> (forall r, coh F r e (snd (st r))) ->
  (forall r, In r (owners F) -> ceq (run_stages_w size r dflt F l (st r) (k r)) (s r)) ->
  exists N s' st', runs N s s' /\
    (forall r, coh F r e' (snd (st' r))) /\
    (forall r, In r (owners F) -> ceq (k r (st' r)) (s' r)) /\
    (forall r, ~ In r (owners F) -> ceq (s r) (s' r) /\ st' r = st r).
Proof.
  revert is; induction l as [|[n g] l IH]; intros is M G st e e' k s Ee HCo Hs; cbn [map snd] in M, G; inversion M as [|g0 i l0 is0 Mg Ml]; subst.
  - injection Ee as <-. exists 0, s, st. split; [constructor; reflexivity|]. split; [exact HCo|]. split; [exact Hs|].
    intros r Hr. split; [apply ceq_refl|reflexivity].
  - inversion G as [|g0 l0 Gg Gl]; subst. cbn [env_stages] in Ee. apply bind_inv in Ee as (e1 & E1 & E2).
    destruct (stage_run_w n g i st e e1 (fun r st' => run_stages_w size r dflt F l st' (k r)) s Mg Gg E1 HCo Hs)
      as (n1 & s1 & st1 & R1 & C1 & I1 & O1).
    destruct (IH is0 Ml Gl st1 e1 e' k s1 E2 C1 I1) as (n2 & s2 & st2 & R2 & C2 & I2 & O2).
    exists (n1 + n2), s2, st2. split; [apply (runs_app n1 n2 s s1 s2); auto|]. split; [exact C2|]. split; [exact I2|].
    intros r Hr. destruct (O2 r Hr) as [X ->]. destruct (O1 r Hr) as [Y ->]. split; [|reflexivity]. apply (ceq_trans _ (s1 r)); auto.
Qed.

Lemma idle_w l r st (k : state -> cmd D R) : ~ In r (owners F) -> (forall st, exists x, k st = Fin x) ->
  exists x, run_stages_w size r dflt F l st k = Fin x.
Proof.
  intros Hr Hk. revert st; induction l as [|[n g] l IH]; intros st; cbn [run_stages_w]; [apply Hk|].
  destruct g as [fn fam|fn fam|h]; cbn [run_stage_w].
  - rewrite skip by exact Hr. apply IH.
  - rewrite skip by exact Hr. apply IH.
  - cbn [run_stage]. destruct (mget (snd st) [0]) as [nd|]; [|eauto]. destruct (h (fst st) (n_data nd)) as [x|x|]; cbn [lift]; eauto.
Qed.
End lists.
