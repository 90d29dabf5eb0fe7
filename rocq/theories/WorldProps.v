(** Properties of parallel runs with the five-point patch solver. *)
From Verif Require Import Base VectorModel MatrixModel HPSModel TreeModel TreeSpec TreeProofs TreeCtor
  TreeOrder TreeMap TreeOrder2 TreeProps ParModel ParSpec ParProofs ParRun ParSearch ParCtor ParStages ParProps
  WorldModel WorldSpec WorldProofs WorldProofs2 WorldProofs3.

(** [C85] A merge whose leaf solves make collective calls over all ranks (the build or the
    upwards stage with the five-point patch solver) can complete only if all ranks have
    the same number of leaves. *)
Lemma five_point_needs_equal_leaves_pf : forall {D S} size n F (dflt : D) fn fam (st : nat -> S * nmap D) N s',
  1 <= n -> depth F <= qmaxlevel -> (forall r, node_map r F (snd (st r))) ->
  runs N (fun r => run_stage_w size n r dflt F (Merge fn fam) (st r) finish) s' -> all_done size s' ->
  forall r r', r < size -> r' < size -> leaves_of r F = leaves_of r' F.
Proof.
  intros D S size n F dflt fn fam st N s' Hn HL NM RUN DONE r r' Hr Hr'.
  assert (E : n * leaves_of r F + 0 = n * leaves_of r' F + 0).
  { apply (exact_equal size ltac:(lia) N _ s' RUN DONE (fun r => n * leaves_of r F + 0)); auto.
    intros r0 H0. cbn [run_stage_w]. apply (merge_exact F dflt size n r0 fn fam F [] root_quadrant (fun _ => False)); auto using root_valid.
    - intros ds nd H1 _ H2. destruct (sub F ds) as [f|] eqn:Es; [|congruence].
      pose proof (NM r0 ds f Es) as X. destruct (in_range r0 (pfirst f) (plast f)); [|congruence].
      destruct X as (nd' & E1 & E2 & _). congruence.
    - intros st' _. reflexivity. }
  apply (Nat.mul_cancel_l _ _ n); lia.
Qed.

Lemma leaves_total size F : (forall o, In o (owners F) -> o < size) ->
  length (owners F) = list_sum (map (fun r => leaves_of r F) (seq 0 size)).
Proof.
  unfold leaves_of. induction (owners F) as [|o l IH]; intros H; cbn [filter length].
  - clear. induction (seq 0 size); cbn; auto.
  - rewrite IH by (intros x Hx; apply H; right; exact Hx).
    assert (Ho : o < size) by (apply H; left; reflexivity).
    assert (G : forall m a, a <= o < a + m \/ ~ a <= o < a + m ->
      list_sum (map (fun r => length (if Nat.eqb r o then o :: filter (Nat.eqb r) l else filter (Nat.eqb r) l)) (seq a m))
      = (if (a <=? o) && (o <? a + m) then 1 else 0) + list_sum (map (fun r => length (filter (Nat.eqb r) l)) (seq a m))).
    { induction m as [|m IHm]; intros a _; cbn [seq map list_sum fold_right].
      - destruct (Nat.leb_spec a o), (Nat.ltb_spec o (a + 0)); cbn; lia.
      - assert (Q := IHm (S a) ltac:(lia)). unfold list_sum in Q |- *. cbn [fold_right]. rewrite Q. clear Q IHm.
        destruct (Nat.eqb_spec a o) as [->|Ha]; cbn [length].
        + destruct (Nat.leb_spec (S o) o), (Nat.leb_spec o o), (Nat.ltb_spec o (o + S m)), (Nat.ltb_spec o (S o + m)); cbn; lia.
        + destruct (Nat.leb_spec (S a) o), (Nat.leb_spec a o), (Nat.ltb_spec o (a + S m)), (Nat.ltb_spec o (S a + m)); cbn; lia. }
    rewrite (G size 0) by lia. destruct (Nat.leb_spec 0 o), (Nat.ltb_spec o (0 + size)); cbn; lia.
Qed.
Lemma leaves_three F : exists k, length (owners F) = 3 * k + 1.
Proof.
  induction F as [o|a (x & Ea) b (y & Eb) c (z & Ec) d (t & Ed)]; [exists 0; reflexivity|].
  cbn [owners]. rewrite !app_length, Ea, Eb, Ec, Ed. exists (x + y + z + t + 1). lia.
Qed.

(** [C85] A quadtree has 3 k + 1 leaves: on three ranks, or any multiple of three, no
    distribution of the leaves lets the build stage with the five-point solver complete. *)
Lemma five_point_three_ranks_pf : forall {D S} m n F (dflt : D) fn fam (st : nat -> S * nmap D) N s',
  1 <= n -> 1 <= m -> depth F <= qmaxlevel -> (forall r, node_map r F (snd (st r))) ->
  (forall o, In o (owners F) -> o < 3 * m) ->
  runs N (fun r => run_stage_w (3 * m) n r dflt F (Merge fn fam) (st r) finish) s' -> ~ all_done (3 * m) s'.
Proof.
  intros D S m n F dflt fn fam st N s' Hn Hm HL NM HO RUN DONE.
  pose proof (leaves_total (3 * m) F HO) as E. destruct (leaves_three F) as (k & Ek). rewrite Ek in E.
  assert (X : forall r, In r (seq 0 (3 * m)) -> leaves_of r F = leaves_of 0 F).
  { intros r Hr. apply in_seq in Hr.
    apply (five_point_needs_equal_leaves_pf (3 * m) n F dflt fn fam st N s'); auto; lia. }
  rewrite (map_ext_in _ (fun _ => leaves_of 0 F)) in E by exact X.
  assert (Y : forall a l, list_sum (map (fun _ : nat => a) l) = length l * a).
  { clear. intros a l. induction l as [|x l IH]; [reflexivity|]. cbn [map length]. unfold list_sum in *. cbn [fold_right]. rewrite IH. lia. }
  rewrite Y, seq_length in E. lia.
Qed.

(** ** Runs that hang *)
Lemma two_stuck {D A} (s : @config D A) p v v' k k' : s 0 = Allreduce (world 2) v k -> s 1 = Allreduce (Comm p 0 1) v' k' -> p <> [] ->
  (forall r, 2 <= r -> exists x, s r = Fin x) -> deadlock s.
Proof.
  intros H0 H1 Hp HR. split; [exists 0; intros x; rewrite H0; discriminate|].
  intros s' [c w kk P1 P2 _ _|c root x kk P1 P2 _ _|lo hi kk P1 P2 _ _].
  - assert (M : member (c_lo c) (c_hi c) (c_lo c)) by (split; lia). pose proof (P2 _ M) as E.
    destruct (c_lo c) as [|[|lo]] eqn:El.
    + rewrite H0 in E. injection E as <- _ _. assert (M1 : member (c_lo (world 2)) (c_hi (world 2)) 1) by (split; cbn; lia).
      specialize (P2 1). rewrite H1 in P2. specialize (P2 ltac:(split; cbn; lia)). injection P2 as E _ _. cbn in E. congruence.
    + rewrite H1 in E. injection E as <- _ _. cbn in El. discriminate.
    + destruct (HR (S (S lo)) ltac:(lia)) as (x & Ex). congruence.
  - assert (M : member (c_lo c) (c_hi c) (c_lo c)) by (split; lia). pose proof (P2 _ M) as E.
    destruct (c_lo c) as [|[|lo]] eqn:El; [congruence ..|]. destruct (HR (S (S lo)) ltac:(lia)) as (y & Ey). congruence.
  - assert (M : member lo hi lo) by (split; lia). pose proof (P2 _ M) as E.
    destruct lo as [|[|lo]]; [congruence ..|]. destruct (HR (S (S lo)) ltac:(lia)) as (y & Ey). congruence.
Qed.

Definition hang_at (F : forest) (r : nat) : nmap nat := match construct nat_factory r 0 F with Ok m => m | _ => mempty end.
Definition hang_run (F : forest) (n : nat) : @config nat (unit * nmap nat) :=
  fun r => run_stage_w 2 n r 0 F (Merge size_leaf size_fam) (tt, hang_at F r) finish.
Definition uneven : forest := FNode (FLeaf 0) (FLeaf 0) (FLeaf 0) (FLeaf 1).

Definition even : forest :=
  FNode (FNode (FLeaf 0) (FLeaf 0) (FLeaf 0) (FLeaf 0)) (FNode (FLeaf 0) (FLeaf 1) (FLeaf 1) (FLeaf 1)) (FLeaf 1) (FLeaf 1).

(** After [N] calls rank 0 waits in a leaf solve and rank 1 in a merge. *)
Lemma hangs F n N p c0 k1 v1 : 1 <= n -> hang_run F n 0 = worlds 2 N (worlds 2 n c0) ->
  hang_run F n 1 = worlds 2 N (Allreduce (Comm p 0 1) v1 k1) -> p <> [] ->
  (forall r, 2 <= r -> ~ In r (owners F)) -> exists s, runs N (hang_run F n) s /\ deadlock s.
Proof.
  intros Hn E0 E1 Hp HF.
  exists (fun r => match r with 0 => worlds 2 n c0 | 1 => Allreduce (Comm p 0 1) v1 k1 | _ => hang_run F n r end).
  split.
  - apply (worlds_run 2); [lia| |].
    + intros r Hr. destruct r as [|[|r]]; [exact E0|exact E1|lia].
    + intros r Hr. destruct r as [|[|r]]; [lia ..|reflexivity].
  - destruct n as [|n]; [lia|]. eapply (two_stuck _ p); [reflexivity|reflexivity|exact Hp|].
    intros r Hr. destruct r as [|[|r]]; [lia ..|]. unfold hang_run. cbn [run_stage_w].
    rewrite skip by (apply HF; lia). eexists. reflexivity.
Qed.
Lemma nat_factory_ok : factory_ok nat_factory.
Proof. split; cbn; intros; repeat split; lia. Qed.
Lemma hang_maps F : contiguous F -> depth F <= qmaxlevel -> forall r, construct nat_factory r 0 F = Ok (hang_at F r) /\ node_map r F (hang_at F r).
Proof.
  intros C HL r. unfold hang_at. destruct (construct_node_map nat_factory r 0 F nat_factory_ok C HL) as (m & E & NM).
  rewrite E. auto.
Qed.
Definition merge_stages : list (stage nat unit) := [Merge size_leaf size_fam].
Lemma merge_independent : Forall rank_independent merge_stages.
Proof.
  repeat constructor.
  - exists (fun _ _ => Ok 1). intros s n. eexists _, _. reflexivity.
  - exists (fun _ _ ds => Ok (1 + fa ds + fb ds + fc ds + fd ds, Four (fa ds) (fb ds) (fc ds) (10 * fd ds), true)).
    intros s n ch. eexists. reflexivity.
Qed.
(** Without the calls the same merge completes on all ranks. *)
Lemma quiet F : contiguous F -> gapless F -> depth F <= qmaxlevel ->
  match construct nat_factory 0 0 (serial F) with
  | Ok m0 => match run_stages 0 0 (serial F) merge_stages (tt, m0) finish with Fin (Ok _) => True | _ => False end
  | _ => False
  end ->
  exists fin, always_ends (fun r => run_stages r 0 F merge_stages (tt, hang_at F r) finish) fin /\
    forall r, In r (owners F) -> exists st', fin r = Ok st'.
Proof.
  intros C G HL E. destruct (construct nat_factory 0 0 (serial F)) as [m0| |] eqn:E0; try contradiction.
  destruct (run_stages 0 0 (serial F) merge_stages (tt, m0) finish) as [[st0| |] | | |] eqn:E1; try contradiction.
  destruct (construct_node_map nat_factory 0 0 (serial F) nat_factory_ok (serial_contiguous F) (serial_level F HL)) as (m & Em & NM0).
  rewrite E0 in Em. injection Em as <-.
  destruct (parallel_equals_serial_partial_pf F 0 merge_stages (fun r => (tt, hang_at F r)) (tt, m0) st0
    C G HL merge_independent) as (fin & A & _ & IN & _); auto.
  - intros r. apply hang_maps; auto.
  - intros r. apply (constructed_same nat_factory 0 F r _ _ nat_factory_ok); auto.
    + intros par par' i a b a' b' H1 H2. cbn. congruence.
    + apply hang_maps; auto.
  - exists fin. split; [exact A|]. intros r Hr. destruct (IN r Hr) as (st' & Ef & _). eauto.
Qed.

(** [C85] Four leaves, three on rank 0 and one on rank 1: without collective calls in the
    leaf solves the merge completes; with them it hangs, whatever their number. *)
Lemma five_point_parallel_completes_refuted_pf :
  exists F (m : nat -> nmap nat), contiguous F /\ gapless F /\ depth F <= qmaxlevel /\
    (forall r, In r (owners F) <-> r < 2) /\
    (forall r, construct nat_factory r 0 F = Ok (m r)) /\
    (exists fin, always_ends (fun r => run_stages r 0 F [Merge size_leaf size_fam] (tt, m r) finish) fin /\
       forall r, In r (owners F) -> exists st', fin r = Ok st') /\
    forall n, 1 <= n ->
      let s0 := fun r => run_stage_w 2 n r 0 F (Merge size_leaf size_fam) (tt, m r) finish in
      (exists N s, runs N s0 s /\ deadlock s) /\ forall N s, runs N s0 s -> ~ all_done 2 s.
Proof.
  assert (C : contiguous uneven) by (repeat constructor).
  assert (HL : depth uneven <= qmaxlevel) by (vm_compute; repeat constructor).
  assert (G : gapless uneven) by (intros o1 o2 r H1 H2 H; cbn in *; lia).
  exists uneven, (hang_at uneven). split; [exact C|]. split; [exact G|]. split; [exact HL|].
  split; [intros r; cbn; lia|]. split; [apply hang_maps; auto|]. split.
  - apply (quiet uneven); auto. vm_compute. exact I.
  - intros n Hn s0. split.
    + exists n. assert (E0 : exists c, hang_run uneven n 0 = worlds 2 n (worlds 2 n c)) by (eexists; refine eq_refl).
      assert (E1 : exists v k, hang_run uneven n 1 = worlds 2 n (Allreduce (Comm [0] 0 1) v k)) by (eexists _, _; refine eq_refl).
      destruct E0 as (c & E0), E1 as (v & k & E1).
      apply (hangs uneven n n [0] c k v Hn E0 E1); [discriminate|]. intros r Hr. cbn. lia.
    + intros N s RUN DONE.
      assert (X : leaves_of 0 uneven = leaves_of 1 uneven).
      { apply (five_point_needs_equal_leaves_pf 2 n uneven 0 size_leaf size_fam (fun r => (tt, hang_at uneven r)) N s); auto.
        intros r. apply hang_maps; auto. }
      vm_compute in X. discriminate.
Qed.

(** A quadrant of one rank: its calls, then the rest. *)
Definition count_leaf : path -> nat -> res nat := fun _ _ => Ok 1.
Definition count_fam : path -> nat -> four nat -> res (nat * four nat * bool) :=
  fun _ _ ds => Ok (1 + fa ds + fb ds + fc ds + fd ds, Four (fa ds) (fb ds) (fc ds) (10 * fd ds), true).
Lemma count_leaf_fun : leaf_fun size_leaf count_leaf.
Proof. intros s n. eexists _, _. reflexivity. Qed.
Lemma count_fam_fun : family_fun size_fam count_fam.
Proof. intros s n ch. eexists. reflexivity. Qed.
Lemma count_ok f : forall p e, exists e', env_merge count_leaf count_fam f p e = Ok e'.
Proof.
  induction f as [o|a IHa b IHb c IHc d IHd]; intros p e; cbn [env_merge].
  - eexists. reflexivity.
  - destruct (IHa (p ++ [0]) e) as (e1 & ->). cbn [bind]. destruct (IHb (p ++ [1]) e1) as (e2 & ->). cbn [bind].
    destruct (IHc (p ++ [2]) e2) as (e3 & ->). cbn [bind]. destruct (IHd (p ++ [3]) e3) as (e4 & ->). cbn [bind].
    eexists. reflexivity.
Qed.
Notation walk n f q r st k :=
  (search_reorder (R := unit * nmap nat) r no_callback (leaf_calls 2 n (search_merge_split r BROADCAST 0 size_leaf size_fam)) f q st k).
Lemma own_step F n : contiguous F -> forall f ds q o (st : unit * nmap nat) e, sub F ds = Some f -> pfirst f = o -> plast f = o ->
  valid_quadrant q -> quadrant_path q = 0 :: ds -> qlevel q + depth f <= qmaxlevel -> coh F o e (snd st) ->
  exists st' e', coh F o e' (snd st') /\ forall k, walk n f q o st k = worlds 2 (n * leaves_of o f) (k st').
Proof.
  intros C f ds q o st e Es Q1 Q2 V Ep HL Co. destruct (count_ok f (0 :: ds) e) as (e' & Ee).
  destruct (merge_own (R := unit * nmap nat) F 0 2 n C size_leaf size_fam count_leaf count_fam count_leaf_fun count_fam_fun
    f ds q o st e e' Es Q1 Q2 V Ep HL Co Ee) as (st' & C' & K).
  exists st', e'. split; [exact C'|]. intros k. apply K.
Qed.
Lemma shared_wait {D S R} F (dflt : D) fn fam f ds q r (st : S * nmap D) e (k : _ -> cmd D R) : sub F ds = Some f -> pfirst f <> plast f ->
  in_range r (pfirst f) (plast f) = true -> quadrant_path q = 0 :: ds -> coh F r e (snd st) ->
  exists v k', search_merge_split r BROADCAST dflt fn fam st q false k = Allreduce (Comm (0 :: ds) (pfirst f) (plast f)) v k'.
Proof.
  intros Es Hn Hr Ep [NM _]. pose proof (NM ds f Es) as X. rewrite Hr in X. destruct X as (nd & En & N1 & _ & N3 & N4 & _).
  unfold search_merge_split. rewrite Ep. unfold mget at 1. rewrite En, N3, N4, Hr.
  destruct (Nat.eqb_spec (pfirst f) (plast f)) as [X|_]; [contradiction|].
  unfold gather, gather_child at 1. rewrite N1, N3, N4. destruct (mget (snd st) ((0 :: ds) ++ [0])); eexists _, _; reflexivity.
Qed.
Lemma start_coh F r : contiguous F -> depth F <= qmaxlevel ->
  coh F r (fun p => match hang_at F r p with Some n => n_data n | None => 0 end) (hang_at F r).
Proof. intros C HL. split; [apply hang_maps; auto|]. intros ds n _ E. rewrite E. reflexivity. Qed.

Lemma even_ranks n : contiguous even -> depth even <= qmaxlevel ->
  (exists c, hang_run even n 0 = worlds 2 (n * 5) c) /\
  (exists v k, hang_run even n 1 = worlds 2 (n * 3) (Allreduce (Comm [0; 1] 0 1) v k)).
Proof.
  intros C HL. set (A := FNode (FLeaf 0) (FLeaf 0) (FLeaf 0) (FLeaf 0)). set (B := FNode (FLeaf 0) (FLeaf 1) (FLeaf 1) (FLeaf 1)).
  assert (L0 : qlevel root_quadrant = 0) by reflexivity.
  assert (LM : qlevel root_quadrant + 2 <= qmaxlevel) by (rewrite L0; exact HL).
  assert (V : forall i, i < 4 -> valid_quadrant (qchild root_quadrant i)) by (intros i Hi; apply valid_child; auto using root_valid; lia).
  assert (P : forall i, i < 4 -> quadrant_path (qchild root_quadrant i) = [0; i]).
  { intros i Hi. rewrite path_child by (auto using root_valid; lia). reflexivity. }
  assert (V2 : forall i, i < 4 -> valid_quadrant (qchild (qchild root_quadrant 1) i)).
  { intros i Hi. apply valid_child; [apply V; lia|cbn [qlevel qchild]; lia|exact Hi]. }
  assert (P2 : forall i, i < 4 -> quadrant_path (qchild (qchild root_quadrant 1) i) = [0; 1; i]).
  { intros i Hi. rewrite path_child; [|apply V; lia|cbn [qlevel qchild]; lia|exact Hi]. rewrite P by lia. reflexivity. }
  assert (L2 : forall i, qlevel (qchild (qchild root_quadrant 1) i) + depth (FLeaf 0) <= qmaxlevel).
  { intros i. change (depth (FLeaf 0)) with 0. cbn [qlevel qchild]. lia. }
  split.
  - unfold hang_run, run_stage_w, even. fold A B. rewrite W1_node by (left; reflexivity).
    destruct (own_step even n C A [0] (qchild root_quadrant 0) 0 (tt, hang_at even 0) _ eq_refl eq_refl eq_refl (V 0 ltac:(lia)) (P 0 ltac:(lia))
      ltac:(change (depth A) with 1; cbn [qlevel qchild]; lia) (start_coh even 0 C HL)) as (s1 & e1 & C1 & K1).
    rewrite K1. unfold B. rewrite W1_node by (left; reflexivity).
    destruct (own_step even n C (FLeaf 0) [1; 0] (qchild (qchild root_quadrant 1) 0) 0 s1 _ eq_refl eq_refl eq_refl (V2 0 ltac:(lia)) (P2 0 ltac:(lia))
      (L2 0) C1) as (s2 & e2 & C2 & K2).
    rewrite K2, worlds_app. eexists. f_equal. change (leaves_of 0 A) with 4. change (leaves_of 0 (FLeaf 0)) with 1. lia.
  - unfold hang_run, run_stage_w, even. fold A B. rewrite W1_node by (cbn; tauto).
    rewrite skip by (cbn; lia). unfold B at 1. rewrite W1_node by (cbn; tauto). rewrite skip by (cbn; lia).
    destruct (own_step even n C (FLeaf 1) [1; 1] (qchild (qchild root_quadrant 1) 1) 1 (tt, hang_at even 1) _ eq_refl eq_refl eq_refl
      (V2 1 ltac:(lia)) (P2 1 ltac:(lia)) (L2 1) (start_coh even 1 C HL)) as (s1 & e1 & C1 & K1). rewrite K1.
    destruct (own_step even n C (FLeaf 1) [1; 2] (qchild (qchild root_quadrant 1) 2) 1 s1 _ eq_refl eq_refl eq_refl
      (V2 2 ltac:(lia)) (P2 2 ltac:(lia)) (L2 2) C1) as (s2 & e2 & C2 & K2). rewrite K2.
    destruct (own_step even n C (FLeaf 1) [1; 3] (qchild (qchild root_quadrant 1) 3) 1 s2 _ eq_refl eq_refl eq_refl
      (V2 3 ltac:(lia)) (P2 3 ltac:(lia)) (L2 3) C2) as (s3 & e3 & C3 & K3). rewrite K3.
    match goal with |- context [search_merge_split 1 BROADCAST 0 size_leaf size_fam s3 ?q false ?k] =>
      destruct (shared_wait even 0 size_leaf size_fam B [1] q 1 s3 e3 k eq_refl ltac:(discriminate) eq_refl (P 1 ltac:(lia)) C3) as (v & k' & ->) end.
    exists v, k'. rewrite !worlds_app. f_equal. change (leaves_of 1 (FLeaf 1)) with 1. lia.
Qed.

(** [C85] The same number of leaves on every rank is not enough: ten leaves, five on each
    of two ranks, as p4est_partition distributes them. *)
Lemma five_point_equal_leaves_refuted_pf :
  exists F (m : nat -> nmap nat), contiguous F /\ gapless F /\ depth F <= qmaxlevel /\
    leaves_of 0 F = 5 /\ leaves_of 1 F = 5 /\ length (owners F) = 10 /\
    (forall r, construct nat_factory r 0 F = Ok (m r)) /\
    (exists fin, always_ends (fun r => run_stages r 0 F [Merge size_leaf size_fam] (tt, m r) finish) fin /\
       forall r, In r (owners F) -> exists st', fin r = Ok st') /\
    forall n, 1 <= n ->
      exists N s, runs N (fun r => run_stage_w 2 n r 0 F (Merge size_leaf size_fam) (tt, m r) finish) s /\ deadlock s.
Proof.
  assert (C : contiguous even) by (repeat constructor).
  assert (HL : depth even <= qmaxlevel) by (vm_compute; repeat constructor).
  assert (G : gapless even) by (intros o1 o2 r H1 H2 H; cbn in *; lia).
  exists even, (hang_at even). split; [exact C|]. split; [exact G|]. split; [exact HL|].
  split; [reflexivity|]. split; [reflexivity|]. split; [reflexivity|].
  split; [apply hang_maps; auto|]. split.
  - apply (quiet even); auto. vm_compute. exact I.
  - intros n Hn. exists (n * 3). destruct (even_ranks n C HL) as ((c & E0) & v & k & E1).
    apply (hangs even n _ [0; 1] (worlds 2 n c) k v Hn); [|exact E1|discriminate|intros r Hr; cbn; lia].
    rewrite worlds_app, worlds_app. etransitivity; [exact E0|]. f_equal. lia.
Qed.

(** [C85] On one rank the calls do not matter: any sequence of stages that succeeds
    without them succeeds with them, with the same result. *)
Lemma five_point_one_rank_pf : forall {D S} F (dflt : D) (l : list (nat * stage D S)) st x (s : config) o,
  run_stages 0 dflt F (map snd l) st finish = Fin x ->
  s 0 = run_stages_w 1 0 dflt F l st finish -> (forall r, r <> 0 -> s r = Fin (o r)) ->
  always_ends s (fun r => if Nat.eqb r 0 then x else o r).
Proof.
  intros D S F dflt l st x s o E H0 HR.
  destruct (alone_run _ _ x (wc_stages 1 0 dflt F l st finish finish (fun y => wc_same 1 (finish y))) E s H0) as (n & s' & R1 & R2 & R3).
  apply (ends s _ n s' R1). intros r. destruct (Nat.eqb_spec r 0) as [->|Hr]; [exact R2|].
  rewrite (R3 r Hr). apply HR. exact Hr.
Qed.

(** [C85] The direct solver with the five-point stencil on one rank. *)
Lemma five_point_solver_one_rank_pf : forall nside sv gesv hom load rg F dflt st x (s : config) o,
  run_stages 0 dflt F (hps_stages sv gesv hom load rg) st finish = Fin x ->
  s 0 = run_stages_w 1 0 dflt F (five_point_stages nside sv gesv hom load rg) st finish -> (forall r, r <> 0 -> s r = Fin (o r)) ->
  always_ends s (fun r => if Nat.eqb r 0 then x else o r).
Proof.
  intros nside sv gesv hom load rg F dflt st x s o E H0 HR.
  apply (five_point_one_rank_pf F dflt (five_point_stages nside sv gesv hom load rg) st x s o); auto.
Qed.

(** [C85] The calls are harmless when all ranks have the same number of leaves and no
    quadrant is shared by ranks that have further leaves elsewhere: every order of
    collectives ends, with the serial data on every rank. *)
Lemma five_point_aligned_completes_pf : forall {D S} size cnt F (dflt : D) (l : list (nat * stage D S)) st st0 st0',
  contiguous F -> gapless F -> depth F <= qmaxlevel ->
  (forall r, In r (owners F) <-> r < size) -> aligned F -> (forall r, r < size -> leaves_of r F = cnt) ->
  Forall rank_independent (map snd l) -> Forall descends (map snd l) ->
  (forall r, node_map r F (snd (st r))) -> node_map 0 (serial F) (snd st0) ->
  (forall r, same_data F (snd (st r)) (snd st0)) ->
  run_stages 0 dflt (serial F) (map snd l) st0 finish = Fin (Ok st0') ->
  exists fin, always_ends (fun r => run_stages_w size r dflt F l (st r) finish) fin /\
    forall r, r < size -> exists st', fin r = Ok st' /\ node_map r F (snd st') /\ same_data F (snd st') (snd st0').
Proof.
  intros D S size cnt F dflt l st st0 st0' C G HL HO HA HN HI HD NM NM0 SD E0.
  destruct (means_exist (map snd l) HI) as (is & M).
  set (e := fun p => match snd st0 p with Some n => n_data n | None => dflt end).
  pose proof (stages_one (R := S * nmap D) (serial F) dflt (serial_contiguous F) (serial_gapless F) (serial_level F HL) 0
    (serial_first F) (serial_last F) (map snd l) is M st0 e finish (coh_serial F dflt _ NM0)) as H0.
  rewrite env_stages_serial in H0. rewrite E0 in H0.
  destruct (env_stages F is e) as [e'|x|] eqn:Ee; [|discriminate ..].
  destruct H0 as (st1 & E1 & C1). injection E1 as <-.
  set (s := fun r => run_stages_w size r dflt F l (st r) finish : cmd D (S * nmap D)).
  destruct (stages_run_w F dflt size cnt C G HL HA HO HN l is M HD st e e' (fun _ => finish) s Ee)
    as (n & s' & st' & RUN & CO & IN & OUT).
  { intros r. apply coh_of_same; auto. }
  { intros r _. apply ceq_refl. }
  set (fin := fun r => if has_local r F then Ok (st' r) else match s r with Fin x => x | _ => UB end).
  exists fin. split.
  - apply (ends s fin n s' RUN). intros r. unfold fin. destruct (has_local r F) eqn:Hr.
    + apply has_local_iff in Hr. pose proof (IN r Hr) as X. inversion X. reflexivity.
    + assert (Hr' : ~ In r (owners F)) by (intros X; apply has_local_iff in X; congruence).
      destruct (OUT r Hr') as [X _].
      destruct (idle_w F dflt size l r (st r) finish Hr' (fun st => ex_intro _ _ eq_refl)) as (x & Ex).
      unfold s in X |- *. rewrite Ex in X |- *. inversion X. reflexivity.
  - intros r Hr. pose proof (proj2 (HO r) Hr) as Hin. exists (st' r). unfold fin. rewrite (local_eq r F Hin). split; [reflexivity|].
    split; [exact (proj1 (CO r))|]. apply (same_of_coh F r e'); auto.
Qed.

(** [C85] The direct solver with the five-point stencil, from the construction of the
    quadtree on: under the same conditions it completes with the serial data. *)
Lemma five_point_solver_aligned_pf : forall size cnt nside sv gesv hom load rg dflt rd F m0 c0 c0' m0',
  contiguous F -> gapless F -> depth F <= qmaxlevel ->
  (forall r, In r (owners F) <-> r < size) -> aligned F -> (forall r, r < size -> leaves_of r F = cnt) ->
  construct fv_factory 0 rd (serial F) = Ok m0 ->
  run_stages 0 dflt (serial F) (hps_stages sv gesv hom load rg) (c0, m0) finish = Fin (Ok (c0', m0')) ->
  exists fin,
    always_ends (fun r => cseq (construct_prog fv_factory r rd (search_all r F root_quadrant) mempty)
                  (fun m => run_stages_w size r dflt F (five_point_stages nside sv gesv hom load rg) (c0, m) finish)) fin /\
    forall r, r < size -> exists c m, fin r = Ok (c, m) /\ node_map r F m /\ same_data F m m0'.
Proof.
  intros size cnt nside sv gesv hom load rg dflt rd F m0 c0 c0' m0' C G HL HO HA HN E0 E1.
  destruct (construction_completes_pf fv_factory rd F fv_factory_ok C HL) as (mid & A & X).
  destruct (construct_node_map fv_factory 0 rd (serial F) fv_factory_ok (serial_contiguous F) (serial_level F HL)) as (m & Em & NM0).
  rewrite E0 in Em. injection Em as <-.
  destruct (five_point_aligned_completes_pf size cnt F dflt (five_point_stages nside sv gesv hom load rg) (fun r => (c0, mid r)) (c0, m0) (c0', m0')
    C G HL HO HA HN (hps_independent sv gesv hom load rg)) as (fin & A2 & IN); auto.
  { change (map snd (five_point_stages nside sv gesv hom load rg)) with (hps_stages sv gesv hom load rg).
    repeat apply Forall_cons; try exact I; [|apply Forall_nil]. cbn [descends]. intros s n ch s' d ds b Eb.
    apply bind_inv in Eb as (x & _ & Eb). injection Eb as _ _ _ <-. reflexivity. }
  { intros r. apply X. }
  { intros r. apply (constructed_same fv_factory rd F r _ _ fv_factory_ok fv_factory_data C HL (proj1 (X r)) E0). }
  exists fin. split.
  - apply (ends_seq _ (fun r m => run_stages_w size r dflt F (five_point_stages nside sv gesv hom load rg) (c0, m) finish) mid fin A A2).
  - intros r Hr. destruct (IN r Hr) as ([c m] & Ef & H). exists c, m. split; [exact Ef|exact H].
Qed.

(** Four ranks with a quadrant of four leaves each. *)
Definition quarters : forest :=
  FNode (FNode (FLeaf 0) (FLeaf 0) (FLeaf 0) (FLeaf 0)) (FNode (FLeaf 1) (FLeaf 1) (FLeaf 1) (FLeaf 1))
        (FNode (FLeaf 2) (FLeaf 2) (FLeaf 2) (FLeaf 2)) (FNode (FLeaf 3) (FLeaf 3) (FLeaf 3) (FLeaf 3)).
Lemma quarter_one o ds f : sub (FNode (FLeaf o) (FLeaf o) (FLeaf o) (FLeaf o)) ds = Some f -> pfirst f = plast f.
Proof.
  destruct ds as [|i ds]; [intros E; injection E as <-; reflexivity|].
  destruct i as [|[|[|[|i]]]]; cbn [sub fchild]; try discriminate; destruct ds as [|j ds]; cbn [sub fchild];
  intros E; try discriminate; injection E as <-; reflexivity.
Qed.
Lemma five_point_aligned_example_expf :
  contiguous quarters /\ gapless quarters /\ depth quarters <= qmaxlevel /\
  (forall r, In r (owners quarters) <-> r < 4) /\ aligned quarters /\ (forall r, r < 4 -> leaves_of r quarters = 4) /\
  ~ aligned even /\ ~ (leaves_of 0 uneven = leaves_of 1 uneven).
Proof.
  split; [repeat constructor|]. split; [intros o1 o2 r H1 H2 H; cbn in *; lia|]. split; [vm_compute; repeat constructor|].
  split; [intros r; cbn; lia|]. split; [|split; [|split]].
  - intros ds f E Hn r Hr. destruct ds as [|i ds]; [injection E as <-; reflexivity|]. exfalso. apply Hn.
    destruct i as [|[|[|[|i]]]]; cbn [sub fchild quarters] in E; try discriminate; apply quarter_one in E; exact E.
  - intros r Hr. do 4 (destruct r as [|r]; [reflexivity|]). lia.
  - intros H. specialize (H [1] _ eq_refl ltac:(discriminate) 0 ltac:(left; reflexivity)). vm_compute in H. discriminate.
  - vm_compute. discriminate.
Qed.

Lemma held_app k l l' : held k (l ++ l') = (held k l + held k l')%Z.
Proof. induction l as [|[o|o] l IH]; cbn [app held]; [lia|rewrite IH; lia ..]. Qed.

(** [C86] Every solve with the five-point stencil leaves two index sets behind; matrices
    and vectors are all destroyed. *)
Lemma solve_leaks_index_sets_pf : forall m,
  held PIS (concat (repeat solve_ops m)) = Z.of_nat (solve_calls * m) /\
  held PMat (concat (repeat solve_ops m)) = 0%Z /\ held PVec (concat (repeat solve_ops m)) = 0%Z.
Proof.
  induction m as [|m (I1 & I2 & I3)]; [repeat split; reflexivity|]. cbn [repeat concat].
  rewrite !held_app, I1, I2, I3. change (held PIS solve_ops) with 2%Z. change (held PMat solve_ops) with 0%Z. change (held PVec solve_ops) with 0%Z.
  unfold solve_calls. lia.
Qed.

(** [C86] So it is false that a solve destroys every PETSc object it creates. *)
Lemma solve_releases_objects_refuted_pf :
  exists k, held k solve_ops <> 0%Z.
Proof. exists PIS. discriminate. Qed.
