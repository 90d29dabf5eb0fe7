(** Properties of parallel runs. *)
From Verif Require Import Base VectorModel MatrixModel HPSModel TreeModel TreeSpec TreeProofs TreeCtor
  TreeOrder TreeMap TreeOrder2 TreeProps Gauss HPSCert HPSProps ParModel ParSpec ParProofs ParRun ParSearch ParCtor ParStages.

Section main.
Context {D S : Type}.

Lemma coh_of_same F (dflt : D) r (m m0 : nmap D) : node_map r F m -> same_data F m m0 ->
  coh F r (fun p => match m0 p with Some n => n_data n | None => dflt end) m.
Proof.
  intros NM SD. split; [exact NM|]. intros ds n Hs Hn.
  destruct (SD ds n Hs Hn) as (n0 & E & ->). rewrite E. reflexivity.
Qed.
Lemma coh_serial F (dflt : D) (m0 : nmap D) : node_map 0 (serial F) m0 ->
  coh (serial F) 0 (fun p => match m0 p with Some n => n_data n | None => dflt end) m0.
Proof. intros NM. split; [exact NM|]. intros ds n Hs Hn. rewrite Hn. reflexivity. Qed.
Lemma same_of_coh F r e (m m0 : nmap D) : coh F r e m -> coh (serial F) 0 e m0 -> same_data F m m0.
Proof.
  intros [_ H1] [NM H2] ds n Hs Hn. destruct (sub F ds) as [f|] eqn:Es; [|congruence].
  assert (Es' : sub (serial F) ds = Some (serial f)) by (rewrite serial_sub, Es; reflexivity).
  pose proof (NM ds _ Es') as X. rewrite serial_first, serial_last in X. cbn in X.
  destruct X as (n0 & E0 & _). exists n0. split; [exact E0|].
  rewrite (H1 ds n), (H2 ds n0); congruence.
Qed.
Lemma serial_level F : depth F <= qmaxlevel -> depth (serial F) <= qmaxlevel.
Proof. rewrite serial_depth. auto. Qed.
End main.

(** [C37] A sequence of merges, splits and accesses to the root on a tree whose leaves
    are distributed over ranks in contiguous ranges without gaps.  The callbacks
    compute new data from path and data; their serial run on the same initial data
    succeeds.  Then whatever order the collectives complete in, no rank waits for
    ever, and every rank with leaves ends with the nodes it had, holding the data of
    the serial run.  A rank without leaves ends with what it had (it must not access
    the root). *)
Lemma parallel_equals_serial_partial_pf : forall {D S} F (dflt : D) (l : list (stage D S)) st st0 st0',
  contiguous F -> gapless F -> depth F <= qmaxlevel -> Forall rank_independent l ->
  (forall r, node_map r F (snd (st r))) -> node_map 0 (serial F) (snd st0) ->
  (forall r, same_data F (snd (st r)) (snd st0)) ->
  run_stages 0 dflt (serial F) l st0 finish = Fin (Ok st0') ->
  exists fin, always_ends (fun r => run_stages r dflt F l (st r) finish) fin /\
    node_map 0 (serial F) (snd st0') /\
    (forall r, In r (owners F) -> exists st', fin r = Ok st' /\ node_map r F (snd st') /\ same_data F (snd st') (snd st0')) /\
    (forall r, ~ In r (owners F) -> (forall h, ~ In (AtRoot h) l) -> fin r = Ok (st r)).
Proof.
  intros D S F dflt l st st0 st0' C G HL HI NM NM0 SD E0.
  destruct (means_exist l HI) as (is & M).
  set (e := fun p => match snd st0 p with Some n => n_data n | None => dflt end).
  pose proof (stages_one (R := S * nmap D) (serial F) dflt (serial_contiguous F) (serial_gapless F) (serial_level F HL) 0
    (serial_first F) (serial_last F) l is M st0 e finish (coh_serial F dflt _ NM0)) as H0.
  rewrite env_stages_serial in H0. rewrite E0 in H0.
  destruct (env_stages F is e) as [e'|x|] eqn:Ee; [|discriminate ..].
  destruct H0 as (st1 & E1 & C1). injection E1 as <-.
  set (s := fun r => run_stages r dflt F l (st r) finish : cmd D (S * nmap D)).
  destruct (stages_run F dflt C G HL l is M st e e' (fun _ => finish) s Ee)
    as (n & s' & st' & RUN & CO & IN & OUT).
  { intros r. apply coh_of_same; auto. }
  { reflexivity. }
  set (fin := fun r => if has_local r F then Ok (st' r) else match s r with Fin x => x | _ => UB end).
  exists fin. split; [|split; [exact (proj1 C1)|split]].
  - apply (ends s fin n s' RUN). intros r. unfold fin. destruct (has_local r F) eqn:Hr.
    + apply has_local_iff in Hr. rewrite (IN r Hr). reflexivity.
    + assert (Hr' : ~ In r (owners F)) by (intros X; apply has_local_iff in X; congruence).
      destruct (OUT r Hr') as [-> _].
      destruct (stages_idle F dflt l r (st r) finish Hr' (fun st => ex_intro _ _ eq_refl)) as (x & Ex).
      unfold s. rewrite Ex. reflexivity.
  - intros r Hr. exists (st' r). unfold fin. rewrite (local_eq r F Hr). split; [reflexivity|].
    split; [exact (proj1 (CO r))|]. apply (same_of_coh F r e'); auto.
  - intros r Hr Hh. unfold fin. destruct (has_local r F) eqn:Hl; [apply has_local_iff in Hl; contradiction|].
    unfold s. rewrite stages_idle_same by auto. reflexivity.
Qed.

(** ** Construction *)
Lemma chain_data {D} (fac : factory D) r r' F F' ds : factory_ok fac -> factory_data fac ->
  forall n n', n_path n = n_path n' -> n_data n = n_data n' ->
  (forall ds1, sub F ds1 = None <-> sub F' ds1 = None) ->
  n_data (chain fac r n F ds) = n_data (chain fac r' n' F' ds).
Proof.
  intros FO FD. revert F F'; induction ds as [|i ds IH]; intros F F' n n' H1 H2 HS; cbn [chain]; [exact H2|].
  pose proof (HS [i]) as Hi. cbn [sub] in Hi.
  destruct (fchild F i) as [f|] eqn:E, (fchild F' i) as [f'|] eqn:E'.
  - apply IH.
    + cbn [child_node set_nleaf n_path]. destruct (proj2 FO n i (pfirst f) (plast f)) as (-> & _).
      destruct (proj2 FO n' i (pfirst f') (plast f')) as (-> & _). congruence.
    + cbn [child_node set_nleaf n_data]. apply FD; auto.
    + intros ds1. specialize (HS (i :: ds1)). cbn [sub] in HS. rewrite E, E' in HS. exact HS.
  - destruct Hi as [_ Hi]. discriminate (Hi eq_refl).
  - destruct Hi as [Hi _]. discriminate (Hi eq_refl).
  - exact H2.
Qed.

Lemma constructed_same {D} (fac : factory D) rd F r m m0 : factory_ok fac -> factory_data fac ->
  contiguous F -> depth F <= qmaxlevel ->
  construct fac r rd F = Ok m -> construct fac 0 rd (serial F) = Ok m0 -> same_data F m m0.
Proof.
  intros FO FD C HL E E0 ds n Hs Hn.
  destruct (construct_ok fac r rd F C HL) as (m' & E' & X & _). rewrite E in E'. injection E' as <-.
  destruct (construct_ok fac 0 rd (serial F) (serial_contiguous F) (serial_level F HL)) as (m' & E' & X0 & _).
  rewrite E0 in E'. injection E' as <-.
  destruct (sub F ds) as [f|] eqn:Es; [|congruence].
  rewrite X in Hn. unfold expected in Hn. rewrite Es in Hn.
  destruct (in_range r (pfirst f) (plast f)); [|discriminate]. injection Hn as <-.
  rewrite X0. unfold expected. rewrite serial_sub, Es. cbn [option_map].
  rewrite serial_first, serial_last. cbn [in_range Nat.leb andb]. eexists. split; [reflexivity|].
  apply chain_data; auto.
  - unfold root_node. cbn [set_nleaf n_path]. destruct (proj1 FO rd [0] 0 (pfirst F) (plast F)) as (_ & -> & _).
    destruct (proj1 FO rd [0] 0 (pfirst (serial F)) (plast (serial F))) as (_ & -> & _). reflexivity.
  - unfold root_node. cbn [set_nleaf n_data]. destruct (proj1 FO rd [0] 0 (pfirst F) (plast F)) as (-> & _).
    destruct (proj1 FO rd [0] 0 (pfirst (serial F)) (plast (serial F))) as (-> & _). reflexivity.
  - intros ds1. rewrite serial_sub. destruct (sub F ds1); cbn; split; congruence.
Qed.

(** [C37] The constructor, which creates one communicator per quadrant, completes on
    every contiguous distribution, with gaps or without; every rank ends with the
    map it would build on its own. *)
Lemma construction_completes_pf : forall {D} (fac : factory D) rd F, factory_ok fac ->
  contiguous F -> depth F <= qmaxlevel ->
  exists fin, always_ends (fun r => construct_prog fac r rd (search_all r F root_quadrant) mempty) (fun r => Ok (fin r)) /\
    forall r, construct fac r rd F = Ok (fin r) /\ node_map r F (fin r).
Proof.
  intros D fac rd F FO C HL.
  exists (fun r => match construct fac r rd F with Ok m => m | _ => mempty end).
  assert (X : forall r, construct fac r rd F = Ok (match construct fac r rd F with Ok m => m | _ => mempty end)
    /\ node_map r F (match construct fac r rd F with Ok m => m | _ => mempty end)).
  { intros r. destruct (construct_node_map fac r rd F FO C HL) as (m & E & NM). rewrite E. auto. }
  split; [|exact X]. apply ctor_ends; auto. intros r. apply X.
Qed.

(** ** One program after another *)
Lemma pstep_seq {D A B} (s s' : @config D A) (K : nat -> A -> cmd D B) : pstep s s' ->
  pstep (fun r => cseq (s r) (K r)) (fun r => cseq (s' r) (K r)).
Proof.
  intros [c v k H1 H2 H3 H4|c root x k H1 H2 H3 H4|lo hi k H1 H2 H3 H4].
  - apply (step_allreduce _ _ c v (fun r y => cseq (k r y) (K r))); auto; intros r Hr.
    + rewrite H2 by exact Hr. reflexivity.
    + rewrite H3 by exact Hr. reflexivity.
    + rewrite H4 by exact Hr. reflexivity.
  - apply (step_bcast _ _ c root x (fun r y => cseq (k r y) (K r))); auto; intros r Hr.
    + rewrite H2 by exact Hr. reflexivity.
    + rewrite H3 by exact Hr. reflexivity.
    + rewrite H4 by exact Hr. reflexivity.
  - apply (step_group _ _ lo hi (fun r => cseq (k r) (K r))); auto; intros r Hr.
    + rewrite H2 by exact Hr. reflexivity.
    + rewrite H3 by exact Hr. reflexivity.
    + rewrite H4 by exact Hr. reflexivity.
Qed.
Lemma runs_seq {D A B} n (s s' : @config D A) (K : nat -> A -> cmd D B) : runs n s s' ->
  runs n (fun r => cseq (s r) (K r)) (fun r => cseq (s' r) (K r)).
Proof.
  induction 1 as [s s' H|n s1 s2 s3 H _ IH]; [constructor; intros r; rewrite H; reflexivity|].
  apply (runs_S n _ _ _ (pstep_seq s1 s2 K H) IH).
Qed.

Lemma ends_seq {D A B} (s : @config D A) (K : nat -> A -> cmd D B) mid fin :
  always_ends s (fun r => Ok (mid r)) -> always_ends (fun r => K r (mid r)) fin ->
  always_ends (fun r => cseq (s r) (K r)) fin.
Proof.
  intros (n1 & H1) (n2 & H2).
  destruct (H1 0 s (runs_0 s s (fun _ => eq_refl))) as (_ & s1 & R1 & F1). rewrite Nat.sub_0_r in R1.
  destruct (H2 0 _ (runs_0 _ _ (fun _ => eq_refl))) as (_ & s2 & R2 & F2). rewrite Nat.sub_0_r in R2.
  apply (ends _ fin (n1 + n2) s2).
  - apply (runs_app n1 n2 _ (fun r => cseq (s1 r) (K r)) s2); [apply runs_seq; exact R1|].
    destruct n2 as [|n2].
    + inversion R2 as [a b Heq|]; subst. constructor. intros r. rewrite Heq, F1. reflexivity.
    + inversion R2 as [|n a b c P R']; subst. apply (runs_S n2 _ b s2); [|exact R'].
      destruct P as [c v k P1 P2 P3 P4|c root x k P1 P2 P3 P4|lo hi k P1 P2 P3 P4].
      * apply (step_allreduce _ _ c v k); auto; intros r Hr; rewrite F1; cbn [cseq]; auto.
      * apply (step_bcast _ _ c root x k); auto; intros r Hr; rewrite F1; cbn [cseq]; auto.
      * apply (step_group _ _ lo hi k); auto; intros r Hr; rewrite F1; cbn [cseq]; auto.
  - exact F2.
Qed.

(** ** The direct solver *)
Lemma hps_independent sv gesv hom load rg : Forall rank_independent (hps_stages sv gesv hom load rg).
Proof.
  unfold hps_stages. repeat apply Forall_cons; [| | | |apply Forall_nil]; cbn [rank_independent]; try split.
  - exists (fun _ d => r <- build_leaf sv false None d ;; Ok (snd r)). intros s n. unfold build_leaf.
    destruct (sv_build sv (pgrid (n_data n))); cbn; eauto.
  - exists (fun _ d ds => r <- merge4to1 gesv d ds ;; Ok (fst r, snd r, true)). intros s n ch.
    destruct (merge4to1 gesv (n_data n) (fmap n_data ch)); cbn [bind fst snd]; eauto.
  - exists (fun _ d => r <- up_leaf sv load tt d ;; Ok (snd r)). intros s n.
    destruct (up_leaf sv load tt (n_data n)); cbn [bind]; eauto.
  - exists (fun _ d ds => r <- upwards4to1 gesv hom d ds ;; Ok (fst r, snd r, true)). intros s n ch.
    destruct (upwards4to1 gesv hom (n_data n) (fmap n_data ch)); cbn [bind fst snd]; eauto.
  - exists (fun d => g <- rg d ;; Ok (set_g d g)). intros s d. destruct (rg d); cbn [bind]; eauto.
  - exists (fun _ d => leafSolve sv hom d). intros s n. destruct (leafSolve sv hom (n_data n)); cbn [bind]; eauto.
  - exists (fun _ d ds => r <- split1to4 hom d ds ;; Ok (fst r, snd r, true)). intros s n ch.
    destruct (split1to4 hom (n_data n) (fmap n_data ch)); cbn [bind fst snd]; eauto.
Qed.

Lemma fv_factory_data : factory_data fv_factory.
Proof. intros par par' i a b a' b' _ H. cbn. unfold createChildNode. cbn. rewrite H. reflexivity. Qed.

(** [C59] Construction of the quadtree followed by build, upwards and solve stage
    (without cache-operators): when the serial run succeeds, the parallel run ends
    in every order of collectives, with the serial data on every rank with leaves. *)
Lemma parallel_solver_equals_serial_pf : forall sv gesv hom load rg dflt rd F m0 c0 c0' m0',
  contiguous F -> gapless F -> depth F <= qmaxlevel ->
  construct fv_factory 0 rd (serial F) = Ok m0 ->
  run_stages 0 dflt (serial F) (hps_stages sv gesv hom load rg) (c0, m0) finish = Fin (Ok (c0', m0')) ->
  exists fin,
    always_ends (fun r => cseq (construct_prog fv_factory r rd (search_all r F root_quadrant) mempty)
                  (fun m => run_stages r dflt F (hps_stages sv gesv hom load rg) (c0, m) finish)) fin /\
    forall r, In r (owners F) -> exists c m, fin r = Ok (c, m) /\ node_map r F m /\ same_data F m m0'.
Proof.
  intros sv gesv hom load rg dflt rd F m0 c0 c0' m0' C G HL E0 E1.
  destruct (construction_completes_pf fv_factory rd F fv_factory_ok C HL) as (mid & A & X).
  destruct (construct_node_map fv_factory 0 rd (serial F) fv_factory_ok (serial_contiguous F) (serial_level F HL)) as (m & Em & NM0).
  rewrite E0 in Em. injection Em as <-.
  destruct (parallel_equals_serial_partial_pf F dflt (hps_stages sv gesv hom load rg) (fun r => (c0, mid r)) (c0, m0) (c0', m0')
    C G HL (hps_independent sv gesv hom load rg)) as (fin & A2 & _ & IN & _); auto.
  { intros r. apply X. }
  { intros r. apply (constructed_same fv_factory rd F r _ _ fv_factory_ok fv_factory_data C HL (proj1 (X r)) E0). }
  exists fin. split.
  - apply (ends_seq _ (fun r m => run_stages r dflt F (hps_stages sv gesv hom load rg) (c0, m) finish) mid fin A A2).
  - intros r Hr. destruct (IN r Hr) as ([c m] & Ef & H). exists c, m. split; [exact Ef|exact H].
Qed.

(** Three ranks, a tree of depth two: after construction, merge and split the
    parallel run ends in every order, with the serial data. *)
Definition halve_fam : unit -> qnode nat -> four (qnode nat) -> res (unit * nat * four nat * bool) :=
  fun s n ch => Ok (s, n_data n, Four (n_data n) (S (n_data n)) (n_data n + 2) (n_data n + 3), true).
Definition keep_leaf : unit -> qnode nat -> res (unit * nat * bool) := fun s n => Ok (s, n_data n * 2, true).
Definition ex_stages : list (stage nat unit) := [Merge size_leaf size_fam; AtRoot (fun s d => Ok (s, d + 100)); Split keep_leaf halve_fam].
Lemma ex_gapless : gapless ex_forest.
Proof.
  intros o1 o2 r H1 H2 H. assert (B : forall o, In o (owners ex_forest) -> o <= 2) by (cbn; intros o Ho; lia).
  specialize (B o2 H2). cbn. lia.
Qed.
Lemma ex_independent : Forall rank_independent ex_stages.
Proof.
  repeat apply Forall_cons; [| | |apply Forall_nil]; cbn [rank_independent]; try split.
  - exists (fun _ _ => Ok 1). intros s n. eexists _, _. reflexivity.
  - exists (fun _ _ ds => Ok (1 + fa ds + fb ds + fc ds + fd ds, Four (fa ds) (fb ds) (fc ds) (10 * fd ds), true)).
    intros s n ch. eexists. reflexivity.
  - exists (fun d => Ok (d + 100)). intros s d. eexists. reflexivity.
  - exists (fun _ d => Ok (d * 2)). intros s n. eexists _, _. reflexivity.
  - exists (fun _ d _ => Ok (d, Four d (S d) (d + 2) (d + 3), true)). intros s n ch. eexists. reflexivity.
Qed.
Lemma parallel_equals_serial_example_expf :
  contiguous ex_forest /\ gapless ex_forest /\ depth ex_forest <= qmaxlevel /\ Forall rank_independent ex_stages /\
  match construct nat_factory 0 0 (serial ex_forest) with
  | Ok m => match run_stages 0 0 (serial ex_forest) ex_stages (tt, m) finish with
            | Fin (Ok (_, m')) =>
                map (fun p => match m' p with Some n => n_data n | None => 99 end) [[0]; [0;0]; [0;1]; [0;1;0]; [0;1;3]; [0;3]]
                = [109; 218; 110; 220; 226; 224]
            | _ => False
            end
  | _ => False
  end.
Proof.
  split; [exact ex_contiguous|]. split; [exact ex_gapless|]. split; [exact ex_depth|]. split; [exact ex_independent|].
  vm_compute. reflexivity.
Qed.

(** ** Where it fails *)
Lemma gap_stuck {D A} (s : @config D A) c v k : s (c_lo c) = Allreduce c v k ->
  (exists r x, member (c_lo c) (c_hi c) r /\ s r = Fin x) ->
  (forall r, s r = Fin (match s r with Fin x => x | _ => UB end) \/ exists v k, s r = Allreduce c v k) -> deadlock s.
Proof.
  intros H (r & x & Hr & Ex) HS. split; [exists (c_lo c); rewrite H; discriminate|].
  intros s' [c' v' k' P1 P2 _ _|c' root x' k' P1 P2 _ _|lo hi k' P1 P2 _ _].
  - assert (M : member (c_lo c') (c_hi c') (c_lo c')) by (split; lia).
    pose proof (P2 _ M) as E. destruct (HS (c_lo c')) as [E'|(v2 & k2 & E')]; rewrite E in E'; [discriminate|].
    injection E' as <- _ _. rewrite (P2 r Hr) in Ex. discriminate.
  - assert (M : member (c_lo c') (c_hi c') (c_lo c')) by (split; lia).
    pose proof (P2 _ M) as E. destruct (HS (c_lo c')) as [E'|(v2 & k2 & E')]; rewrite E in E'; discriminate.
  - assert (M : member lo hi lo) by (split; lia).
    pose proof (P2 _ M) as E. destruct (HS lo) as [E'|(v2 & k2 & E')]; rewrite E in E'; discriminate.
Qed.

(** [C37] A rank without leaves between ranks with leaves is a member of the
    communicators of the quadrants around it but does not take part in their
    collectives: merge hangs.  p4est_partition
    leaves such ranks when there are more ranks than leaves: 4 leaves on 7 ranks, as
    below, start at leaf floor(4p/7) on rank p, so ranks 0, 2 and 4 are empty. *)
Lemma parallel_merge_completes_refuted_pf :
  exists F (m : nat -> nmap nat), contiguous F /\ depth F <= qmaxlevel /\
    (forall r, construct nat_factory r 0 F = Ok (m r)) /\
    deadlock (fun r => merge r BROADCAST 0 size_leaf size_fam F (tt, m r) finish : cmd nat (unit * nmap nat)) /\
    is_ok (construct nat_factory 0 0 (serial F)) /\
    (forall m0, construct nat_factory 0 0 (serial F) = Ok m0 ->
       exists st, merge 0 BROADCAST 0 size_leaf size_fam (serial F) (tt, m0) finish = Fin (Ok st : res (unit * nmap nat))).
Proof.
  set (F := FNode (FLeaf 1) (FLeaf 3) (FLeaf 5) (FLeaf 6)).
  assert (C : contiguous F) by (repeat constructor).
  assert (HL : depth F <= qmaxlevel) by (vm_compute; repeat constructor).
  exists F, (fun r => match construct nat_factory r 0 F with Ok m => m | _ => mempty end).
  split; [exact C|]. split; [exact HL|].
  assert (FO : factory_ok nat_factory) by (split; cbn; intros; repeat split; lia).
  split; [|split; [|split]].
  - intros r. destruct (construct_node_map nat_factory r 0 F FO C HL) as (m & E & _). rewrite E. reflexivity.
  - apply (gap_stuck _ (Comm [0] 1 6) 0 _ eq_refl).
    + exists 2. eexists. split; [split; cbn; lia|]. unfold merge. rewrite skip; [reflexivity|]. cbn. intuition discriminate.
    + intros r. destruct (in_dec Nat.eq_dec r (owners F)) as [Hr|Hr].
      * right. cbn in Hr. destruct Hr as [<-|[<-|[<-|[<-|[]]]]]; vm_compute; eauto.
      * left. unfold merge. rewrite skip by exact Hr. reflexivity.
  - destruct (construct_node_map nat_factory 0 0 (serial F) FO (serial_contiguous F) (serial_level F HL)) as (m & E & _). eexists. exact E.
  - intros m0 E.
    assert (X : match construct nat_factory 0 0 (serial F) with
                | Ok m0 => match merge 0 BROADCAST 0 size_leaf size_fam (serial F) (tt, m0) finish : cmd nat (unit * nmap nat) with
                           | Fin (Ok _) => True | _ => False end
                | _ => False end) by (vm_compute; exact I).
    rewrite E in X. destruct (merge 0 BROADCAST 0 size_leaf size_fam (serial F) (tt, m0) finish) as [[st|x|]| | |]; try contradiction. eauto.
Qed.

(** [C37] Every rank looks at the root before the solve stage; on a rank without
    leaves outside the root's range there is none. *)
Lemma solve_on_leafless_rank_refuted_pf :
  exists F (m : nat -> nmap nat), contiguous F /\ gapless F /\
    (forall r, construct nat_factory r 0 F = Ok (m r)) /\
    run_stages 1 0 F [AtRoot (fun s d => Ok (s, d))] (tt, m 1) finish = Fin (UB : res (unit * nmap nat)) /\
    forall m0, construct nat_factory 0 0 (serial F) = Ok m0 ->
      exists st, run_stages 0 0 (serial F) [AtRoot (fun s d => Ok (s, d))] (tt, m0) finish = Fin (Ok st : res (unit * nmap nat)).
Proof.
  set (F := FLeaf 0). assert (C : contiguous F) by (repeat constructor).
  assert (HL : depth F <= qmaxlevel) by (vm_compute; repeat constructor).
  assert (FO : factory_ok nat_factory) by (split; cbn; intros; repeat split; lia).
  exists F, (fun r => match construct nat_factory r 0 F with Ok m => m | _ => mempty end).
  split; [exact C|]. split; [intros o1 o2 r [<-|[]] [<-|[]] H; left; lia|]. split; [|split].
  - intros r. destruct (construct_node_map nat_factory r 0 F FO C HL) as (m & E & _). rewrite E. reflexivity.
  - vm_compute. reflexivity.
  - intros m0 E.
    assert (X : match construct nat_factory 0 0 (serial F) with
                | Ok m0 => match run_stages 0 0 (serial F) [AtRoot (fun s d => Ok (s, d))] (tt, m0) finish : cmd nat (unit * nmap nat) with
                           | Fin (Ok _) => True | _ => False end
                | _ => False end) by (vm_compute; exact I).
    rewrite E in X. destruct (run_stages 0 0 (serial F) [AtRoot (fun s d => Ok (s, d))] (tt, m0) finish) as [[st|x|]| | |]; try contradiction. eauto.
Qed.

(** Two ranks run in lockstep. *)
Fixpoint exec2 {D A} (fuel : nat) (a b : cmd D A) : option (nat * res A * res A) :=
  match fuel with
  | 0 => None
  | S f =>
      match a, b with
      | Fin x, Fin y => Some (0, x, y)
      | Allreduce (Comm p 0 1) v k, Allreduce (Comm p' 0 1) v' k' =>
          if path_eqb p p' then
            match exec2 f (k (Nat.max v v')) (k' (Nat.max v v')) with Some (n, x, y) => Some (S n, x, y) | None => None end
          else None
      | Bcast (Comm p 0 1) root x k, Bcast (Comm p' 0 1) root' x' k' =>
          if path_eqb p p' && Nat.eqb root root' && (root <=? 1) then
            let z := if Nat.eqb root 0 then x else x' in
            match exec2 f (k z) (k' z) with Some (n, x, y) => Some (S n, x, y) | None => None end
          else None
      | _, _ => None
      end
  end.
Definition two {D A} (a b : cmd D A) (o : nat -> res A) : @config D A :=
  fun r => match r with 0 => a | 1 => b | S (S _) => Fin (o r) end.
Lemma path_eqb_true p q : path_eqb p q = true -> p = q.
Proof. intros H. destruct (path_eq_dec p q) as [E|E]; [exact E|]. rewrite path_eqb_neq in H by exact E. discriminate. Qed.
Lemma exec2_runs {D A} fuel : forall (a b : cmd D A) o n x y, exec2 fuel a b = Some (n, x, y) ->
  runs n (two a b o) (two (Fin x) (Fin y) o).
Proof.
  induction fuel as [|f IH]; intros a b o n x y H; [discriminate|]. cbn [exec2] in H.
  destruct a as [xa|[p lo hi] v k|[p lo hi] root nd k|lo hi k], b as [xb|[p' lo' hi'] v' k'|[p' lo' hi'] root' nd' k'|lo' hi' k'];
    try discriminate; try (destruct lo as [|lo], hi as [|[|hi]]; discriminate).
  - injection H as <- <- <-. constructor. reflexivity.
  - destruct lo as [|lo], hi as [|[|hi]], lo' as [|lo'], hi' as [|[|hi']]; try discriminate.
    destruct (path_eqb p p') eqn:Ep; [|discriminate]. apply path_eqb_true in Ep as <-.
    destruct (exec2 f (k (Nat.max v v')) (k' (Nat.max v v'))) as [[[n1 x1] y1]|] eqn:E; [|discriminate]. injection H as <- <- <-.
    apply (runs_S n1 _ (two (k (Nat.max v v')) (k' (Nat.max v v')) o)); [|apply IH; exact E].
    apply (step_allreduce _ _ (Comm p 0 1) (fun r => match r with 0 => v | _ => v' end)
      (fun r => match r with 0 => k | _ => k' end)); cbn [c_lo c_hi].
    + lia.
    + intros r [_ Hr]. destruct r as [|[|r]]; [reflexivity ..|lia].
    + intros r [_ Hr]. destruct r as [|[|r]]; [| |lia]; cbn; rewrite ?Nat.max_0_r; reflexivity.
    + intros r Hr. destruct r as [|[|r]]; [exfalso; apply Hr; split; lia ..|reflexivity].
  - destruct lo as [|lo], hi as [|[|hi]], lo' as [|lo'], hi' as [|[|hi']]; try discriminate.
    destruct (path_eqb p p') eqn:Ep; [|discriminate]. apply path_eqb_true in Ep as <-.
    destruct (Nat.eqb root root') eqn:Er; [|discriminate]. apply Nat.eqb_eq in Er as <-.
    destruct (root <=? 1) eqn:Eb; [|discriminate]. apply Nat.leb_le in Eb. cbn [andb] in H.
    set (z := if Nat.eqb root 0 then nd else nd') in *.
    destruct (exec2 f (k z) (k' z)) as [[[n1 x1] y1]|] eqn:E; [|discriminate]. injection H as <- <- <-.
    apply (runs_S n1 _ (two (k z) (k' z) o)); [|apply IH; exact E].
    apply (step_bcast _ _ (Comm p 0 1) root (fun r => match r with 0 => nd | _ => nd' end)
      (fun r => match r with 0 => k | _ => k' end)); cbn [c_lo c_hi].
    + lia.
    + intros r [_ Hr]. destruct r as [|[|r]]; [reflexivity ..|lia].
    + intros r [_ Hr]. unfold z. destruct root as [|[|root]]; [| |lia]; destruct r as [|[|r]]; try lia; reflexivity.
    + intros r Hr. destruct r as [|[|r]]; [exfalso; apply Hr; split; lia ..|reflexivity].
Qed.

(** A solver whose operator is the width of the patch, and the build stage with
    cache-operators and a merge that leaves everything as it is. *)
Definition width_solver : solver :=
  Solver (fun _ _ _ => Ok []) (fun _ _ _ => Ok []) (fun G => Ok (Mat 1 1 [(gxu G - gxl G)%Qc])) (fun _ _ => Ok []).
Definition cached_build : stage patch (option (matrix Qc)) :=
  Merge (fun s n => r <- build_leaf width_solver true s (n_data n) ;; Ok (fst r, snd r, true))
        (fun s n ch => Ok (s, n_data n, fmap n_data ch, true)).
Definition T_at (x : res (option (matrix Qc) * nmap patch)) (p : path) : list Q :=
  match x with Ok (_, m) => match m p with Some n => map this (dat (pT (n_data n))) | None => [] end | _ => [] end.

(** [C37] With cache-operators every rank keeps the operator of its own first leaf:
    a rank whose first leaf has another size than the first leaf of the tree stores
    another operator than the serial run. *)
Lemma parallel_cached_build_refuted_pf :
  exists F rd (m : nat -> nmap patch) m0 fin fin0,
    contiguous F /\ gapless F /\ depth F <= qmaxlevel /\
    (forall r, construct fv_factory r rd F = Ok (m r)) /\ construct fv_factory 0 rd (serial F) = Ok m0 /\
    always_ends (fun r => run_stages r rd F [cached_build] (None, m r) finish) fin /\
    run_stages 0 rd (serial F) [cached_build] (None, m0) finish = Fin fin0 /\
    T_at (fin 1) [0; 3] = [1 # 2]%Q /\ T_at fin0 [0; 3] = [1 # 4]%Q.
Proof.
  set (F := FNode (FNode (FLeaf 0) (FLeaf 0) (FLeaf 0) (FLeaf 0)) (FLeaf 1) (FLeaf 1) (FLeaf 1)).
  assert (C : contiguous F) by (repeat constructor).
  assert (HL : depth F <= qmaxlevel) by (vm_compute; repeat constructor).
  assert (G : gapless F) by (intros o1 o2 r H1 H2 H; cbn in *; lia).
  set (m := fun r => match construct fv_factory r ex_root F with Ok m => m | _ => mempty end).
  set (m0 := match construct fv_factory 0 ex_root (serial F) with Ok m => m | _ => mempty end).
  set (x0 := match run_stages 0 ex_root (serial F) [cached_build] (None, m0) finish with Fin x => x | _ => UB end).
  set (pr := fun r => run_stages r ex_root F [cached_build] (None, m r) finish).
  set (fin := fun r => match r with
     | 0 => match exec2 20 (pr 0) (pr 1) with Some (_, x, _) => x | None => UB end
     | 1 => match exec2 20 (pr 0) (pr 1) with Some (_, _, y) => y | None => UB end
     | _ => Ok (None, m r) end).
  exists F, ex_root, m, m0, fin, x0.
  split; [exact C|]. split; [exact G|]. split; [exact HL|].
  split; [|split; [|split; [|split; [|split]]]].
  - intros r. unfold m. destruct (construct_node_map fv_factory r ex_root F fv_factory_ok C HL) as (m' & E & _). rewrite E. reflexivity.
  - unfold m0. destruct (construct_node_map fv_factory 0 ex_root (serial F) fv_factory_ok (serial_contiguous F) (serial_level F HL)) as (m' & E & _). rewrite E. reflexivity.
  - assert (E : exists n, exec2 20 (pr 0) (pr 1) = Some (n, fin 0, fin 1)).
    { assert (X : match exec2 20 (pr 0) (pr 1) with Some _ => True | None => False end) by (vm_compute; exact I).
      unfold fin. destruct (exec2 20 (pr 0) (pr 1)) as [[[n x] y]|]; [eauto|contradiction]. }
    destruct E as (n & E). pose proof (exec2_runs 20 _ _ (fun r => Ok (None, m r)) _ _ _ E) as RUN.
    apply (ends pr fin n (two (Fin (fin 0)) (Fin (fin 1)) (fun r => Ok (None, m r)))).
    + destruct n as [|n].
      * inversion RUN as [a b Heq|]; subst. constructor. intros r. rewrite Heq. destruct r as [|[|r]]; reflexivity.
      * assert (EQ : forall r, two (pr 0) (pr 1) (fun r => Ok (None, m r)) r = pr r).
        { intros r. destruct r as [|[|r]]; reflexivity. }
        inversion RUN as [|n' a b c P R']; subst. apply (runs_S n _ b _); [|exact R'].
        destruct P as [c v k P1 P2 P3 P4|c root x k P1 P2 P3 P4|lo hi k P1 P2 P3 P4].
        -- apply (step_allreduce _ _ c v k); auto; intros r Hr; rewrite <- EQ; auto.
        -- apply (step_bcast _ _ c root x k); auto; intros r Hr; rewrite <- EQ; auto.
        -- apply (step_group _ _ lo hi k); auto; intros r Hr; rewrite <- EQ; auto.
    + intros r. destruct r as [|[|r]]; reflexivity.
  - unfold x0. destruct (run_stages 0 ex_root (serial F) [cached_build] (None, m0) finish) eqn:E; [reflexivity|exfalso ..];
      revert E; vm_compute; discriminate.
  - vm_compute. reflexivity.
  - vm_compute. reflexivity.
Qed.

(** [C38] A family of a contiguous distribution (gaps allowed), any child: all ranks of
    the family call the same reduction; with its result they all call a broadcast
    with the same root, a member of the family that holds the child and sends it. *)
Lemma broadcast_root_agreed_pf : forall {D R} F ds f i g (dflt : D) (m : nat -> nmap D) (node : nat -> qnode D)
  (k : nat -> nmap D * qnode D -> cmd D R),
  contiguous F -> sub F ds = Some f -> fchild f i = Some g ->
  (forall r, member (pfirst f) (plast f) r -> node_map r F (m r) /\ m r (0 :: ds) = Some (node r)) ->
  exists c v next, c_lo c = pfirst f /\ c_hi c = plast f /\
    (forall r, member (pfirst f) (plast f) r -> gather_child r dflt (node r) i (m r) (k r) = Allreduce c (v r) (next r)) /\
    let root := max_over (c_lo c) (c_hi c) v in
    member (pfirst f) (plast f) (c_lo c + root) /\
    (exists child, m (c_lo c + root) (0 :: ds ++ [i]) = Some child) /\
    forall r, member (pfirst f) (plast f) r -> exists mine k',
      next r root = Bcast c root mine k' /\ (r = c_lo c + root -> m r (0 :: ds ++ [i]) = Some mine).
Proof.
  intros D R F ds f i g dflt m node k C Es Eg H. set (lo := pfirst f) in *. set (hi := plast f) in *.
  assert (Cf : contiguous f) by (apply (contiguous_sub F ds); auto).
  assert (Es' : sub F (ds ++ [i]) = Some g) by (apply (sub_child F ds f); auto).
  assert (C' : contiguous g) by (apply (contiguous_sub F (ds ++ [i])); auto).
  assert (RA : lo <= pfirst g /\ pfirst g <= plast g /\ plast g <= hi).
  { pose proof (range_child f i g (pfirst g) Cf Eg (first_in_range g C')) as X1.
    pose proof (range_child f i g (plast g) Cf Eg (last_in_range g C')) as X2.
    pose proof (first_in_range g C') as X3.
    apply in_range_iff in X1, X2, X3. unfold lo, hi. lia. }
  set (key := 0 :: ds ++ [i]).
  assert (CH : forall r, member lo hi r ->
    if in_range r (pfirst g) (plast g) then exists c, m r key = Some c else m r key = None).
  { intros r Hr. destruct (H r Hr) as (NM & _). specialize (NM _ _ Es').
    destruct (in_range r (pfirst g) (plast g)); [destruct NM as (c & Hc & _); eauto|exact NM]. }
  assert (Ef : in_range lo (pfirst f) (plast f) = true) by (apply first_in_range; exact Cf).
  set (x := fun r => match m r key with Some c => c | None => QNode dflt [] 0 0 0 false end).
  set (c := Comm (0 :: ds) lo hi).
  set (v := fun r => if in_range r (pfirst g) (plast g) then r - lo else 0).
  exists c, v, (fun r pnode => Bcast c pnode (x r) (fun ch => k r (match m r key with Some _ => mset (m r) key (Some ch) | None => m r end, ch))).
  split; [reflexivity|]. split; [reflexivity|]. split.
  { intros r Hr. destruct (H r Hr) as (NM & En). pose proof (NM ds f Es) as X.
    rewrite (proj2 (in_range_iff r (pfirst f) (plast f)) Hr) in X. destruct X as (n & En' & P1 & _ & P3 & P4 & _).
    rewrite En in En'. injection En' as <-. unfold gather_child, mget. rewrite P1, P3, P4. fold lo hi.
    change ((0 :: ds) ++ [i]) with key. fold c. specialize (CH r Hr). unfold v, x.
    destruct (in_range r (pfirst g) (plast g)); [destruct CH as (ch & ->); reflexivity|rewrite CH; reflexivity]. }
  cbn zeta. cbn [c c_lo c_hi]. unfold v. rewrite max_holder by lia. replace (lo + (plast g - lo)) with (plast g) by lia.
  assert (ML : member lo hi (plast g)) by (unfold member; lia).
  split; [exact ML|]. pose proof (CH _ ML) as Hc. rewrite (last_in_range g C') in Hc. split; [exact Hc|].
  intros r Hr. eexists _, _. split; [reflexivity|]. intros ->. destruct Hc as (ch & Hc). unfold x. rewrite Hc. reflexivity.
Qed.
Lemma broadcast_root_agreed_example_expf :
  let F := FNode (FLeaf 1) (FNode (FLeaf 1) (FLeaf 2) (FLeaf 4) (FLeaf 4)) (FLeaf 4) (FLeaf 6) in
  contiguous F /\ sub F [] = Some F /\ fchild F 1 = Some (FNode (FLeaf 1) (FLeaf 2) (FLeaf 4) (FLeaf 4)) /\
  max_over 1 6 (fun r => match construct nat_factory r 0 F with
                         | Ok m => match m [0; 1] with Some _ => r - 1 | None => 0 end | _ => 0 end) = 3.
Proof. split; [repeat constructor|]. split; [reflexivity|]. split; [reflexivity|]. vm_compute. reflexivity. Qed.

(** ** Order of visits on every rank *)
Lemma logged_leaf {D S} (fn : S -> qnode D -> res (S * D * bool)) g : leaf_fun fn g -> leaf_fun (logged fn) g.
Proof.
  intros H s n. specialize (H (fst s) n). unfold logged. destruct (g (n_path n) (n_data n)) as [d|x|].
  - destruct H as (s' & c & ->). eauto.
  - rewrite H. reflexivity.
  - rewrite H. reflexivity.
Qed.
Lemma logged_fam {D S} (fam : S -> qnode D -> four (qnode D) -> res (S * D * four D * bool)) g :
  family_fun fam g -> family_fun (logged_family fam) g.
Proof.
  intros H s n ch. specialize (H (fst s) n ch). unfold logged_family.
  destruct (g (n_path n) (n_data n) (fmap n_data ch)) as [d|x|].
  - destruct H as (s' & ->). eauto.
  - rewrite H. reflexivity.
  - rewrite H. reflexivity.
Qed.

Section order.
Context {D S : Type} (F : forest) (dflt : D).
Variable fn : S -> qnode D -> res (S * D * bool).
Variable fam : S -> qnode D -> four (qnode D) -> res (S * D * four D * bool).
Definition adds (s : S * log) (l : log) (s' : S * log) : Prop := snd s' = snd s ++ l.
Lemma adds_nil s : adds s [] s.
Proof. unfold adds. rewrite app_nil_r. reflexivity. Qed.
Lemma adds_app s1 l1 s2 l2 s3 : adds s1 l1 s2 -> adds s2 l2 s3 -> adds s1 (l1 ++ l2) s3.
Proof. unfold adds. intros -> ->. rewrite app_assoc. reflexivity. Qed.
Lemma adds_fn s n s' d c : logged fn s n = Ok (s', d, c) -> adds s [(n_path n, c)] s'.
Proof. unfold logged. destruct (fn (fst s) n) as [[[s1 d1] c1]|x|]; try discriminate. intros E. injection E as <- <- <-. reflexivity. Qed.
Lemma adds_fam s n ch s' d ds c : logged_family fam s n ch = Ok (s', d, ds, c) -> adds s [(n_path n, c)] s'.
Proof.
  unfold logged_family. destruct (fam (fst s) n ch) as [[[[s1 d1] ds1] c1]|x|]; try discriminate.
  intros E. injection E as <- <- <- <-. reflexivity.
Qed.
End order.

(** [C35] merge and split on all ranks: when the serial run succeeds, the record of
    every rank with leaves is post-order (merge) and pre-order (split). *)
Lemma parallel_merge_split_order_partial_pf : forall {D S} F (dflt : D) fn fam gl gf (s : nat -> S) m s0 m0,
  contiguous F -> gapless F -> depth F <= qmaxlevel -> leaf_fun fn gl -> family_fun fam gf ->
  (forall r, node_map r F (m r)) -> node_map 0 (serial F) m0 -> (forall r, same_data F (m r) m0) ->
  (is_ok (match merge 0 BROADCAST dflt fn fam (serial F) (s0, m0) finish with Fin x => x | _ => UB end) ->
   exists fin, always_ends (fun r => merge r BROADCAST dflt (logged fn) (logged_family fam) F ((s r, []), m r) finish) fin /\
     forall r, In r (owners F) -> exists s' L m', fin r = Ok ((s', L), m') /\ postorder_log r F L) /\
  (is_ok (match split 0 BROADCAST dflt fn fam (serial F) (s0, m0) finish with Fin x => x | _ => UB end) ->
   exists fin, always_ends (fun r => split r BROADCAST dflt (logged fn) (logged_family fam) F ((s r, []), m r) finish) fin /\
     forall r, In r (owners F) -> exists s' L m', fin r = Ok ((s', L), m') /\ preorder_log r F L).
Proof.
  intros D S F dflt fn fam gl gf s m s0 m0 C G HL Hl Hf NM NM0 SD.
  set (e := fun p => match m0 p with Some n => n_data n | None => dflt end).
  set (st := fun r => ((s r, []), m r) : (S * log) * nmap D).
  assert (CO : forall r, coh F r e (snd (st r))) by (intros r; exact (coh_of_same F dflt r _ _ (NM r) (SD r))).
  set (K := fun (_ : nat) => finish : (S * log) * nmap D -> cmd D ((S * log) * nmap D)).
  assert (FIN : forall s (vis : nat -> forest -> list (list nat * bool) -> Prop) (P : nat -> log -> Prop) e',
    (forall r l, vis r F l -> P r (shift [0] l)) ->
    (forall r, ~ In r (owners F) -> s r = K r (st r)) ->
    trav_goal F adds vis F [] st e' K s ->
    exists fin, always_ends s fin /\ forall r, In r (owners F) -> exists s' L m', fin r = Ok ((s', L), m') /\ P r L).
  { intros s1 vis P e' HP HO (n & s' & st' & RUN & _ & IN & OUT & TR & _).
    exists (fun r => Ok (st' r)). split.
    - apply (ends s1 (fun r => Ok (st' r)) n s' RUN). intros r.
      destruct (in_dec Nat.eq_dec r (owners F)) as [Hr|Hr]; [apply IN; exact Hr|].
      destruct (OUT r Hr) as [-> ->]. apply HO. exact Hr.
    - intros r Hr. destruct (TR r) as (l & Hv & HT). exists (fst (fst (st' r))), (snd (fst (st' r))), (snd (st' r)).
      split; [destruct (st' r) as [[? ?] ?]; reflexivity|]. unfold adds in HT. rewrite HT. cbn [st fst snd app]. apply HP. exact Hv. }
  split; intros HOK.
  - assert (Ee : exists e', env_merge gl gf F [0] e = Ok e').
    { pose proof (merge_fail (R := S * nmap D) (serial F) dflt 0 (serial_contiguous F) (serial_gapless F) fn fam gl gf Hl Hf
        (serial_first F) (serial_last F) (serial F) [] root_quadrant (s0, m0) e finish eq_refl root_valid eq_refl
        (serial_level F HL) (coh_serial F dflt m0 NM0)) as H. rewrite env_merge_serial in H.
      assert (HM : forall y, merge_prog dflt fn fam (serial F) root_quadrant 0 (s0, m0) finish = Fin y ->
        is_ok (y : res (S * nmap D))).
      { intros y Ey. change (merge 0 BROADCAST dflt fn fam (serial F) (s0, m0) finish = Fin y) in Ey. rewrite Ey in HOK. exact HOK. }
      destruct (env_merge gl gf F [0] e) as [e'|x|]; [eauto| |]; cbn [fails] in H;
        destruct (HM _ H) as (z & Hz); discriminate. }
    destruct Ee as (e' & Ee). apply (FIN _ post_rel (fun r => postorder_log r F) e').
    + intros r l Hv. exists l. split; [reflexivity|exact Hv].
    + intros r Hr. unfold merge. rewrite skip by exact Hr. reflexivity.
    + apply (merge_run F dflt C G (logged fn) (logged_family fam) gl gf (logged_leaf fn gl Hl) (logged_fam fam gf Hf)
        adds adds_nil adds_app (adds_fn fn) (adds_fam fam) F [] root_quadrant st e e' K); auto using root_valid.
  - assert (Ee : exists e', env_split gl gf F [0] e = Ok e').
    { pose proof (split_fail (R := S * nmap D) (serial F) dflt 0 (serial_contiguous F) (serial_gapless F) fn fam gl gf Hl Hf
        (serial_first F) (serial_last F) (serial F) [] root_quadrant (s0, m0) e finish eq_refl root_valid eq_refl
        (serial_level F HL) (coh_serial F dflt m0 NM0)) as H. rewrite env_split_serial in H.
      assert (HM : forall y, split_prog dflt fn fam (serial F) root_quadrant 0 (s0, m0) finish = Fin y ->
        is_ok (y : res (S * nmap D))).
      { intros y Ey. change (split 0 BROADCAST dflt fn fam (serial F) (s0, m0) finish = Fin y) in Ey. rewrite Ey in HOK. exact HOK. }
      destruct (env_split gl gf F [0] e) as [e'|x|]; [eauto| |]; cbn [fails] in H;
        destruct (HM _ H) as (z & Hz); discriminate. }
    destruct Ee as (e' & Ee). apply (FIN _ pre_rel (fun r => preorder_log r F) e').
    + intros r l Hv. exists l. split; [reflexivity|exact Hv].
    + intros r Hr. unfold split. rewrite skip by exact Hr. reflexivity.
    + apply (split_run F dflt C G (logged fn) (logged_family fam) gl gf (logged_leaf fn gl Hl) (logged_fam fam gf Hf)
        adds adds_nil adds_app (adds_fn fn) (adds_fam fam) F [] root_quadrant st e e' K); auto using root_valid.
Qed.

(** The hypotheses of the theorem on the solver hold: four leaves with one cell on two
    ranks, a toy patch solver, Gaussian elimination. *)
Lemma parallel_solver_equals_serial_example_expf :
  let F := FNode (FLeaf 0) (FLeaf 0) (FLeaf 1) (FLeaf 1) in
  let rd := new_patch (Grid 1 1 0%Qc 1%Qc 0%Qc 1%Qc) in
  contiguous F /\ gapless F /\ depth F <= qmaxlevel /\
  match construct fv_factory 0 rd (serial F) with
  | Ok m0 => match run_stages 0 rd (serial F) (hps_stages (toy 1) gauss_gesv false (ex_load 1) (fun _ => Ok (map Qc_of_nat (seq 1 8)))) (None, m0) finish with
             | Fin (Ok (_, m)) => match m [0; 2] with
                                  | Some n => map this (pg (n_data n)) = [2; 27 # 8; 21 # 8; 7]%Q /\ map this (pu (n_data n)) = [245 # 8]%Q
                                  | None => False end
             | _ => False
             end
  | _ => False
  end.
Proof.
  cbv zeta. split; [repeat constructor|]. split; [intros o1 o2 r H1 H2 H; cbn in *; lia|].
  split; [vm_compute; repeat constructor|]. vm_compute. split; reflexivity.
Qed.
