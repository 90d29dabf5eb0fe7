(** Proofs about the thermal program on several ranks. *)
From Verif Require Import Base VectorModel MatrixModel HPSModel FVModel ThermalModel TreeModel TreeSpec TreeProofs TreeCtor
  TreeOrder TreeMap TreeOrder2 TreeProps ParModel ParSpec ParProofs ParRun ParSearch ParCtor ParStages ParProps
  WorldModel WorldSpec WorldProofs WorldProofs2 WorldProofs3 WorldProps ThermParModel.

(** The state of the recursion is passed on. *)
Lemma tmerge_keep {St} (leaf : unit -> patch -> res (unit * patch)) fam : forall t (s : St),
  tmerge (fun s p => q <- (r <- leaf tt p ;; Ok (snd r)) ;; Ok (s, q)) fam s t
  = (r <- tmerge leaf fam tt t ;; Ok (s, snd r)).
Proof.
  induction t as [p|p a IHa b IHb c IHc d IHd]; intros s; cbn [tmerge].
  - destruct (leaf tt p) as [[[] q]|e|]; reflexivity.
  - rewrite IHa. destruct (tmerge leaf fam tt a) as [[[] ta]|e|]; cbn [bind fst snd]; try reflexivity.
    rewrite IHb. destruct (tmerge leaf fam tt b) as [[[] tb]|e|]; cbn [bind fst snd]; try reflexivity.
    rewrite IHc. destruct (tmerge leaf fam tt c) as [[[] tc]|e|]; cbn [bind fst snd]; try reflexivity.
    rewrite IHd. destruct (tmerge leaf fam tt d) as [[[] td]|e|]; cbn [bind fst snd]; try reflexivity.
    destruct (fam p _) as [[q qs]|e|]; reflexivity.
Qed.
Lemma rec_split_keep {St} (leaf : patch -> res patch) fam : forall (t : qtree (qnode patch)) (s : St) a,
  (r <- rec_split (on_node (leaf_cb (fun s p => q <- leaf p ;; Ok (s, q)))) (on_family (fam_cb fam)) s t a ;;
     Ok (fst r, patches (snd r)))
  = (u <- tsplit leaf fam (patches t) (n_data a) ;; Ok (s, u)).
Proof.
  induction t as [n|n t0 IH0 t1 IH1 t2 IH2 t3 IH3]; intros s a; cbn [rec_split tsplit patches].
  - unfold on_node, leaf_cb. destruct (leaf (n_data a)) as [p|e|]; reflexivity.
  - unfold on_family at 1. unfold fam_cb at 1. rewrite !patches_label. unfold fmap. cbn [fa fb fc fd].
    destruct (fam (n_data a) _) as [[p ps]|e|]; cbn [bind fst snd]; try reflexivity.
    cbn [fa fb fc fd].
    pose proof (IH0 s (set_ndata (label t0) (fa ps))) as I0. cbn [n_data set_ndata] in I0.
    destruct (rec_split _ _ s t0 _) as [[s0 u0]|e|], (tsplit leaf fam (patches t0) (fa ps)) as [v0|e0|];
      cbn [bind fst snd] in I0 |- *; try discriminate I0; try (injection I0 as <-; reflexivity); try reflexivity. injection I0 as -> <-.
    pose proof (IH1 s (set_ndata (label t1) (fb ps))) as I1. cbn [n_data set_ndata] in I1.
    destruct (rec_split _ _ s t1 _) as [[s1 u1]|e|], (tsplit leaf fam (patches t1) (fb ps)) as [v1|e0|];
      cbn [bind fst snd] in I1 |- *; try discriminate I1; try (injection I1 as <-; reflexivity); try reflexivity. injection I1 as -> <-.
    pose proof (IH2 s (set_ndata (label t2) (fc ps))) as I2. cbn [n_data set_ndata] in I2.
    destruct (rec_split _ _ s t2 _) as [[s2 u2]|e|], (tsplit leaf fam (patches t2) (fc ps)) as [v2|e0|];
      cbn [bind fst snd] in I2 |- *; try discriminate I2; try (injection I2 as <-; reflexivity); try reflexivity. injection I2 as -> <-.
    pose proof (IH3 s (set_ndata (label t3) (fd ps))) as I3. cbn [n_data set_ndata] in I3.
    destruct (rec_split _ _ s t3 _) as [[s3 u3]|e|], (tsplit leaf fam (patches t3) (fd ps)) as [v3|e0|];
      cbn [bind fst snd] in I3 |- *; try discriminate I3; try (injection I3 as <-; reflexivity); try reflexivity. injection I3 as -> <-.
    reflexivity.
Qed.

Section OneRank.
Context (F : forest) (C : contiguous F) (HL : depth F <= qmaxlevel) (P1 : pfirst F = 0) (P2 : plast F = 0).
Context (lu : lu_t) (gesv : gesv_t) (P : thermal) (dflt : patch).
Let St := option (matrix Qc).

(** The map holds the tree. *)
Definition holds (m : nmap patch) (t : qtree (qnode patch)) : Prop :=
  tree_in m [0] t /\ located 0 [0] t /\ same_shape F t.

Lemma merge_holds {R} (leaf : St -> patch -> res (St * patch)) fam s m t s' T : holds m t ->
  tmerge leaf fam s (patches t) = Ok (s', T) ->
  exists m' t', (forall k : St * nmap patch -> cmd patch R,
    merge 0 BROADCAST dflt (leaf_cb leaf) (fam_cb fam) F (s, m) k = k (s', m')) /\ holds m' t' /\ patches t' = T.
Proof using C HL P1 P2.
  intros (Ti & Lo & Sh) E. rewrite <- rec_merge_patches in E. apply bind_inv in E as ([s1 t1] & E & E').
  apply Ok_inj in E'. cbn [fst snd] in E'. injection E' as <- <-.
  pose proof (merge_single (R := R) 0 BROADCAST dflt (leaf_cb leaf) (fam_cb fam) F root_quadrant [0] s m t
    C P1 P2 root_valid eq_refl HL Sh Lo Ti) as A.
  destruct (agrees_ok _ _ _ _ _ _ _ _ A E) as (m' & K & Ti' & Lo' & Sh' & _).
  exists m', t1. split; [exact K|]. split; [repeat split; assumption|reflexivity].
Qed.
Lemma split_holds {R} (leaf : patch -> res patch) fam (s : St) m t T : holds m t ->
  tsplit leaf fam (patches t) (n_data (label t)) = Ok T ->
  exists m' t', (forall k : St * nmap patch -> cmd patch R,
    split 0 BROADCAST dflt (leaf_cb (fun s p => q <- leaf p ;; Ok (s, q))) (fam_cb fam) F (s, m) k = k (s, m')) /\ holds m' t' /\ patches t' = T.
Proof using C HL P1 P2.
  intros (Ti & Lo & Sh) E. pose proof (rec_split_keep leaf fam t s (label t)) as E2. rewrite E in E2. cbn [bind] in E2.
  apply bind_inv in E2 as ([s1 t1] & E2 & E').
  apply Ok_inj in E'. cbn [fst snd] in E'. injection E' as -> <-.
  pose proof (split_single (R := R) 0 BROADCAST dflt (leaf_cb (fun s p => q <- leaf p ;; Ok (s, q))) (fam_cb fam) F root_quadrant [0] s m t
    C P1 P2 root_valid eq_refl HL Sh Lo Ti) as A.
  destruct (agrees_ok _ _ _ _ _ _ _ _ A E2) as (m' & K & Ti' & Lo' & Sh' & _).
  exists m', t1. split; [exact K|]. split; [repeat split; assumption|reflexivity].
Qed.
Lemma root_holds m t p : holds m t ->
  m [0] = Some (label t) /\
  let t' := relabel t (set_ndata (label t) p) in
  holds (mset m [0] (Some (set_ndata (label t) p))) t' /\ patches t' = set_data (patches t) p /\ n_data (label t') = p.
Proof.
  intros (Ti & Lo & Sh). assert (T0 : m [0] = Some (label t)) by (destruct t; [exact Ti|exact (proj1 Ti)]).
  split; [exact T0|]. cbv zeta. split; [|split; [apply patches_relabel|rewrite label_relabel; reflexivity]].
  split; [|split].
  - apply (tree_in_relabel m); [exact Ti|apply mset_eq|]. intros i ds. apply mset_neq. discriminate.
  - apply located_relabel; [exact Lo|]. destruct (located_label _ _ _ Lo) as (G1 & G2 & G3). repeat split; assumption.
  - apply shape_rm. exact Sh.
Qed.
Lemma tsplit_set_data leaf fam t d p : tsplit leaf fam (set_data t d) p = tsplit leaf fam t p.
Proof. destruct t; reflexivity. Qed.

(** One iteration. *)
Lemma iteration_holds {R} n (s : St) m t T : holds m t -> thermal_step lu gesv P (patches t) n = Ok T ->
  exists m' t', (forall l (k : St * nmap patch -> cmd patch R),
    run_stages 0 dflt F (map snd (thermal_iteration lu gesv P n) ++ l) (s, m) k = run_stages 0 dflt F l (s, m') k) /\
    holds m' t' /\ patches t' = T.
Proof using C HL P1 P2.
  intros H E. unfold thermal_step in E. cbv zeta in E. apply bind_inv in E as (T1 & E1 & E2).
  unfold upwardsStage_cb in E1.
  pose proof (tmerge_keep (up_leaf_cb (fv_solver lu (th_coefs P)) (thermal_load P n)) (upwards4to1 gesv false) (patches t) s) as K1.
  apply bind_inv in E1 as ([[] T1'] & E1 & E1'). apply Ok_inj in E1'. cbn [snd] in E1'. subst T1'. rewrite E1 in K1. cbn [bind snd] in K1.
  destruct (merge_holds (R := R) _ _ s m t s T1 H K1) as (m1 & t1 & M1 & H1 & <-).
  unfold solveStage_fn in E2. apply bind_inv in E2 as (g & Eg & E2).
  destruct (root_holds m1 t1 (set_g (data (patches t1)) g) H1) as (L1 & H2 & Ep & Ed).
  rewrite <- (tsplit_set_data _ _ (patches t1) (set_g (data (patches t1)) g)), <- Ep in E2.
  assert (E2' := E2). rewrite <- Ed in E2' at 2.
  destruct (split_holds (R := R) _ _ s _ _ T H2 E2') as (m3 & t3 & M3 & H3 & E3).
  exists m3, t3. split; [|split; [exact H3|exact E3]]. intros l k.
  cbn [thermal_iteration map snd app run_stages run_stage]. etransitivity; [apply M1|]. cbn [snd fst]. unfold mget.
  rewrite L1. rewrite <- patches_label, Eg. cbn [bind lift fst snd]. rewrite patches_label in *. apply M3.
Qed.

Lemma iterations_hold {R} : forall ns (s : St) m t T, holds m t -> foldM (thermal_step lu gesv P) ns (patches t) = Ok T ->
  exists m' t', (forall l (k : St * nmap patch -> cmd patch R),
    run_stages 0 dflt F (map snd (flat_map (thermal_iteration lu gesv P) ns) ++ l) (s, m) k = run_stages 0 dflt F l (s, m') k) /\
    holds m' t' /\ patches t' = T.
Proof using C HL P1 P2.
  induction ns as [|n ns IH]; intros s m t T H E; cbn [foldM] in E.
  - apply Ok_inj in E. exists m, t. split; [reflexivity|]. auto.
  - apply bind_inv in E as (T1 & E1 & E).
    destruct (iteration_holds (R := R) n s m t T1 H E1) as (m1 & t1 & M1 & H1 & <-).
    destruct (IH s m1 t1 T H1 E) as (m2 & t2 & M2 & H2 & E2).
    exists m2, t2. split; [|auto]. intros l k. cbn [flat_map]. rewrite map_app, <- app_assoc, M1. apply M2.
Qed.

(** The whole program on one rank. *)
Lemma program_holds {R} nside (s : St) m t k T : holds m t -> thermal_run lu gesv P s (patches t) k = Ok T ->
  exists s' m' t', (forall K : St * nmap patch -> cmd patch R,
    run_stages 0 dflt F (map snd (thermal_stages nside lu gesv P k)) (s, m) K = K (s', m')) /\
    holds m' t' /\ patches t' = T.
Proof using C HL P1 P2.
  intros H E. unfold thermal_run in E. apply bind_inv in E as ([s1 T1] & E1 & E). cbn [snd] in E. unfold buildStage in E1.
  destruct (merge_holds (R := R) _ _ s m t s1 T1 H E1) as (m1 & t1 & M1 & H1 & <-).
  destruct (iterations_hold (R := R) _ s1 m1 t1 T H1 E) as (m2 & t2 & M2 & H2 & E2).
  exists s1, m2, t2. split; [|auto]. intros K. cbn [thermal_stages map snd run_stages run_stage]. etransitivity; [apply M1|].
  specialize (M2 [] K). rewrite app_nil_r in M2. exact M2.
Qed.
End OneRank.

Lemma thermal_independent nside lu gesv P k : Forall rank_independent (map snd (thermal_stages nside lu gesv P k)).
Proof.
  apply Forall_forall. intros g H. apply in_map_iff in H as (x & <- & H). cbn [thermal_stages] in H. destruct H as [<-|H].
  - cbn [snd rank_independent]. split.
    + exists (fun _ d => r <- build_leaf (fv_solver lu (th_coefs P)) false None d ;; Ok (snd r)). intros s n. unfold build_leaf.
      destruct (sv_build _ (pgrid (n_data n))); cbn; eauto.
    + exists (fun _ d ds => r <- merge4to1 gesv d ds ;; Ok (fst r, snd r, true)). intros s n ch. unfold patch_family.
      destruct (merge4to1 gesv (n_data n) (fmap n_data ch)); cbn [bind fst snd]; eauto.
  - apply in_flat_map in H as (n & _ & H). cbn [thermal_iteration In] in H. destruct H as [<-|[<-|[<-|[]]]]; cbn [snd rank_independent].
    + split.
      * exists (fun _ d => r <- up_leaf_cb (fv_solver lu (th_coefs P)) (thermal_load P n) tt d ;; Ok (snd r)). intros s x. unfold patch_leaf.
        destruct (up_leaf_cb _ _ tt (n_data x)); cbn [bind]; eauto.
      * exists (fun _ d ds => r <- upwards4to1 gesv false d ds ;; Ok (fst r, snd r, true)). intros s x ch. unfold patch_family.
        destruct (upwards4to1 gesv false (n_data x) (fmap n_data ch)); cbn [bind fst snd]; eauto.
    + exists (fun d => g <- root_data gesv thermal_a thermal_b (thermal_r P (th_time P n)) d ;; Ok (set_g d g)). intros s d.
      destruct (root_data _ _ _ _ d); cbn [bind]; eauto.
    + split.
      * exists (fun _ d => leafSolve (fv_solver lu (th_coefs P)) false d). intros s x. unfold patch_leaf.
        destruct (leafSolve _ false (n_data x)); cbn [bind fst snd]; eauto.
      * exists (fun _ d ds => r <- split1to4 false d ds ;; Ok (fst r, snd r, true)). intros s x ch. unfold patch_family.
        destruct (split1to4 false (n_data x) (fmap n_data ch)); cbn [bind fst snd]; eauto.
Qed.
Lemma thermal_descends nside lu gesv P k : Forall descends (map snd (thermal_stages nside lu gesv P k)).
Proof.
  apply Forall_forall. intros g H. apply in_map_iff in H as (x & <- & H). cbn [thermal_stages] in H. destruct H as [<-|H]; [exact I|].
  apply in_flat_map in H as (n & _ & H). cbn [thermal_iteration In] in H. destruct H as [<-|[<-|[<-|[]]]]; cbn [snd descends]; try exact I.
  intros s x ch s' d ds b E. unfold patch_family in E. apply bind_inv in E as (y & _ & E). injection E as _ _ _ <-. reflexivity.
Qed.
