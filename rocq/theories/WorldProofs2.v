(** Collective calls inside leaf solves: runs that complete. *)
From Verif Require Import Base VectorModel MatrixModel HPSModel TreeModel TreeSpec TreeProofs TreeCtor
  TreeOrder TreeMap TreeOrder2 ParModel ParSpec ParProofs ParRun ParSearch ParStages WorldModel WorldSpec WorldProofs.

Lemma worlds_app {D A} size a b (k : cmd D A) : worlds size a (worlds size b k) = worlds size (a + b) k.
Proof. induction a as [|a IH]; [reflexivity|]. cbn [worlds plus]. rewrite IH. reflexivity. Qed.

Lemma leaves_in r f : In r (owners f) -> 0 < leaves_of r f.
Proof.
  unfold leaves_of. induction (owners f) as [|o l IH]; intros H; [contradiction|]. cbn [filter].
  destruct (Nat.eqb r o) eqn:E; [cbn; lia|]. destruct H as [->|H]; [rewrite Nat.eqb_refl in E; discriminate|auto].
Qed.

(** ** Programs equal up to extensionality of continuations *)
Inductive ceq {D A} : cmd D A -> cmd D A -> Prop :=
| ceq_fin r : ceq (Fin r) (Fin r)
| ceq_allreduce c v k k' : (forall x, ceq (k x) (k' x)) -> ceq (Allreduce c v k) (Allreduce c v k')
| ceq_bcast c root nd k k' : (forall x, ceq (k x) (k' x)) -> ceq (Bcast c root nd k) (Bcast c root nd k')
| ceq_group lo hi k k' : ceq k k' -> ceq (Group lo hi k) (Group lo hi k').

Lemma ceq_refl {D A} (c : cmd D A) : ceq c c.
Proof. induction c; constructor; auto. Qed.
Lemma ceq_trans {D A} (a b c : cmd D A) : ceq a b -> ceq b c -> ceq a c.
Proof.
  intros H. revert c. induction H as [r|co v k k' _ IH|co root nd k k' _ IH|lo hi k k' _ IH]; intros c2 H2; inversion H2; subst; constructor; auto.
Qed.
Lemma ceq_sym {D A} (a b : cmd D A) : ceq a b -> ceq b a.
Proof. induction 1; constructor; auto. Qed.
Lemma ceq_worlds {D A} size n (a b : cmd D A) : ceq a b -> ceq (worlds size n a) (worlds size n b).
Proof. intros H. induction n as [|n IH]; [exact H|]. cbn [worlds]. constructor. intros _. exact IH. Qed.

Definition cont_a {D A} (c : cmd D A) : nat -> cmd D A := match c with Allreduce _ _ k => k | _ => fun _ => Fin UB end.
Definition cont_b {D A} (c : cmd D A) : qnode D -> cmd D A := match c with Bcast _ _ _ k => k | _ => fun _ => Fin UB end.
Definition cont_g {D A} (c : cmd D A) : cmd D A := match c with Group _ _ k => k | _ => Fin UB end.

Lemma ceq_step {D A} (s t s' : @config D A) : pstep s t -> (forall r, ceq (s r) (s' r)) ->
  exists t', pstep s' t' /\ forall r, ceq (t r) (t' r).
Proof.
  intros [c v k HC P1 P2 P3|c root x k HC P1 P2 P3|lo hi k HC P1 P2 P3] H.
  - exists (fun r => if member_dec (c_lo c) (c_hi c) r then cont_a (s' r) (max_over (c_lo c) (c_hi c) v) else s' r).
    assert (E : forall r, member (c_lo c) (c_hi c) r -> s' r = Allreduce c (v r) (cont_a (s' r)) /\ forall y, ceq (k r y) (cont_a (s' r) y)).
    { intros r M. specialize (H r). rewrite (P1 r M) in H. inversion H as [|c0 v0 k0 k' Hk E1 E2| |]; subst. split; [reflexivity|exact Hk]. }
    split.
    + apply (step_allreduce _ _ c v (fun r => cont_a (s' r)) HC); [intros r M; apply E; exact M| |];
        intros r M; destruct (member_dec (c_lo c) (c_hi c) r); tauto || reflexivity.
    + intros r. destruct (member_dec (c_lo c) (c_hi c) r) as [M|M]; [rewrite (P2 r M); apply E; exact M|rewrite (P3 r M); apply H].
  - exists (fun r => if member_dec (c_lo c) (c_hi c) r then cont_b (s' r) (x (c_lo c + root)) else s' r).
    assert (E : forall r, member (c_lo c) (c_hi c) r -> s' r = Bcast c root (x r) (cont_b (s' r)) /\ forall y, ceq (k r y) (cont_b (s' r) y)).
    { intros r M. specialize (H r). rewrite (P1 r M) in H. inversion H as [| |c0 r0 v0 k0 k' Hk E1 E2|]; subst. split; [reflexivity|exact Hk]. }
    split.
    + apply (step_bcast _ _ c root x (fun r => cont_b (s' r)) HC); [intros r M; apply E; exact M| |];
        intros r M; destruct (member_dec (c_lo c) (c_hi c) r); tauto || reflexivity.
    + intros r. destruct (member_dec (c_lo c) (c_hi c) r) as [M|M]; [rewrite (P2 r M); apply E; exact M|rewrite (P3 r M); apply H].
  - exists (fun r => if member_dec lo hi r then cont_g (s' r) else s' r).
    assert (E : forall r, member lo hi r -> s' r = Group lo hi (cont_g (s' r)) /\ ceq (k r) (cont_g (s' r))).
    { intros r M. specialize (H r). rewrite (P1 r M) in H. inversion H as [| | |l0 h0 k0 k' Hk E1 E2]; subst. split; [reflexivity|exact Hk]. }
    split.
    + apply (step_group _ _ lo hi (fun r => cont_g (s' r)) HC); [intros r M; apply E; exact M| |];
        intros r M; destruct (member_dec lo hi r); tauto || reflexivity.
    + intros r. destruct (member_dec lo hi r) as [M|M]; [rewrite (P2 r M); apply E; exact M|rewrite (P3 r M); apply H].
Qed.
Lemma ceq_runs {D A} n (s t : @config D A) : runs n s t -> forall s', (forall r, ceq (s r) (s' r)) ->
  exists t', runs n s' t' /\ forall r, ceq (t r) (t' r).
Proof.
  induction 1 as [s t E|n s1 s2 s3 ST _ IH]; intros s' H.
  - exists s'. split; [constructor; reflexivity|]. intros r. rewrite E. apply H.
  - destruct (ceq_step s1 s2 s' ST H) as (s2' & ST' & H2). destruct (IH s2' H2) as (t' & R' & H3).
    exists t'. split; [apply (runs_S n s' s2' t'); auto|exact H3].
Qed.

Section cong.
Context {D S R : Type}.
Notation state := (S * nmap D)%type.
Definition respects (cb : @callback D S R) : Prop :=
  forall st q b k k', (forall x, ceq (k x) (k' x)) -> ceq (cb st q b k) (cb st q b k').
Lemma ceq_lift {A B} (m : res A) (k k' : A -> cmd D B) : (forall a, ceq (k a) (k' a)) -> ceq (lift m k) (lift m k').
Proof. intros H. destruct m; cbn [lift]; [apply H|constructor ..]. Qed.
Lemma ceq_gather_child rank dflt (node : qnode D) i m (k k' : nmap D * qnode D -> cmd D R) :
  (forall x, ceq (k x) (k' x)) -> ceq (gather_child rank dflt node i m k) (gather_child rank dflt node i m k').
Proof. intros H. unfold gather_child. destruct (mget m _); repeat (constructor; intros); apply H. Qed.
Lemma sms_respects rank dflt fn fam : respects (search_merge_split rank BROADCAST dflt fn fam).
Proof.
  intros st q b k k' H. unfold search_merge_split, visit_family. destruct (mget (snd st) (quadrant_path q)) as [node|]; [|constructor].
  destruct b; destruct (in_range rank (n_pfirst node) (n_plast node)); try apply H.
  - apply ceq_lift. intros a. apply H.
  - destruct (Nat.eqb _ _).
    + destruct (local_children node (snd st)) as [[|] [|] [|] [|]]; try constructor. apply ceq_lift. intros. apply H.
    + unfold gather. repeat (apply ceq_gather_child; intros). apply ceq_lift. intros. apply H.
Qed.
Lemma none_respects : respects no_callback.
Proof. intros st q b k k' H. apply H. Qed.
Lemma search_respects rank pre post : respects pre -> respects post ->
  forall f q (st : state) k k', (forall x, ceq (k x) (k' x)) ->
  ceq (search_reorder rank pre post f q st k) (search_reorder rank pre post f q st k').
Proof.
  intros H1 H2. induction f as [o|a IHa b IHb c IHc d IHd]; intros q st k k' H; cbn [search_reorder].
  - destruct (has_local rank _); [|apply H]. apply H1. intros x. destruct (snd x); [|apply H]. apply H2. intros y. apply H.
  - destruct (has_local rank _); [|apply H]. apply H1. intros x. destruct (snd x); [|apply H].
    apply IHa. intros s1. apply IHb. intros s2. apply IHc. intros s3. apply IHd. intros s4. apply H2. intros y. apply H.
Qed.
End cong.

Section complete.
Context {D S R : Type} (F : forest) (dflt : D) (size n : nat).
Hypothesis HC : contiguous F.
Hypothesis HG : gapless F.
Variable fn : S -> qnode D -> res (S * D * bool).
Variable fam : S -> qnode D -> four (qnode D) -> res (S * D * four D * bool).
Variable gl : path -> D -> res D.
Variable gf : path -> D -> four D -> res (D * four D * bool).
Hypothesis Hfn : leaf_fun fn gl.
Hypothesis Hfam : family_fun fam gf.
Notation state := (S * nmap D)%type.
Notation sms := (fun r => search_merge_split (R := R) r BROADCAST dflt fn fam).
Notation smw := (fun r => leaf_calls size n (search_merge_split (R := R) r BROADCAST dflt fn fam)).
Notation P1 := (fun f q r st k => search_reorder r no_callback (sms r) f q st k).
Notation W1 := (fun f q r st k => search_reorder r no_callback (smw r) f q st k).
Notation W2 := (fun f q r st k => search_reorder r (smw r) no_callback f q st k).

Lemma env_merge_outside f : forall p e e' key, env_merge gl gf f p e = Ok e' -> outside p key -> e' key = e key.
Proof.
  induction f as [o|a IHa b IHb c IHc d IHd]; intros p e e' key E H; cbn [env_merge] in E.
  - apply bind_inv in E as (x & Ex & E). injection E as <-. apply (env_outside gl gf (FLeaf o) p e x key Ex H).
  - apply bind_inv in E as (e1 & E1 & E). apply bind_inv in E as (e2 & E2 & E).
    apply bind_inv in E as (e3 & E3 & E). apply bind_inv in E as (e4 & E4 & E).
    apply bind_inv in E as (x & Ex & E). injection E as <-.
    rewrite (env_outside gl gf (FNode a b c d) p e4 x key Ex H).
    rewrite (IHd _ _ _ key E4), (IHc _ _ _ key E3), (IHb _ _ _ key E2), (IHa _ _ _ key E1); auto using outside_child.
Qed.

(** A rank without leaves in a quadrant is not concerned by what happens there. *)
Lemma coh_skip r ds f (e e' : path -> D) m : sub F ds = Some f -> ~ In r (owners f) -> coh F r e m ->
  (forall key, outside (0 :: ds) key -> e' key = e key) -> coh F r e' m.
Proof.
  intros Es Hr H HE. apply (coh_outside F HC r e e' m ds f); auto.
  destruct (in_range r (pfirst f) (plast f)) eqn:X; [|reflexivity].
  apply (range_owners F HC HG ds f r Es) in X. contradiction.
Qed.

(** ** A quadrant of one rank *)
Lemma cb_own f ds q o (st : state) e x : sub F ds = Some f -> pfirst f = o -> plast f = o -> quadrant_path q = 0 :: ds ->
  coh F o e (snd st) -> env_cb gl gf f (0 :: ds) e = Ok x ->
  exists st' b, (forall k, sms o st q (flag f) k = k (st', b)) /\ coh F o (fst x) (snd st') /\ (flag f = false -> b = snd x).
Proof.
  intros Es Q1 Q2 Ep HCo Ex. pose proof HCo as [NM HD]. pose proof (NM ds f Es) as X. rewrite Q1, Q2 in X.
  rewrite (proj2 (own_range o o) eq_refl) in X. destruct X as (nd & En & N1 & N2 & N3 & N4 & N5).
  assert (Hd : n_data nd = e (0 :: ds)) by (apply HD; [congruence|exact En]).
  destruct f as [x0|a b c d]; cbn [env_cb] in Ex; apply bind_inv in Ex as (y & Ey & Ex); injection Ex as <-; cbn [flag fst snd].
  - exists (fst (fn_out fn (fst st) nd), mset (snd st) (0 :: ds) (Some (set_ndata nd y))), (snd (fn_out fn (fst st) nd)).
    split; [|split; [|discriminate]].
    + intros k. unfold search_merge_split. rewrite Ep. unfold mget. rewrite En, N3, N4, (proj2 (own_range o o) eq_refl).
      rewrite (fn_eq fn gl Hfn (fst st) nd y) by (rewrite N1, Hd; exact Ey). reflexivity.
    + cbn [snd]. apply coh_leaf; auto. congruence.
  - assert (C : contiguous (FNode a b c d)) by (apply (contiguous_sub F ds); auto).
    assert (KID : forall i g', fchild (FNode a b c d) i = Some g' -> exists n, snd st (0 :: ds ++ [i]) = Some n /\ n_data n = e (0 :: ds ++ [i])).
    { intros i g' Eg. assert (Es' : sub F (ds ++ [i]) = Some g') by (apply (sub_child F ds (FNode a b c d)); auto).
      destruct (all_owned (FNode a b c d) o [i] g' C Q1 Q2) as [Z1 Z2]; [cbn [sub]; rewrite Eg; reflexivity|].
      pose proof (NM _ _ Es') as X. rewrite Z1, Z2, (proj2 (own_range o o) eq_refl) in X.
      destruct X as (n' & En' & _). exists n'. split; [exact En'|]. apply (HD (ds ++ [i])); [congruence|exact En']. }
    destruct (KID 0 a eq_refl) as (n0 & K0 & D0). destruct (KID 1 b eq_refl) as (n1 & K1 & D1).
    destruct (KID 2 c eq_refl) as (n2 & K2 & D2). destruct (KID 3 d eq_refl) as (n3 & K3 & D3).
    exists (fam_out fam (fst st) nd (Four n0 n1 n2 n3), family_map (snd st) (0 :: ds) nd (fst (fst y)) (snd (fst y))), (snd y).
    split; [|split; [|reflexivity]].
    + intros k. unfold search_merge_split. rewrite Ep. unfold mget. rewrite En, N3, N4, (proj2 (own_range o o) eq_refl), Nat.eqb_refl.
      unfold local_children, mget. rewrite N1. cbn [app]. rewrite K0, K1, K2, K3.
      apply (family_visited fam gf Hfam nd ds _ _ _ k e y Ey N1 Hd).
      unfold fmap, kids. cbn [fa fb fc fd app]. rewrite D0, D1, D2, D3. reflexivity.
    + cbn [snd]. apply coh_family; auto. congruence.
Qed.

Ltac kid Es := first [apply (sub_child _ _ _ _ _ Es); reflexivity | apply valid_child; [assumption|cbn [depth] in *; lia|lia]
  | rewrite path_child by (try assumption; cbn [depth] in *; lia); match goal with H : quadrant_path _ = _ |- _ => rewrite H end; reflexivity
  | cbn [depth qlevel qchild] in *; lia | assumption].

Lemma kid_own a b c d ds o : sub F ds = Some (FNode a b c d) -> pfirst (FNode a b c d) = o -> plast (FNode a b c d) = o ->
  forall i g, fchild (FNode a b c d) i = Some g -> pfirst g = o /\ plast g = o.
Proof.
  intros Es Q1 Q2 i g Eg. apply (all_owned (FNode a b c d) o [i] g); auto.
  - apply (contiguous_sub F ds); auto.
  - cbn [sub]. rewrite Eg. reflexivity.
Qed.
Lemma own_local f o : pfirst f = o -> In o (owners f).
Proof. intros <-. apply pfirst_in. Qed.

Lemma W1_node a b c d q r st (k : state -> cmd D R) : In r (owners (FNode a b c d)) ->
  W1 (FNode a b c d) q r st k = W1 a (qchild q 0) r st (fun s1 => W1 b (qchild q 1) r s1 (fun s2 => W1 c (qchild q 2) r s2 (fun s3 =>
    W1 d (qchild q 3) r s3 (fun s4 => sms r s4 q false (fun x => k (fst x)))))).
Proof. intros Hr. cbn [search_reorder]. rewrite (local_eq r _ Hr). reflexivity. Qed.
Lemma P1_node a b c d q r st (k : state -> cmd D R) : In r (owners (FNode a b c d)) ->
  P1 (FNode a b c d) q r st k = P1 a (qchild q 0) r st (fun s1 => P1 b (qchild q 1) r s1 (fun s2 => P1 c (qchild q 2) r s2 (fun s3 =>
    P1 d (qchild q 3) r s3 (fun s4 => sms r s4 q false (fun x => k (fst x)))))).
Proof. intros Hr. cbn [search_reorder]. rewrite (local_eq r _ Hr). reflexivity. Qed.

Lemma merge_own f : forall ds q o (st : state) e e', sub F ds = Some f -> pfirst f = o -> plast f = o ->
  valid_quadrant q -> quadrant_path q = 0 :: ds -> qlevel q + depth f <= qmaxlevel ->
  coh F o e (snd st) -> env_merge gl gf f (0 :: ds) e = Ok e' ->
  exists st', coh F o e' (snd st') /\ forall k, P1 f q o st k = k st' /\ W1 f q o st k = worlds size (n * leaves_of o f) (k st').
Proof.
  induction f as [x|a IHa b IHb c IHc d IHd]; intros ds q o st e e' Es Q1 Q2 VQ Ep HL HCo Ee.
  - cbn [env_merge] in Ee. apply bind_inv in Ee as (y & Ey & Ee). injection Ee as <-.
    destruct (cb_own (FLeaf x) ds q o st e y Es Q1 Q2 Ep HCo Ey) as (st' & bb & Ek & C' & _).
    exists st'. split; [exact C'|]. intros k. cbn [search_reorder]. rewrite (local_eq o _ (own_local _ _ Q1)).
    unfold no_callback. cbn [fst snd]. cbn [pfirst owners hd] in Q1. subst x.
    unfold leaf_calls, leaves_of. cbn [owners filter length]. rewrite Nat.eqb_refl. cbn [length]. rewrite Nat.mul_1_r.
    cbn [flag] in Ek. rewrite !Ek. cbn [fst]. split; reflexivity.
  - pose proof (kid_own a b c d ds o Es Q1 Q2) as KO.
    destruct (KO 0 a eq_refl) as [A1 A2]. destruct (KO 1 b eq_refl) as [B1 B2].
    destruct (KO 2 c eq_refl) as [C1 C2]. destruct (KO 3 d eq_refl) as [D1 D2].
    cbn [env_merge] in Ee. apply bind_inv in Ee as (e1 & E1 & Ee). apply bind_inv in Ee as (e2 & E2 & Ee).
    apply bind_inv in Ee as (e3 & E3 & Ee). apply bind_inv in Ee as (e4 & E4 & Ee).
    apply bind_inv in Ee as (y & Ey & Ee). injection Ee as <-.
    destruct (IHa (ds ++ [0]) (qchild q 0) o st e e1) as (sa & Ca & Ka); [kid Es ..|].
    destruct (IHb (ds ++ [1]) (qchild q 1) o sa e1 e2) as (sb & Cb & Kb); [kid Es ..|].
    destruct (IHc (ds ++ [2]) (qchild q 2) o sb e2 e3) as (sc & Cc & Kc); [kid Es ..|].
    destruct (IHd (ds ++ [3]) (qchild q 3) o sc e3 e4) as (sd & Cd & Kd); [kid Es ..|].
    destruct (cb_own (FNode a b c d) ds q o sd e4 y Es Q1 Q2 Ep Cd Ey) as (st' & bb & Ek & C' & _). cbn [flag] in Ek.
    exists st'. split; [exact C'|]. intros k.
    rewrite W1_node, P1_node by (apply own_local; exact Q1). split.
    + rewrite (proj1 (Ka _)), (proj1 (Kb _)), (proj1 (Kc _)), (proj1 (Kd _)), Ek. reflexivity.
    + rewrite (proj2 (Ka _)), (proj2 (Kb _)), (proj2 (Kc _)), (proj2 (Kd _)), Ek, !worlds_app, leaves_node.
      cbn [fst]. f_equal. lia.
Qed.

Hypothesis Hgo : forall s nd ch s' d ds b, fam s nd ch = Ok (s', d, ds, b) -> b = true.
Lemma env_go f p e x (nd : qnode D) (ch : four (qnode D)) (s0 : S) : env_cb gl gf f p e = Ok x -> flag f = false ->
  n_path nd = p -> n_data nd = e p -> fmap n_data ch = kids e p -> snd x = true.
Proof.
  intros Ex Hf Hp Hd Hk. destruct f as [o|a b c d]; [discriminate|]. cbn [env_cb] in Ex.
  apply bind_inv in Ex as (g & Eg & Ex). injection Ex as <-. cbn [snd].
  pose proof (fam_eq fam gf Hfam s0 nd ch g) as X. rewrite Hp, Hd, Hk in X. apply (Hgo _ _ _ _ _ _ _ (X Eg)).
Qed.
Lemma env_true (s0 : S) a b c d p e x : env_cb gl gf (FNode a b c d) p e = Ok x -> snd x = true.
Proof.
  intros Ex. pose (mk := fun key => QNode (e key) key 0 0 0 false).
  apply (env_go _ p e x (mk p) (Four (mk (p ++ [0])) (mk (p ++ [1])) (mk (p ++ [2])) (mk (p ++ [3]))) s0 Ex); reflexivity.
Qed.

Lemma env_split_outside (s0 : S) f : forall p e e' key, env_split gl gf f p e = Ok e' -> outside p key -> e' key = e key.
Proof.
  induction f as [o|a IHa b IHb c IHc d IHd]; intros p e e' key E H; cbn [env_split] in E.
  - apply bind_inv in E as (x & Ex & E). injection E as <-. apply (env_outside gl gf (FLeaf o) p e x key Ex H).
  - apply bind_inv in E as (x & Ex & E). rewrite (env_true s0 _ _ _ _ _ _ _ Ex) in E.
    apply bind_inv in E as (e1 & E1 & E). apply bind_inv in E as (e2 & E2 & E). apply bind_inv in E as (e3 & E3 & E).
    rewrite (IHd _ _ _ key E), (IHc _ _ _ key E3), (IHb _ _ _ key E2), (IHa _ _ _ key E1) by auto using outside_child.
    apply (env_outside gl gf (FNode a b c d) p e x key Ex H).
Qed.

Lemma split_own f : forall ds q o (st : state) e e', sub F ds = Some f -> pfirst f = o -> plast f = o ->
  valid_quadrant q -> quadrant_path q = 0 :: ds -> qlevel q + depth f <= qmaxlevel ->
  coh F o e (snd st) -> env_split gl gf f (0 :: ds) e = Ok e' ->
  exists st', coh F o e' (snd st') /\ forall k, W2 f q o st k = worlds size (n * leaves_of o f) (k st').
Proof.
  induction f as [x|a IHa b IHb c IHc d IHd]; intros ds q o st e e' Es Q1 Q2 VQ Ep HL HCo Ee.
  - cbn [env_split] in Ee. apply bind_inv in Ee as (y & Ey & Ee). injection Ee as <-.
    destruct (cb_own (FLeaf x) ds q o st e y Es Q1 Q2 Ep HCo Ey) as (st' & bb & Ek & C' & _).
    exists st'. split; [exact C'|]. intros k. cbn [search_reorder]. rewrite (local_eq o _ (own_local _ _ Q1)).
    cbn [pfirst owners hd] in Q1. subst x.
    unfold leaf_calls, leaves_of. cbn [owners filter length]. rewrite Nat.eqb_refl. cbn [length]. rewrite Nat.mul_1_r.
    cbn [flag] in Ek. rewrite !Ek. unfold no_callback. cbn [fst snd]. destruct bb; reflexivity.
  - pose proof (kid_own a b c d ds o Es Q1 Q2) as KO.
    destruct (KO 0 a eq_refl) as [A1 A2]. destruct (KO 1 b eq_refl) as [B1 B2].
    destruct (KO 2 c eq_refl) as [C1 C2]. destruct (KO 3 d eq_refl) as [D1 D2].
    cbn [env_split] in Ee. apply bind_inv in Ee as (y & Ey & Ee). pose proof (env_true (fst st) _ _ _ _ _ _ _ Ey) as Yt. rewrite Yt in Ee.
    apply bind_inv in Ee as (e1 & E1 & Ee). apply bind_inv in Ee as (e2 & E2 & Ee). apply bind_inv in Ee as (e3 & E3 & E4).
    destruct (cb_own (FNode a b c d) ds q o st e y Es Q1 Q2 Ep HCo Ey) as (s0 & bb & Ek & C0 & Eb). cbn [flag] in Ek, Eb.
    specialize (Eb eq_refl). rewrite Yt in Eb. subst bb.
    destruct (IHa (ds ++ [0]) (qchild q 0) o s0 (fst y) e1) as (sa & Ca & Ka); [kid Es ..|].
    destruct (IHb (ds ++ [1]) (qchild q 1) o sa e1 e2) as (sb & Cb & Kb); [kid Es ..|].
    destruct (IHc (ds ++ [2]) (qchild q 2) o sb e2 e3) as (sc & Cc & Kc); [kid Es ..|].
    destruct (IHd (ds ++ [3]) (qchild q 3) o sc e3 e') as (sd & Cd & Kd); [kid Es ..|].
    exists sd. split; [exact Cd|]. intros k. cbn [search_reorder]. rewrite (local_eq o _ (own_local _ _ Q1)).
    unfold leaf_calls at 1. rewrite Ek. cbn [fst snd].
    rewrite Ka, Kb, Kc, Kd, !worlds_app, leaves_node. unfold no_callback. cbn [fst]. f_equal. lia.
Qed.

(** ** A quadrant of several ranks *)
Hypothesis HA : aligned F.

Lemma shared_only a b c d ds r i g : sub F ds = Some (FNode a b c d) -> fchild (FNode a b c d) i = Some g ->
  pfirst g <> plast g -> In r (owners g) -> leaves_of r g = leaves_of r (FNode a b c d).
Proof.
  intros Es Eg Hs Hr. assert (Es' : sub F (ds ++ [i]) = Some g) by (apply (sub_child F ds (FNode a b c d)); auto).
  pose proof (HA _ _ Es' Hs r Hr) as X. rewrite X. symmetry. apply (HA ds); auto.
  - intros Eq. apply Hs.
    destruct (all_owned (FNode a b c d) (pfirst (FNode a b c d)) [i] g) as [-> ->]; auto.
    + apply (contiguous_sub F ds); auto.
    + cbn [sub]. rewrite Eg. reflexivity.
  - apply (owners_child (FNode a b c d) i g); auto.
Qed.

(** One child, seen from one rank: the rank either goes through it alone, or the child
    is shared. *)
Lemma merge_child f ds q r (st : state) e e' : sub F ds = Some f ->
  valid_quadrant q -> quadrant_path q = 0 :: ds -> qlevel q + depth f <= qmaxlevel ->
  coh F r e (snd st) -> env_merge gl gf f (0 :: ds) e = Ok e' ->
  (In r (owners f) -> pfirst f = plast f) ->
  exists st', coh F r e' (snd st') /\ forall k, P1 f q r st k = k st' /\ W1 f q r st k = worlds size (n * leaves_of r f) (k st').
Proof.
  intros Es VQ Ep HL HCo Ee H1. destruct (in_dec Nat.eq_dec r (owners f)) as [Hr|Hr].
  - specialize (H1 Hr).
    assert (Eo : pfirst f = r).
    { apply (range_owners F HC HG ds f r Es) in Hr. rewrite <- H1 in Hr. symmetry. apply own_range. exact Hr. }
    apply (merge_own f ds q r st e e'); auto. congruence.
  - exists st. split.
    + apply (coh_skip r ds f e e'); auto. intros key. apply (env_merge_outside f (0 :: ds) e e' key Ee).
    + intros k. rewrite !skip, leaves_none by exact Hr. rewrite Nat.mul_0_r. split; reflexivity.
Qed.

(** All calls of a rank come before its first shared quadrant. *)
Ltac zeros := repeat match goal with |- context [leaves_of ?r ?g] =>
  let Z := fresh in assert (Z : leaves_of r g = 0) by lia; rewrite !Z end.
Lemma merge_first f : forall ds q r (st : state) e e' k, sub F ds = Some f -> In r (owners f) ->
  valid_quadrant q -> quadrant_path q = 0 :: ds -> qlevel q + depth f <= qmaxlevel ->
  coh F r e (snd st) -> env_merge gl gf f (0 :: ds) e = Ok e' ->
  exists c, W1 f q r st k = worlds size (n * leaves_of r f) c /\ ceq c (P1 f q r st k).
Proof.
  induction f as [x|a IHa b IHb c IHc d IHd]; intros ds q r st e e' k Es Hr VQ Ep HL HCo Ee.
  - destruct (merge_child (FLeaf x) ds q r st e e') as (st' & _ & K); auto.
    exists (k st'). split; [apply (proj2 (K k))|rewrite (proj1 (K k)); apply ceq_refl].
  - destruct (Nat.eq_dec (pfirst (FNode a b c d)) (plast (FNode a b c d))) as [Q|Q].
    { destruct (merge_child (FNode a b c d) ds q r st e e') as (st' & _ & K); auto.
      exists (k st'). split; [apply (proj2 (K k))|rewrite (proj1 (K k)); apply ceq_refl]. }
    rewrite W1_node, P1_node by exact Hr. set (K4 := fun s4 => sms r s4 q false (fun x => k (fst x))).
    pose proof (leaves_node r a b c d) as LN. rewrite LN.
    assert (ONLY : forall i g, fchild (FNode a b c d) i = Some g -> pfirst g <> plast g -> In r (owners g) ->
       leaves_of r g = leaves_of r a + leaves_of r b + leaves_of r c + leaves_of r d).
    { intros i g Eg Hs Hi. rewrite <- LN. apply (shared_only a b c d ds r i g); auto. }
    assert (NOT : forall g, leaves_of r g = 0 -> ~ In r (owners g)).
    { intros g E X. apply leaves_in in X. lia. }
    assert (CASE : forall g, {In r (owners g) /\ pfirst g <> plast g} + {In r (owners g) -> pfirst g = plast g}).
    { intros g. destruct (in_dec Nat.eq_dec r (owners g)); [|right; contradiction].
      destruct (Nat.eq_dec (pfirst g) (plast g)); [right; auto|left; auto]. }
    assert (CONG : forall g qq s0 kk kk', (forall s1, kk s1 = kk' s1) -> ceq (P1 g qq r s0 kk) (P1 g qq r s0 kk')).
    { intros g qq s0 kk kk' Hk. apply search_respects; [apply none_respects|apply sms_respects|]. intros y. rewrite Hk. apply ceq_refl. }
    cbn [env_merge] in Ee. apply bind_inv in Ee as (e1 & E1 & Ee). apply bind_inv in Ee as (e2 & E2 & Ee).
    apply bind_inv in Ee as (e3 & E3 & Ee). apply bind_inv in Ee as (e4 & E4 & _).
    destruct (CASE a) as [[Ia Sa]|Na].
    { pose proof (ONLY 0 a eq_refl Sa Ia) as X.
      destruct (IHa (ds ++ [0]) (qchild q 0) r st e e1
        (fun s1 => W1 b (qchild q 1) r s1 (fun s2 => W1 c (qchild q 2) r s2 (fun s3 => W1 d (qchild q 3) r s3 K4))))
        as (c0 & Ec0 & Q0); [kid Es ..|].
      exists c0. split; [rewrite Ec0; f_equal; zeros; lia|]. apply (ceq_trans _ _ _ Q0). apply CONG. intros s1.
      rewrite !(skip r _ _ b), !(skip r _ _ c), !(skip r _ _ d) by (apply NOT; lia). reflexivity. }
    destruct (merge_child a (ds ++ [0]) (qchild q 0) r st e e1) as (sa & Ca & Ka); [kid Es ..|].
    rewrite (proj1 (Ka _)), (proj2 (Ka _)).
    destruct (CASE b) as [[Ib Sb]|Nb].
    { pose proof (ONLY 1 b eq_refl Sb Ib) as X.
      destruct (IHb (ds ++ [1]) (qchild q 1) r sa e1 e2
        (fun s2 => W1 c (qchild q 2) r s2 (fun s3 => W1 d (qchild q 3) r s3 K4)))
        as (c0 & Ec0 & Q0); [kid Es ..|].
      exists c0. split; [rewrite Ec0, worlds_app; f_equal; zeros; lia|]. apply (ceq_trans _ _ _ Q0). apply CONG. intros s1.
      rewrite !(skip r _ _ c), !(skip r _ _ d) by (apply NOT; lia). reflexivity. }
    destruct (merge_child b (ds ++ [1]) (qchild q 1) r sa e1 e2) as (sb & Cb & Kb); [kid Es ..|].
    rewrite (proj1 (Kb _)), (proj2 (Kb _)).
    destruct (CASE c) as [[Ic Sc]|Nc].
    { pose proof (ONLY 2 c eq_refl Sc Ic) as X.
      destruct (IHc (ds ++ [2]) (qchild q 2) r sb e2 e3 (fun s3 => W1 d (qchild q 3) r s3 K4)) as (c0 & Ec0 & Q0); [kid Es ..|].
      exists c0. split; [rewrite Ec0, !worlds_app; f_equal; zeros; lia|]. apply (ceq_trans _ _ _ Q0). apply CONG. intros s1.
      rewrite !(skip r _ _ d) by (apply NOT; lia). reflexivity. }
    destruct (merge_child c (ds ++ [2]) (qchild q 2) r sb e2 e3) as (sc & Cc & Kc); [kid Es ..|].
    rewrite (proj1 (Kc _)), (proj2 (Kc _)).
    destruct (CASE d) as [[Id Sd]|Nd].
    { pose proof (ONLY 3 d eq_refl Sd Id) as X.
      destruct (IHd (ds ++ [3]) (qchild q 3) r sc e3 e4 K4) as (c0 & Ec0 & Q0); [kid Es ..|].
      exists c0. split; [rewrite Ec0, !worlds_app; f_equal; zeros; lia|exact Q0]. }
    destruct (merge_child d (ds ++ [3]) (qchild q 3) r sc e3 e4) as (sd & Cd & Kd); [kid Es ..|].
    exists (K4 sd). split; [|rewrite (proj1 (Kd K4)); apply ceq_refl].
    rewrite (proj2 (Kd K4)), !worlds_app. f_equal. lia.
Qed.
End complete.
