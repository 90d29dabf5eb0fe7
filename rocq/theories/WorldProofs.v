(** Collective calls inside leaf solves: counting them. *)
From Verif Require Import Base VectorModel MatrixModel HPSModel TreeModel TreeSpec TreeProofs TreeCtor
  TreeOrder TreeMap TreeOrder2 ParModel ParSpec ParProofs ParRun ParSearch WorldModel WorldSpec.

(** ** Programs that make a known number of calls *)
Section count.
Context {D A : Type} (size : nat).

(** Whatever the rank receives: if its program returns, it has made exactly [w]
    collective calls over all ranks. *)
Fixpoint exact (c : cmd D A) (w : nat) : Prop :=
  match c with
  | Fin (Ok _) => w = 0
  | Fin _ => True
  | Allreduce c v k =>
      (c = world size /\ exists w', w = S w' /\ forall x, exact (k x) w') \/
      (c <> world size /\ forall x, exact (k x) w)
  | Bcast c root n k => forall x, exact (k x) w
  | Group lo hi k => exact k w
  end.

Lemma worlds_exact n k w : exact k w -> exact (worlds size n k) (n + w).
Proof.
  intros H. induction n as [|n IH]; [exact H|]. cbn [worlds exact plus].
  left. split; [reflexivity|]. exists (n + w). split; [reflexivity|]. intros _. exact IH.
Qed.

Lemma exact_equal : 0 < size -> forall N (s t : @config D A), runs N s t -> all_done size t ->
  forall w, (forall r, r < size -> exact (s r) (w r)) -> forall r r', r < size -> r' < size -> w r = w r'.
Proof.
  intros Hsz N s t RUN DONE. induction RUN as [s s' E|N s1 s2 s3 ST RUN IH]; intros w H r r' Hr Hr'.
  - assert (Z : forall r, r < size -> w r = 0).
    { intros r0 H0. specialize (H r0 H0). destruct (DONE r0 H0) as (x & Ex). rewrite <- E, Ex in H. exact H. }
    rewrite !Z by assumption. reflexivity.
  - specialize (IH DONE).
    destruct ST as [c v k HC P1 P2 P3|c root x k HC P1 P2 P3|lo hi k HC P1 P2 P3].
    + destruct (list_eq_dec Nat.eq_dec (c_path c) []) as [Ep|Ep]; [destruct (Nat.eq_dec (c_lo c) 0) as [El|El]; [destruct (Nat.eq_dec (c_hi c) (size - 1)) as [Eh|Eh]|]|].
      1:{ assert (Ec : c = world size) by (destruct c; cbn in *; subst; reflexivity).
          assert (M : forall r, r < size -> member (c_lo c) (c_hi c) r) by (intros r0 H0; unfold member; lia).
          assert (X : forall r0, r0 < size -> exists w', w r0 = S w' /\ exact (s2 r0) w').
          { intros r0 H0. specialize (H r0 H0). rewrite (P1 r0 (M r0 H0)) in H.
            destruct H as [(_ & w' & E1 & E2)|(NE & _)]; [|contradiction].
            exists w'. split; [exact E1|]. rewrite (P2 r0 (M r0 H0)). apply E2. }
          assert (Y : Nat.pred (w r) = Nat.pred (w r')).
          { apply (IH (fun r => Nat.pred (w r))); auto. intros r0 H0. destruct (X r0 H0) as (w' & -> & E). exact E. }
          destruct (X r Hr) as (a & Ea & _), (X r' Hr') as (b & Eb & _). rewrite Ea, Eb in *. cbn in Y. congruence. }
      all: apply (IH w); auto; intros r0 H0; destruct (member_dec (c_lo c) (c_hi c) r0) as [M|M]; [|rewrite (P3 r0 M); auto];
        specialize (H r0 H0); rewrite (P1 r0 M) in H; rewrite (P2 r0 M);
        (destruct H as [(E & _)|(_ & H)]; [exfalso; rewrite E in *; cbn in *; congruence|apply H]).
    + apply (IH w); auto. intros r0 H0. destruct (member_dec (c_lo c) (c_hi c) r0) as [M|M]; [|rewrite (P3 r0 M); auto].
      specialize (H r0 H0). rewrite (P1 r0 M) in H. rewrite (P2 r0 M). apply H.
    + apply (IH w); auto. intros r0 H0. destruct (member_dec lo hi r0) as [M|M]; [|rewrite (P3 r0 M); auto].
      specialize (H r0 H0). rewrite (P1 r0 M) in H. rewrite (P2 r0 M). apply H.
Qed.
End count.

(** ** Merge *)
Lemma leaves_none r f : ~ In r (owners f) -> leaves_of r f = 0.
Proof.
  unfold leaves_of. induction (owners f) as [|o l IH]; intros H; [reflexivity|]. cbn [filter].
  destruct (Nat.eqb r o) eqn:E; [apply Nat.eqb_eq in E; subst; exfalso; apply H; left; reflexivity|].
  apply IH. intros X. apply H. right. exact X.
Qed.
Lemma leaves_node r a b c d : leaves_of r (FNode a b c d) = leaves_of r a + leaves_of r b + leaves_of r c + leaves_of r d.
Proof. unfold leaves_of. cbn [owners]. rewrite !filter_app, !app_length. lia. Qed.

Section merge.
Context {D S R : Type} (F : forest) (dflt : D) (size n rank : nat).
Variable fn : S -> qnode D -> res (S * D * bool).
Variable fam : S -> qnode D -> four (qnode D) -> res (S * D * four D * bool).
Notation state := (S * nmap D)%type.

Definition below (p key : path) : Prop := exists x, key = p ++ x.
(** Outside the visited quadrants the nodes have the paths they are filed under. *)
Definition sane (V : path -> Prop) (m : nmap D) : Prop :=
  forall ds nd, sub F ds <> None -> ~ V (0 :: ds) -> m (0 :: ds) = Some nd -> n_path nd = 0 :: ds.

Lemma sane_ext (V V' : path -> Prop) m : (forall p, V p -> V' p) -> sane V m -> sane V' m.
Proof. intros H X ds nd H1 H2. apply X; auto. Qed.
Lemma sane_set (V : path -> Prop) m p nd : V p -> sane V m -> sane V (mset m p (Some nd)).
Proof.
  intros H X ds nd' H1 H2 E. unfold mset in E. destruct (path_eq_dec p (0 :: ds)) as [->|Hp]; [contradiction|].
  rewrite path_eqb_neq in E by exact Hp. exact (X ds nd' H1 H2 E).
Qed.
Lemma sane_put (V : path -> Prop) m p d : V p -> sane V m -> sane V (put_child m p d).
Proof. intros H X. unfold put_child. destruct (mget m p); [apply sane_set; auto|exact X]. Qed.
Lemma sane_self (V : path -> Prop) m p nd d : m p = Some nd -> n_path nd = p -> sane V m -> sane V (mset m p (Some (set_ndata nd d))).
Proof.
  intros E0 H X ds nd' H1 H2 E. unfold mset in E. destruct (path_eq_dec p (0 :: ds)) as [->|Hp].
  - rewrite path_eqb_refl in E. injection E as <-. exact H.
  - rewrite path_eqb_neq in E by exact Hp. exact (X ds nd' H1 H2 E).
Qed.

Notation cb := (leaf_calls (R := R) size n (search_merge_split rank BROADCAST dflt fn fam)).

(** One child of a gathered node. *)
Lemma gather_child_exact (V : path -> Prop) p i (node : qnode D) (m : nmap D) (k : nmap D * qnode D -> cmd D R) w :
  n_path node = p -> p <> [] -> V (p ++ [i]) -> sane V m ->
  (forall m' ch, sane V m' -> exact size (k (m', ch)) w) -> exact size (gather_child rank dflt node i m k) w.
Proof.
  intros Hp Hn HV HS Hk. unfold gather_child. rewrite Hp.
  assert (NE : Comm p (n_pfirst node) (n_plast node) <> world size) by (unfold world; congruence).
  destruct (mget m (p ++ [i])) as [ch|]; cbn [exact]; right; (split; [exact NE|]); intros pn x; apply Hk.
  - apply sane_set; auto.
  - exact HS.
Qed.
Lemma gather_exact (V : path -> Prop) p (node : qnode D) (m : nmap D) (k : nmap D * four (qnode D) -> cmd D R) w :
  n_path node = p -> p <> [] -> (forall i, V (p ++ [i])) -> sane V m ->
  (forall m' ch, sane V m' -> exact size (k (m', ch)) w) -> exact size (gather rank dflt node m k) w.
Proof.
  intros Hp Hn HV HS Hk. unfold gather.
  apply (gather_child_exact V p); auto. intros m1 c1 S1. cbn [fst snd].
  apply (gather_child_exact V p); auto. intros m2 c2 S2. cbn [fst snd].
  apply (gather_child_exact V p); auto. intros m3 c3 S3. cbn [fst snd].
  apply (gather_child_exact V p); auto.
Qed.
Lemma family_exact (V : path -> Prop) p s (m : nmap D) (node : qnode D) ch (k : state * bool -> cmd D R) w :
  n_path node = p -> V p -> (forall i, V (p ++ [i])) -> sane V m ->
  (forall st b, sane V (snd st) -> exact size (k (st, b)) w) -> exact size (visit_family fam p s m node ch k) w.
Proof.
  intros Hp HV HVi HS Hk. unfold visit_family. destruct (fam s node ch) as [r|e|]; cbn [lift exact]; [|exact I ..].
  apply Hk. cbn [snd]. rewrite Hp. repeat apply sane_put; auto. apply sane_set; auto.
Qed.

Lemma below_refl p : below p p.
Proof. exists []. rewrite app_nil_r. reflexivity. Qed.
Lemma below_child p i : below p (p ++ [i]).
Proof. exists [i]. reflexivity. Qed.
Lemma below_trans p i key : below (p ++ [i]) key -> below p key.
Proof. intros (x & ->). exists (i :: x). rewrite <- app_assoc. reflexivity. Qed.

(** The callback on a node of the tree. *)
Lemma cb_exact f ds q (V : path -> Prop) (st : state) (k : state * bool -> cmd D R) w :
  sub F ds = Some f -> quadrant_path q = 0 :: ds -> sane V (snd st) -> ~ V (0 :: ds) ->
  (forall st' b, sane (fun p => V p \/ below (0 :: ds) p) (snd st') -> exact size (k (st', b)) w) ->
  exact size (cb st q (match f with FLeaf _ => true | _ => false end) k) ((match f with FLeaf _ => n | _ => 0 end) + w).
Proof.
  intros Es Ep HS HV Hk. set (V' := fun p => V p \/ below (0 :: ds) p) in *.
  assert (HS' : sane V' (snd st)) by (apply (sane_ext V); [intros; left; assumption|exact HS]).
  assert (Hself : V' (0 :: ds)) by (right; apply below_refl).
  assert (Hkids : forall i, V' ((0 :: ds) ++ [i])) by (intros i; right; apply below_child).
  assert (CORE : exact size (search_merge_split rank BROADCAST dflt fn fam st q (match f with FLeaf _ => true | _ => false end) k) w).
  { unfold search_merge_split. rewrite Ep. unfold mget. destruct (snd st (0 :: ds)) as [node|] eqn:En; [|exact I].
    assert (Pn : n_path node = 0 :: ds) by (apply HS; [congruence|exact HV|exact En]).
    destruct f as [o|a b c d].
    - destruct (in_range rank (n_pfirst node) (n_plast node)); [|apply Hk; exact HS'].
      destruct (fn (fst st) node) as [r|e|]; cbn [lift exact]; [|exact I ..]. apply Hk. cbn [snd]. apply sane_set; auto.
    - destruct (in_range rank (n_pfirst node) (n_plast node)); [|apply Hk; exact HS'].
      destruct (Nat.eqb (n_pfirst node) (n_plast node)).
      + destruct (local_children node (snd st)) as [[c0|] [c1|] [c2|] [c3|]]; cbn [exact]; try exact I.
        apply (family_exact V'); auto.
      + apply (gather_exact V' (0 :: ds)); auto; [discriminate|]. intros m' ch Hm. cbn [fst snd].
        apply (family_exact V'); auto. }
  unfold leaf_calls. destruct f; [apply worlds_exact; exact CORE|exact CORE].
Qed.

Lemma merge_exact f : forall ds q (V : path -> Prop) (st : state) (k : state -> cmd D R) w,
  sub F ds = Some f -> valid_quadrant q -> quadrant_path q = 0 :: ds -> qlevel q + depth f <= qmaxlevel ->
  sane V (snd st) -> (forall p, V p -> ~ below (0 :: ds) p /\ ~ below p (0 :: ds)) ->
  (forall st', sane (fun p => V p \/ below (0 :: ds) p) (snd st') -> exact size (k st') w) ->
  exact size (search_reorder rank no_callback cb f q st k) (n * leaves_of rank f + w).
Proof.
  induction f as [o|a IHa b IHb c IHc d IHd]; intros ds q V st k w Es VQ Ep HL HS HV Hk.
  - destruct (in_dec Nat.eq_dec rank (owners (FLeaf o))) as [Hr|Hr].
    + cbn [search_reorder]. rewrite (local_eq rank _ Hr). unfold no_callback. cbn [fst snd].
      destruct Hr as [->|[]].
      replace (n * leaves_of rank (FLeaf rank) + w) with (n + w) by (unfold leaves_of; cbn; rewrite Nat.eqb_refl; cbn; lia).
      apply (cb_exact (FLeaf rank) ds q V st (fun r' => k (fst r')) w); auto.
      intros X. apply (proj1 (HV _ X)). apply below_refl.
    + rewrite skip, leaves_none by exact Hr. replace (n * 0 + w) with w by lia. apply Hk.
      apply (sane_ext V); [intros; left; assumption|exact HS].
  - set (f := FNode a b c d) in *. destruct (in_dec Nat.eq_dec rank (owners f)) as [Hr|Hr].
    + unfold f at 1. cbn [search_reorder]. fold f. rewrite (local_eq rank f Hr). unfold no_callback at 1. cbn [fst snd].
      unfold f at 1. rewrite leaves_node.
      assert (HLq : qlevel q < qmaxlevel) by (subst f; cbn [depth] in HL; lia).
      set (Va := fun p => V p \/ below ((0 :: ds) ++ [0]) p).
      set (Vb := fun p => Va p \/ below ((0 :: ds) ++ [1]) p).
      set (Vc := fun p => Vb p \/ below ((0 :: ds) ++ [2]) p).
      set (Vd := fun p => Vc p \/ below ((0 :: ds) ++ [3]) p).
      assert (NB : forall i j x, i <> j -> ~ below (x ++ [j]) (x ++ [i]) /\ ~ below (x ++ [i]) (x ++ [j])).
      { intros i j x Hij. split; intros (y & E); rewrite <- app_assoc in E; apply app_inv_head in E; injection E as E _; congruence. }
      assert (NV : forall i p, V p -> ~ below ((0 :: ds) ++ [i]) p /\ ~ below p ((0 :: ds) ++ [i])).
      { intros i p Hp. destruct (HV p Hp) as [H1 H2]. split; [intros X; apply H1; apply (below_trans _ i); exact X|].
        intros (y & E). destruct y as [|z y _] using rev_ind.
        - rewrite app_nil_r in E. subst p. apply H1. apply below_child.
        - rewrite app_assoc in E. apply app_inj_tail in E as [E _]. apply H2. exists y. exact E. }
      assert (NC : forall i j p, i <> j -> below ((0 :: ds) ++ [j]) p -> ~ below ((0 :: ds) ++ [i]) p /\ ~ below p ((0 :: ds) ++ [i])).
      { intros i j p Hij (x & ->). split; intros (y & E).
        - rewrite <- !app_assoc in E. apply app_inv_head in E. injection E as E _. congruence.
        - rewrite <- !app_assoc in E. apply app_inv_head in E. injection E as E _. congruence. }
      replace (n * (leaves_of rank a + leaves_of rank b + leaves_of rank c + leaves_of rank d) + w)
        with (n * leaves_of rank a + (n * leaves_of rank b + (n * leaves_of rank c + (n * leaves_of rank d + w)))) by lia.
      apply (IHa (ds ++ [0]) (qchild q 0) V);
        [apply (sub_child _ _ _ _ _ Es); reflexivity|apply valid_child; auto; lia|rewrite path_child by (auto; lia); rewrite Ep; reflexivity
        |cbn [qlevel qchild]; subst f; cbn [depth] in HL; lia|exact HS|intros p Hp; apply (NV 0 p Hp)|].
      intros sa Sa.
      apply (IHb (ds ++ [1]) (qchild q 1) Va);
        [apply (sub_child _ _ _ _ _ Es); reflexivity|apply valid_child; auto; lia|rewrite path_child by (auto; lia); rewrite Ep; reflexivity
        |cbn [qlevel qchild]; subst f; cbn [depth] in HL; lia|exact Sa|intros p [Hp|Hp]; [apply (NV 1 p Hp)|apply (NC 1 0 p); auto]|].
      intros sb Sb.
      apply (IHc (ds ++ [2]) (qchild q 2) Vb);
        [apply (sub_child _ _ _ _ _ Es); reflexivity|apply valid_child; auto; lia|rewrite path_child by (auto; lia); rewrite Ep; reflexivity
        |cbn [qlevel qchild]; subst f; cbn [depth] in HL; lia|exact Sb|intros p [[Hp|Hp]|Hp]; [apply (NV 2 p Hp)|apply (NC 2 0 p); auto|apply (NC 2 1 p); auto]|].
      intros sc Sc.
      apply (IHd (ds ++ [3]) (qchild q 3) Vc);
        [apply (sub_child _ _ _ _ _ Es); reflexivity|apply valid_child; auto; lia|rewrite path_child by (auto; lia); rewrite Ep; reflexivity
        |cbn [qlevel qchild]; subst f; cbn [depth] in HL; lia|exact Sc|intros p [[[Hp|Hp]|Hp]|Hp]; [apply (NV 3 p Hp)|apply (NC 3 0 p); auto|apply (NC 3 1 p); auto|apply (NC 3 2 p); auto]|].
      intros sd Sd.
      apply (cb_exact f ds q Vd sd (fun r' => k (fst r')) w); auto.
      * intros X. assert (B : forall i, ~ below ((0 :: ds) ++ [i]) (0 :: ds)).
        { intros i (y & E). apply (f_equal (@length nat)) in E. rewrite !app_length in E. cbn in E. lia. }
        destruct X as [[[[X|X]|X]|X]|X]; [apply (proj1 (HV _ X)); apply below_refl|eapply B; exact X ..].
      * intros st' bb Hs. cbn [fst]. apply Hk. apply (sane_ext _ _ _) with (2 := Hs).
        intros p [[[[[Hp|Hp]|Hp]|Hp]|Hp]|Hp]; [left; exact Hp| | | | |right; exact Hp]; right; eapply below_trans; exact Hp.
    + rewrite skip, leaves_none by exact Hr. replace (n * 0 + w) with w by lia. apply Hk.
      apply (sane_ext V); [intros; left; assumption|exact HS].
Qed.
End merge.

(** ** Calls of all ranks together *)
Lemma worlds_run {D A} size n (s s' : @config D A) : 0 < size ->
  (forall r, r < size -> s r = worlds size n (s' r)) -> (forall r, size <= r -> s' r = s r) -> runs n s s'.
Proof.
  intros Hsz. revert s; induction n as [|n IH]; intros s H1 H2.
  - constructor. intros r. destruct (Nat.lt_ge_cases r size) as [Hr|Hr]; [rewrite (H1 r Hr); reflexivity|apply H2; exact Hr].
  - apply (runs_S n s (fun r => if r <? size then worlds size n (s' r) else s r)).
    + apply (step_allreduce _ _ (world size) (fun _ => 0) (fun r _ => worlds size n (s' r))); cbn [world c_lo c_hi].
      * lia.
      * intros r [_ Hr]. rewrite (H1 r) by lia. reflexivity.
      * intros r [_ Hr]. destruct (r <? size) eqn:E; [reflexivity|apply Nat.ltb_ge in E; lia].
      * intros r Hr. destruct (r <? size) eqn:E; [|reflexivity]. apply Nat.ltb_lt in E. exfalso. apply Hr. split; lia.
    + apply IH.
      * intros r Hr. destruct (r <? size) eqn:E; [reflexivity|apply Nat.ltb_ge in E; lia].
      * intros r Hr. destruct (r <? size) eqn:E; [apply Nat.ltb_lt in E; lia|]. apply H2. exact Hr.
Qed.

(** ** One rank *)
(** The first program is the second with calls over all ranks in between. *)
Inductive with_calls {D A} (size : nat) : cmd D A -> cmd D A -> Prop :=
| wc_call k c : with_calls size k c -> with_calls size (Allreduce (world size) 0 (fun _ => k)) c
| wc_same c : with_calls size c c
| wc_allreduce c v k k' : (forall x, with_calls size (k x) (k' x)) -> with_calls size (Allreduce c v k) (Allreduce c v k')
| wc_bcast c root nd k k' : (forall x, with_calls size (k x) (k' x)) -> with_calls size (Bcast c root nd k) (Bcast c root nd k')
| wc_group lo hi k k' : with_calls size k k' -> with_calls size (Group lo hi k) (Group lo hi k').

Lemma wc_worlds {D A} size n (k c : cmd D A) : with_calls size k c -> with_calls size (worlds size n k) c.
Proof. intros H. induction n as [|n IH]; [exact H|]. cbn [worlds]. constructor. exact IH. Qed.

Section one.
Context {D S R : Type}.
Notation state := (S * nmap D)%type.
Lemma wc_lift {A B} size (m : res A) (k k' : A -> cmd D B) : (forall a, with_calls size (k a) (k' a)) ->
  with_calls size (lift m k) (lift m k').
Proof. intros H. destruct m; cbn [lift]; [apply H|constructor ..]. Qed.
Lemma wc_gather_child size rank dflt (node : qnode D) i m (k k' : nmap D * qnode D -> cmd D R) :
  (forall x, with_calls size (k x) (k' x)) ->
  with_calls size (gather_child rank dflt node i m k) (gather_child rank dflt node i m k').
Proof. intros H. unfold gather_child. destruct (mget m _); repeat (constructor; intros); apply H. Qed.
Lemma wc_sms size rank dflt fn fam (st : state) q b (k k' : state * bool -> cmd D R) :
  (forall x, with_calls size (k x) (k' x)) ->
  with_calls size (search_merge_split rank BROADCAST dflt fn fam st q b k) (search_merge_split rank BROADCAST dflt fn fam st q b k').
Proof.
  intros H. unfold search_merge_split, visit_family. destruct (mget (snd st) (quadrant_path q)) as [node|]; [|constructor].
  destruct b; destruct (in_range rank (n_pfirst node) (n_plast node)); try apply H.
  - apply wc_lift. intros a. apply H.
  - destruct (Nat.eqb _ _).
    + destruct (local_children node (snd st)) as [[|] [|] [|] [|]]; try constructor. apply wc_lift. intros. apply H.
    + unfold gather. repeat (apply wc_gather_child; intros). apply wc_lift. intros. apply H.
Qed.
Definition grows (size : nat) (cb cb' : @callback D S R) : Prop :=
  forall st q b k k', (forall x, with_calls size (k x) (k' x)) -> with_calls size (cb st q b k) (cb' st q b k').
Lemma grows_calls size n rank dflt fn fam :
  grows size (leaf_calls size n (search_merge_split rank BROADCAST dflt fn fam)) (search_merge_split rank BROADCAST dflt fn fam).
Proof.
  intros st q b k k' H. unfold leaf_calls. destruct b; [apply wc_worlds|]; apply wc_sms; exact H.
Qed.
Lemma grows_none size : grows size no_callback no_callback.
Proof. intros st q b k k' H. apply H. Qed.
Lemma wc_search size rank pre pre' post post' : grows size pre pre' -> grows size post post' ->
  forall f q (st : state) k k', (forall x, with_calls size (k x) (k' x)) ->
  with_calls size (search_reorder rank pre post f q st k) (search_reorder rank pre' post' f q st k').
Proof.
  intros H1 H2. induction f as [o|a IHa b IHb c IHc d IHd]; intros q st k k' H; cbn [search_reorder].
  - destruct (has_local rank _); [|apply H]. apply H1. intros x. destruct (snd x); [|apply H]. apply H2. intros y. apply H.
  - destruct (has_local rank _); [|apply H]. apply H1. intros x. destruct (snd x); [|apply H].
    apply IHa. intros s1. apply IHb. intros s2. apply IHc. intros s3. apply IHd. intros s4. apply H2. intros y. apply H.
Qed.
Lemma wc_stage size n rank dflt F g (st : state) (k k' : state -> cmd D R) : (forall x, with_calls size (k x) (k' x)) ->
  with_calls size (run_stage_w size n rank dflt F g st k) (run_stage rank dflt F g st k').
Proof.
  intros H. destruct g as [fn fam|fn fam|h]; cbn [run_stage_w run_stage].
  - apply wc_search; auto using grows_none, grows_calls.
  - apply wc_search; auto using grows_none, grows_calls.
  - destruct (mget (snd st) [0]); [|constructor]. apply wc_lift. intros a. apply H.
Qed.
Lemma wc_stages size rank dflt F l : forall (st : state) (k k' : state -> cmd D R), (forall x, with_calls size (k x) (k' x)) ->
  with_calls size (run_stages_w size rank dflt F l st k) (run_stages rank dflt F (map snd l) st k').
Proof.
  induction l as [|[n g] l IH]; intros st k k' H; cbn [run_stages_w run_stages map snd]; [apply H|].
  apply wc_stage. intros x. apply IH. exact H.
Qed.
End one.

(** A single rank never waits. *)
Lemma alone_run {D A} (c c' : cmd D A) x : with_calls 1 c c' -> c' = Fin x ->
  forall s : @config D A, s 0 = c -> exists n s', runs n s s' /\ s' 0 = Fin x /\ forall r, r <> 0 -> s' r = s r.
Proof.
  induction 1 as [k c _ IH| | | |]; intros E s Hs; try discriminate E.
  - set (s1 := fun r => if Nat.eqb r 0 then k else s r).
    destruct (IH E s1 eq_refl) as (n & s' & R1 & R2 & R3).
    exists (Datatypes.S n), s'. split; [|split; [exact R2|]].
    + apply (runs_S n s s1 s'); [|exact R1].
      apply (step_allreduce _ _ (world 1) (fun _ => 0) (fun _ _ => k)); cbn [world c_lo c_hi].
      * lia.
      * intros r [_ Hr]. replace r with 0 by (cbn in Hr; lia). exact Hs.
      * intros r [_ Hr]. replace r with 0 by (cbn in Hr; lia). reflexivity.
      * intros r Hr. unfold s1. destruct (Nat.eqb_spec r 0) as [->|]; [exfalso; apply Hr; split; cbn; lia|reflexivity].
    + intros r Hr. rewrite (R3 r Hr). unfold s1. destruct (Nat.eqb_spec r 0); congruence.
  - exists 0, s. split; [constructor; reflexivity|]. split; [congruence|reflexivity].
Qed.
