(** A complete run of merge and split on all ranks: callbacks and traversals. *)
From Verif Require Import Base VectorModel MatrixModel HPSModel TreeModel TreeSpec TreeProofs TreeCtor
  TreeOrder TreeMap TreeOrder2 ParModel ParSpec ParProofs ParRun.

Section search.
Context {D S R : Type} (F : forest) (dflt : D).
Hypothesis HC : contiguous F.
Hypothesis HG : gapless F.
Variable fn : S -> qnode D -> res (S * D * bool).
Variable fam : S -> qnode D -> four (qnode D) -> res (S * D * four D * bool).
Variable gl : path -> D -> res D.
Variable gf : path -> D -> four D -> res (D * four D * bool).
Hypothesis Hfn : leaf_fun fn gl.
Hypothesis Hfam : family_fun fam gf.
(** What the callbacks did to what they captured. *)
Variable T : S -> log -> S -> Prop.
Hypothesis T_nil : forall s, T s [] s.
Hypothesis T_app : forall s1 l1 s2 l2 s3, T s1 l1 s2 -> T s2 l2 s3 -> T s1 (l1 ++ l2) s3.
Hypothesis T_fn : forall s n s' d c, fn s n = Ok (s', d, c) -> T s [(n_path n, c)] s'.
Hypothesis T_fam : forall s n ch s' d ds c, fam s n ch = Ok (s', d, ds, c) -> T s [(n_path n, c)] s'.

Definition fn_out (s : S) (n : qnode D) : S * bool :=
  match fn s n with Ok (s', _, c) => (s', c) | _ => (s, true) end.
Definition fam_out (s : S) (n : qnode D) (ch : four (qnode D)) : S :=
  match fam s n ch with Ok (s', _, _, _) => s' | _ => s end.
Lemma fn_eq s n d : gl (n_path n) (n_data n) = Ok d -> fn s n = Ok (fst (fn_out s n), d, snd (fn_out s n)).
Proof. intros E. unfold fn_out. specialize (Hfn s n). rewrite E in Hfn. destruct Hfn as (s' & c & ->). reflexivity. Qed.
Lemma fam_eq s n ch g : gf (n_path n) (n_data n) (fmap n_data ch) = Ok g ->
  fam s n ch = Ok (fam_out s n ch, fst (fst g), snd (fst g), snd g).
Proof. intros E. unfold fam_out. specialize (Hfam s n ch). rewrite E in Hfam. destruct Hfam as (s' & ->). reflexivity. Qed.

Definition kids (e : path -> D) (p : path) : four D := Four (e (p ++ [0])) (e (p ++ [1])) (e (p ++ [2])) (e (p ++ [3])).
(** The new environment and the returned value. *)
Definition env_cb (f : forest) (p : path) (e : path -> D) : res ((path -> D) * bool) :=
  match f with
  | FLeaf _ => d <- gl p (e p) ;; Ok (upd e p d, true)
  | FNode _ _ _ _ => g <- gf p (e p) (kids e p) ;; Ok (upd_family e p (fst (fst g)) (snd (fst g)), snd g)
  end.

Notation state := (S * nmap D)%type.
Notation cb := (fun r => search_merge_split (R := R) r BROADCAST dflt fn fam).

Lemma env_outside f p e x k : env_cb f p e = Ok x -> outside p k -> fst x k = e k.
Proof.
  intros E H. assert (Hk : k <> p) by (intros ->; apply (H []); rewrite app_nil_r; reflexivity).
  destruct f; cbn [env_cb] in E; apply bind_inv in E as (y & _ & Ey); injection Ey as <-; cbn [fst].
  - apply upd_neq. congruence.
  - apply upd_family_other; auto.
Qed.

(** All ranks of the quadrant call the callback: it completes. *)
Definition cb_goal (f : forest) (ds : list nat) (st : nat -> state) (e : path -> D) (x : (path -> D) * bool)
  (k : nat -> state * bool -> cmd D R) (s : @config D R) : Prop :=
  exists n s' st' b, runs n s s' /\
    (forall r, coh F r (fst x) (snd (st' r))) /\
    (forall r, In r (owners f) -> s' r = k r (st' r, b r) /\ T (fst (st r)) [(0 :: ds, b r)] (fst (st' r))) /\
    (forall r, ~ In r (owners f) -> s' r = s r /\ st' r = st r) /\
    (pfirst f = plast f -> n = 0) /\
    (flag f = false -> forall r, In r (owners f) -> b r = snd x).

Lemma cb_run_leaf o ds q st e x k s : env_cb (FLeaf o) (0 :: ds) e = Ok x -> sub F ds = Some (FLeaf o) -> quadrant_path q = 0 :: ds ->
  (forall r, coh F r e (snd (st r))) ->
  (forall r, In r (owners (FLeaf o)) -> s r = cb r (st r) q true (k r)) ->
  cb_goal (FLeaf o) ds st e x k s.
Proof.
  intros Ex Es Ep HCo Hs. pose proof Ex as Ed. cbn [env_cb] in Ed. apply bind_inv in Ed as (d & Ed & Ex'). injection Ex' as <-.
  assert (Ho : In o (owners (FLeaf o))) by (left; reflexivity).
  pose proof (HCo o) as [NM HD]. pose proof (NM ds _ Es) as X. cbn [pfirst plast owners hd last] in X.
  rewrite (proj2 (own_range o o) eq_refl) in X. destruct X as (n & En & P1 & P2 & P3 & P4 & P5).
  set (sc := fn_out (fst (st o)) n).
  set (st' := fun r => if Nat.eqb r o then (fst sc, mset (snd (st o)) (0 :: ds) (Some (set_ndata n d))) else st r).
  assert (Hd : n_data n = e (0 :: ds)) by (apply HD; [congruence|exact En]).
  exists 0, s, st', (fun _ => snd sc).
  split; [constructor; reflexivity|]. split; [|split; [|split; [|split]]].
  - intros r. unfold st'. destruct (Nat.eqb r o) eqn:Ero.
    + apply Nat.eqb_eq in Ero. subst r. cbn [snd fst]. apply coh_leaf; auto. congruence.
    + apply (coh_outside F HC r e _ _ ds (FLeaf o)); auto.
      * destruct (in_range r (pfirst (FLeaf o)) (plast (FLeaf o))) eqn:X; [|reflexivity].
        cbn in X. apply own_range in X. subst r. rewrite Nat.eqb_refl in Ero. discriminate.
      * intros k0. apply (env_outside (FLeaf o) (0 :: ds) e _ k0 Ex).
  - intros r [<-|[]]. unfold st'. rewrite Nat.eqb_refl. rewrite (Hs o Ho). cbn [fst]. split.
    + unfold search_merge_split. rewrite Ep. unfold mget. rewrite En, P3, P4. cbn [pfirst plast owners hd last].
      rewrite (proj2 (own_range o o) eq_refl). rewrite (fn_eq _ n d) by (rewrite P1, Hd; exact Ed). cbn [lift fst snd]. fold sc. reflexivity.
    + rewrite <- P1. apply (T_fn _ _ _ d). unfold sc. apply fn_eq. rewrite P1, Hd. exact Ed.
  - intros r Hr. split; [reflexivity|]. unfold st'. destruct (Nat.eqb r o) eqn:Ero; [|reflexivity].
    apply Nat.eqb_eq in Ero. subst r. contradiction.
  - reflexivity.
  - discriminate.
Qed.

Lemma family_visited (node : qnode D) ds (ch : four (qnode D)) (m : nmap D) s0 (kk : state * bool -> cmd D R) e g :
  gf (0 :: ds) (e (0 :: ds)) (kids e (0 :: ds)) = Ok g -> n_path node = 0 :: ds -> n_data node = e (0 :: ds) -> fmap n_data ch = kids e (0 :: ds) ->
  visit_family fam (0 :: ds) s0 m node ch kk
  = kk ((fam_out s0 node ch, family_map m (0 :: ds) node (fst (fst g)) (snd (fst g))), snd g).
Proof.
  intros Eg Ep Ed Ek. unfold visit_family. rewrite (fam_eq _ node ch g) by (rewrite Ed, Ek, Ep; exact Eg). cbn [lift fst snd].
  unfold family_map. rewrite Ep. reflexivity.
Qed.

Lemma cb_run_node a b c d ds q st e x k s : let f := FNode a b c d in
  env_cb f (0 :: ds) e = Ok x ->
  sub F ds = Some f -> quadrant_path q = 0 :: ds ->
  (forall r, coh F r e (snd (st r))) ->
  (forall r, In r (owners f) -> s r = cb r (st r) q false (k r)) ->
  cb_goal f ds st e x k s.
Proof.
  intros f Ex Es Ep HCo Hs. pose proof Ex as Eg. cbn [env_cb f] in Eg. apply bind_inv in Eg as (g & Eg & Ex'). injection Ex' as <-.
  assert (C : contiguous f) by (apply (contiguous_sub F ds); auto).
  assert (MEM : forall r, In r (owners f) <-> member (pfirst f) (plast f) r).
  { intros r. rewrite <- (range_owners F HC HG ds f r Es). apply in_range_iff. }
  set (node := fun r => match snd (st r) (0 :: ds) with Some n => n | None => QNode dflt [] 0 0 0 false end).
  assert (ND : forall r, In r (owners f) -> snd (st r) (0 :: ds) = Some (node r) /\ n_path (node r) = 0 :: ds /\
            n_pfirst (node r) = pfirst f /\ n_plast (node r) = plast f /\ n_data (node r) = e (0 :: ds)).
  { intros r Hr. destruct (HCo r) as [NM HD]. pose proof (NM ds f Es) as X.
    rewrite (proj2 (range_owners F HC HG ds f r Es) Hr) in X.
    destruct X as (n & En & P1 & P2 & P3 & P4 & P5). unfold node. rewrite En.
    repeat split; auto. apply HD; [congruence|exact En]. }
  assert (OUT : forall r, ~ In r (owners f) -> coh F r (upd_family e (0 :: ds) (fst (fst g)) (snd (fst g))) (snd (st r))).
  { intros r Hr. apply (coh_outside F HC r e _ _ ds f); auto.
    - destruct (in_range r (pfirst f) (plast f)) eqn:X; [|reflexivity].
      apply (range_owners F HC HG ds f r Es) in X. contradiction.
    - intros k0. apply (env_outside f (0 :: ds) e _ k0 Ex). }
  destruct (Nat.eq_dec (pfirst f) (plast f)) as [Eo|Eo].
  - set (o := pfirst f) in *.
    assert (ONE : forall r, In r (owners f) <-> r = o).
    { intros r. rewrite MEM. unfold member. rewrite <- Eo. lia. }
    assert (Ho : In o (owners f)) by (apply ONE; reflexivity).
    destruct (ND o Ho) as (N1 & N2 & N3 & N4 & N5).
    assert (KID : forall i g', fchild f i = Some g' -> exists n, snd (st o) (0 :: ds ++ [i]) = Some n /\ n_data n = e (0 :: ds ++ [i])).
    { intros i g' Egi. destruct (HCo o) as [NM HD].
      assert (Es' : sub F (ds ++ [i]) = Some g') by (apply (sub_child F ds f); auto).
      pose proof (NM _ _ Es') as X.
      assert (C' : contiguous g') by (apply (contiguous_sub F (ds ++ [i])); auto).
      pose proof (range_child f i g' (pfirst g') C Egi (first_in_range g' C')) as X1.
      apply in_range_iff in X1. fold o in X1. rewrite <- Eo in X1.
      assert (Hp : pfirst g' = o) by lia.
      pose proof (first_in_range g' C') as X2. rewrite Hp in X2 at 1. rewrite X2 in X.
      destruct X as (n & En & _). exists n. split; [exact En|]. apply (HD (ds ++ [i])); [congruence|exact En]. }
    destruct (KID 0 a eq_refl) as (n0 & K0 & D0). destruct (KID 1 b eq_refl) as (n1 & K1 & D1).
    destruct (KID 2 c eq_refl) as (n2 & K2 & D2). destruct (KID 3 d eq_refl) as (n3 & K3 & D3).
    set (ch := Four n0 n1 n2 n3).
    set (st' := fun r => if Nat.eqb r o then (fam_out (fst (st o)) (node o) ch, family_map (snd (st o)) (0 :: ds) (node o) (fst (fst g)) (snd (fst g))) else st r).
    assert (CHD : fmap n_data ch = kids e (0 :: ds)).
    { unfold fmap, ch, kids. cbn [fa fb fc fd app]. rewrite D0, D1, D2, D3. reflexivity. }
    exists 0, s, st', (fun _ => snd g).
    split; [constructor; reflexivity|]. split; [|split; [|split; [|split]]].
    + intros r. unfold st'. destruct (Nat.eqb r o) eqn:Ero.
      * apply Nat.eqb_eq in Ero. subst r. cbn [snd fst]. apply coh_family; auto. congruence.
      * apply OUT. intros X. apply ONE in X. subst r. rewrite Nat.eqb_refl in Ero. discriminate.
    + intros r Hr. apply ONE in Hr. subst r. unfold st'. rewrite Nat.eqb_refl. rewrite (Hs o Ho). cbn [fst]. split.
      * unfold search_merge_split. rewrite Ep. unfold mget. rewrite N1, N3, N4.
        pose proof (first_in_range f C) as X. fold o in X. fold o. rewrite X. clear X.
        replace (Nat.eqb o (plast f)) with true by (symmetry; apply Nat.eqb_eq; exact Eo).
        unfold local_children, mget. rewrite N2. cbn [app]. rewrite K0, K1, K2, K3.
        apply (family_visited _ _ _ _ _ _ e); auto.
      * rewrite <- N2. apply (T_fam _ _ ch _ (fst (fst g)) (snd (fst g))). apply fam_eq. rewrite N5, CHD, N2. exact Eg.
    + intros r Hr. split; [reflexivity|]. unfold st'. destruct (Nat.eqb r o) eqn:Ero; [|reflexivity].
      apply Nat.eqb_eq in Ero. subst r. contradiction.
    + reflexivity.
    + reflexivity.
  - destruct (gather_run F dflt HC ds a b c d e node (fun r => snd (st r))
      (fun r x => visit_family fam (0 :: ds) (fst (st r)) (fst x) (node r) (snd x) (k r)) s Es)
      as (ch & m' & s' & RUN & CHD & M & O).
    { intros r Hr. fold f in Hr. apply MEM in Hr. destruct (ND r Hr) as (N1 & N2 & N3 & N4 & N5).
      split; [apply HCo|]. split; [exact N2|]. split; [exact N3|]. split; [exact N4|].
      rewrite (Hs r Hr). unfold search_merge_split. rewrite Ep. unfold mget. rewrite N1, N3, N4.
      rewrite (proj2 (range_owners F HC HG ds f r Es) Hr).
      replace (Nat.eqb (pfirst f) (plast f)) with false by (symmetry; apply Nat.eqb_neq; exact Eo).
      reflexivity. }
    fold f in M, O.
    set (st' := fun r => if has_local r f then (fam_out (fst (st r)) (node r) ch, family_map (m' r) (0 :: ds) (node r) (fst (fst g)) (snd (fst g))) else st r).
    assert (STI : forall r, In r (owners f) -> st' r = (fam_out (fst (st r)) (node r) ch, family_map (m' r) (0 :: ds) (node r) (fst (fst g)) (snd (fst g)))).
    { intros r Hr. unfold st'. apply has_local_iff in Hr. rewrite Hr. reflexivity. }
    assert (STO : forall r, ~ In r (owners f) -> st' r = st r).
    { intros r Hr. unfold st'. destruct (has_local r f) eqn:X; [apply has_local_iff in X; contradiction|reflexivity]. }
    exists 8, s', st', (fun _ => snd g).
    split; [exact RUN|]. split; [|split; [|split; [|split]]].
    + intros r. destruct (has_local r f) eqn:Hr.
      * apply has_local_iff in Hr. rewrite (STI r Hr). cbn [snd fst].
        destruct (ND r Hr) as (N1 & N2 & _). destruct (M r (proj1 (MEM r) Hr)) as [M1 _].
        apply coh_family; auto; [|congruence|rewrite M1; exact N1].
        apply (coh_ext F r e (snd (st r))); auto.
      * assert (Hr' : ~ In r (owners f)) by (intros X; apply has_local_iff in X; congruence).
        rewrite (STO r Hr'). apply OUT. exact Hr'.
    + intros r Hr. rewrite (STI r Hr). destruct (ND r Hr) as (N1 & N2 & N3 & N4 & N5).
      destruct (M r (proj1 (MEM r) Hr)) as [_ M2]. rewrite M2. cbn [fst snd]. split.
      * apply (family_visited _ _ _ _ _ _ e); auto.
      * rewrite <- N2. apply (T_fam _ _ ch _ (fst (fst g)) (snd (fst g))). apply fam_eq.
        replace (fmap n_data ch) with (kids e (0 :: ds)) by (symmetry; exact CHD). rewrite N5, N2. exact Eg.
    + intros r Hr. split; [apply O; rewrite <- MEM; exact Hr|apply STO; exact Hr].
    + intros X. contradiction.
    + reflexivity.
Qed.

Lemma cb_run f ds q st e x k s : env_cb f (0 :: ds) e = Ok x -> sub F ds = Some f -> quadrant_path q = 0 :: ds ->
  (forall r, coh F r e (snd (st r))) ->
  (forall r, In r (owners f) -> s r = cb r (st r) q (flag f) (k r)) ->
  cb_goal f ds st e x k s.
Proof.
  intros Ex Es Ep HCo Hs. destruct f as [o|a b c d].
  - apply (cb_run_leaf o ds q); auto.
  - apply (cb_run_node a b c d ds q); auto.
Qed.

(** ** Traversals *)
Lemma skip r pre post f q (st : state) (k : state -> cmd D R) : ~ In r (owners f) ->
  search_reorder r pre post f q st k = k st.
Proof.
  intros H. assert (E : has_local r f = false).
  { destruct (has_local r f) eqn:E; [apply has_local_iff in E; contradiction|reflexivity]. }
  destruct f; cbn [search_reorder]; rewrite E; reflexivity.
Qed.

Fixpoint env_merge (f : forest) (p : path) (e : path -> D) : res (path -> D) :=
  match f with
  | FLeaf _ => x <- env_cb f p e ;; Ok (fst x)
  | FNode a b c d =>
      e1 <- env_merge a (p ++ [0]) e ;; e2 <- env_merge b (p ++ [1]) e1 ;;
      e3 <- env_merge c (p ++ [2]) e2 ;; e4 <- env_merge d (p ++ [3]) e3 ;;
      x <- env_cb f p e4 ;; Ok (fst x)
  end.
Fixpoint env_split (f : forest) (p : path) (e : path -> D) : res (path -> D) :=
  match f with
  | FLeaf _ => x <- env_cb f p e ;; Ok (fst x)
  | FNode a b c d =>
      x <- env_cb f p e ;;
      if snd x then
        e1 <- env_split a (p ++ [0]) (fst x) ;; e2 <- env_split b (p ++ [1]) e1 ;;
        e3 <- env_split c (p ++ [2]) e2 ;; env_split d (p ++ [3]) e3
      else Ok (fst x)
  end.

Definition trav_goal (vis : nat -> forest -> list (list nat * bool) -> Prop)
  (f : forest) (ds : list nat) (st : nat -> state) (e' : path -> D)
  (k : nat -> state -> cmd D R) (s : @config D R) : Prop :=
  exists n s' st', runs n s s' /\
    (forall r, coh F r e' (snd (st' r))) /\
    (forall r, In r (owners f) -> s' r = k r (st' r)) /\
    (forall r, ~ In r (owners f) -> s' r = s r /\ st' r = st r) /\
    (forall r, exists l, vis r f l /\ T (fst (st r)) (shift (0 :: ds) l) (fst (st' r))) /\
    (pfirst f = plast f -> n = 0).

Ltac child_hyps Es :=
  first [ assumption
        | apply (sub_child _ _ _ _ _ Es); reflexivity
        | apply valid_child; [assumption|cbn [depth] in *; lia|lia]
        | rewrite path_child by (try assumption; cbn [depth] in *; lia); match goal with H : quadrant_path _ = _ |- _ => rewrite H end; reflexivity
        | cbn [depth qlevel qchild] in *; lia ].

Definition merge_prog (f : forest) (q : quadrant) (r : nat) (st : state) (k : state -> cmd D R) : cmd D R :=
  search_reorder r no_callback (cb r) f q st k.
Definition split_prog (f : forest) (q : quadrant) (r : nat) (st : state) (k : state -> cmd D R) : cmd D R :=
  search_reorder r (cb r) no_callback f q st k.

Definition trav_all (prog : forest -> quadrant -> nat -> state -> (state -> cmd D R) -> cmd D R)
  (vis : nat -> forest -> list (list nat * bool) -> Prop) (E : forest -> path -> (path -> D) -> res (path -> D)) (f : forest) : Prop :=
  forall ds q st e e' k s, E f (0 :: ds) e = Ok e' -> sub F ds = Some f -> valid_quadrant q -> quadrant_path q = 0 :: ds ->
  qlevel q + depth f <= qmaxlevel -> (forall r, coh F r e (snd (st r))) ->
  (forall r, In r (owners f) -> s r = prog f q r (st r) (k r)) -> trav_goal vis f ds st e' k s.

(** The four children one after the other, seen from all ranks of the parent. *)
Lemma four_children prog vis E a b c d ds q st e e1 e2 e3 e4 k s :
  E a (0 :: ds ++ [0]) e = Ok e1 -> E b (0 :: ds ++ [1]) e1 = Ok e2 ->
  E c (0 :: ds ++ [2]) e2 = Ok e3 -> E d (0 :: ds ++ [3]) e3 = Ok e4 ->
  (forall f q r st k, ~ In r (owners f) -> prog f q r st k = k st) ->
  trav_all prog vis E a -> trav_all prog vis E b -> trav_all prog vis E c -> trav_all prog vis E d ->
  sub F ds = Some (FNode a b c d) -> valid_quadrant q -> quadrant_path q = 0 :: ds ->
  qlevel q + depth (FNode a b c d) <= qmaxlevel -> (forall r, coh F r e (snd (st r))) ->
  (forall r, In r (owners (FNode a b c d)) ->
     s r = prog a (qchild q 0) r (st r) (fun st1 => prog b (qchild q 1) r st1 (fun st2 =>
           prog c (qchild q 2) r st2 (fun st3 => prog d (qchild q 3) r st3 (k r))))) ->
  exists n s' st', runs n s s' /\
    (forall r, coh F r e4 (snd (st' r))) /\
    (forall r, In r (owners (FNode a b c d)) -> s' r = k r (st' r)) /\
    (forall r, ~ In r (owners (FNode a b c d)) -> s' r = s r /\ st' r = st r) /\
    (forall r, exists la lb lc ld, vis r a la /\ vis r b lb /\ vis r c lc /\ vis r d ld /\
       T (fst (st r)) (shift (0 :: ds) (down 0 la ++ down 1 lb ++ down 2 lc ++ down 3 ld)) (fst (st' r))) /\
    (pfirst (FNode a b c d) = plast (FNode a b c d) -> n = 0).
Proof.
  intros Q1 Q2 Q3 Q4 SK Ha Hb Hc Hd Es V Ep HL HCo Hs.
  assert (SUBO : forall i g r, fchild (FNode a b c d) i = Some g -> In r (owners g) -> In r (owners (FNode a b c d))).
  { intros i g r. apply owners_child. }
  assert (STEP : forall g (X : forest -> quadrant -> nat -> state -> (state -> cmd D R) -> cmd D R) qq st0 st1 kk s0 s1,
     X = prog ->
     (forall r, In r (owners (FNode a b c d)) -> s0 r = X g qq r (st0 r) (kk r)) ->
     (forall r, In r (owners g) -> s1 r = kk r (st1 r)) ->
     (forall r, ~ In r (owners g) -> s1 r = s0 r /\ st1 r = st0 r) ->
     forall r, In r (owners (FNode a b c d)) -> s1 r = kk r (st1 r)).
  { intros g X qq st0 st1 kk s0 s1 -> H0 H1 H2 r Hr. destruct (has_local r g) eqn:Hl.
    - apply has_local_iff in Hl. auto.
    - assert (Hl' : ~ In r (owners g)) by (intros Y; apply has_local_iff in Y; congruence).
      destruct (H2 r Hl') as [-> ->]. rewrite (H0 r Hr). apply SK. exact Hl'. }
  set (k3 := fun r st3 => prog d (qchild q 3) r st3 (k r)).
  set (k2 := fun r st2 => prog c (qchild q 2) r st2 (k3 r)).
  set (k1 := fun r st1 => prog b (qchild q 1) r st1 (k2 r)).
  destruct (Ha (ds ++ [0]) (qchild q 0) st e e1 k1 s) as (na & s1 & st1 & R1 & C1 & I1 & O1 & V1 & Z1); [child_hyps Es ..| |].
  { intros r Hr. apply Hs. apply (SUBO 0 a); auto. }
  pose proof (STEP a prog (qchild q 0) st st1 k1 s s1 eq_refl Hs I1 O1) as S1.
  destruct (Hb (ds ++ [1]) (qchild q 1) st1 e1 e2 k2 s1) as (nb & s2 & st2 & R2 & C2 & I2 & O2 & V2 & Z2); [child_hyps Es ..| |].
  { intros r Hr. apply S1. apply (SUBO 1 b); auto. }
  pose proof (STEP b prog (qchild q 1) st1 st2 k2 s1 s2 eq_refl S1 I2 O2) as S2.
  destruct (Hc (ds ++ [2]) (qchild q 2) st2 e2 e3 k3 s2) as (nc & s3 & st3 & R3 & C3 & I3 & O3 & V3 & Z3); [child_hyps Es ..| |].
  { intros r Hr. apply S2. apply (SUBO 2 c); auto. }
  pose proof (STEP c prog (qchild q 2) st2 st3 k3 s2 s3 eq_refl S2 I3 O3) as S3.
  destruct (Hd (ds ++ [3]) (qchild q 3) st3 e3 e4 k s3) as (nd & s4 & st4 & R4 & C4 & I4 & O4 & V4 & Z4); [child_hyps Es ..| |].
  { intros r Hr. apply S3. apply (SUBO 3 d); auto. }
  pose proof (STEP d prog (qchild q 3) st3 st4 k s3 s4 eq_refl S3 I4 O4) as S4.
  exists (na + (nb + (nc + nd))), s4, st4. split; [|split; [exact C4|split; [exact S4|split; [|split]]]].
  - apply (runs_app na _ s s1 s4); auto. apply (runs_app nb _ s1 s2 s4); auto. apply (runs_app nc _ s2 s3 s4); auto.
  - intros r Hr.
    assert (NI : forall i g, fchild (FNode a b c d) i = Some g -> ~ In r (owners g)) by (intros i g Eg X; apply Hr; apply (SUBO i g); auto).
    destruct (O4 r (NI 3 d eq_refl)) as [-> ->]. destruct (O3 r (NI 2 c eq_refl)) as [-> ->].
    destruct (O2 r (NI 1 b eq_refl)) as [-> ->]. apply (O1 r (NI 0 a eq_refl)).
  - intros r. destruct (V1 r) as (la & Ea & Ta). destruct (V2 r) as (lb & Eb & Tb).
    destruct (V3 r) as (lc & Ec & Tc). destruct (V4 r) as (ld & Ed & Td).
    exists la, lb, lc, ld. split; [exact Ea|]. split; [exact Eb|]. split; [exact Ec|]. split; [exact Ed|].
    rewrite !shift_app, !shift_down. cbn [app].
    apply (T_app _ _ (fst (st1 r))); auto. apply (T_app _ _ (fst (st2 r))); auto. apply (T_app _ _ (fst (st3 r))); auto.
  - intros Eq. assert (C : contiguous (FNode a b c d)) by (apply (contiguous_sub F ds); auto).
    assert (ONE : forall i g, fchild (FNode a b c d) i = Some g -> pfirst g = plast g).
    { intros i g Eg. destruct (all_owned (FNode a b c d) (pfirst (FNode a b c d)) [i] g C eq_refl (eq_sym Eq)) as [-> ->]; [|reflexivity].
      cbn [sub]. rewrite Eg. reflexivity. }
    rewrite (Z1 (ONE 0 a eq_refl)), (Z2 (ONE 1 b eq_refl)), (Z3 (ONE 2 c eq_refl)), (Z4 (ONE 3 d eq_refl)). reflexivity.
Qed.

Lemma local_eq r f : In r (owners f) -> has_local r f = true.
Proof. intros H. apply has_local_iff. exact H. Qed.

Lemma merge_run f : trav_all merge_prog post_rel env_merge f.
Proof.
  induction f as [o|a IHa b IHb c IHc d IHd]; intros ds q st e e' k s Ee Es V Ep HL HCo Hs.
  - cbn [env_merge] in Ee. apply bind_inv in Ee as (xx & Ex & Ee). injection Ee as <-.
    destruct (cb_run (FLeaf o) ds q st e xx (fun r x => k r (fst x)) s Ex Es Ep HCo) as (n & s' & st' & b & RUN & C' & I' & O' & Z' & _).
    { intros r Hr. rewrite (Hs r Hr). unfold merge_prog. cbn [search_reorder]. rewrite (local_eq r _ Hr). reflexivity. }
    exists n, s', st'. split; [exact RUN|]. split; [exact C'|]. split; [intros r Hr; apply (I' r Hr)|].
    split; [exact O'|]. split; [|exact Z']. intros r. destruct (has_local r (FLeaf o)) eqn:Hl.
    + apply has_local_iff in Hl. exists [([], b r)]. split; [apply post_rel_leaf; exact Hl|].
      unfold shift. cbn [map fst snd]. rewrite app_nil_r. apply (I' r Hl).
    + assert (Hl' : ~ In r (owners (FLeaf o))) by (intros Y; apply has_local_iff in Y; congruence).
      exists []. split; [apply post_rel_empty; exact Hl'|]. destruct (O' r Hl') as [_ ->]. apply T_nil.
  - set (f := FNode a b c d) in *.
    cbn [env_merge f] in Ee. apply bind_inv in Ee as (e1 & Q1 & Ee). apply bind_inv in Ee as (e2 & Q2 & Ee).
    apply bind_inv in Ee as (e3 & Q3 & Ee). apply bind_inv in Ee as (e4 & Q4 & Ee).
    apply bind_inv in Ee as (xx & Ex & Ee). injection Ee as <-.
    destruct (four_children merge_prog post_rel env_merge a b c d ds q st e e1 e2 e3 e4
      (fun r st4 => cb r st4 q false (fun x => k r (fst x))) s) as (n & s1 & st1 & R1 & C1 & I1 & O1 & V1 & Z1); auto.
    { intros. apply skip. assumption. }
    { intros r Hr. rewrite (Hs r Hr). unfold merge_prog at 1. cbn [search_reorder f]. fold f. rewrite (local_eq r f Hr). reflexivity. }
    destruct (cb_run f ds q st1 e4 xx (fun r x => k r (fst x)) s1 Ex Es Ep C1) as (n2 & s2 & st2 & x & R2 & C2 & I2 & O2 & Z2 & _).
    { exact I1. }
    exists (n + n2), s2, st2. split; [apply (runs_app n n2 s s1 s2); auto|]. split; [exact C2|].
    split; [intros r Hr; apply (I2 r Hr)|]. split; [|split].
    + intros r Hr. destruct (O2 r Hr) as [-> ->]. apply O1. exact Hr.
    + intros r. destruct (has_local r f) eqn:Hl.
      * apply has_local_iff in Hl. destruct (V1 r) as (la & lb & lc & ld & Ea & Eb & Ec & Ed & T1).
        exists (down 0 la ++ down 1 lb ++ down 2 lc ++ down 3 ld ++ [([], x r)]).
        split; [apply post_rel_node; auto|].
        replace (down 0 la ++ down 1 lb ++ down 2 lc ++ down 3 ld ++ [([], x r)])
          with ((down 0 la ++ down 1 lb ++ down 2 lc ++ down 3 ld) ++ [([], x r)]) by (rewrite <- !app_assoc; reflexivity).
        rewrite shift_app. apply (T_app _ _ (fst (st1 r))); auto.
        unfold shift. cbn [map fst snd]. rewrite app_nil_r. apply (I2 r Hl).
      * assert (Hl' : ~ In r (owners f)) by (intros Y; apply has_local_iff in Y; congruence).
        exists []. split; [apply post_rel_empty; exact Hl'|]. destruct (O2 r Hl') as [_ ->]. destruct (O1 r Hl') as [_ ->]. apply T_nil.
    + intros Eq. rewrite (Z1 Eq), (Z2 Eq). reflexivity.
Qed.

Lemma split_run f : trav_all split_prog pre_rel env_split f.
Proof.
  induction f as [o|a IHa b IHb c IHc d IHd]; intros ds q st e e' k s Ee Es V Ep HL HCo Hs.
  - cbn [env_split] in Ee. apply bind_inv in Ee as (xx & Ex & Ee). injection Ee as <-.
    destruct (cb_run (FLeaf o) ds q st e xx (fun r x => if snd x then no_callback (fst x) q true (fun r' => k r (fst r')) else k r (fst x)) s Ex Es Ep HCo) as (n & s' & st' & b & RUN & C' & I' & O' & Z' & _).
    { intros r Hr. rewrite (Hs r Hr). unfold split_prog. cbn [search_reorder]. rewrite (local_eq r _ Hr). reflexivity. }
    exists n, s', st'. split; [exact RUN|]. split; [exact C'|].
    split; [intros r Hr; destruct (I' r Hr) as [-> _]; cbn [fst snd]; destruct (b r); reflexivity|].
    split; [exact O'|]. split; [|exact Z']. intros r. destruct (has_local r (FLeaf o)) eqn:Hl.
    + apply has_local_iff in Hl. exists [([], b r)]. split; [apply pre_rel_leaf; exact Hl|].
      unfold shift. cbn [map fst snd]. rewrite app_nil_r. apply (I' r Hl).
    + assert (Hl' : ~ In r (owners (FLeaf o))) by (intros Y; apply has_local_iff in Y; congruence).
      exists []. split; [apply pre_rel_empty; exact Hl'|]. destruct (O' r Hl') as [_ ->]. apply T_nil.
  - set (f := FNode a b c d) in *.
    cbn [env_split f] in Ee. apply bind_inv in Ee as (xx & Ex & Ee).
    destruct (cb_run f ds q st e xx
      (fun r x => if snd x then
         split_prog a (qchild q 0) r (fst x) (fun st1 => split_prog b (qchild q 1) r st1 (fun st2 =>
         split_prog c (qchild q 2) r st2 (fun st3 => split_prog d (qchild q 3) r st3 (k r)))) else k r (fst x)) s Ex Es Ep HCo)
      as (n & s1 & st1 & x & R1 & C1 & I1 & O1 & Z1 & X1).
    { intros r Hr. rewrite (Hs r Hr). unfold split_prog at 1. cbn [search_reorder f]. fold f. rewrite (local_eq r f Hr). reflexivity. }
    specialize (X1 eq_refl). destruct (snd xx) eqn:Ecc.
    + apply bind_inv in Ee as (e1 & Q1 & Ee). apply bind_inv in Ee as (e2 & Q2 & Ee). apply bind_inv in Ee as (e3 & Q3 & Q4).
      destruct (four_children split_prog pre_rel env_split a b c d ds q st1 (fst xx) e1 e2 e3 e' k s1)
        as (n2 & s2 & st2 & R2 & C2 & I2 & O2 & V2 & Z2); auto.
      { intros. apply skip. assumption. }
      { intros r Hr. destruct (I1 r Hr) as [-> _]. rewrite (X1 r Hr). reflexivity. }
      exists (n + n2), s2, st2. split; [apply (runs_app n n2 s s1 s2); auto|].
      split; [exact C2|]. split; [exact I2|]. split; [|split].
      * intros r Hr. destruct (O2 r Hr) as [-> ->]. apply O1. exact Hr.
      * intros r. destruct (has_local r f) eqn:Hl.
        -- apply has_local_iff in Hl. destruct (V2 r) as (la & lb & lc & ld & Ea & Eb & Ec & Ed & T1).
           exists (([], true) :: down 0 la ++ down 1 lb ++ down 2 lc ++ down 3 ld).
           split; [apply pre_rel_node; auto|].
           change (([], true) :: down 0 la ++ down 1 lb ++ down 2 lc ++ down 3 ld)
             with ([([], true)] ++ (down 0 la ++ down 1 lb ++ down 2 lc ++ down 3 ld)).
           rewrite shift_app. apply (T_app _ _ (fst (st1 r))); auto.
           unfold shift. cbn [map fst snd]. rewrite app_nil_r. rewrite <- (X1 r Hl). apply (I1 r Hl).
        -- assert (Hl' : ~ In r (owners f)) by (intros Y; apply has_local_iff in Y; congruence).
           exists []. split; [apply pre_rel_empty; exact Hl'|]. destruct (O2 r Hl') as [_ ->]. destruct (O1 r Hl') as [_ ->]. apply T_nil.
      * intros Eq. rewrite (Z1 Eq), (Z2 Eq). reflexivity.
    + injection Ee as <-. exists n, s1, st1. split; [exact R1|]. split; [exact C1|].
      split; [intros r Hr; destruct (I1 r Hr) as [-> _]; rewrite (X1 r Hr); reflexivity|].
      split; [exact O1|]. split; [|exact Z1]. intros r. destruct (has_local r f) eqn:Hl.
      * apply has_local_iff in Hl. exists [([], false)]. split; [apply pre_rel_stop; exact Hl|].
        unfold shift. cbn [map fst snd]. rewrite app_nil_r. rewrite <- (X1 r Hl). apply (I1 r Hl).
      * assert (Hl' : ~ In r (owners f)) by (intros Y; apply has_local_iff in Y; congruence).
        exists []. split; [apply pre_rel_empty; exact Hl'|]. destruct (O1 r Hl') as [_ ->]. apply T_nil.
Qed.
End search.
