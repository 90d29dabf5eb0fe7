(** Sequences of stages on all ranks and on one rank. *)
From Verif Require Import Base VectorModel MatrixModel HPSModel TreeModel TreeSpec TreeProofs TreeCtor
  TreeOrder TreeMap TreeOrder2 ParModel ParSpec ParProofs ParRun ParSearch.

(** ** The serial tree *)
Lemma serial_owners f o : In o (owners (serial f)) -> o = 0.
Proof.
  induction f as [x|a IHa b IHb c IHc d IHd]; cbn.
  - intros [<-|[]]. reflexivity.
  - rewrite !in_app_iff. tauto.
Qed.
Lemma serial_first f : pfirst (serial f) = 0.
Proof. apply (serial_owners f). apply pfirst_in. Qed.
Lemma serial_last f : plast (serial f) = 0.
Proof. apply (serial_owners f). apply plast_in. Qed.
Lemma serial_zero f : In 0 (owners (serial f)).
Proof. pose proof (pfirst_in (serial f)) as H. rewrite serial_first in H. exact H. Qed.
Lemma serial_gapless f : gapless (serial f).
Proof.
  intros o1 o2 r H1 H2 H. apply serial_owners in H1, H2. replace r with 0 by lia. apply serial_zero.
Qed.
Lemma serial_contiguous f : contiguous (serial f).
Proof.
  unfold contiguous. pose proof (serial_owners f) as H. revert H. generalize (owners (serial f)) as l.
  induction l as [|x l IH]; intros H; [constructor|]. constructor.
  - apply IH. intros o Ho. apply H. right. exact Ho.
  - apply Forall_forall. intros y Hy. rewrite (H x), (H y); [lia|right; exact Hy|left; reflexivity].
Qed.
Lemma serial_depth f : depth (serial f) = depth f.
Proof. induction f as [x|a IHa b IHb c IHc d IHd]; cbn; congruence. Qed.
Lemma serial_child f i : fchild (serial f) i = option_map serial (fchild f i).
Proof. destruct f; [destruct i as [|[|[|[|]]]]; reflexivity|]. destruct i as [|[|[|[|]]]]; reflexivity. Qed.
Lemma serial_sub f ds : sub (serial f) ds = option_map serial (sub f ds).
Proof.
  revert f; induction ds as [|i ds IH]; intros f; cbn [sub]; [reflexivity|].
  rewrite serial_child. destruct (fchild f i); cbn; auto.
Qed.

Section env.
Context {D : Type} (gl : path -> D -> res D) (gf : path -> D -> four D -> res (D * four D * bool)).
Lemma env_merge_serial f : forall p e, env_merge gl gf (serial f) p e = env_merge gl gf f p e.
Proof.
  induction f as [x|a IHa b IHb c IHc d IHd]; intros p e; cbn [serial env_merge]; [reflexivity|].
  rewrite IHa. destruct (env_merge gl gf a (p ++ [0]) e) as [e1| |]; cbn [bind]; try reflexivity.
  rewrite IHb. destruct (env_merge gl gf b (p ++ [1]) e1) as [e2| |]; cbn [bind]; try reflexivity.
  rewrite IHc. destruct (env_merge gl gf c (p ++ [2]) e2) as [e3| |]; cbn [bind]; try reflexivity.
  rewrite IHd. destruct (env_merge gl gf d (p ++ [3]) e3) as [e4| |]; cbn [bind]; reflexivity.
Qed.
Lemma env_split_serial f : forall p e, env_split gl gf (serial f) p e = env_split gl gf f p e.
Proof.
  induction f as [x|a IHa b IHb c IHc d IHd]; intros p e; cbn [serial env_split]; [reflexivity|].
  change (env_cb gl gf (FNode (serial a) (serial b) (serial c) (serial d)) p e) with (env_cb gl gf (FNode a b c d) p e).
  destruct (env_cb gl gf (FNode a b c d) p e) as [[e0 [|]]| |]; cbn [bind fst snd]; try reflexivity.
  rewrite IHa. destruct (env_split gl gf a (p ++ [0]) e0) as [e1| |]; cbn [bind]; try reflexivity.
  rewrite IHb. destruct (env_split gl gf b (p ++ [1]) e1) as [e2| |]; cbn [bind]; try reflexivity.
  rewrite IHc. destruct (env_split gl gf c (p ++ [2]) e2) as [e3| |]; cbn [bind]; try reflexivity.
  apply IHd.
Qed.
End env.

(** ** One rank: failures *)
Section one.
Context {D S R : Type} (F : forest) (dflt : D) (o : nat).
Hypothesis HC : contiguous F.
Hypothesis HG : gapless F.
Variable fn : S -> qnode D -> res (S * D * bool).
Variable fam : S -> qnode D -> four (qnode D) -> res (S * D * four D * bool).
Variable gl : path -> D -> res D.
Variable gf : path -> D -> four D -> res (D * four D * bool).
Hypothesis Hfn : leaf_fun fn gl.
Hypothesis Hfam : family_fun fam gf.
Notation state := (S * nmap D)%type.
Definition noT (s1 : S) (l : log) (s2 : S) : Prop := True.

Definition fails {A} (r : res A) (x : cmd D R) : Prop :=
  match r with Ok _ => True | Throw e => x = Fin (Throw e) | UB => x = Fin UB end.

Lemma cb_fails f ds q (st : state) e k : sub F ds = Some f -> pfirst f = o -> plast f = o -> quadrant_path q = 0 :: ds ->
  coh F o e (snd st) ->
  fails (env_cb gl gf f (0 :: ds) e) (search_merge_split (R := R) o BROADCAST dflt fn fam st q (flag f) k).
Proof.
  intros Es P1 P2 Ep [NM HD]. pose proof (NM ds f Es) as X. rewrite P1, P2 in X.
  rewrite (proj2 (own_range o o) eq_refl) in X. destruct X as (n & En & N1 & N2 & N3 & N4 & N5).
  assert (Hd : n_data n = e (0 :: ds)) by (apply HD; [congruence|exact En]).
  unfold search_merge_split. rewrite Ep. unfold mget. rewrite En, N3, N4, (proj2 (own_range o o) eq_refl).
  destruct f as [x|a b c d]; cbn [flag env_cb].
  - specialize (Hfn (fst st) n). rewrite N1, Hd in Hfn. destruct (gl (0 :: ds) (e (0 :: ds))) as [y|y|]; cbn [bind fails]; auto.
    + rewrite Hfn. reflexivity.
    + rewrite Hfn. reflexivity.
  - rewrite Nat.eqb_refl.
    assert (C : contiguous (FNode a b c d)) by (apply (contiguous_sub F ds); auto).
    assert (KID : forall i g', fchild (FNode a b c d) i = Some g' -> exists n, snd st (0 :: ds ++ [i]) = Some n /\ n_data n = e (0 :: ds ++ [i])).
    { intros i g' Eg. assert (Es' : sub F (ds ++ [i]) = Some g') by (apply (sub_child F ds (FNode a b c d)); auto).
      destruct (all_owned (FNode a b c d) o [i] g' C P1 P2) as [Q1 Q2]; [cbn [sub]; rewrite Eg; reflexivity|].
      pose proof (NM _ _ Es') as X. rewrite Q1, Q2, (proj2 (own_range o o) eq_refl) in X.
      destruct X as (n' & En' & _). exists n'. split; [exact En'|]. apply (HD (ds ++ [i])); [congruence|exact En']. }
    destruct (KID 0 a eq_refl) as (n0 & K0 & D0). destruct (KID 1 b eq_refl) as (n1 & K1 & D1).
    destruct (KID 2 c eq_refl) as (n2 & K2 & D2). destruct (KID 3 d eq_refl) as (n3 & K3 & D3).
    unfold local_children, mget. rewrite N1. cbn [app]. rewrite K0, K1, K2, K3.
    specialize (Hfam (fst st) n (Four n0 n1 n2 n3)). unfold fmap in Hfam. cbn [fa fb fc fd] in Hfam.
    rewrite N1, Hd, D0, D1, D2, D3 in Hfam. unfold kids. cbn [app].
    destruct (gf (0 :: ds) (e (0 :: ds)) _) as [y|y|]; cbn [bind fails]; auto; unfold visit_family; rewrite Hfam; reflexivity.
Qed.

(** One rank, success: the program goes on. *)
Hypothesis P1 : pfirst F = o.
Hypothesis P2 : plast F = o.

Lemma others_empty r e : r <> o -> coh F r e (@mempty D).
Proof.
  intros Hr. split; [|discriminate]. intros ds f Es.
  destruct (all_owned F o ds f HC P1 P2 Es) as [-> ->].
  destruct (in_range r o o) eqn:X; [apply own_range in X; contradiction|reflexivity].
Qed.
Definition alone_st (st : state) : nat -> state := fun r => if Nat.eqb r o then st else (fst st, mempty).
Lemma alone_coh e st : coh F o e (snd st) -> forall r, coh F r e (snd (alone_st st r)).
Proof.
  intros H r. unfold alone_st. destruct (Nat.eqb r o) eqn:E.
  - apply Nat.eqb_eq in E. subst r. exact H.
  - apply Nat.eqb_neq in E. apply others_empty. exact E.
Qed.
Lemma owner_in ds f : sub F ds = Some f -> In o (owners f) /\ pfirst f = o /\ plast f = o.
Proof.
  intros Es. destruct (all_owned F o ds f HC P1 P2 Es) as [Q1 Q2]. split; [|auto].
  rewrite <- Q1. apply pfirst_in.
Qed.

Lemma cb_one f ds q (st : state) e x (k : state * bool -> cmd D R) : sub F ds = Some f -> quadrant_path q = 0 :: ds ->
  coh F o e (snd st) -> env_cb gl gf f (0 :: ds) e = Ok x ->
  exists st' b, search_merge_split o BROADCAST dflt fn fam st q (flag f) k = k (st', b) /\
    coh F o (fst x) (snd st') /\ (flag f = false -> b = snd x).
Proof.
  intros Es Ep HCo Ex. destruct (owner_in ds f Es) as (Ho & Q1 & Q2).
  destruct (cb_run (R := R) F dflt HC HG fn fam gl gf Hfn Hfam noT (fun _ _ _ _ _ _ => I) (fun _ _ _ _ _ _ _ _ => I)
    f ds q (alone_st st) e x (fun _ => k) (fun r => search_merge_split r BROADCAST dflt fn fam (alone_st st r) q (flag f) k)
    Ex Es Ep (alone_coh e st HCo)) as (n & s' & st' & b & RUN & C' & I' & _ & Z' & X'); [reflexivity|].
  assert (n = 0) by (apply Z'; congruence). subst n. inversion RUN as [s1 s2 Heq|]; subst.
  destruct (I' o Ho) as [E _]. rewrite Heq in E. unfold alone_st in E. rewrite Nat.eqb_refl in E.
  exists (st' o), (b o). split; [exact E|]. split; [apply C'|]. intros Hf. apply X'; auto.
Qed.

Lemma trav_one prog vis E f ds q (st : state) e e' (k : state -> cmd D R) :
  trav_all (R := R) F noT prog vis E f -> sub F ds = Some f -> valid_quadrant q -> quadrant_path q = 0 :: ds ->
  qlevel q + depth f <= qmaxlevel -> coh F o e (snd st) -> E f (0 :: ds) e = Ok e' ->
  exists st', prog f q o st k = k st' /\ coh F o e' (snd st').
Proof.
  intros HT Es V Ep HL HCo Ee. destruct (owner_in ds f Es) as (Ho & Q1 & Q2).
  destruct (HT ds q (alone_st st) e e' (fun _ => k) (fun r => prog f q r (alone_st st r) k) Ee Es V Ep HL (alone_coh e st HCo))
    as (n & s' & st' & RUN & C' & I' & _ & _ & Z'); [reflexivity|].
  assert (n = 0) by (apply Z'; congruence). subst n. inversion RUN as [s1 s2 Heq|]; subst.
  specialize (I' o Ho). rewrite Heq in I'. unfold alone_st in I'. rewrite Nat.eqb_refl in I'.
  exists (st' o). split; [exact I'|apply C'].
Qed.

Lemma merge_all f : trav_all (R := R) F noT (merge_prog dflt fn fam) post_rel (env_merge gl gf) f.
Proof. apply merge_run; auto; intros; exact I. Qed.
Lemma split_all f : trav_all (R := R) F noT (split_prog dflt fn fam) pre_rel (env_split gl gf) f.
Proof. apply split_run; auto; intros; exact I. Qed.

Ltac child_hyps Es :=
  first [ assumption
        | apply (sub_child _ _ _ _ _ Es); reflexivity
        | apply valid_child; [assumption|cbn [depth] in *; lia|lia]
        | rewrite path_child by (try assumption; cbn [depth] in *; lia); match goal with H : quadrant_path _ = _ |- _ => rewrite H end; reflexivity
        | cbn [depth qlevel qchild] in *; lia ].

Definition fail_goal (prog : forest -> quadrant -> nat -> state -> (state -> cmd D R) -> cmd D R)
  (E : forest -> path -> (path -> D) -> res (path -> D)) (f : forest) : Prop :=
  forall ds q st e k, sub F ds = Some f -> valid_quadrant q -> quadrant_path q = 0 :: ds ->
  qlevel q + depth f <= qmaxlevel -> coh F o e (snd st) -> fails (E f (0 :: ds) e) (prog f q o st k).

(** Either a child fails, or the four children are done. *)
Lemma four_fail prog vis E a b c d ds q st e k (y : (path -> D) -> res (path -> D)) :
  (forall f, trav_all (R := R) F noT prog vis E f) ->
  fail_goal prog E a -> fail_goal prog E b -> fail_goal prog E c -> fail_goal prog E d ->
  sub F ds = Some (FNode a b c d) -> valid_quadrant q -> quadrant_path q = 0 :: ds ->
  qlevel q + depth (FNode a b c d) <= qmaxlevel -> coh F o e (snd st) ->
  (forall e4 st4, coh F o e4 (snd st4) -> fails (y e4) (k st4)) ->
  fails (e1 <- E a (0 :: ds ++ [0]) e ;; e2 <- E b (0 :: ds ++ [1]) e1 ;;
         e3 <- E c (0 :: ds ++ [2]) e2 ;; e4 <- E d (0 :: ds ++ [3]) e3 ;; y e4)
    (prog a (qchild q 0) o st (fun st1 => prog b (qchild q 1) o st1 (fun st2 =>
     prog c (qchild q 2) o st2 (fun st3 => prog d (qchild q 3) o st3 k)))).
Proof.
  intros HT Fa Fb Fc Fd Es V Ep HL HCo Hy.
  set (k3 := fun st3 => prog d (qchild q 3) o st3 k).
  set (k2 := fun st2 => prog c (qchild q 2) o st2 k3).
  set (k1 := fun st1 => prog b (qchild q 1) o st1 k2).
  destruct (E a (0 :: ds ++ [0]) e) as [e1|x|] eqn:Ea.
  2,3: specialize (Fa (ds ++ [0]) (qchild q 0) st e k1); rewrite Ea in Fa; cbn [bind fails] in *; apply Fa; child_hyps Es.
  cbn [bind]. destruct (trav_one prog vis E a (ds ++ [0]) (qchild q 0) st e e1 k1) as (st1 & Er1 & C1); [auto|child_hyps Es ..|].
  rewrite Er1. unfold k1.
  destruct (E b (0 :: ds ++ [1]) e1) as [e2|x|] eqn:Eb.
  2,3: specialize (Fb (ds ++ [1]) (qchild q 1) st1 e1 k2); rewrite Eb in Fb; cbn [bind fails] in *; apply Fb; child_hyps Es.
  cbn [bind]. destruct (trav_one prog vis E b (ds ++ [1]) (qchild q 1) st1 e1 e2 k2) as (st2 & Er2 & C2); [auto|child_hyps Es ..|].
  rewrite Er2. unfold k2.
  destruct (E c (0 :: ds ++ [2]) e2) as [e3|x|] eqn:Ec.
  2,3: specialize (Fc (ds ++ [2]) (qchild q 2) st2 e2 k3); rewrite Ec in Fc; cbn [bind fails] in *; apply Fc; child_hyps Es.
  cbn [bind]. destruct (trav_one prog vis E c (ds ++ [2]) (qchild q 2) st2 e2 e3 k3) as (st3 & Er3 & C3); [auto|child_hyps Es ..|].
  rewrite Er3. unfold k3.
  destruct (E d (0 :: ds ++ [3]) e3) as [e4|x|] eqn:Ed.
  2,3: specialize (Fd (ds ++ [3]) (qchild q 3) st3 e3 k); rewrite Ed in Fd; cbn [bind fails] in *; apply Fd; child_hyps Es.
  cbn [bind]. destruct (trav_one prog vis E d (ds ++ [3]) (qchild q 3) st3 e3 e4 k) as (st4 & Er4 & C4); [auto|child_hyps Es ..|].
  rewrite Er4. apply Hy. exact C4.
Qed.

Lemma merge_fail f : fail_goal (merge_prog dflt fn fam) (env_merge gl gf) f.
Proof.
  induction f as [x|a IHa b IHb c IHc d IHd]; intros ds q st e k Es V Ep HL HCo;
    destruct (owner_in ds _ Es) as (Ho & Q1 & Q2); unfold merge_prog at 1; cbn [search_reorder env_merge];
    rewrite (local_eq o _ Ho); unfold no_callback at 1; cbn [fst snd].
  - pose proof (cb_fails (FLeaf x) ds q st e (fun r' => k (fst r')) Es Q1 Q2 Ep HCo) as H.
    destruct (env_cb gl gf (FLeaf x) (0 :: ds) e); cbn [bind fails] in *; auto.
  - apply (four_fail (merge_prog dflt fn fam) post_rel (env_merge gl gf) a b c d ds q st e
      (fun st4 => search_merge_split o BROADCAST dflt fn fam st4 q false (fun r' => k (fst r')))
      (fun e4 => y <- env_cb gl gf (FNode a b c d) (0 :: ds) e4 ;; Ok (fst y))); auto.
    + apply merge_all.
    + intros e4 st4 C4.
      pose proof (cb_fails (FNode a b c d) ds q st4 e4 (fun r' => k (fst r')) Es Q1 Q2 Ep C4) as H.
      destruct (env_cb gl gf (FNode a b c d) (0 :: ds) e4); cbn [bind fails] in *; auto.
Qed.

Lemma split_fail f : fail_goal (split_prog dflt fn fam) (env_split gl gf) f.
Proof.
  induction f as [x|a IHa b IHb c IHc d IHd]; intros ds q st e k Es V Ep HL HCo;
    destruct (owner_in ds _ Es) as (Ho & Q1 & Q2); unfold split_prog at 1; cbn [search_reorder env_split];
    rewrite (local_eq o _ Ho).
  - match goal with |- fails _ (search_merge_split _ _ _ _ _ _ _ _ ?kk) =>
      pose proof (cb_fails (FLeaf x) ds q st e kk Es Q1 Q2 Ep HCo) as H end.
    destruct (env_cb gl gf (FLeaf x) (0 :: ds) e); cbn [bind fails] in *; auto.
  - match goal with |- fails _ (search_merge_split _ _ _ _ _ _ _ _ ?kk) => set (kc := kk) end.
    pose proof (cb_fails (FNode a b c d) ds q st e kc Es Q1 Q2 Ep HCo) as H.
    destruct (env_cb gl gf (FNode a b c d) (0 :: ds) e) as [y|y|] eqn:Ey; [|cbn [bind fails] in *; auto ..]. clear H.
    destruct (cb_one (FNode a b c d) ds q st e y kc Es Ep HCo Ey) as (st' & bb & Er & C' & Eb).
    cbn [flag] in Er. rewrite Er. specialize (Eb eq_refl). subst bb. unfold kc. cbn [fst snd bind].
    destruct (snd y); [|exact I].
    pose proof (four_fail (split_prog dflt fn fam) pre_rel (env_split gl gf) a b c d ds q st' (fst y) k
      (fun e4 => Ok e4) split_all IHa IHb IHc IHd Es V Ep HL C' (fun _ _ _ => I)) as H.
    match goal with |- fails ?r1 _ => match type of H with fails ?r2 _ => replace r1 with r2 end end; [exact H|].
    cbn [app]. 
    destruct (env_split gl gf a _ (fst y)) as [e1| |]; cbn [bind]; try reflexivity.
    destruct (env_split gl gf b _ e1) as [e2| |]; cbn [bind]; try reflexivity.
    destruct (env_split gl gf c _ e2) as [e3| |]; cbn [bind]; try reflexivity.
    destruct (env_split gl gf d _ e3); reflexivity.
Qed.
End one.

(** ** Sequences of stages *)
Inductive meaning (D : Type) : Type :=
| IMerge (gl : path -> D -> res D) (gf : path -> D -> four D -> res (D * four D * bool))
| ISplit (gl : path -> D -> res D) (gf : path -> D -> four D -> res (D * four D * bool))
| IRoot (gr : D -> res D).
Arguments IMerge {D} _ _.
Arguments ISplit {D} _ _.
Arguments IRoot {D} _.

Definition means {D S} (g : stage D S) (i : meaning D) : Prop :=
  match g, i with
  | Merge fn fam, IMerge gl gf => leaf_fun fn gl /\ family_fun fam gf
  | Split fn fam, ISplit gl gf => leaf_fun fn gl /\ family_fun fam gf
  | AtRoot h, IRoot gr => root_fun h gr
  | _, _ => False
  end.
Lemma means_exist {D S} (l : list (stage D S)) : Forall rank_independent l -> exists is, Forall2 means l is.
Proof.
  induction 1 as [|g l H _ (is & IH)]; [exists []; constructor|].
  destruct g as [fn fam|fn fam|h]; cbn in H.
  - destruct H as [(gl & H1) (gf & H2)]. exists (IMerge gl gf :: is). constructor; cbn; auto.
  - destruct H as [(gl & H1) (gf & H2)]. exists (ISplit gl gf :: is). constructor; cbn; auto.
  - destruct H as (gr & H). exists (IRoot gr :: is). constructor; cbn; auto.
Qed.

Definition env_stage {D} (F : forest) (i : meaning D) (e : path -> D) : res (path -> D) :=
  match i with
  | IMerge gl gf => env_merge gl gf F [0] e
  | ISplit gl gf => env_split gl gf F [0] e
  | IRoot gr => d <- gr (e [0]) ;; Ok (upd e [0] d)
  end.
Fixpoint env_stages {D} (F : forest) (is : list (meaning D)) (e : path -> D) : res (path -> D) :=
  match is with
  | [] => Ok e
  | i :: is' => e' <- env_stage F i e ;; env_stages F is' e'
  end.
Lemma env_stages_serial {D} F (is : list (meaning D)) : forall e, env_stages (serial F) is e = env_stages F is e.
Proof.
  induction is as [|i is IH]; intros e; [reflexivity|]. cbn [env_stages].
  assert (E : env_stage (serial F) i e = env_stage F i e).
  { destruct i; cbn [env_stage]; [apply env_merge_serial|apply env_split_serial|reflexivity]. }
  rewrite E. destruct (env_stage F i e); cbn [bind]; auto.
Qed.

Section lists.
Context {D S R : Type} (F : forest) (dflt : D).
Hypothesis HC : contiguous F.
Hypothesis HG : gapless F.
Hypothesis HL : depth F <= qmaxlevel.
Notation state := (S * nmap D)%type.

Lemma root_node_of e (r : nat) (m : nmap D) : coh F r e m -> In r (owners F) ->
  exists n, m [0] = Some n /\ n_data n = e [0].
Proof.
  intros [NM HD] Hr. pose proof (NM [] F eq_refl) as X. rewrite (local_in_range r F HC Hr) in X.
  destruct X as (n & En & _). exists n. split; [exact En|]. apply (HD []); [discriminate|exact En].
Qed.

Definition root_out (h : S -> D -> res (S * D)) (s : S) (d : D) : S :=
  match h s d with Ok (s', _) => s' | _ => s end.

Lemma stage_run g i st e e' (k : nat -> state -> cmd D R) s : means g i -> env_stage F i e = Ok e' ->
  (forall r, coh F r e (snd (st r))) ->
  (forall r, In r (owners F) -> s r = run_stage r dflt F g (st r) (k r)) ->
  exists n s' st', runs n s s' /\
    (forall r, coh F r e' (snd (st' r))) /\
    (forall r, In r (owners F) -> s' r = k r (st' r)) /\
    (forall r, ~ In r (owners F) -> s' r = s r /\ st' r = st r).
Proof.
  intros M Ee HCo Hs. destruct g as [fn fam|fn fam|h], i as [gl gf|gl gf|gr]; try contradiction.
  - destruct M as [M1 M2].
    destruct (merge_all (R := R) F dflt HC HG fn fam gl gf M1 M2 F [] root_quadrant st e e' k s Ee eq_refl root_valid eq_refl HL HCo Hs)
      as (n & s' & st' & H1 & H2 & H3 & H4 & _). eauto 10.
  - destruct M as [M1 M2].
    destruct (split_all (R := R) F dflt HC HG fn fam gl gf M1 M2 F [] root_quadrant st e e' k s Ee eq_refl root_valid eq_refl HL HCo Hs)
      as (n & s' & st' & H1 & H2 & H3 & H4 & _). eauto 10.
  - cbn [means env_stage] in *. apply bind_inv in Ee as (d & Ed & Ee). injection Ee as <-.
    set (st' := fun r => if has_local r F then
       match snd (st r) [0] with
       | Some n => (root_out h (fst (st r)) (n_data n), mset (snd (st r)) [0] (Some (set_ndata n d)))
       | None => st r end else st r).
    exists 0, s, st'. split; [constructor; reflexivity|]. split; [|split].
    + intros r. unfold st'. destruct (has_local r F) eqn:Hl.
      * apply has_local_iff in Hl. destruct (root_node_of e r _ (HCo r) Hl) as (n & En & _). rewrite En. cbn [snd].
        apply coh_leaf; auto. discriminate.
      * apply (coh_outside F HC r e _ _ [] F); auto.
        -- destruct (in_range r (pfirst F) (plast F)) eqn:X; [|reflexivity].
           apply (range_owners F HC HG [] F r eq_refl) in X. apply has_local_iff in X. congruence.
        -- intros q Hq. apply upd_neq. intros X. apply (Hq []). rewrite <- X. reflexivity.
    + intros r Hr. rewrite (Hs r Hr). cbn [run_stage]. unfold mget, st'. rewrite (local_eq r F Hr).
      destruct (root_node_of e r _ (HCo r) Hr) as (n & En & Dn). rewrite En.
      specialize (M (fst (st r)) (n_data n)). rewrite Dn, Ed in M. destruct M as (s1 & M).
      rewrite Dn. unfold root_out. rewrite M. reflexivity.
    + intros r Hr. split; [reflexivity|]. unfold st'. destruct (has_local r F) eqn:Hl; [|reflexivity].
      apply has_local_iff in Hl. contradiction.
Qed.

Lemma stages_run l is : Forall2 means l is -> forall st e e' (k : nat -> state -> cmd D R) s,
  env_stages F is e = Ok e' -> (forall r, coh F r e (snd (st r))) ->
  (forall r, In r (owners F) -> s r = run_stages r dflt F l (st r) (k r)) ->
  exists n s' st', runs n s s' /\
    (forall r, coh F r e' (snd (st' r))) /\
    (forall r, In r (owners F) -> s' r = k r (st' r)) /\
    (forall r, ~ In r (owners F) -> s' r = s r /\ st' r = st r).
Proof.
  induction 1 as [|g i l is M _ IH]; intros st e e' k s Ee HCo Hs.
  - injection Ee as <-. exists 0, s, st. split; [constructor; reflexivity|]. auto.
  - cbn [env_stages] in Ee. apply bind_inv in Ee as (e1 & E1 & E2).
    destruct (stage_run g i st e e1 (fun r st' => run_stages r dflt F l st' (k r)) s M E1 HCo Hs)
      as (n1 & s1 & st1 & R1 & C1 & I1 & O1).
    destruct (IH st1 e1 e' k s1 E2 C1 I1) as (n2 & s2 & st2 & R2 & C2 & I2 & O2).
    exists (n1 + n2), s2, st2. split; [apply (runs_app n1 n2 s s1 s2); auto|]. split; [exact C2|]. split; [exact I2|].
    intros r Hr. destruct (O2 r Hr) as [-> ->]. apply O1. exact Hr.
Qed.

(** Ranks without leaves. *)
Lemma stages_idle l r st (k : state -> cmd D R) : ~ In r (owners F) -> (forall st, exists x, k st = Fin x) ->
  exists x, run_stages r dflt F l st k = Fin x.
Proof.
  intros Hr Hk. revert st; induction l as [|g l IH]; intros st; cbn [run_stages]; [apply Hk|].
  destruct g as [fn fam|fn fam|h]; cbn [run_stage].
  - unfold merge. rewrite skip by exact Hr. apply IH.
  - unfold split. rewrite skip by exact Hr. apply IH.
  - destruct (mget (snd st) [0]) as [n|]; [|eauto]. destruct (h (fst st) (n_data n)) as [x|x|]; cbn [lift]; eauto.
Qed.
Lemma stages_idle_same l r st (k : state -> cmd D R) : ~ In r (owners F) -> (forall h, ~ In (AtRoot h) l) ->
  run_stages r dflt F l st k = k st.
Proof.
  intros Hr. revert st; induction l as [|g l IH]; intros st Hh; cbn [run_stages]; [reflexivity|].
  assert (Hh' : forall h, ~ In (AtRoot h) l) by (intros h X; apply (Hh h); right; exact X).
  destruct g as [fn fam|fn fam|h]; cbn [run_stage].
  - unfold merge. rewrite skip by exact Hr. apply IH. exact Hh'.
  - unfold split. rewrite skip by exact Hr. apply IH. exact Hh'.
  - exfalso. apply (Hh h). left. reflexivity.
Qed.

(** One rank owns everything. *)
Variable o : nat.
Hypothesis P1 : pfirst F = o.
Hypothesis P2 : plast F = o.

Lemma stages_one l is : Forall2 means l is -> forall st e (k : state -> cmd D R), coh F o e (snd st) ->
  match env_stages F is e with
  | Ok e' => exists st', run_stages o dflt F l st k = k st' /\ coh F o e' (snd st')
  | Throw x => run_stages o dflt F l st k = Fin (Throw x)
  | UB => run_stages o dflt F l st k = Fin UB
  end.
Proof.
  assert (Ho : In o (owners F)) by (rewrite <- P1; apply pfirst_in).
  induction 1 as [|g i l is M _ IH]; intros st e k HCo; cbn [env_stages run_stages]; [eauto|].
  assert (X : match env_stage F i e with
              | Ok e' => exists st', run_stage o dflt F g st (fun st' => run_stages o dflt F l st' k) = run_stages o dflt F l st' k
                           /\ coh F o e' (snd st')
              | Throw x => run_stage o dflt F g st (fun st' => run_stages o dflt F l st' k) = Fin (Throw x)
              | UB => run_stage o dflt F g st (fun st' => run_stages o dflt F l st' k) = Fin UB
              end).
  { destruct g as [fn fam|fn fam|h], i as [gl gf|gl gf|gr]; try contradiction; cbn [env_stage run_stage].
    - destruct M as [M1 M2]. destruct (env_merge gl gf F [0] e) as [e1|x|] eqn:E1.
      + apply (trav_one F o HC P1 P2 (merge_prog dflt fn fam) post_rel (env_merge gl gf) F [] root_quadrant st e e1); auto using root_valid.
        apply merge_all; auto.
      + pose proof (merge_fail (R := R) F dflt o HC HG fn fam gl gf M1 M2 P1 P2 F [] root_quadrant st e
          (fun st' => run_stages o dflt F l st' k) eq_refl root_valid eq_refl HL HCo) as H. rewrite E1 in H. exact H.
      + pose proof (merge_fail (R := R) F dflt o HC HG fn fam gl gf M1 M2 P1 P2 F [] root_quadrant st e
          (fun st' => run_stages o dflt F l st' k) eq_refl root_valid eq_refl HL HCo) as H. rewrite E1 in H. exact H.
    - destruct M as [M1 M2]. destruct (env_split gl gf F [0] e) as [e1|x|] eqn:E1.
      + apply (trav_one F o HC P1 P2 (split_prog dflt fn fam) pre_rel (env_split gl gf) F [] root_quadrant st e e1); auto using root_valid.
        apply split_all; auto.
      + pose proof (split_fail (R := R) F dflt o HC HG fn fam gl gf M1 M2 P1 P2 F [] root_quadrant st e
          (fun st' => run_stages o dflt F l st' k) eq_refl root_valid eq_refl HL HCo) as H. rewrite E1 in H. exact H.
      + pose proof (split_fail (R := R) F dflt o HC HG fn fam gl gf M1 M2 P1 P2 F [] root_quadrant st e
          (fun st' => run_stages o dflt F l st' k) eq_refl root_valid eq_refl HL HCo) as H. rewrite E1 in H. exact H.
    - destruct (root_node_of e o _ HCo Ho) as (n & En & Dn). unfold mget. rewrite En.
      specialize (M (fst st) (n_data n)). rewrite Dn in *. destruct (gr (e [0])) as [d|x|]; cbn [bind].
      + destruct M as (s' & ->). cbn [lift fst snd]. eexists. split; [reflexivity|]. cbn [snd]. apply coh_leaf; auto. discriminate.
      + rewrite M. reflexivity.
      + rewrite M. reflexivity. }
  destruct (env_stage F i e) as [e1|x|]; cbn [bind]; [|exact X ..].
  destruct X as (st1 & -> & C1). apply IH. exact C1.
Qed.
End lists.
