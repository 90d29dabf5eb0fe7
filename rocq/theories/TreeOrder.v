(** The order of visits in traversals. *)
From Verif Require Import Base VectorModel MatrixModel HPSModel TreeModel TreeSpec TreeProofs TreeCtor.

(** ** Ownership and local leaves *)
Lemma has_local_iff rank f : has_local rank f = true <-> In rank (owners f).
Proof.
  unfold has_local. rewrite existsb_exists. split.
  - intros (x & H & E). apply Nat.eqb_eq in E. congruence.
  - intros H. exists rank. split; [exact H|apply Nat.eqb_refl].
Qed.

Lemma local_in_range rank f : contiguous f -> In rank (owners f) ->
  in_range rank (pfirst f) (plast f) = true.
Proof.
  intros C H. apply in_range_spec; auto. exists rank, rank. auto.
Qed.

(** A rank that owns some leaf of the tree owns a leaf of every quadrant whose
    range contains it. *)
Lemma sub_split f ds f' : sub f ds = Some f' -> exists l1 l2, owners f = l1 ++ owners f' ++ l2.
Proof.
  revert f; induction ds as [|i ds IH]; cbn [sub]; intros f E.
  - injection E as <-. exists [], []. rewrite app_nil_r. reflexivity.
  - destruct (fchild f i) as [g|] eqn:Eg; [|discriminate].
    destruct (IH g E) as (l1 & l2 & H). destruct f as [o|a b c d]; [discriminate|].
    cbn [owners]. destruct i as [|[|[|[|i]]]]; try discriminate; injection Eg as ->; rewrite H.
    + exists l1, (l2 ++ owners b ++ owners c ++ owners d). rewrite <- !app_assoc. reflexivity.
    + exists (owners a ++ l1), (l2 ++ owners c ++ owners d). rewrite <- !app_assoc. reflexivity.
    + exists (owners a ++ owners b ++ l1), (l2 ++ owners d). rewrite <- !app_assoc. reflexivity.
    + exists (owners a ++ owners b ++ owners c ++ l1), l2. rewrite <- !app_assoc. reflexivity.
Qed.

Lemma range_local rank f ds f' : contiguous f -> In rank (owners f) -> sub f ds = Some f' ->
  in_range rank (pfirst f') (plast f') = true -> In rank (owners f').
Proof.
  intros C Hr Es Hi. destruct (sub_split f ds f' Es) as (l1 & l2 & E).
  unfold in_range in Hi. apply andb_true_iff in Hi as [H1 H2].
  apply Nat.leb_le in H1. apply Nat.leb_le in H2.
  unfold contiguous in C. rewrite E in C, Hr.
  apply ss_app in C as (_ & C & C1). apply ss_app in C as (_ & _ & C2).
  rewrite !in_app_iff in Hr. destruct Hr as [Hr|[Hr|Hr]]; [|exact Hr|].
  - specialize (C1 rank (pfirst f') Hr). assert (rank <= pfirst f').
    { apply C1. apply in_or_app. left. apply pfirst_in. }
    replace rank with (pfirst f') by lia. apply pfirst_in.
  - specialize (C2 (plast f') rank (plast_in f') Hr).
    replace rank with (plast f') by lia. apply plast_in.
Qed.

Lemma owned_local rank f ds : contiguous f -> In rank (owners f) ->
  owned_quadrant rank f ds <-> local_quadrant rank f ds.
Proof.
  intros C Hr. split.
  - intros (f' & o1 & o2 & Es & H1 & H2 & H3). exists f'. split; [exact Es|].
    apply (range_local rank f ds); auto. apply in_range_spec; [apply (contiguous_sub f ds); auto|].
    exists o1, o2. auto.
  - intros (f' & Es & H). exists f', rank, rank. auto.
Qed.

(** ** Lists of visits *)
Definition pre_rel (rank : nat) (f : forest) (l : list (list nat * bool)) : Prop :=
  StronglySorted before (map fst l) /\
  forall ds, In ds (map fst l) <->
    local_quadrant rank f ds /\ (forall ds1 i ds2, ds = ds1 ++ i :: ds2 -> In (ds1, true) l).

Definition post_rel (rank : nat) (f : forest) (l : list (list nat * bool)) : Prop :=
  lists_in_order before_post (local_quadrant rank f) (map fst l).

Definition down (i : nat) (l : list (list nat * bool)) : list (list nat * bool) :=
  map (fun e => (i :: fst e, snd e)) l.

Lemma down_fst i l : map fst (down i l) = map (cons i) (map fst l).
Proof. unfold down. rewrite !map_map. reflexivity. Qed.

Lemma in_down i l ds c : In (ds, c) (down i l) <-> exists ds', ds = i :: ds' /\ In (ds', c) l.
Proof.
  unfold down. rewrite in_map_iff. split.
  - intros ([ds' c'] & E & H). injection E as <- <-. eauto.
  - intros (ds' & -> & H). exists (ds', c). auto.
Qed.

Lemma in_down_fst i l ds : In ds (map fst (down i l)) <-> exists ds', ds = i :: ds' /\ In ds' (map fst l).
Proof.
  rewrite down_fst, in_map_iff. split; intros (x & H1 & H2); exists x; auto.
Qed.

Lemma sorted_map_cons (R : list nat -> list nat -> Prop) i l :
  (forall p q, R p q -> R (i :: p) (i :: q)) -> StronglySorted R l -> StronglySorted R (map (cons i) l).
Proof.
  intros HR H. induction H as [|a l H IH F]; cbn; constructor; auto.
  apply Forall_forall. intros x Hx. apply in_map_iff in Hx as (y & <- & Hy).
  apply HR. rewrite Forall_forall in F. auto.
Qed.

Lemma sorted_four (R : list nat -> list nat -> Prop) la lb lc ld :
  (forall i p q, R p q -> R (i :: p) (i :: q)) ->
  (forall i j p q, i < j -> R (i :: p) (j :: q)) ->
  StronglySorted R la -> StronglySorted R lb -> StronglySorted R lc -> StronglySorted R ld ->
  StronglySorted R (map (cons 0) la ++ map (cons 1) lb ++ map (cons 2) lc ++ map (cons 3) ld).
Proof.
  intros H1 H2 A B C D. rewrite !ss_app.
  assert (X : forall (x : list nat) l (i : nat), In x (map (cons i) l) -> exists y, x = i :: y).
  { intros x l i H. apply in_map_iff in H as (y & <- & _). eauto. }
  split; [apply sorted_map_cons; auto|]. split.
  - split; [apply sorted_map_cons; auto|]. split.
    + split; [apply sorted_map_cons; auto|]. split; [apply sorted_map_cons; auto|].
      intros x y Hx Hy. apply X in Hx as (? & ->). apply X in Hy as (? & ->). apply H2; lia.
    + intros x y Hx Hy. apply X in Hx as (? & ->). rewrite in_app_iff in Hy.
      destruct Hy as [Hy|Hy]; apply X in Hy as (? & ->); apply H2; lia.
  - intros x y Hx Hy. apply X in Hx as (? & ->). rewrite !in_app_iff in Hy.
    destruct Hy as [Hy|[Hy|Hy]]; apply X in Hy as (? & ->); apply H2; lia.
Qed.

Lemma local_nil rank f : local_quadrant rank f [] <-> In rank (owners f).
Proof. split; [intros (f' & E & H); cbn in E; injection E as <-; exact H|intros H; exists f; auto]. Qed.

Lemma local_cons rank f i ds :
  local_quadrant rank f (i :: ds) <-> exists f', fchild f i = Some f' /\ local_quadrant rank f' ds.
Proof.
  unfold local_quadrant. cbn [sub]. split.
  - intros (g & E & H). destruct (fchild f i) as [f'|]; [|discriminate]. exists f'. eauto.
  - intros (f' & E & g & E' & H). rewrite E. eauto.
Qed.

Lemma pre_rel_empty rank f : ~ In rank (owners f) -> pre_rel rank f [].
Proof.
  intros H. split; [constructor|]. intros ds. split; [intros []|].
  intros ((f' & E & Hl) & _). exfalso. apply H. apply (owners_sub f ds f'); auto.
Qed.

Lemma post_rel_empty rank f : ~ In rank (owners f) -> post_rel rank f [].
Proof.
  intros H. split; [constructor|]. intros ds. split; [intros []|].
  intros (f' & E & Hl). exfalso. apply H. apply (owners_sub f ds f'); auto.
Qed.

Lemma pre_rel_stop rank f : In rank (owners f) -> pre_rel rank f [([], false)].
Proof.
  intros H. split; [repeat constructor|]. intros ds. cbn. split.
  - intros [<-|[]]. split; [apply local_nil; exact H|]. intros ds1 i ds2 E. destruct ds1; discriminate.
  - intros (_ & Hp). destruct ds as [|i ds]; [auto|]. specialize (Hp [] i ds eq_refl).
    destruct Hp as [Hp|[]]. discriminate.
Qed.

Lemma pre_rel_node rank a b c d la lb lc ld :
  In rank (owners (FNode a b c d)) ->
  pre_rel rank a la -> pre_rel rank b lb -> pre_rel rank c lc -> pre_rel rank d ld ->
  pre_rel rank (FNode a b c d) (([], true) :: down 0 la ++ down 1 lb ++ down 2 lc ++ down 3 ld).
Proof.
  intros H [Sa Ma] [Sb Mb] [Sc Mc] [Sd Md].
  set (L := down 0 la ++ down 1 lb ++ down 2 lc ++ down 3 ld).
  assert (HL : forall ds, In ds (map fst L) <-> exists i ds', ds = i :: ds' /\
             ((i = 0 /\ In ds' (map fst la)) \/ (i = 1 /\ In ds' (map fst lb)) \/
              (i = 2 /\ In ds' (map fst lc)) \/ (i = 3 /\ In ds' (map fst ld)))).
  { intros ds. unfold L. rewrite !map_app, !in_app_iff, !in_down_fst. split.
    - intros [(x & -> & Hx)|[(x & -> & Hx)|[(x & -> & Hx)|(x & -> & Hx)]]]; eexists _, x; split; auto.
    - intros (i & x & -> & [[-> Hx]|[[-> Hx]|[[-> Hx]|[-> Hx]]]]); eauto 10. }
  assert (HL2 : forall i ds' c', In (i :: ds', c') L <->
             ((i = 0 /\ In (ds', c') la) \/ (i = 1 /\ In (ds', c') lb) \/
              (i = 2 /\ In (ds', c') lc) \/ (i = 3 /\ In (ds', c') ld))).
  { intros i ds' c'. unfold L. rewrite !in_app_iff, !in_down. split.
    - intros [(x & E & Hx)|[(x & E & Hx)|[(x & E & Hx)|(x & E & Hx)]]]; injection E as -> ->; auto 10.
    - intros [[-> Hx]|[[-> Hx]|[[-> Hx]|[-> Hx]]]]; eauto 10. }
  split.
  - cbn [map fst]. constructor.
    + unfold L. rewrite !map_app, !down_fst. apply sorted_four; auto using before.
    + apply Forall_forall. intros x Hx. apply HL in Hx as (i & ds' & -> & _). constructor.
  - intros ds. cbn [map fst In]. destruct ds as [|i ds].
    + split; [|auto]. intros _. split; [apply local_nil; exact H|]. intros ds1 i ds2 E. destruct ds1; discriminate.
    + rewrite local_cons. split.
      * intros [E|Hi]; [discriminate|]. apply HL in Hi as (i' & ds' & E & Hi). injection E as <- <-.
        destruct Hi as [[-> Hi]|[[-> Hi]|[[-> Hi]|[-> Hi]]]];
          [apply Ma in Hi as [L1 L2]|apply Mb in Hi as [L1 L2]|apply Mc in Hi as [L1 L2]|apply Md in Hi as [L1 L2]];
          (split; [eexists; split; [reflexivity|exact L1]|]);
          intros [|j ds1] j2 ds2 E; cbn in E; injection E; intros; subst;
          try (left; reflexivity); right; apply HL2; eauto 10.
      * intros ((f' & Ef & Lf) & Hp). right. apply HL. exists i, ds. split; [reflexivity|].
        assert (Hp' : forall ds1 i2 ds2, ds = ds1 ++ i2 :: ds2 -> In (i :: ds1, true) L).
        { intros ds1 i2 ds2 E. destruct (Hp (i :: ds1) i2 ds2) as [E'|Hin]; [subst; reflexivity|discriminate|exact Hin]. }
        destruct i as [|[|[|[|i]]]]; cbn in Ef; try discriminate; injection Ef as <-.
        -- left. split; [reflexivity|]. apply Ma. split; [exact Lf|]. intros ds1 i2 ds2 E.
           apply Hp' in E. apply HL2 in E. destruct E as [[? ?]|[[? ?]|[[? ?]|[? ?]]]]; auto; lia.
        -- right; left. split; [reflexivity|]. apply Mb. split; [exact Lf|]. intros ds1 i2 ds2 E.
           apply Hp' in E. apply HL2 in E. destruct E as [[? ?]|[[? ?]|[[? ?]|[? ?]]]]; auto; lia.
        -- right; right; left. split; [reflexivity|]. apply Mc. split; [exact Lf|]. intros ds1 i2 ds2 E.
           apply Hp' in E. apply HL2 in E. destruct E as [[? ?]|[[? ?]|[[? ?]|[? ?]]]]; auto; lia.
        -- right; right; right. split; [reflexivity|]. apply Md. split; [exact Lf|]. intros ds1 i2 ds2 E.
           apply Hp' in E. apply HL2 in E. destruct E as [[? ?]|[[? ?]|[[? ?]|[? ?]]]]; auto; lia.
Qed.

Lemma pre_rel_leaf rank o c : In rank (owners (FLeaf o)) -> pre_rel rank (FLeaf o) [([], c)].
Proof.
  intros H. split; [repeat constructor|]. intros ds. cbn [map fst In]. destruct ds as [|i ds].
  - split; [|auto]. intros _. split; [apply local_nil; exact H|]. intros ds1 i ds2 E. destruct ds1; discriminate.
  - split; [intros [E|[]]; discriminate|]. intros ((f' & E & _) & _). cbn in E. discriminate.
Qed.

Lemma post_rel_node rank a b c d la lb lc ld r :
  In rank (owners (FNode a b c d)) ->
  post_rel rank a la -> post_rel rank b lb -> post_rel rank c lc -> post_rel rank d ld ->
  post_rel rank (FNode a b c d) (down 0 la ++ down 1 lb ++ down 2 lc ++ down 3 ld ++ [([], r)]).
Proof.
  intros H [Sa Ma] [Sb Mb] [Sc Mc] [Sd Md]. unfold post_rel, lists_in_order.
  replace (down 0 la ++ down 1 lb ++ down 2 lc ++ down 3 ld ++ [([], r)])
    with ((down 0 la ++ down 1 lb ++ down 2 lc ++ down 3 ld) ++ [([], r)]) by (rewrite <- !app_assoc; reflexivity).
  rewrite map_app. cbn [map fst]. split.
  - apply ss_app. split; [|split].
    + rewrite !map_app, !down_fst. apply sorted_four; auto using before_post.
    + repeat constructor.
    + intros x y Hx [<-|[]]. rewrite !map_app, !in_app_iff, !in_down_fst in Hx.
      destruct Hx as [(z & -> & _)|[(z & -> & _)|[(z & -> & _)|(z & -> & _)]]]; constructor.
  - intros ds. rewrite !map_app, !in_app_iff, !in_down_fst. cbn [In]. destruct ds as [|i ds].
    + split; [intros _; apply local_nil; exact H|auto].
    + rewrite local_cons. split.
      * intros [[(z & E & Hz)|[(z & E & Hz)|[(z & E & Hz)|(z & E & Hz)]]]|[E|[]]]; try discriminate;
          injection E as -> ->; eexists; (split; [reflexivity|]); firstorder.
      * intros (f' & Ef & Lf). left.
        destruct i as [|[|[|[|i]]]]; cbn in Ef; try discriminate; injection Ef as <-.
        -- left. exists ds. split; [reflexivity|]. apply Ma; auto.
        -- right; left. exists ds. split; [reflexivity|]. apply Mb; auto.
        -- right; right; left. exists ds. split; [reflexivity|]. apply Mc; auto.
        -- right; right; right. exists ds. split; [reflexivity|]. apply Md; auto.
Qed.

Lemma post_rel_leaf rank o c : In rank (owners (FLeaf o)) -> post_rel rank (FLeaf o) [([], c)].
Proof.
  intros H. split; [repeat constructor|]. intros ds. cbn [map fst In]. destruct ds as [|i ds].
  - split; [intros _; apply local_nil; exact H|auto].
  - split; [intros [E|[]]; discriminate|]. intros (f' & E & _). cbn in E. discriminate.
Qed.

(** ** Traversals with a recording callback *)
Section order.
Context {D S R : Type} (rank : nat) (F : forest) (Inv : nmap D -> Prop).

Definition flag (f : forest) : bool := match f with FLeaf _ => true | FNode _ _ _ _ => false end.

Definition shift (p : path) (l : list (list nat * bool)) : log := map (fun e => (p ++ fst e, snd e)) l.

Lemma shift_app p l1 l2 : shift p (l1 ++ l2) = shift p l1 ++ shift p l2.
Proof. apply map_app. Qed.
Lemma shift_down p i l : shift p (down i l) = shift (p ++ [i]) l.
Proof. unfold shift, down. rewrite map_map. apply map_ext. intros e. cbn. rewrite <- app_assoc. reflexivity. Qed.

(** A callback that visits the node of the quadrant it is called for. *)
Definition records (cb : @callback D (S * log) R) : Prop :=
  forall ds f' q s lg m, sub F ds = Some f' -> has_local rank f' = true ->
  quadrant_path q = 0 :: ds -> Inv m ->
  exists r : res (S * nmap D * bool),
    (forall k, cb ((s, lg), m) q (flag f') k
       = lift r (fun x => k (((fst (fst x), lg ++ [(0 :: ds, snd x)]), snd (fst x)), snd x))) /\
    (forall x, r = Ok x -> Inv (snd (fst x))).

Definition pre_goal (cb : @callback D (S * log) R) (f : forest) : Prop :=
  forall ds q s lg m, sub F ds = Some f -> valid_quadrant q -> quadrant_path q = 0 :: ds ->
  qlevel q + depth f <= qmaxlevel -> Inv m ->
  exists r : res (S * nmap D * list (list nat * bool)),
    (forall k, search_reorder rank cb no_callback f q ((s, lg), m) k
       = lift r (fun x => k ((fst (fst x), lg ++ shift (0 :: ds) (snd x)), snd (fst x)))) /\
    (forall x, r = Ok x -> Inv (snd (fst x)) /\ pre_rel rank f (snd x)).

Definition post_goal (cb : @callback D (S * log) R) (f : forest) : Prop :=
  forall ds q s lg m, sub F ds = Some f -> valid_quadrant q -> quadrant_path q = 0 :: ds ->
  qlevel q + depth f <= qmaxlevel -> Inv m ->
  exists r : res (S * nmap D * list (list nat * bool)),
    (forall k, search_reorder rank no_callback cb f q ((s, lg), m) k
       = lift r (fun x => k ((fst (fst x), lg ++ shift (0 :: ds) (snd x)), snd (fst x)))) /\
    (forall x, r = Ok x -> Inv (snd (fst x)) /\ post_rel rank f (snd x)).

Lemma sub_child ds f i f' : sub F ds = Some f -> fchild f i = Some f' -> sub F (ds ++ [i]) = Some f'.
Proof. intros H E. rewrite (sub_app F ds [i] f H). cbn. rewrite E. reflexivity. Qed.

Lemma no_local f : has_local rank f = false -> ~ In rank (owners f).
Proof. intros H Hi. apply has_local_iff in Hi. congruence. Qed.

Ltac child_hyps E :=
  first [ assumption
        | apply (sub_child _ _ _ _ E); reflexivity
        | apply valid_child; [assumption|cbn [depth] in *; lia|lia]
        | rewrite path_child by (try assumption; cbn [depth] in *; lia); match goal with H : quadrant_path _ = _ |- _ => rewrite H end; reflexivity
        | cbn [depth qlevel qchild] in *; lia ].

Lemma pre_all cb : records cb -> forall f, pre_goal cb f.
Proof.
  intros HR f. induction f as [o|a IHa b IHb c IHc d IHd]; intros ds q s lg m Es V Ep HL I.
  - cbn [search_reorder]. destruct (has_local rank (FLeaf o)) eqn:HLo.
    + destruct (HR ds (FLeaf o) q s lg m Es HLo Ep I) as (r & Er & Ir). cbn [flag] in Er.
      exists (x <- r ;; Ok (fst x, [([], snd x)])). split.
      * intros k. rewrite Er. destruct r as [x|e|]; cbn; try reflexivity. rewrite app_nil_r.
        unfold no_callback. destruct (snd x); reflexivity.
      * intros x Hx. apply bind_inv in Hx as (y & -> & Hy). injection Hy as <-. cbn. split; [eauto|].
        apply pre_rel_leaf. apply has_local_iff. exact HLo.
    + exists (Ok (s, m, [])). split; [intros k; cbn; rewrite app_nil_r; reflexivity|].
      intros x Hx. injection Hx as <-. cbn. split; [exact I|]. apply pre_rel_empty. apply no_local. exact HLo.
  - cbn [search_reorder]. destruct (has_local rank (FNode a b c d)) eqn:HLo.
    2:{ exists (Ok (s, m, [])). split; [intros k; cbn; rewrite app_nil_r; reflexivity|].
        intros x Hx. injection Hx as <-. cbn. split; [exact I|]. apply pre_rel_empty. apply no_local. exact HLo. }
    assert (HIn : In rank (owners (FNode a b c d))) by (apply has_local_iff; exact HLo).
    destruct (HR ds (FNode a b c d) q s lg m Es HLo Ep I) as (r & Er & Ir). cbn [flag] in Er.
    destruct r as [[[s0 m0] c0]|e|].
    2:{ exists (Throw e). split; [intros k; rewrite Er; reflexivity|discriminate]. }
    2:{ exists UB. split; [intros k; rewrite Er; reflexivity|discriminate]. }
    specialize (Ir _ eq_refl). cbn [fst snd] in Ir, Er. cbn [lift fst snd] in Er.
    destruct c0.
    2:{ exists (Ok (s0, m0, [([], false)])). split.
        - intros k. rewrite Er. cbn. rewrite app_nil_r. reflexivity.
        - intros x Hx. injection Hx as <-. cbn. split; [exact Ir|]. apply pre_rel_stop. exact HIn. }
    destruct (IHa (ds ++ [0]) (qchild q 0) s0 (lg ++ [(0 :: ds, true)]) m0) as (ra & Era & Ira); [child_hyps Es ..|].
    destruct ra as [[[s1 m1] la]|e|].
    2:{ exists (Throw e). split; [intros k; rewrite Er; cbn; rewrite Era; reflexivity|discriminate]. }
    2:{ exists UB. split; [intros k; rewrite Er; cbn; rewrite Era; reflexivity|discriminate]. }
    destruct (Ira _ eq_refl) as [I1 Pa]. cbn [fst snd lift] in I1, Pa, Era.
    destruct (IHb (ds ++ [1]) (qchild q 1) s1 ((lg ++ [(0 :: ds, true)]) ++ shift (0 :: ds ++ [0]) la) m1) as (rb & Erb & Irb); [child_hyps Es ..|].
    destruct rb as [[[s2 m2] lb]|e|].
    2:{ exists (Throw e). split; [intros k; rewrite Er; cbn; rewrite Era, Erb; reflexivity|discriminate]. }
    2:{ exists UB. split; [intros k; rewrite Er; cbn; rewrite Era, Erb; reflexivity|discriminate]. }
    destruct (Irb _ eq_refl) as [I2 Pb]. cbn [fst snd lift] in I2, Pb, Erb.
    destruct (IHc (ds ++ [2]) (qchild q 2) s2 (((lg ++ [(0 :: ds, true)]) ++ shift (0 :: ds ++ [0]) la) ++ shift (0 :: ds ++ [1]) lb) m2) as (rc & Erc & Irc); [child_hyps Es ..|].
    destruct rc as [[[s3 m3] lc]|e|].
    2:{ exists (Throw e). split; [intros k; rewrite Er; cbn; rewrite Era, Erb, Erc; reflexivity|discriminate]. }
    2:{ exists UB. split; [intros k; rewrite Er; cbn; rewrite Era, Erb, Erc; reflexivity|discriminate]. }
    destruct (Irc _ eq_refl) as [I3 Pc]. cbn [fst snd lift] in I3, Pc, Erc.
    destruct (IHd (ds ++ [3]) (qchild q 3) s3 ((((lg ++ [(0 :: ds, true)]) ++ shift (0 :: ds ++ [0]) la) ++ shift (0 :: ds ++ [1]) lb) ++ shift (0 :: ds ++ [2]) lc) m3) as (rd & Erd & Ird); [child_hyps Es ..|].
    destruct rd as [[[s4 m4] ld]|e|].
    2:{ exists (Throw e). split; [intros k; rewrite Er; cbn; rewrite Era, Erb, Erc, Erd; reflexivity|discriminate]. }
    2:{ exists UB. split; [intros k; rewrite Er; cbn; rewrite Era, Erb, Erc, Erd; reflexivity|discriminate]. }
    destruct (Ird _ eq_refl) as [I4 Pd]. cbn [fst snd lift] in I4, Pd, Erd.
    exists (Ok (s4, m4, ([], true) :: down 0 la ++ down 1 lb ++ down 2 lc ++ down 3 ld)). split.
    + intros k. rewrite Er. cbn [snd fst lift]. rewrite Era, Erb, Erc, Erd. unfold no_callback. cbn [fst].
      f_equal. f_equal. f_equal.
      change (shift (0 :: ds) (([], true) :: down 0 la ++ down 1 lb ++ down 2 lc ++ down 3 ld))
        with ((0 :: ds ++ [], true) :: shift (0 :: ds) (down 0 la ++ down 1 lb ++ down 2 lc ++ down 3 ld)).
      rewrite app_nil_r, !shift_app, !shift_down. cbn [app]. rewrite <- !app_assoc. reflexivity.
    + intros x Hx. injection Hx as <-. cbn. split; [exact I4|]. apply pre_rel_node; auto.
Qed.

Lemma post_all cb : records cb -> forall f, post_goal cb f.
Proof.
  intros HR f. induction f as [o|a IHa b IHb c IHc d IHd]; intros ds q s lg m Es V Ep HL I.
  - cbn [search_reorder]. destruct (has_local rank (FLeaf o)) eqn:HLo.
    + destruct (HR ds (FLeaf o) q s lg m Es HLo Ep I) as (r & Er & Ir). cbn [flag] in Er.
      exists (x <- r ;; Ok (fst x, [([], snd x)])). split.
      * intros k. unfold no_callback. cbn [snd fst]. rewrite Er. destruct r as [x|e|]; cbn; try reflexivity. rewrite app_nil_r.
        reflexivity.
      * intros x Hx. apply bind_inv in Hx as (y & -> & Hy). injection Hy as <-. cbn. split; [eauto|].
        apply post_rel_leaf. apply has_local_iff. exact HLo.
    + exists (Ok (s, m, [])). split; [intros k; cbn; rewrite app_nil_r; reflexivity|].
      intros x Hx. injection Hx as <-. cbn. split; [exact I|]. apply post_rel_empty. apply no_local. exact HLo.
  - cbn [search_reorder]. destruct (has_local rank (FNode a b c d)) eqn:HLo.
    2:{ exists (Ok (s, m, [])). split; [intros k; cbn; rewrite app_nil_r; reflexivity|].
        intros x Hx. injection Hx as <-. cbn. split; [exact I|]. apply post_rel_empty. apply no_local. exact HLo. }
    assert (HIn : In rank (owners (FNode a b c d))) by (apply has_local_iff; exact HLo).
    unfold no_callback at 1. cbn [fst snd].
    destruct (IHa (ds ++ [0]) (qchild q 0) s lg m) as (ra & Era & Ira); [child_hyps Es ..|].
    destruct ra as [[[s1 m1] la]|e|].
    2:{ exists (Throw e). split; [intros k; rewrite Era; reflexivity|discriminate]. }
    2:{ exists UB. split; [intros k; rewrite Era; reflexivity|discriminate]. }
    destruct (Ira _ eq_refl) as [I1 Pa]. cbn [fst snd lift] in I1, Pa, Era.
    destruct (IHb (ds ++ [1]) (qchild q 1) s1 (lg ++ shift (0 :: ds ++ [0]) la) m1) as (rb & Erb & Irb); [child_hyps Es ..|].
    destruct rb as [[[s2 m2] lb]|e|].
    2:{ exists (Throw e). split; [intros k; rewrite Era, Erb; reflexivity|discriminate]. }
    2:{ exists UB. split; [intros k; rewrite Era, Erb; reflexivity|discriminate]. }
    destruct (Irb _ eq_refl) as [I2 Pb]. cbn [fst snd lift] in I2, Pb, Erb.
    destruct (IHc (ds ++ [2]) (qchild q 2) s2 ((lg ++ shift (0 :: ds ++ [0]) la) ++ shift (0 :: ds ++ [1]) lb) m2) as (rc & Erc & Irc); [child_hyps Es ..|].
    destruct rc as [[[s3 m3] lc]|e|].
    2:{ exists (Throw e). split; [intros k; rewrite Era, Erb, Erc; reflexivity|discriminate]. }
    2:{ exists UB. split; [intros k; rewrite Era, Erb, Erc; reflexivity|discriminate]. }
    destruct (Irc _ eq_refl) as [I3 Pc]. cbn [fst snd lift] in I3, Pc, Erc.
    destruct (IHd (ds ++ [3]) (qchild q 3) s3 (((lg ++ shift (0 :: ds ++ [0]) la) ++ shift (0 :: ds ++ [1]) lb) ++ shift (0 :: ds ++ [2]) lc) m3) as (rd & Erd & Ird); [child_hyps Es ..|].
    destruct rd as [[[s4 m4] ld]|e|].
    2:{ exists (Throw e). split; [intros k; rewrite Era, Erb, Erc, Erd; reflexivity|discriminate]. }
    2:{ exists UB. split; [intros k; rewrite Era, Erb, Erc, Erd; reflexivity|discriminate]. }
    destruct (Ird _ eq_refl) as [I4 Pd]. cbn [fst snd lift] in I4, Pd, Erd.
    destruct (HR ds (FNode a b c d) q s4 ((((lg ++ shift (0 :: ds ++ [0]) la) ++ shift (0 :: ds ++ [1]) lb) ++ shift (0 :: ds ++ [2]) lc) ++ shift (0 :: ds ++ [3]) ld) m4 Es HLo Ep I4) as (r & Er & Ir). cbn [flag] in Er.
    exists (x <- r ;; Ok (fst x, down 0 la ++ down 1 lb ++ down 2 lc ++ down 3 ld ++ [([], snd x)])). split.
    + intros k. rewrite Era, Erb, Erc, Erd, Er. destruct r as [x|e|]; cbn [lift bind]; try reflexivity.
      cbn [fst snd]. f_equal. f_equal. f_equal.
      rewrite !shift_app, !shift_down. unfold shift at 9. cbn [map fst snd app]. rewrite app_nil_r.
      rewrite <- !app_assoc. reflexivity.
    + intros x Hx. apply bind_inv in Hx as (y & -> & Hy). injection Hy as <-. cbn [fst snd].
      split; [eauto|]. apply post_rel_node; auto.
Qed.

End order.
