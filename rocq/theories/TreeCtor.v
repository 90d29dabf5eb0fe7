(** The constructor of the quadtree: which nodes exist on which rank. *)
From Verif Require Import Base VectorModel MatrixModel HPSModel TreeModel TreeSpec TreeProofs.

(** ** Owners *)
Lemma owners_nonempty f : owners f <> [].
Proof.
  induction f as [o|a IHa b IHb c IHc d IHd]; cbn [owners]; [discriminate|].
  destruct (owners a); [contradiction|discriminate].
Qed.

Lemma ss_app {A} (R : A -> A -> Prop) l1 l2 :
  StronglySorted R (l1 ++ l2) <->
  StronglySorted R l1 /\ StronglySorted R l2 /\ (forall x y, In x l1 -> In y l2 -> R x y).
Proof.
  induction l1 as [|a l1 IH]; cbn [app].
  - split; [intros H; split; [constructor|split; [exact H|intros x y []]]|intros (_ & H & _); exact H].
  - split.
    + intros H. apply StronglySorted_inv in H as [H1 H2]. apply IH in H1 as (A1 & A2 & A3).
      rewrite Forall_app in H2. destruct H2 as [H2 H3].
      split; [constructor; auto|]. split; [exact A2|].
      intros x y [<-|Hx] Hy; [rewrite Forall_forall in H3; auto|auto].
    + intros (H1 & H2 & H3). apply StronglySorted_inv in H1 as [H1 H4].
      constructor.
      * apply IH. split; [exact H1|]. split; [exact H2|]. intros; apply H3; simpl; auto.
      * rewrite Forall_app. split; [exact H4|]. apply Forall_forall. intros y Hy. apply H3; simpl; auto.
Qed.

Lemma contiguous_children a b c d : contiguous (FNode a b c d) ->
  contiguous a /\ contiguous b /\ contiguous c /\ contiguous d.
Proof.
  unfold contiguous. cbn [owners]. rewrite !ss_app. intuition.
Qed.

Lemma contiguous_child f i f' : contiguous f -> fchild f i = Some f' -> contiguous f'.
Proof.
  destruct f as [o|a b c d]; cbn [fchild]; [discriminate|].
  intros H E. apply contiguous_children in H as (A & B & C & D).
  destruct i as [|[|[|[|i]]]]; try discriminate; injection E as <-; assumption.
Qed.

Lemma contiguous_sub f ds f' : contiguous f -> sub f ds = Some f' -> contiguous f'.
Proof.
  revert f; induction ds as [|i ds IH]; cbn [sub]; intros f H E; [injection E as <-; exact H|].
  destruct (fchild f i) as [g|] eqn:Eg; [|discriminate]. apply (IH g); auto.
  apply (contiguous_child f i); auto.
Qed.

Lemma owners_child f i f' x : fchild f i = Some f' -> In x (owners f') -> In x (owners f).
Proof.
  destruct f as [o|a b c d]; cbn [fchild]; [discriminate|]. intros E H. cbn [owners].
  rewrite !in_app_iff. destruct i as [|[|[|[|i]]]]; try discriminate; injection E as <-; auto.
Qed.

Lemma owners_sub f ds f' x : sub f ds = Some f' -> In x (owners f') -> In x (owners f).
Proof.
  revert f; induction ds as [|i ds IH]; cbn [sub]; intros f E H; [injection E as <-; exact H|].
  destruct (fchild f i) as [g|] eqn:Eg; [|discriminate]. apply (owners_child f i g); eauto.
Qed.

Lemma depth_child f i f' : fchild f i = Some f' -> S (depth f') <= depth f.
Proof.
  destruct f as [o|a b c d]; cbn [fchild]; [discriminate|]. intros E. cbn [depth].
  destruct i as [|[|[|[|i]]]]; try discriminate; injection E as <-; lia.
Qed.

Lemma depth_sub f ds f' : sub f ds = Some f' -> length ds + depth f' <= depth f.
Proof.
  revert f; induction ds as [|i ds IH]; cbn [sub length]; intros f E; [injection E as <-; lia|].
  destruct (fchild f i) as [g|] eqn:Eg; [|discriminate]. apply depth_child in Eg.
  apply IH in E. lia.
Qed.

Lemma sub_digits f ds f' : sub f ds = Some f' -> Forall (fun i => i < 4) ds.
Proof.
  revert f; induction ds as [|i ds IH]; cbn [sub]; intros f E; [constructor|].
  destruct (fchild f i) as [g|] eqn:Eg; [|discriminate]. constructor; eauto.
  destruct f; [discriminate|]. destruct i as [|[|[|[|i]]]]; try discriminate; lia.
Qed.

Lemma sub_app f ds ds' f' : sub f ds = Some f' -> sub f (ds ++ ds') = sub f' ds'.
Proof.
  revert f; induction ds as [|i ds IH]; cbn [sub app]; intros f E; [injection E as <-; reflexivity|].
  destruct (fchild f i) as [g|] eqn:Eg; [|discriminate]. apply IH. exact E.
Qed.

Lemma pfirst_in f : In (pfirst f) (owners f).
Proof.
  unfold pfirst. destruct (owners f) eqn:E; [apply owners_nonempty in E; contradiction|]. simpl; auto.
Qed.

Lemma plast_in f : In (plast f) (owners f).
Proof.
  unfold plast. pose proof (owners_nonempty f) as H.
  rewrite (app_removelast_last 0 H) at 2. apply in_or_app. right. simpl; auto.
Qed.

Lemma owners_bounds f x : contiguous f -> In x (owners f) -> pfirst f <= x <= plast f.
Proof.
  unfold contiguous. intros S H. split.
  - unfold pfirst. destruct (owners f) as [|o l] eqn:E; [contradiction|]. simpl.
    destruct H as [->|H]; [lia|]. apply StronglySorted_inv in S as [_ S]. rewrite Forall_forall in S. auto.
  - unfold plast. pose proof (owners_nonempty f) as Hn.
    rewrite (app_removelast_last 0 Hn) in H, S. apply in_app_or in H as [H|[<-|[]]]; [|lia].
    apply ss_app in S as (_ & _ & S). apply S; simpl; auto.
Qed.

Lemma range_sub f ds f' r : contiguous f -> sub f ds = Some f' ->
  in_range r (pfirst f') (plast f') = true -> in_range r (pfirst f) (plast f) = true.
Proof.
  intros C E. unfold in_range. rewrite !andb_true_iff, !Nat.leb_le. intros [H1 H2].
  pose proof (owners_bounds f _ C (owners_sub _ _ _ _ E (pfirst_in f'))).
  pose proof (owners_bounds f _ C (owners_sub _ _ _ _ E (plast_in f'))). lia.
Qed.

Lemma range_child f i f' r : contiguous f -> fchild f i = Some f' ->
  in_range r (pfirst f') (plast f') = true -> in_range r (pfirst f) (plast f) = true.
Proof.
  intros C E. apply (range_sub f [i]); auto. cbn. rewrite E. reflexivity.
Qed.

(** A rank between two owners. *)
Lemma in_range_spec f r : contiguous f ->
  in_range r (pfirst f) (plast f) = true <->
  exists o1 o2, In o1 (owners f) /\ In o2 (owners f) /\ o1 <= r <= o2.
Proof.
  intros C. unfold in_range. rewrite andb_true_iff, !Nat.leb_le. split.
  - intros H. exists (pfirst f), (plast f). split; [apply pfirst_in|]. split; [apply plast_in|lia].
  - intros (o1 & o2 & H1 & H2 & H3).
    pose proof (owners_bounds f o1 C H1). pose proof (owners_bounds f o2 C H2). lia.
Qed.

(** ** Maps *)
Lemma path_eqb_refl p : path_eqb p p = true.
Proof. unfold path_eqb. destruct (list_eq_dec Nat.eq_dec p p); congruence. Qed.
Lemma path_eqb_neq p q : p <> q -> path_eqb p q = false.
Proof. unfold path_eqb. destruct (list_eq_dec Nat.eq_dec p q); congruence. Qed.

Lemma mset_eq {D} (m : nmap D) p n : mset m p n p = n.
Proof. unfold mset. rewrite path_eqb_refl. reflexivity. Qed.
Lemma mset_neq {D} (m : nmap D) p n q : p <> q -> mset m p n q = m q.
Proof. intros H. unfold mset. rewrite path_eqb_neq by exact H. reflexivity. Qed.

Lemma app_neq {A} (p : list A) i l : p <> p ++ i :: l.
Proof. intros H. apply (f_equal (@length A)) in H. rewrite app_length in H. simpl in H. lia. Qed.

(** Not below [p]. *)
Definition outside (p k : path) : Prop := forall ds, k <> p ++ ds.

Lemma outside_child p i k : outside p k -> outside (p ++ [i]) k.
Proof. intros H ds. rewrite <- app_assoc. apply H. Qed.

Lemma outside_self p i : outside (p ++ [i]) p.
Proof. intros ds. rewrite <- app_assoc. apply app_neq. Qed.

Lemma outside_sibling p i j ds : i <> j -> outside (p ++ [i]) (p ++ j :: ds).
Proof.
  intros H ds'. rewrite <- app_assoc. cbn [app]. intros E. apply app_inv_head in E. congruence.
Qed.

(** ** Paths of children *)
Lemma child_id_qchild q i : valid_quadrant q -> qlevel q < qmaxlevel -> i < 4 ->
  child_id (qchild q i) = i.
Proof.
  intros V HL Hi. pose proof (path_child q i V HL Hi) as E.
  rewrite (quadrant_path_eq (qchild q i)) in E. change (qlevel (qchild q i)) with (S (qlevel q)) in E.
  rewrite seq_S, map_app in E. cbn [map] in E. rewrite app_comm_cons in E.
  apply app_inj_tail in E as [_ E]. exact E.
Qed.

(** ** Expected nodes *)
Section ctor.
Context {D : Type} (fac : factory D) (rank : nat) (root_data : D).

Definition child_node (n : qnode D) (i : nat) (f' : forest) : qnode D :=
  set_nleaf (f_child fac n i (pfirst f') (plast f')) (leaf_here rank f').

(** The node reached from the node [n] of [f] by creating children. *)
Fixpoint chain (n : qnode D) (f : forest) (ds : list nat) : qnode D :=
  match ds with
  | [] => n
  | i :: ds' => match fchild f i with
                | Some f' => chain (child_node n i f') f' ds'
                | None => n
                end
  end.

(** What the map should hold below the node of [f]. *)
Definition expected (n : qnode D) (f : forest) (ds : list nat) : option (qnode D) :=
  match sub f ds with
  | Some f' => if in_range rank (pfirst f') (plast f') then Some (chain n f ds) else None
  | None => None
  end.

Lemma expected_cons n f i ds f' : fchild f i = Some f' ->
  expected n f (i :: ds) = expected (child_node n i f') f' ds.
Proof. intros E. unfold expected. cbn [sub chain]. rewrite E. reflexivity. Qed.

(** The node that the callback makes for the quadrant [q] of [f]. *)
Definition made (m : nmap D) (q : quadrant) (f : forest) (n : qnode D) : Prop :=
  in_range rank (pfirst f) (plast f) = true ->
  if Nat.eqb (qlevel q) 0
  then n = set_nleaf (f_node fac root_data (quadrant_path q) 0 (pfirst f) (plast f)) (leaf_here rank f)
  else exists par, m (removelast (quadrant_path q)) = Some par /\
                   n = set_nleaf (f_child fac par (child_id q) (pfirst f) (plast f)) (leaf_here rank f).

Lemma visit_made m q f n : made m q f n ->
  exists m', ctor_visit fac rank root_data m (Visit q (pfirst f) (plast f) (leaf_here rank f)) = Ok m' /\
    m' (quadrant_path q) = (if in_range rank (pfirst f) (plast f) then Some n else None) /\
    forall k, k <> quadrant_path q -> m' k = m k.
Proof.
  intros H. unfold ctor_visit, made in *. cbn [v_quad v_pfirst v_plast v_local].
  destruct (in_range rank (pfirst f) (plast f)).
  - specialize (H eq_refl). destruct (Nat.eqb_spec (qlevel q) 0) as [E0|E0].
    + rewrite bind_Ok. eexists. split; [reflexivity|]. rewrite E0, mset_eq.
      split; [congruence|]. intros k Hk. apply mset_neq. congruence.
    + destruct H as (par & Hp & ->). unfold mget. rewrite Hp, bind_Ok.
      eexists. split; [reflexivity|]. rewrite mset_eq. split; [reflexivity|].
      intros k Hk. apply mset_neq. congruence.
  - eexists. split; [reflexivity|]. rewrite mset_eq. split; [reflexivity|].
    intros k Hk. apply mset_neq. congruence.
Qed.

Definition built (f : forest) : Prop := forall q m n,
  valid_quadrant q -> qlevel q + depth f <= qmaxlevel -> contiguous f ->
  (forall ds, m (quadrant_path q ++ ds) = None) -> made m q f n ->
  exists m', foldM (ctor_visit fac rank root_data) (search_all rank f q) m = Ok m' /\
    (forall ds, m' (quadrant_path q ++ ds) = expected n f ds) /\
    (forall k, outside (quadrant_path q) k -> m' k = m k).

(** The children, one after the other. *)
Lemma built_children (f : forest) q n : valid_quadrant q -> qlevel q + depth f <= qmaxlevel ->
  contiguous f -> forall cs : list (nat * forest),
  NoDup (map fst cs) ->
  (forall i f', In (i, f') cs -> fchild f i = Some f' /\ built f') ->
  forall m,
  (in_range rank (pfirst f) (plast f) = true -> m (quadrant_path q) = Some n) ->
  (forall i f' ds, In (i, f') cs -> m (quadrant_path q ++ i :: ds) = None) ->
  exists m', foldM (ctor_visit fac rank root_data)
               (concat (map (fun c => search_all rank (snd c) (qchild q (fst c))) cs)) m = Ok m' /\
    (forall i f' ds, In (i, f') cs -> m' (quadrant_path q ++ i :: ds) = expected n f (i :: ds)) /\
    (forall k, (forall i f', In (i, f') cs -> outside (quadrant_path q ++ [i]) k) -> m' k = m k).
Proof.
  intros V HL C cs. induction cs as [|[i f'] cs IH]; intros ND Hcs m Hm Hn.
  - exists m. cbn. split; [reflexivity|]. split; [intros ? ? ? []|auto].
  - cbn [map concat fst snd] in *. inversion ND as [|? ? Hni ND']; subst.
    destruct (Hcs i f') as [Ef Bf]; [simpl; auto|].
    assert (Hi : i < 4).
    { destruct f; [discriminate|]. destruct i as [|[|[|[|i]]]]; try discriminate; lia. }
    pose proof (depth_child _ _ _ Ef) as Dp.
    assert (Hq : qlevel q < qmaxlevel) by lia.
    pose proof (path_child q i V Hq Hi) as EP.
    destruct (Bf (qchild q i) m (child_node n i f')) as (m1 & E1 & X1 & O1).
    + apply valid_child; auto.
    + change (qlevel (qchild q i)) with (S (qlevel q)). lia.
    + apply (contiguous_child f i); auto.
    + intros ds. rewrite EP, <- app_assoc. cbn [app]. apply (Hn i f'). simpl; auto.
    + unfold made. intros Hr. change (qlevel (qchild q i)) with (S (qlevel q)). cbn [Nat.eqb].
      exists n. rewrite EP, removelast_last. split.
      * apply Hm. apply (range_child f i f'); auto.
      * rewrite child_id_qchild by auto. reflexivity.
    + rewrite EP in X1, O1.
      destruct (IH ND') with (m := m1) as (m2 & E2 & X2 & O2).
      * intros j g Hj. apply Hcs. simpl; auto.
      * intros Hr. rewrite O1 by apply outside_self. auto.
      * intros j g ds Hj. rewrite O1.
        -- apply (Hn j g). simpl; auto.
        -- apply outside_sibling. intros ->. apply Hni. apply in_map_iff. exists (j, g). auto.
      * exists m2. split; [rewrite foldM_app, E1, bind_Ok; exact E2|]. split.
        -- intros j g ds [Hj|Hj].
           ++ injection Hj as <- <-. rewrite O2.
              ** specialize (X1 ds). rewrite <- app_assoc in X1. cbn [app] in X1. rewrite X1.
                 symmetry. apply expected_cons. exact Ef.
              ** intros j g Hj. apply outside_sibling. intros ->. apply Hni. apply in_map_iff. exists (i, g). auto.
           ++ apply (X2 j g). exact Hj.
        -- intros k Hk. rewrite O2.
           ++ apply O1. apply (Hk i f'). simpl; auto.
           ++ intros j g Hj. apply (Hk j g). simpl; auto.
Qed.

Lemma all_owned f o ds f' : contiguous f -> pfirst f = o -> plast f = o -> sub f ds = Some f' ->
  pfirst f' = o /\ plast f' = o.
Proof.
  intros C E1 E2 S.
  pose proof (owners_bounds f _ C (owners_sub _ _ _ _ S (pfirst_in f'))).
  pose proof (owners_bounds f _ C (owners_sub _ _ _ _ S (plast_in f'))). lia.
Qed.

Lemma built_all f : built f.
Proof.
  induction f as [o|a IHa b IHb c IHc d IHd]; intros q m n V HL C Hn HM.
  - cbn [search_all]. destruct (visit_made m q (FLeaf o) n HM) as (m' & E & X & O).
    exists m'. split.
    + cbn [foldM]. change (Visit q o o (Nat.eqb o rank)) with
        (Visit q (pfirst (FLeaf o)) (plast (FLeaf o)) (leaf_here rank (FLeaf o))).
      rewrite E, bind_Ok. reflexivity.
    + split.
      * intros ds. destruct ds as [|i ds].
        -- rewrite app_nil_r, X. unfold expected. cbn [sub chain]. reflexivity.
        -- rewrite O by (intros E'; symmetry in E'; exact (app_neq _ _ _ E')).
           rewrite Hn. unfold expected. cbn [sub fchild]. reflexivity.
      * intros k Hk. apply O. intros ->. apply (Hk []). rewrite app_nil_r. reflexivity.
  - destruct (visit_made m q (FNode a b c d) n HM) as (m1 & E1 & X1 & O1).
    set (f := FNode a b c d) in *.
    change (search_all rank f q) with
      (Visit q (pfirst f) (plast f) (leaf_here rank f) ::
       (if Nat.eqb (pfirst f) (plast f) && negb (Nat.eqb (pfirst f) rank) then []
        else search_all rank a (qchild q 0) ++ search_all rank b (qchild q 1)
          ++ search_all rank c (qchild q 2) ++ search_all rank d (qchild q 3))).
    cbn [foldM]. rewrite E1, bind_Ok.
    destruct (Nat.eqb (pfirst f) (plast f) && negb (Nat.eqb (pfirst f) rank)) eqn:R.
    + exists m1. split; [reflexivity|].
      apply andb_true_iff in R as [R1 R2]. apply Nat.eqb_eq in R1. apply negb_true_iff, Nat.eqb_neq in R2.
      split.
      * intros ds. destruct ds as [|i ds].
        -- rewrite app_nil_r, X1. unfold expected. cbn [sub chain]. reflexivity.
        -- rewrite O1 by (intros E'; symmetry in E'; exact (app_neq _ _ _ E')). rewrite Hn.
           unfold expected. destruct (sub f (i :: ds)) as [f'|] eqn:Es; [|reflexivity].
           destruct (all_owned f (pfirst f) (i :: ds) f' C eq_refl (eq_sym R1) Es) as [P1 P2].
           rewrite P1, P2. unfold in_range.
           destruct (Nat.leb_spec (pfirst f) rank), (Nat.leb_spec rank (pfirst f)); cbn; try reflexivity. lia.
      * intros k Hk. apply O1. intros ->. apply (Hk []). rewrite app_nil_r. reflexivity.
    + destruct (built_children f q n V HL C [(0, a); (1, b); (2, c); (3, d)]) with (m := m1)
        as (m2 & E2 & X2 & O2).
      * cbn. repeat constructor; simpl; intuition discriminate.
      * intros i f' [H|[H|[H|[H|[]]]]]; injection H as <- <-; split; auto.
      * intros Hr. rewrite X1, Hr. reflexivity.
      * intros i f' ds _. rewrite O1 by (intros E'; symmetry in E'; exact (app_neq _ _ _ E')). apply Hn.
      * exists m2. split.
        -- cbn [map concat fst snd] in E2. rewrite app_nil_r in E2. exact E2.
        -- split.
           ++ intros ds. destruct ds as [|i ds].
              ** rewrite app_nil_r. rewrite O2 by (intros; apply outside_self).
                 rewrite X1. unfold expected. cbn [sub chain]. reflexivity.
              ** destruct (fchild f i) as [f'|] eqn:Ef.
                 --- apply (X2 i f'). destruct i as [|[|[|[|i]]]]; cbn in Ef; try discriminate;
                       injection Ef as <-; simpl; auto.
                 --- rewrite O2.
                     +++ rewrite O1 by (intros E'; symmetry in E'; exact (app_neq _ _ _ E')). rewrite Hn.
                         unfold expected. cbn [sub]. rewrite Ef. reflexivity.
                     +++ intros j g Hj. apply outside_sibling. intros ->.
                         destruct Hj as [Hj|[Hj|[Hj|[Hj|[]]]]]; injection Hj as <- <-; discriminate.
           ++ intros k Hk. rewrite O2.
              ** apply O1. intros ->. apply (Hk []). rewrite app_nil_r. reflexivity.
              ** intros. apply outside_child. exact Hk.
Qed.

(** The whole constructor. *)
Definition root_node (f : forest) : qnode D :=
  set_nleaf (f_node fac root_data [0] 0 (pfirst f) (plast f)) (leaf_here rank f).

Lemma construct_ok f : contiguous f -> depth f <= qmaxlevel ->
  exists m, construct fac rank root_data f = Ok m /\
    (forall ds, m (0 :: ds) = expected (root_node f) f ds) /\
    (forall k, (forall ds, k <> 0 :: ds) -> m k = None).
Proof.
  intros C HL. destruct (built_all f root_quadrant mempty (root_node f)) as (m & E & X & O).
  - apply root_valid.
  - exact HL.
  - exact C.
  - reflexivity.
  - intros _. reflexivity.
  - exists m. split; [exact E|]. split; [exact X|].
    intros k Hk. rewrite O; [reflexivity|]. exact Hk.
Qed.

End ctor.

(** ** Factories *)
Lemma chain_fields {D} (fac : factory D) rank n f ds f' : factory_ok fac -> sub f ds = Some f' ->
  n_pfirst n = pfirst f -> n_plast n = plast f -> n_leaf n = leaf_here rank f ->
  let c := chain fac rank n f ds in
  n_path c = n_path n ++ ds /\ n_level c = n_level n + length ds /\
  n_pfirst c = pfirst f' /\ n_plast c = plast f' /\ n_leaf c = leaf_here rank f'.
Proof.
  intros FO. revert n f; induction ds as [|i ds IH]; intros n f E H1 H2 H3; cbn [sub chain length] in *.
  - injection E as <-. rewrite app_nil_r, Nat.add_0_r. auto 6.
  - destruct (fchild f i) as [g|] eqn:Eg; [|discriminate].
    destruct (proj2 FO n i (pfirst g) (plast g)) as (A1 & A2 & A3 & A4).
    destruct (IH (child_node fac rank n i g) g E) as (A & B & C & DD & F); [exact A3|exact A4|reflexivity|].
    cbn zeta in *. rewrite A, B, C, DD, F. cbn. rewrite A1, A2, <- app_assoc. cbn.
    repeat split; try reflexivity. lia.
Qed.

Lemma construct_node_map {D} (fac : factory D) rank root_data f :
  factory_ok fac -> contiguous f -> depth f <= qmaxlevel ->
  exists m, construct fac rank root_data f = Ok m /\ node_map rank f m.
Proof.
  intros FO C HL. destruct (construct_ok fac rank root_data f C HL) as (m & E & X & _).
  exists m. split; [exact E|]. intros ds f' Es. rewrite X. unfold expected. rewrite Es.
  destruct (in_range rank (pfirst f') (plast f')); [|reflexivity].
  destruct (proj1 FO root_data [0] 0 (pfirst f) (plast f)) as (_ & A1 & A2 & A3 & A4).
  destruct (chain_fields fac rank (root_node fac rank root_data f) f ds f' FO Es) as (B1 & B2 & B3 & B4 & B5);
    [exact A3|exact A4|reflexivity|].
  cbn zeta in *. eexists. split; [reflexivity|]. rewrite B1, B2, B3, B4, B5. cbn. rewrite A1, A2. auto 6.
Qed.

(** ** The finite volume factory *)
Lemma fv_factory_ok : factory_ok fv_factory.
Proof. split; cbn; intros; repeat split; try reflexivity; lia. Qed.

Lemma chain_grid rank n f ds f' : sub f ds = Some f' ->
  pgrid (n_data (chain fv_factory rank n f ds)) = fold_left child_grid ds (pgrid (n_data n)).
Proof.
  revert n f; induction ds as [|i ds IH]; intros n f E; cbn [sub chain fold_left] in *; [reflexivity|].
  destruct (fchild f i) as [g|] eqn:Eg; [|discriminate]. rewrite IH by exact E. reflexivity.
Qed.
