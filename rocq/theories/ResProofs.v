(** Lemmas on the resources of quadtrees. *)
From Verif Require Import Base VectorModel MatrixModel HPSModel TreeModel TreeSpec TreeProofs TreeCtor
  TreeOrder TreeMap ParCtor ResModel ResSpec.

(** ** The constructor *)

Definition counted (rank : nat) (vs : list visit) : nat :=
  length (filter (fun v => in_range rank (v_pfirst v) (v_plast v)) vs).

Lemma counted_app rank a b : counted rank (a ++ b) = counted rank a + counted rank b.
Proof. unfold counted. rewrite filter_app, app_length. reflexivity. Qed.

Lemma visits_count rank vs : forall h, foldM (visit_resources false rank) vs h =
  Ok (Held (live_nodes h + counted rank vs) (live_comms h + counted rank vs)).
Proof.
  induction vs as [|v vs IH]; intros h; cbn [foldM].
  - unfold counted. cbn. rewrite !Nat.add_0_r. destruct h; reflexivity.
  - unfold visit_resources at 1, counted. cbn [filter].
    destruct (in_range rank (v_pfirst v) (v_plast v)); cbn [bind length]; rewrite IH; [|reflexivity].
    cbn [live_nodes live_comms]. unfold counted. rewrite !Nat.add_succ_r. reflexivity.
Qed.

Lemma strict_ok rank vs : Forall (fun v => in_range rank (v_pfirst v) (v_plast v) = true) vs ->
  forall h, foldM (visit_resources true rank) vs h = foldM (visit_resources false rank) vs h.
Proof.
  induction 1 as [|v vs Hv _ IH]; intros h; cbn [foldM]; [reflexivity|].
  unfold visit_resources at 1 3. rewrite Hv. cbn [bind]. apply IH.
Qed.

Lemma strict_ub rank vs : Exists (fun v => in_range rank (v_pfirst v) (v_plast v) = false) vs ->
  forall h, foldM (visit_resources true rank) vs h = UB.
Proof.
  induction 1 as [v vs Hv|v vs _ IH]; intros h; cbn [foldM]; unfold visit_resources at 1.
  - rewrite Hv. reflexivity.
  - destruct (in_range rank (v_pfirst v) (v_plast v)); cbn [bind]; [apply IH|reflexivity].
Qed.

Lemma not_in_range_count rank f : contiguous f -> in_range rank (pfirst f) (plast f) = false -> owned_count rank f = 0.
Proof.
  induction f as [o|a IHa b IHb c IHc d IHd]; intros C H; cbn [owned_count]; rewrite H; [reflexivity|].
  assert (X : forall i g, fchild (FNode a b c d) i = Some g -> in_range rank (pfirst g) (plast g) = false /\ contiguous g).
  { intros i g Eg. split; [|apply (contiguous_child _ i g C Eg)].
    destruct (in_range rank (pfirst g) (plast g)) eqn:Y; [|reflexivity].
    rewrite (range_child _ i g rank C Eg Y) in H. discriminate. }
  destruct (X 0 a eq_refl), (X 1 b eq_refl), (X 2 c eq_refl), (X 3 d eq_refl).
  rewrite IHa, IHb, IHc, IHd by assumption. reflexivity.
Qed.

Lemma counted_search rank f : contiguous f -> forall q, counted rank (search_all rank f q) = owned_count rank f.
Proof.
  induction f as [o|a IHa b IHb c IHc d IHd]; intros C q.
  - unfold counted. cbn. destruct (in_range rank o o); reflexivity.
  - destruct (in_range rank (pfirst (FNode a b c d)) (plast (FNode a b c d))) eqn:R.
    + cbn [search_all owned_count]. unfold counted at 1. cbn [filter v_pfirst v_plast]. rewrite R. cbn [length Nat.add]. f_equal.
      destruct (Nat.eqb (pfirst (FNode a b c d)) (plast (FNode a b c d)) && negb (Nat.eqb (pfirst (FNode a b c d)) rank)) eqn:E.
      * exfalso. unfold in_range in R. rewrite andb_true_iff, !Nat.leb_le in R.
        rewrite andb_true_iff, Nat.eqb_eq, negb_true_iff, Nat.eqb_neq in E. lia.
      * destruct (contiguous_children _ _ _ _ C) as (Ca & Cb & Cc & Cd).
        rewrite <- (IHa Ca (qchild q 0)), <- (IHb Cb (qchild q 1)), <- (IHc Cc (qchild q 2)), <- (IHd Cd (qchild q 3)).
        fold (counted rank (search_all rank a (qchild q 0) ++ search_all rank b (qchild q 1)
          ++ search_all rank c (qchild q 2) ++ search_all rank d (qchild q 3))).
        rewrite !counted_app. lia.
    + rewrite (not_in_range_count _ _ C R). pose proof (not_in_range_visits rank _ q C R) as F.
      unfold counted. induction F as [|v vs Hv _ IH]; [reflexivity|]. cbn [filter]. rewrite Hv. exact IH.
Qed.

Lemma in_range_self o : in_range o o o = true.
Proof. unfold in_range. rewrite Nat.leb_refl. reflexivity. Qed.

Lemma alone_visits rank f : (forall o, In o (owners f) -> o = rank) -> forall q,
  Forall (fun v => in_range rank (v_pfirst v) (v_plast v) = true) (search_all rank f q).
Proof.
  induction f as [o|a IHa b IHb c IHc d IHd]; intros H q.
  - cbn. rewrite (H o) by (cbn; auto). repeat constructor. apply in_range_self.
  - cbn [search_all]. constructor.
    + cbn [v_pfirst v_plast]. rewrite (H _ (pfirst_in (FNode a b c d))), (H _ (plast_in (FNode a b c d))). apply in_range_self.
    + destruct (_ && _); [constructor|]. cbn [owners] in H. rewrite !Forall_app.
      repeat split; [apply IHa|apply IHb|apply IHc|apply IHd]; intros o Ho; apply H; rewrite !in_app_iff; auto.
Qed.

Lemma not_alone_visits rank f o : In o (owners f) -> o <> rank -> forall q,
  Exists (fun v => in_range rank (v_pfirst v) (v_plast v) = false) (search_all rank f q).
Proof.
  induction f as [o'|a IHa b IHb c IHc d IHd]; intros H N q.
  - cbn in *. destruct H as [->|[]]. constructor. cbn.
    destruct (in_range rank o o) eqn:E; [|reflexivity]. exfalso.
    unfold in_range in E. rewrite andb_true_iff, !Nat.leb_le in E. lia.
  - cbn [search_all].
    destruct (Nat.eqb (pfirst (FNode a b c d)) (plast (FNode a b c d)) && negb (Nat.eqb (pfirst (FNode a b c d)) rank)) eqn:E.
    + constructor. cbn [v_pfirst v_plast]. rewrite andb_true_iff, Nat.eqb_eq, negb_true_iff, Nat.eqb_neq in E.
      destruct (in_range rank _ _) eqn:R; [|reflexivity]. exfalso.
      unfold in_range in R. rewrite andb_true_iff, !Nat.leb_le in R. lia.
    + apply Exists_cons_tl. cbn [owners] in H. rewrite !in_app_iff in H. rewrite !Exists_app.
      destruct H as [H|[H|[H|H]]]; [left|right; left|right; right; left|right; right; right]; auto.
Qed.

(** ** Merge and split *)

Lemma no_local_foreign rank f : has_local rank f = false -> foreign_children rank f = 0.
Proof.
  induction f as [o|a IHa b IHb c IHc d IHd]; intros H; cbn [foreign_children]; [reflexivity|]. rewrite H.
  unfold has_local in *. cbn [owners] in H. rewrite !existsb_app, !orb_false_iff in H.
  destruct H as (Ha & Hb & Hc & Hd). rewrite IHa, IHb, IHc, IHd by assumption. reflexivity.
Qed.

Lemma foreign_zero rank f : (forall o, In o (owners f) -> o = rank) -> foreign_children rank f = 0.
Proof.
  induction f as [o|a IHa b IHb c IHc d IHd]; intros H; cbn [foreign_children]; [reflexivity|].
  cbn [owners] in H.
  assert (X : forall g, (forall o, In o (owners g) -> In o (owners a ++ owners b ++ owners c ++ owners d)) ->
    foreign rank g = 0).
  { intros g Hg. unfold foreign. replace (has_local rank g) with true; [reflexivity|]. symmetry.
    apply has_local_iff. rewrite <- (H (pfirst g)); [apply pfirst_in|]. apply Hg, pfirst_in. }
  rewrite (X a), (X b), (X c), (X d), IHa, IHb, IHc, IHd;
    [destruct (has_local _ _); reflexivity|intros o Ho; try apply H; rewrite !in_app_iff; auto..].
Qed.

Lemma foreign_pos rank f o : In rank (owners f) -> In o (owners f) -> o <> rank -> 0 < foreign_children rank f.
Proof.
  induction f as [o'|a IHa b IHb c IHc d IHd]; intros Hr Ho N.
  - cbn in *. destruct Hr as [->|[]], Ho as [->|[]]. congruence.
  - cbn [foreign_children]. pose proof (proj2 (has_local_iff _ _) Hr) as E. rewrite E. unfold foreign.
    destruct (has_local rank a) eqn:Ea; [|lia]. destruct (has_local rank b) eqn:Eb; [|lia].
    destruct (has_local rank c) eqn:Ec; [|lia]. destruct (has_local rank d) eqn:Ed; [|lia].
    apply has_local_iff in Ea, Eb, Ec, Ed. cbn [owners] in Ho. rewrite !in_app_iff in Ho.
    destruct Ho as [Ho|[Ho|[Ho|Ho]]];
      [specialize (IHa Ea Ho N)|specialize (IHb Eb Ho N)|specialize (IHc Ec Ho N)|specialize (IHd Ed Ho N)]; lia.
Qed.

Section merge.
Context {D : Type} (rank : nat) (F : forest) (m : nmap D).
Hypothesis C : contiguous F.
Hypothesis NM : node_map rank F m.
Hypothesis HR : In rank (owners F).

Lemma child_absent ds f i g : sub F ds = Some f -> fchild f i = Some g ->
  (match mget m ((0 :: ds) ++ [i]) with None => true | Some _ => false end) = negb (has_local rank g).
Proof.
  intros Es Eg. assert (Es' : sub F (ds ++ [i]) = Some g).
  { rewrite (sub_app F ds [i] f Es). cbn [sub]. rewrite Eg. reflexivity. }
  pose proof (NM (ds ++ [i]) g Es') as H. unfold mget. cbn [app].
  destruct (in_range rank (pfirst g) (plast g)) eqn:R.
  - destruct H as (n & -> & _). pose proof (range_local rank F _ g C HR Es' R) as L. apply has_local_iff in L.
    rewrite L. reflexivity.
  - rewrite H. destruct (has_local rank g) eqn:L; [|reflexivity]. apply has_local_iff in L.
    rewrite (local_in_range rank g) in R; [discriminate| |exact L]. apply (contiguous_sub F (ds ++ [i])); auto.
Qed.

Lemma here_count ds a b c d q : sub F ds = Some (FNode a b c d) -> quadrant_path q = 0 :: ds ->
  has_local rank (FNode a b c d) = true ->
  new_here rank m q = foreign rank a + foreign rank b + foreign rank c + foreign rank d.
Proof.
  intros Es Eq L. set (f := FNode a b c d) in *. unfold new_here. rewrite Eq.
  assert (Cf : contiguous f) by (apply (contiguous_sub F ds); auto).
  pose proof (proj1 (has_local_iff _ _) L) as HL.
  pose proof (local_in_range rank f Cf HL) as R.
  pose proof (NM ds f Es) as H. rewrite R in H. destruct H as (n & Hn & Hp & _ & Hf & Hl & _).
  unfold mget at 1. rewrite Hn, Hf, Hl. destruct (Nat.eqb (pfirst f) (plast f)) eqn:E.
  - apply Nat.eqb_eq in E.
    assert (A : forall o, In o (owners f) -> o = rank).
    { intros o Ho. pose proof (owners_bounds f o Cf Ho). pose proof (owners_bounds f rank Cf HL). lia. }
    unfold f in A. cbn [owners] in A.
    assert (X : forall g, (forall o, In o (owners g) -> In o (owners a ++ owners b ++ owners c ++ owners d)) ->
      foreign rank g = 0).
    { intros g Hg. unfold foreign. replace (has_local rank g) with true; [reflexivity|]. symmetry.
      apply has_local_iff. rewrite <- (A (pfirst g)); [apply pfirst_in|]. apply Hg, pfirst_in. }
    rewrite (X a), (X b), (X c), (X d); [reflexivity|intros o Ho; rewrite !in_app_iff; auto..].
  - rewrite R, Hp. cbn [filter].
    rewrite (child_absent ds f 0 a Es eq_refl), (child_absent ds f 1 b Es eq_refl),
      (child_absent ds f 2 c Es eq_refl), (child_absent ds f 3 d Es eq_refl).
    unfold foreign.
    destruct (has_local rank a), (has_local rank b), (has_local rank c), (has_local rank d); reflexivity.
Qed.

Lemma new_children_count f : forall ds q, sub F ds = Some f -> quadrant_path q = 0 :: ds -> valid_quadrant q ->
  qlevel q + depth f <= qmaxlevel -> new_children rank m f q = foreign_children rank f.
Proof.
  induction f as [o|a IHa b IHb c IHc d IHd]; intros ds q Es Eq V HL.
  - cbn [new_children foreign_children]. destruct (has_local rank (FLeaf o)); reflexivity.
  - cbn [new_children]. destruct (has_local rank (FNode a b c d)) eqn:L.
    2:{ symmetry. apply no_local_foreign. exact L. }
    cbn [foreign_children]. rewrite L, (here_count ds a b c d q Es Eq L). cbn [depth] in HL.
    assert (Hq : qlevel q < qmaxlevel) by lia.
    assert (P : forall i, i < 4 -> quadrant_path (qchild q i) = 0 :: (ds ++ [i])).
    { intros i Hi. rewrite (path_child q i V Hq Hi), Eq. reflexivity. }
    assert (S' : forall i g, fchild (FNode a b c d) i = Some g -> sub F (ds ++ [i]) = Some g).
    { intros i g Eg. rewrite (sub_app F ds [i] _ Es). cbn [sub]. rewrite Eg. reflexivity. }
    rewrite (IHa (ds ++ [0]) (qchild q 0)), (IHb (ds ++ [1]) (qchild q 1)), (IHc (ds ++ [2]) (qchild q 2)),
      (IHd (ds ++ [3]) (qchild q 3)); [reflexivity|..];
      first [apply P; lia|apply valid_child; [exact V|exact Hq|lia]|apply S'; reflexivity|cbn [qchild qlevel]; lia].
Qed.
End merge.

Lemma merge_count {D} rank F (m : nmap D) : contiguous F -> depth F <= qmaxlevel -> node_map rank F m ->
  new_children rank m F root_quadrant = foreign_children rank F.
Proof.
  intros C HL NM. destruct (has_local rank F) eqn:L.
  - apply (new_children_count rank F m C NM (proj1 (has_local_iff _ _) L) F [] root_quadrant);
      [reflexivity|reflexivity|apply root_valid|exact HL].
  - rewrite (no_local_foreign rank F L). destruct F; cbn [new_children]; rewrite L; reflexivity.
Qed.

(** ** Programs *)

Lemma qop_mono {D} strict (fac : factory D) rd rank s h op s' h' :
  run_qop strict fac rd rank (s, h) op = Ok (s', h') ->
  live_nodes h <= live_nodes h' /\ live_comms h <= live_comms h'.
Proof.
  destruct op as [q f|q from|q|q|q]; cbn [run_qop]; intros E.
  - apply bind_inv in E as (h1 & E1 & E). apply bind_inv in E as (m & _ & E). injection E as _ <-.
    unfold construct_resources in E1. revert h E1. induction (search_all rank f root_quadrant) as [|v vs IH]; intros h E1.
    + cbn in E1. injection E1 as <-. lia.
    + cbn [foldM] in E1. apply bind_inv in E1 as (h2 & E2 & E1). apply IH in E1.
      unfold visit_resources in E2. destruct (in_range _ _ _); [|destruct strict; [discriminate|]];
        injection E2 as <-; cbn [live_nodes live_comms] in *; lia.
  - destruct (Nat.eqb q from); [injection E as _ <-; lia|]. destruct (s from); [|discriminate]. injection E as _ <-. lia.
  - injection E as _ <-. lia.
  - destruct (s q) as [[f m]|]; [|discriminate]. injection E as _ <-. cbn. lia.
  - destruct (s q) as [[f m]|]; [|discriminate]. injection E as _ <-. cbn. lia.
Qed.
