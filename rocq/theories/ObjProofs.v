(** Proofs about quadtree objects and the user pointer. *)
From Verif Require Import Base VectorModel MatrixModel HPSModel TreeModel ObjModel ObjSpec.

Section p.
Context {D S R : Type} (rank : nat) (dflt : D).
Notation world := (@world D S).
Notation cmd := (cmd D R).

Lemma upd_eq {A} (f : nat -> A) i a : upd f i a i = a.
Proof. unfold upd. rewrite Nat.eqb_refl. reflexivity. Qed.
Lemma upd_neq {A} (f : nat -> A) i j a : i <> j -> upd f i a j = f j.
Proof. intros H. unfold upd. destruct (Nat.eqb_spec i j); congruence. Qed.

Lemma has_local_no (pre post : @callback D S R) f q st k : has_local rank f = false ->
  search_reorder rank pre post f q st k = k st.
Proof. intros H. destruct f; cbn [search_reorder]; rewrite H; reflexivity. Qed.

(** The object the pointer refers to is the object the traversal was called on. *)
Lemma through_self (w : world) i o p f pre post m s :
  w_obj w i = Some o -> o_p4est o = Some p -> w_forest w p = Some f -> w_ptr w p = PTree i ->
  o_map o = m -> w_s w = s ->
  forall k : world -> cmd, search_through rank w i pre post k
   = search_reorder rank (pre o) (post o) f root_quadrant (s, m)
       (fun st => k (set_s (set_obj w i (Some (set_omap o (snd st)))) (fst st))).
Proof.
  intros H1 H2 H3 H4 <- <- k. unfold search_through. rewrite H1, H2, H3, H4, H1.
  destruct (has_local rank f) eqn:E; [reflexivity|]. rewrite has_local_no by exact E.
  destruct o; reflexivity.
Qed.

Lemma with_obj_self (w : world) i g o : w_obj w i = Some o -> w_obj (with_obj w i g) i = Some (g o).
Proof. intros H. unfold with_obj. rewrite H. cbn. apply upd_eq. Qed.
Lemma with_obj_other (w : world) i g j : j <> i -> w_obj (with_obj w i g) j = w_obj w j.
Proof. intros H. unfold with_obj. destruct (w_obj w i); [|reflexivity]. cbn. apply upd_neq. congruence. Qed.
Lemma with_obj_forest (w : world) i g : w_forest (with_obj w i g) = w_forest w.
Proof. unfold with_obj. destruct (w_obj w i); reflexivity. Qed.
Lemma with_obj_ptr (w : world) i g : w_ptr (with_obj w i g) = w_ptr w.
Proof. unfold with_obj. destruct (w_obj w i); reflexivity. Qed.
Lemma with_obj_s (w : world) i g : w_s (with_obj w i g) = w_s w.
Proof. unfold with_obj. destruct (w_obj w i); reflexivity. Qed.

Lemma operates (w : world) o i p obj f :
  option_map fst (traversal (R := R) rank dflt o) = Some i ->
  w_obj w i = Some obj -> o_p4est obj = Some p -> w_forest w p = Some f ->
  w_ptr w p = PTree i \/ (exists fn, o = PreNode i fn) ->
  operates_on_itself (R := R) rank dflt w o.
Proof.
  intros Ht Ho Hp Hf Hw. unfold operates_on_itself.
  destruct o as [ | | | | |i' fn|i' fn|i' fn|i' fn|i' fn fam|i' fn fam]; cbn [traversal option_map fst] in Ht |- *; try discriminate;
    injection Ht as ->; exists obj, p, f; (split; [exact Ho|]); (split; [exact Hp|]); (split; [exact Hf|]).
  1:{ set (w0 := with_obj (set_ptr w p (PTree i)) i (fun x => set_visit x fn)).
      assert (H0 : w_obj w0 i = Some (set_visit obj fn)) by exact (with_obj_self (set_ptr w p (PTree i)) i (fun x => set_visit x fn) obj Ho).
      exists (fun st => set_s (set_obj w0 i (Some (set_omap (set_visit obj fn) (snd st)))) (fst st)).
      split; [|split; [|split; [|split]]].
      - intros k. cbn [step]. rewrite Ho, Hp. fold w0.
        rewrite (through_self w0 i _ p f (visit_cb rank) none_cb (o_map obj) (w_s w) H0); [reflexivity|exact Hp| | |reflexivity|].
        + unfold w0. rewrite with_obj_forest. exact Hf.
        + unfold w0. rewrite with_obj_ptr. cbn. apply upd_eq.
        + unfold w0. rewrite with_obj_s. reflexivity.
      - reflexivity.
      - intros st. eexists. split; [cbn; apply upd_eq|]. auto.
      - intros st j Hj. cbn. rewrite upd_neq by congruence. unfold w0. rewrite with_obj_other by exact Hj. reflexivity.
      - intros st. cbn. unfold w0. rewrite with_obj_forest. reflexivity. }
  all: destruct Hw as [Hw|(fn' & E)]; [|discriminate].
  all: match goal with |- exists w1, (forall k, step _ _ _ ?op k = _) /\ _ =>
         match op with
         | PreData _ ?fn => set (g := fun x : @qobj D S => set_datafn x fn)
         | PostNode _ ?fn => set (g := fun x : @qobj D S => set_visit x fn)
         | PostData _ ?fn => set (g := fun x : @qobj D S => set_datafn x fn)
         | Merge _ ?fn ?fam => set (g := fun x : @qobj D S => set_family (set_visit x fn) fam)
         | Split _ ?fn ?fam => set (g := fun x : @qobj D S => set_family (set_visit x fn) fam)
         end end.
  all: exists (fun st => set_s (set_obj (with_obj w i g) i (Some (set_omap (g obj) (snd st)))) (fst st)).
  all: split; [|split; [reflexivity|split; [|split]]];
    [| intros st; eexists; split; [cbn; apply upd_eq|]; auto
     | intros st j Hj; cbn [w_obj set_s set_obj]; rewrite upd_neq by congruence; apply with_obj_other; exact Hj
     | intros st; cbn [w_forest set_s set_obj]; rewrite with_obj_forest; reflexivity].
  all: intros k; cbn [step]; fold g.
  all: match goal with |- search_through _ _ _ ?pre ?post _ = _ =>
         rewrite (through_self (with_obj w i g) i (g obj) p f pre post (o_map obj) (w_s w));
         [reflexivity|apply with_obj_self; exact Ho|exact Hp|rewrite with_obj_forest; exact Hf
         |rewrite with_obj_ptr; exact Hw|reflexivity|apply with_obj_s] end.
Qed.

(** ** Reaching the continuation *)
Definition passes (cb : @callback D S R) : Prop :=
  forall st q b k a, ret (cb st q b k) a -> exists x, ret (k x) a.

Lemma ret_lift {A} (x : res A) (k : A -> cmd) a : ret (lift x k) a -> exists y, ret (k y) a.
Proof. destruct x; cbn; intros H; [eauto|inversion H|inversion H]. Qed.

Lemma no_passes : passes no_callback.
Proof. intros st q b k a H. exists (st, true). exact H. Qed.
Lemma visit_passes fn : passes (search_visit rank fn).
Proof.
  intros st q b k a. unfold search_visit. destruct (mget _ _) as [n|]; [|eauto].
  destruct (in_range _ _ _); [|eauto]. intros H. apply ret_lift in H as (y & H). eauto.
Qed.
Lemma data_passes fn : passes (search_visit_data rank fn).
Proof.
  intros st q b k a. unfold search_visit_data. destruct (mget _ _) as [n|]; [|eauto].
  destruct (in_range _ _ _); [|eauto]. intros H. apply ret_lift in H as (y & H). eauto.
Qed.
Lemma gather_child_passes node i m (k : _ -> cmd) a :
  ret (gather_child (R := R) rank dflt node i m k) a -> exists x, ret (k x) a.
Proof.
  unfold gather_child. destruct (mget _ _) as [n|]; intros H; inversion H; subst;
    match goal with H : ret (Bcast _ _ _ _) _ |- _ => inversion H; subst end; eauto.
Qed.
Lemma family_passes fam p (s : S) m node ch (k : _ -> cmd) a :
  ret (visit_family fam p s m node ch k) a -> exists x, ret (k x) a.
Proof. unfold visit_family. intros H. apply ret_lift in H as (y & H). eauto. Qed.
Lemma merge_passes pol fn fam : passes (search_merge_split rank pol dflt fn fam).
Proof.
  intros st q b k a. unfold search_merge_split. destruct (mget _ _) as [n|]; [|intros H; inversion H].
  destruct b.
  - destruct (in_range _ _ _); [|eauto]. intros H. apply ret_lift in H as (y & H). eauto.
  - destruct (in_range _ _ _); [|eauto]. destruct (Nat.eqb _ _).
    + destruct (local_children n (snd st)) as [[a0|] [a1|] [a2|] [a3|]]; try (intros H; inversion H; fail).
      apply family_passes.
    + destruct pol; [|intros H; inversion H]. unfold gather. intros H.
      apply gather_child_passes in H as (x0 & H). apply gather_child_passes in H as (x1 & H).
      apply gather_child_passes in H as (x2 & H). apply gather_child_passes in H as (x3 & H).
      apply family_passes in H. exact H.
Qed.

Lemma search_passes pre post f : passes pre -> passes post ->
  forall q st (k : S * nmap D -> cmd) a, ret (search_reorder rank pre post f q st k) a -> exists st', ret (k st') a.
Proof.
  intros Hpre Hpost. induction f as [o|fa IHa fb IHb fc IHc fd IHd]; intros q st k a; cbn [search_reorder].
  - destruct (has_local _ _); [|eauto]. intros H. apply Hpre in H as (x & H).
    destruct (snd x); [|eauto]. apply Hpost in H as (y & H). eauto.
  - destruct (has_local _ _); [|eauto]. intros H. apply Hpre in H as (x & H).
    destruct (snd x); [|eauto]. apply IHa in H as (s1 & H). apply IHb in H as (s2 & H).
    apply IHc in H as (s3 & H). apply IHd in H as (s4 & H). apply Hpost in H as (y & H). eauto.
Qed.

(** Forests, pointers and the p4est of every object are the same afterwards. *)
Definition same_frame (w w' : world) : Prop :=
  w_forest w' = w_forest w /\ w_ptr w' = w_ptr w /\
  forall j, option_map o_p4est (w_obj w' j) = option_map o_p4est (w_obj w j).

Lemma frame_refl w : same_frame w w.
Proof. split; [reflexivity|split; reflexivity]. Qed.
Lemma frame_trans w1 w2 w3 : same_frame w1 w2 -> same_frame w2 w3 -> same_frame w1 w3.
Proof. intros (A1 & A2 & A3) (B1 & B2 & B3). repeat split; try congruence; intros j; rewrite B3; apply A3. Qed.

Lemma frame_set w i o o' : w_obj w i = Some o -> o_p4est o' = o_p4est o -> same_frame w (set_obj w i (Some o')).
Proof.
  intros H1 H2. split; [reflexivity|]. split; [reflexivity|]. intros j. cbn.
  destruct (Nat.eq_dec i j) as [<-|Hne]; [rewrite upd_eq, H1; cbn; congruence|rewrite upd_neq by exact Hne; reflexivity].
Qed.
Lemma frame_s w s : same_frame w (set_s w s).
Proof. split; [reflexivity|split; reflexivity]. Qed.
Lemma frame_with w i g : (forall o, o_p4est (g o) = o_p4est o) -> same_frame w (with_obj w i g).
Proof.
  intros H. unfold with_obj. destruct (w_obj w i) as [o|] eqn:E; [|apply frame_refl].
  apply (frame_set w i o); auto.
Qed.

Lemma through_frame w i pre post (k : world -> cmd) a :
  (forall o, passes (pre o)) -> (forall o, passes (post o)) ->
  ret (search_through rank w i pre post k) a -> exists w', same_frame w w' /\ ret (k w') a.
Proof.
  intros Hpre Hpost. unfold search_through.
  destruct (w_obj w i) as [o|] eqn:Ei; [|intros H; inversion H].
  destruct (o_p4est o) as [p|]; [|intros H; inversion H].
  destruct (w_forest w p) as [f|]; [|intros H; inversion H].
  destruct (has_local rank f).
  - destruct (w_ptr w p) as [| |j]; try (intros H; inversion H; fail).
    destruct (w_obj w j) as [oj|] eqn:Ej; [|intros H; inversion H]. intros H.
    apply search_passes in H as (st & H); auto. eexists. split; [|exact H].
    apply (frame_trans _ (set_obj w j (Some (set_omap oj (snd st))))); [|apply frame_s].
    apply (frame_set w j oj); auto.
  - intros H. eexists. split; [|exact H]. apply (frame_set w i o); auto.
Qed.

(** ** The pointer stays with an object that is alone on its forest *)
Definition pointed (w : world) (i p : nat) : Prop := alone w i p /\ w_ptr w p = PTree i.

Lemma frame_alone w w' i p : same_frame w w' -> alone w i p -> alone w' i p.
Proof.
  intros (F1 & F2 & F3) ((o & H1 & H2) & H3 & H4). split; [|split].
  - specialize (F3 i). rewrite H1 in F3. cbn in F3. destruct (w_obj w' i) as [o'|]; [|discriminate].
    exists o'. split; [reflexivity|]. cbn in F3. congruence.
  - rewrite F1. exact H3.
  - intros j o' Hj Ho'. specialize (F3 j). rewrite Ho' in F3. cbn in F3.
    destruct (w_obj w j) as [oj|] eqn:Ej; [|discriminate]. cbn in F3. injection F3 as ->. apply (H4 j); auto.
Qed.
Lemma frame_pointed w w' i p : same_frame w w' -> pointed w i p -> pointed w' i p.
Proof. intros F [H1 H2]. split; [apply (frame_alone w); auto|]. destruct F as (_ & -> & _). exact H2. Qed.

Lemma all_passes (o : @qobj D S) : passes (none_cb o) /\ passes (visit_cb rank o) /\ passes (data_cb rank o) /\ passes (merge_cb rank dflt o).
Proof.
  split; [apply no_passes|]. split; [apply visit_passes|]. split; [apply data_passes|apply merge_passes].
Qed.

Lemma step_pointed w i p o (k : world -> cmd) a : pointed w i p -> keeps i p o -> ret (step rank dflt w o k) a ->
  exists w', pointed w' i p /\ ret (k w') a.
Proof.
  intros P Hk H. pose proof P as [(( oi & H1 & H2) & (f & H3) & H4) H5].
  assert (AP1 := fun o => proj1 (all_passes o)). assert (AP2 := fun o => proj1 (proj2 (all_passes o))).
  assert (AP3 := fun o => proj1 (proj2 (proj2 (all_passes o)))). assert (AP4 := fun o => proj2 (proj2 (proj2 (all_passes o)))).
  destruct o as [p' f' x|i'|i' p' fac root|i' j'|i'|i' fn|i' fn|i' fn|i' fn|i' fn fam|i' fn fam]; cbn [step keeps] in *.
  - eexists. split; [|exact H]. split; [split; [|split]|]; cbn.
    + eauto.
    + rewrite upd_neq by exact Hk. eauto.
    + exact H4.
    + rewrite upd_neq by exact Hk. exact H5.
  - eexists. split; [|exact H]. split; [split; [|split]|]; cbn.
    + rewrite upd_neq by exact Hk. eauto.
    + eauto.
    + intros j o Hj. destruct (Nat.eq_dec i' j) as [<-|Hne]; [rewrite upd_eq|rewrite upd_neq by exact Hne; apply H4; exact Hj].
      intros E. injection E as <-. cbn. discriminate.
    + exact H5.
  - destruct Hk as [K1 K2]. destruct (w_forest w p') as [f'|]; [|inversion H].
    apply ret_lift in H as (m & H). eexists. split; [|exact H]. split; [split; [|split]|]; cbn.
    + rewrite upd_neq by exact K1. eauto.
    + eauto.
    + intros j o Hj. destruct (Nat.eq_dec i' j) as [<-|Hne]; [rewrite upd_eq|rewrite upd_neq by exact Hne; apply H4; exact Hj].
      intros E. injection E as <-. cbn. congruence.
    + exact H5.
  - destruct Hk as [K1 K2]. destruct (w_obj w i') as [o1|] eqn:E1; [|inversion H].
    destruct (w_obj w j') as [o2|] eqn:E2; [|inversion H].
    destruct (Nat.eqb_spec i' j') as [->|Hne]; [exists w; auto|].
    eexists. split; [|exact H]. split; [split; [|split]|]; cbn.
    + rewrite upd_neq by exact K2. rewrite upd_neq by exact K1. eauto.
    + eauto.
    + intros j o Hj. destruct (Nat.eq_dec j' j) as [<-|Hj']; [rewrite upd_eq|rewrite upd_neq by exact Hj'].
      * intros E. injection E as <-. cbn. apply (H4 j'); auto.
      * destruct (Nat.eq_dec i' j) as [<-|Hi']; [rewrite upd_eq|rewrite upd_neq by exact Hi'; apply H4; exact Hj].
        intros E. injection E as <-. cbn. apply (H4 j'); auto.
    + exact H5.
  - eexists. split; [|exact H]. split; [split; [|split]|]; cbn.
    + rewrite upd_neq by exact Hk. eauto.
    + eauto.
    + intros j o Hj. destruct (Nat.eq_dec i' j) as [<-|Hne]; [rewrite upd_eq; discriminate|rewrite upd_neq by exact Hne; apply H4; exact Hj].
    + exact H5.
  - destruct (w_obj w i') as [o'|] eqn:E'; [|inversion H]. destruct (o_p4est o') as [p'|] eqn:Ep'; [|inversion H].
    apply through_frame in H as (w' & F & H); auto. exists w'. split; [|exact H].
    apply (frame_pointed _ _ i p F). apply (frame_pointed (set_ptr w p' (PTree i'))); [apply frame_with; reflexivity|].
    split; [exact (proj1 P)|]. cbn. destruct (Nat.eq_dec p' p) as [->|Hne]; [|rewrite upd_neq by exact Hne; exact H5].
    rewrite upd_eq. f_equal. destruct (Nat.eq_dec i' i) as [E|Hni]; [exact E|].
    exfalso. exact (H4 i' o' Hni E' Ep').
  - apply through_frame in H as (w' & F & H); auto. exists w'. split; [|exact H].
    apply (frame_pointed _ _ i p F). apply (frame_pointed w); [apply frame_with; reflexivity|exact P].
  - apply through_frame in H as (w' & F & H); auto. exists w'. split; [|exact H].
    apply (frame_pointed _ _ i p F). apply (frame_pointed w); [apply frame_with; reflexivity|exact P].
  - apply through_frame in H as (w' & F & H); auto. exists w'. split; [|exact H].
    apply (frame_pointed _ _ i p F). apply (frame_pointed w); [apply frame_with; reflexivity|exact P].
  - apply through_frame in H as (w' & F & H); auto. exists w'. split; [|exact H].
    apply (frame_pointed _ _ i p F). apply (frame_pointed w); [apply frame_with; reflexivity|exact P].
  - apply through_frame in H as (w' & F & H); auto. exists w'. split; [|exact H].
    apply (frame_pointed _ _ i p F). apply (frame_pointed w); [apply frame_with; reflexivity|exact P].
Qed.

Lemma pre_points w i p fn (k : world -> cmd) a : alone w i p -> ret (step rank dflt w (PreNode i fn) k) a ->
  exists w', pointed w' i p /\ ret (k w') a.
Proof.
  intros A H. pose proof A as ((o & H1 & H2) & _). cbn [step] in H. rewrite H1, H2 in H.
  apply through_frame in H as (w' & F & H); [|intros x; apply visit_passes|intros x; apply no_passes].
  exists w'. split; [|exact H]. apply (frame_pointed _ _ i p F).
  apply (frame_pointed (set_ptr w p (PTree i))); [apply frame_with; reflexivity|].
  split; [exact A|]. cbn. apply upd_eq.
Qed.

Lemma steps_pointed ops : forall w i p (k : world -> cmd) a, pointed w i p -> Forall (keeps i p) ops ->
  ret (steps rank dflt w ops k) a -> exists w', pointed w' i p /\ ret (k w') a.
Proof.
  induction ops as [|o ops IH]; intros w i p k a P F H; cbn [steps] in H; [eauto|].
  inversion F; subst. apply (step_pointed w i p) in H as (w1 & P1 & H); auto.
  apply (IH w1 i p) in H; auto.
Qed.

Lemma pointed_operates w i p o : pointed w i p -> option_map fst (traversal (R := R) rank dflt o) = Some i ->
  operates_on_itself (R := R) rank dflt w o.
Proof.
  intros [((obj & H1 & H2) & (f & H3) & _) H5] Ht. apply (operates w o i p obj f); auto.
Qed.
End p.
