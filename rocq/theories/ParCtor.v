(** The constructor on all ranks: the creation of the communicators completes. *)
From Verif Require Import Base VectorModel MatrixModel HPSModel TreeModel TreeSpec TreeProofs TreeCtor
  TreeOrder TreeMap TreeOrder2 ParModel ParSpec ParProofs ParRun.

Section ctor.
Context {D : Type} (fac : factory D) (rd : D).

Notation prog r := (construct_prog fac r rd).
Notation visits r := (foldM (ctor_visit fac r rd)).

Lemma prog_skip r vs rest m m' :
  Forall (fun v => in_range r (v_pfirst v) (v_plast v) = false) vs -> visits r vs m = Ok m' ->
  prog r (vs ++ rest) m = prog r rest m'.
Proof.
  intros H. revert m; induction H as [|v vs Hv _ IH]; intros m E.
  - cbn in E. injection E as <-. reflexivity.
  - cbn [foldM] in E. apply bind_inv in E as (m1 & E1 & E2).
    cbn [app construct_prog]. rewrite Hv, E1. cbn [lift]. apply IH. exact E2.
Qed.

Lemma not_in_range_visits r f q : contiguous f -> in_range r (pfirst f) (plast f) = false ->
  Forall (fun v => in_range r (v_pfirst v) (v_plast v) = false) (search_all r f q).
Proof.
  revert q; induction f as [o|a IHa b IHb c IHc d IHd]; intros q C H.
  - cbn in *. repeat constructor. exact H.
  - cbn [search_all]. constructor; [exact H|].
    destruct (Nat.eqb (pfirst (FNode a b c d)) (plast (FNode a b c d)) && negb (Nat.eqb (pfirst (FNode a b c d)) r)); [constructor|].
    assert (X : forall i g, fchild (FNode a b c d) i = Some g -> in_range r (pfirst g) (plast g) = false /\ contiguous g).
    { intros i g Eg. split; [|apply (contiguous_child _ i g C Eg)].
      destruct (in_range r (pfirst g) (plast g)) eqn:Y; [|reflexivity].
      rewrite (range_child _ i g r C Eg Y) in H. discriminate. }
    destruct (X 0 a eq_refl), (X 1 b eq_refl), (X 2 c eq_refl), (X 3 d eq_refl).
    rewrite !Forall_app. auto.
Qed.

Definition ctor_out (r : nat) (m : nmap D) (v : visit) : nmap D :=
  match ctor_visit fac r rd m v with Ok m' => m' | _ => m end.
Definition visits_out (r : nat) (vs : list visit) (m : nmap D) : nmap D :=
  match visits r vs m with Ok m' => m' | _ => m end.

Definition ctor_goal (f : forest) : Prop := forall q (m m' : nat -> nmap D) rest (s : @config D (nmap D)),
  contiguous f ->
  (forall r, member (pfirst f) (plast f) r -> visits r (search_all r f q) (m r) = Ok (m' r) /\
     s r = prog r (search_all r f q ++ rest r) (m r)) ->
  exists n s', runs n s s' /\
    (forall r, member (pfirst f) (plast f) r -> s' r = prog r (rest r) (m' r)) /\
    others (pfirst f) (plast f) s s'.

Lemma ctor_child f i g q (m m' : nat -> nmap D) rest (s : @config D (nmap D)) :
  ctor_goal g -> contiguous f -> fchild f i = Some g ->
  (forall r, member (pfirst f) (plast f) r -> visits r (search_all r g q) (m r) = Ok (m' r) /\
     s r = prog r (search_all r g q ++ rest r) (m r)) ->
  exists n s', runs n s s' /\
    (forall r, member (pfirst f) (plast f) r -> s' r = prog r (rest r) (m' r)) /\
    others (pfirst f) (plast f) s s'.
Proof.
  intros HG C Eg H. assert (C' : contiguous g) by (apply (contiguous_child f i); auto).
  assert (RR : forall r, member (pfirst g) (plast g) r -> member (pfirst f) (plast f) r).
  { intros r Hr. apply in_range_iff. apply (range_child f i g r C Eg). apply in_range_iff. exact Hr. }
  destruct (HG q m m' rest s C') as (n & s' & R1 & I1 & O1).
  { intros r Hr. apply H. apply RR. exact Hr. }
  exists n, s'. split; [exact R1|]. split.
  - intros r Hr. destruct (member_dec (pfirst g) (plast g) r) as [Hg|Hg]; [apply I1; exact Hg|].
    rewrite (O1 r Hg). destruct (H r Hr) as [E ->]. apply prog_skip; [|exact E].
    apply not_in_range_visits; [exact C'|]. destruct (in_range r (pfirst g) (plast g)) eqn:Y; [|reflexivity].
    apply in_range_iff in Y. contradiction.
  - intros r Hr. apply O1. intros X. apply Hr. apply RR. exact X.
Qed.

Lemma ctor_run f : ctor_goal f.
Proof.
  induction f as [o|a IHa b IHb c IHc d IHd]; intros q m m' rest s C H.
  - set (s' := fun r => if member_dec o o r then prog r (rest r) (m' r) else s r).
    assert (IN : forall r, member o o r -> s' r = prog r (rest r) (m' r)).
    { intros r Hr. unfold s'. destruct (member_dec o o r); [reflexivity|contradiction]. }
    assert (OUT : forall r, ~ member o o r -> s' r = s r).
    { intros r Hr. unfold s'. destruct (member_dec o o r); [contradiction|reflexivity]. }
    exists 1, s'. split; [|split; [exact IN|exact OUT]].
    apply runs_one. apply (step_group s s' o o (fun r => prog r (rest r) (m' r))); auto.
    intros r Hr. destruct (H r Hr) as [E ->]. cbn [search_all app construct_prog v_pfirst v_plast].
    assert (r = o) by (unfold member in Hr; lia). subst r. rewrite (proj2 (own_range o o) eq_refl).
    cbn [search_all foldM] in E. apply bind_inv in E as (m1 & E1 & E2). injection E2 as ->. rewrite E1. reflexivity.
  - set (f := FNode a b c d) in *. set (lo := pfirst f) in *. set (hi := plast f) in *.
    set (v := Visit q lo hi false).
    set (kids r := search_all r a (qchild q 0) ++ search_all r b (qchild q 1) ++ search_all r c (qchild q 2) ++ search_all r d (qchild q 3)).
    assert (SA : forall r, member lo hi r -> search_all r f q = v :: kids r).
    { intros r Hr. cbn [search_all f]. fold f. fold lo hi.
      replace (Nat.eqb lo hi && negb (Nat.eqb lo r)) with false; [reflexivity|].
      symmetry. apply andb_false_iff. destruct (Nat.eqb lo hi) eqn:X; [|auto]. right. apply Nat.eqb_eq in X.
      unfold member in Hr. replace r with lo by lia. rewrite Nat.eqb_refl. reflexivity. }
    set (m1 r := ctor_out r (m r) v).
    set (ma r := visits_out r (search_all r a (qchild q 0)) (m1 r)).
    set (mb r := visits_out r (search_all r b (qchild q 1)) (ma r)).
    set (mc r := visits_out r (search_all r c (qchild q 2)) (mb r)).
    assert (EV : forall r, member lo hi r -> ctor_visit fac r rd (m r) v = Ok (m1 r) /\
       visits r (search_all r a (qchild q 0)) (m1 r) = Ok (ma r) /\
       visits r (search_all r b (qchild q 1)) (ma r) = Ok (mb r) /\
       visits r (search_all r c (qchild q 2)) (mb r) = Ok (mc r) /\
       visits r (search_all r d (qchild q 3)) (mc r) = Ok (m' r)).
    { intros r Hr. destruct (H r Hr) as [E _]. rewrite (SA r Hr) in E. cbn [foldM] in E.
      apply bind_inv in E as (x1 & E1 & E). unfold kids in E. rewrite !foldM_app in E.
      apply bind_inv in E as (x2 & E2 & E). rewrite foldM_app in E.
      apply bind_inv in E as (x3 & E3 & E). rewrite foldM_app in E.
      apply bind_inv in E as (x4 & E4 & E).
      assert (Y1 : m1 r = x1) by (unfold m1, ctor_out; rewrite E1; reflexivity).
      assert (Y2 : ma r = x2) by (unfold ma, visits_out; rewrite Y1, E2; reflexivity).
      assert (Y3 : mb r = x3) by (unfold mb, visits_out; rewrite Y2, E3; reflexivity).
      assert (Y4 : mc r = x4) by (unfold mc, visits_out; rewrite Y3, E4; reflexivity).
      rewrite Y1, Y2, Y3, Y4. auto. }
    set (s1 := fun r => if member_dec lo hi r then prog r (kids r ++ rest r) (m1 r) else s r).
    assert (IN : forall r, member lo hi r -> s1 r = prog r (kids r ++ rest r) (m1 r)).
    { intros r Hr. unfold s1. destruct (member_dec lo hi r); [reflexivity|contradiction]. }
    assert (OUT : forall r, ~ member lo hi r -> s1 r = s r).
    { intros r Hr. unfold s1. destruct (member_dec lo hi r); [contradiction|reflexivity]. }
    assert (R1 : runs 1 s s1).
    { apply runs_one. apply (step_group s s1 lo hi (fun r => prog r (kids r ++ rest r) (m1 r))); auto.
      - pose proof (first_in_range f C) as X. apply in_range_iff in X. fold lo hi in X. lia.
      - intros r Hr. destruct (H r Hr) as [_ ->]. rewrite (SA r Hr). cbn [app construct_prog v_pfirst v_plast v].
        rewrite (proj2 (in_range_iff r lo hi) Hr). destruct (EV r Hr) as (E1 & _). fold v. rewrite E1. reflexivity. }
    destruct (ctor_child f 0 a (qchild q 0) m1 ma
      (fun r => search_all r b (qchild q 1) ++ search_all r c (qchild q 2) ++ search_all r d (qchild q 3) ++ rest r) s1)
      as (na & sa & Ra & Ia & Oa); auto.
    { intros r Hr. destruct (EV r Hr) as (_ & E & _). split; [exact E|]. rewrite (IN r Hr). unfold kids. rewrite <- !app_assoc. reflexivity. }
    destruct (ctor_child f 1 b (qchild q 1) ma mb
      (fun r => search_all r c (qchild q 2) ++ search_all r d (qchild q 3) ++ rest r) sa)
      as (nb & sb & Rb & Ib & Ob); auto.
    { intros r Hr. destruct (EV r Hr) as (_ & _ & E & _). split; [exact E|]. apply Ia. exact Hr. }
    destruct (ctor_child f 2 c (qchild q 2) mb mc (fun r => search_all r d (qchild q 3) ++ rest r) sb)
      as (nc & sc & Rc & Ic & Oc); auto.
    { intros r Hr. destruct (EV r Hr) as (_ & _ & _ & E & _). split; [exact E|]. apply Ib. exact Hr. }
    destruct (ctor_child f 3 d (qchild q 3) mc m' rest sc) as (nd & sd & Rd & Id & Od); auto.
    { intros r Hr. destruct (EV r Hr) as (_ & _ & _ & _ & E). split; [exact E|]. apply Ic. exact Hr. }
    exists (1 + (na + (nb + (nc + nd)))), sd. split; [|split; [exact Id|]].
    + apply (runs_app 1 _ s s1 sd); auto. apply (runs_app na _ s1 sa sd); auto.
      apply (runs_app nb _ sa sb sd); auto. apply (runs_app nc _ sb sc sd); auto.
    + intros r Hr. rewrite (Od r Hr), (Oc r Hr), (Ob r Hr), (Oa r Hr). apply OUT. exact Hr.
Qed.

Lemma ctor_ends f (fin : nat -> nmap D) : contiguous f ->
  (forall r, construct fac r rd f = Ok (fin r)) ->
  always_ends (fun r => prog r (search_all r f root_quadrant) mempty) (fun r => Ok (fin r)).
Proof.
  intros C H. unfold construct in H.
  destruct (ctor_run f root_quadrant (fun _ => mempty) fin (fun _ => []) (fun r => prog r (search_all r f root_quadrant) mempty) C)
    as (n & s' & R1 & I1 & O1).
  { intros r Hr. split; [apply H|]. rewrite app_nil_r. reflexivity. }
  apply (ends _ (fun r => Ok (fin r)) n s'); auto. intros r.
  destruct (member_dec (pfirst f) (plast f) r) as [Hr|Hr]; [apply I1; exact Hr|].
  rewrite (O1 r Hr). rewrite <- (app_nil_r (search_all r f root_quadrant)).
  rewrite (prog_skip r _ [] mempty (fin r)); [reflexivity| |apply H].
  apply not_in_range_visits; [exact C|]. destruct (in_range r (pfirst f) (plast f)) eqn:Y; [|reflexivity].
  apply in_range_iff in Y. contradiction.
Qed.
End ctor.
