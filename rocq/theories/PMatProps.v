(** Properties of parallel matrices. *)
From Verif Require Import Base PMatModel PMatSpec.

(** Owned matrices are alive and have one owner; other matrices were destroyed once. *)
Definition owner (st : pstate) (o m : nat) : Prop := exists x, p_objs st o = Some x /\ p_created x = true /\ p_mat x = Some m.
Definition sound (st : pstate) : Prop :=
  (forall o x, p_objs st o = Some x -> p_created x = true -> exists m, p_mat x = Some m /\ m < p_next st) /\
  (forall o o' m, owner st o m -> owner st o' m -> o = o') /\
  (forall o m, owner st o m -> count_occ Nat.eq_dec (p_destroyed st) m = 0) /\
  (forall m, m < p_next st -> (exists o, owner st o m) \/ count_occ Nat.eq_dec (p_destroyed st) m = 1) /\
  (forall m, p_next st <= m -> count_occ Nat.eq_dec (p_destroyed st) m = 0).

Lemma sound_start : sound p_start.
Proof.
  repeat split.
  - intros o x H. discriminate.
  - intros o o' m (x & H & _). discriminate.
  - intros m H. cbn in H. lia.
Qed.

(** A new owning object. *)
Lemma sound_fresh st o : sound st -> (p_objs st o = None \/ ~ owns st o) ->
  sound (p_put (snd (p_fresh st)) o (Some (PObj (Some (p_next st)) true))).
Proof.
  intros (S1 & S2 & S3 & S4 & S5) H.
  assert (W : forall o' m, owner (p_put (snd (p_fresh st)) o (Some (PObj (Some (p_next st)) true))) o' m <->
    (o' = o /\ m = p_next st) \/ (o' <> o /\ owner st o' m)).
  { intros o' m. unfold owner. cbn [p_put p_fresh snd p_objs]. destruct (Nat.eqb_spec o o') as [->|N].
    - split; [intros (x & E & _ & F); injection E as <-; injection F as <-; auto|]. intros [ [_ ->] |[Q _] ]; [|congruence].
      eexists. repeat split; reflexivity.
    - split; [intros (x & E); right; split; [congruence|exists x; exact E]|]. intros [ [Q _] |[_ Q] ]; [congruence|exact Q]. }
  assert (N : forall m, ~ owner st o m).
  { intros m (x & E & C & _). destruct H as [H|H]; [congruence|]. apply H. exists x. auto. }
  assert (L : forall o' m, owner st o' m -> m < p_next st).
  { intros o' m (x & E & C & F). destruct (S1 o' x E C) as (m' & F' & L). congruence. }
  split; [|split; [|split; [|split] ] ].
  - intros o' x. cbn [p_put p_fresh snd p_objs p_next]. destruct (o =? o').
    + intros E _. injection E as <-. exists (p_next st). split; [reflexivity|lia].
    + intros E C. destruct (S1 o' x E C) as (m & F & L'). exists m. split; [exact F|lia].
  - intros o1 o2 m H1 H2. apply W in H1, H2. destruct H1 as [ [-> ->] |[N1 H1] ], H2 as [ [-> E] |[N2 H2] ]; try reflexivity.
    + apply L in H2. lia.
    + subst m. apply L in H1. lia.
    + exact (S2 _ _ _ H1 H2).
  - intros o' m H1. apply W in H1. cbn [p_put p_fresh snd p_destroyed]. destruct H1 as [ [-> ->] |[N1 H1] ]; [apply S5; lia|exact (S3 _ _ H1)].
  - intros m Hm. cbn [p_put p_fresh snd p_destroyed p_next] in *. destruct (Nat.eq_dec m (p_next st)) as [->|Q].
    + left. exists o. apply W. auto.
    + destruct (S4 m) as [ [o' H'] |H']; [lia| |right; exact H']. left. exists o'. apply W. right. split; [|exact H']. intros ->. exact (N _ H').
  - intros m Hm. cbn [p_put p_fresh snd p_destroyed p_next] in *. apply S5. lia.
Qed.

(** An object that owns nothing, in the place of one that owns nothing. *)
Lemma sound_plain st o x : sound st -> ~ owns st o -> (forall y, x = Some y -> p_created y = false) -> sound (p_put st o x).
Proof.
  intros (S1 & S2 & S3 & S4 & S5) H Hx.
  assert (W : forall o' m, owner (p_put st o x) o' m <-> owner st o' m).
  { intros o' m. unfold owner. cbn [p_put p_objs]. destruct (Nat.eqb_spec o o') as [->|N]; [|reflexivity]. split.
    - intros (y & E & C & _). rewrite (Hx y E) in C. discriminate.
    - intros (y & E & C & _). exfalso. apply H. exists y. auto. }
  split; [|split; [|split; [|split] ] ].
  - intros o' y. cbn [p_put p_objs p_next]. destruct (o =? o'); [intros E C; rewrite (Hx y E) in C; discriminate|]. apply S1.
  - intros o1 o2 m H1 H2. apply W in H1, H2. exact (S2 _ _ _ H1 H2).
  - intros o1 m H1. apply W in H1. exact (S3 _ _ H1).
  - intros m Hm. destruct (S4 m Hm) as [ [o' H'] |H']; [|right; exact H']. left. exists o'. apply W, H'.
  - exact S5.
Qed.

(** Ownership moves. *)
Lemma sound_move st o s x : sound st -> o <> s -> p_objs st s = Some x -> ~ owns st o ->
  sound (p_put (p_put st o (Some x)) s (Some (PObj None false))).
Proof.
  intros (S1 & S2 & S3 & S4 & S5) Hos Es H.
  set (st' := p_put (p_put st o (Some x)) s (Some (PObj None false))).
  assert (V : forall o', p_objs st' o' = if s =? o' then Some (PObj None false) else if o =? o' then Some x else p_objs st o') by reflexivity.
  assert (W : forall o' m, owner st' o' m <-> (o' = o /\ owner st s m) \/ (o' <> o /\ o' <> s /\ owner st o' m)).
  { intros o' m. unfold owner. rewrite V. destruct (Nat.eqb_spec s o') as [<-|N1].
    - split; [intros (y & E & C & _); injection E as <-; discriminate|]. intros [ [E _] |(_ & E & _)]; congruence.
    - destruct (Nat.eqb_spec o o') as [<-|N2].
      + split; [intros (y & E & C); injection E as <-; left; split; [reflexivity|]; exists x; auto|].
        intros [ [_ (y & E & C)] |(E & _)]; [|congruence]. exists x. split; [reflexivity|]. rewrite Es in E. injection E as <-. exact C.
      + split; [intros Q; right; auto|]. intros [ [E _] |(_ & _ & Q)]; [congruence|exact Q]. }
  assert (N : forall m, ~ owner st o m) by (intros m (y & E & C & _); apply H; exists y; auto).
  split; [|split; [|split; [|split] ] ].
  - intros o' y. rewrite V. change (p_next st') with (p_next st). destruct (s =? o'); [intros E; injection E as <-; discriminate|].
    destruct (o =? o'); [|apply S1]. intros E C. injection E as <-. exact (S1 s x Es C).
  - intros o1 o2 m H1 H2. apply W in H1, H2. destruct H1 as [ [-> H1] |(A1 & B1 & H1)], H2 as [ [-> H2] |(A2 & B2 & H2)]; try reflexivity.
    + exfalso. apply B2. exact (S2 _ _ _ H2 H1).
    + exfalso. apply B1. exact (S2 _ _ _ H1 H2).
    + exact (S2 _ _ _ H1 H2).
  - intros o1 m H1. apply W in H1. change (p_destroyed st') with (p_destroyed st). destruct H1 as [ [-> H1] |(_ & _ & H1)]; exact (S3 _ _ H1).
  - intros m Hm. destruct (S4 m Hm) as [ [o' H'] |H']; [|right; exact H']. left. destruct (Nat.eq_dec o' s) as [->|Q].
    + exists o. apply W. auto.
    + exists o'. apply W. right. split; [intros ->; exact (N _ H')|]. auto.
  - exact S5.
Qed.

(** The destructor. *)
Lemma sound_destroy st o x m : sound st -> p_objs st o = Some x -> p_created x = true -> p_mat x = Some m ->
  sound (p_put (PState (p_next st) (p_destroyed st ++ [m]) (p_objs st)) o None).
Proof.
  intros (S1 & S2 & S3 & S4 & S5) E C F. set (st' := p_put _ o None).
  assert (V : forall o', p_objs st' o' = if o =? o' then None else p_objs st o') by reflexivity.
  assert (O : owner st o m) by (exists x; auto).
  assert (W : forall o' m', owner st' o' m' <-> o' <> o /\ owner st o' m').
  { intros o' m'. unfold owner. rewrite V. destruct (Nat.eqb_spec o o') as [<-|N].
    - split; [intros (y & Q & _); discriminate|]. intros [Q _]. congruence.
    - split; [intros Q; auto|]. intros [_ Q]. exact Q. }
  assert (D : forall m', count_occ Nat.eq_dec (p_destroyed st') m' = count_occ Nat.eq_dec (p_destroyed st) m' + (if Nat.eq_dec m m' then 1 else 0)).
  { intros m'. change (p_destroyed st') with (p_destroyed st ++ [m]). rewrite count_occ_app. cbn. destruct (Nat.eq_dec m m'); reflexivity. }
  assert (L : m < p_next st) by (destruct (S1 o x E C) as (m' & F' & L); congruence).
  split; [|split; [|split; [|split] ] ].
  - intros o' y. rewrite V. destruct (o =? o'); [discriminate|]. apply S1.
  - intros o1 o2 m' H1 H2. apply W in H1, H2. destruct H1 as [_ H1], H2 as [_ H2]. exact (S2 _ _ _ H1 H2).
  - intros o1 m' H1. apply W in H1 as [N1 H1]. rewrite D, (S3 _ _ H1). destruct (Nat.eq_dec m m') as [<-|]; [|reflexivity].
    exfalso. apply N1. exact (S2 _ _ _ H1 O).
  - intros m' Hm. change (p_next st') with (p_next st) in Hm. rewrite D. destruct (Nat.eq_dec m m') as [<-|Q].
    + right. rewrite (S3 _ _ O). reflexivity.
    + destruct (S4 m' Hm) as [ [o' H'] |H']; [|right; lia]. left. exists o'. apply W. split; [|exact H'].
      intros ->. destruct H' as (y & E' & _ & F'). congruence.
  - intros m' Hm. change (p_next st') with (p_next st) in Hm. rewrite D, S5 by exact Hm. destruct (Nat.eq_dec m m'); [lia|reflexivity].
Qed.

Lemma careful_step st c st' : sound st -> careful st c -> p_step st c = Ok st' -> sound st'.
Proof.
  intros S C E. destruct c as [o|o|o|o|o s|o s|o s|o s|o|o]; cbn [p_step careful] in *.
  - unfold p_new in E. destruct (p_objs st o) eqn:X; [discriminate|]. apply Ok_inj in E. subst st'.
    apply sound_plain; [exact S|intros (y & Q & _); congruence|]. intros y Q. injection Q as <-. reflexivity.
  - unfold p_new, p_fresh in E. cbn [p_objs] in E. destruct (p_objs st o) eqn:X; [discriminate|]. apply Ok_inj in E. subst st'.
    apply (sound_fresh st o S). left. exact X.
  - unfold p_new, p_fresh in E. cbn [p_objs] in E. destruct (p_objs st o) eqn:X; [discriminate|]. apply Ok_inj in E. subst st'.
    apply (sound_fresh st o S). left. exact X.
  - apply bind_inv in E as (st1 & E1 & E). unfold p_new in E1. destruct (p_objs st o) eqn:X; [discriminate|]. apply Ok_inj in E1. subst st1.
    apply Ok_inj in E. subst st'. apply (sound_fresh (p_put st o (Some (PObj None false))) o).
    + apply sound_plain; [exact S|intros (y & Q & _); congruence|]. intros y Q. injection Q as <-. reflexivity.
    + right. intros (y & Q & Cy). cbn [p_put p_objs] in Q. rewrite Nat.eqb_refl in Q. injection Q as <-. discriminate.
  - contradiction.
  - apply bind_inv in E as (x & _ & E). apply bind_inv in E as ([] & _ & E).
    unfold p_new, p_fresh in E. cbn [p_objs] in E. destruct (p_objs st o) eqn:X; [discriminate|]. apply Ok_inj in E. subst st'.
    apply (sound_fresh st o S). left. exact X.
  - apply bind_inv in E as (x & Ex & E). unfold p_obj in Ex. destruct (p_objs st s) as [x'|] eqn:Xs; [|discriminate]. apply Ok_inj in Ex. subst x'.
    unfold p_new in E. destruct (p_objs st o) eqn:X; [discriminate|]. apply Ok_inj in E. subst st'.
    apply sound_plain; [exact S|intros (y & Q & _); congruence|]. intros y Q. injection Q as <-.
    destruct (p_created x) eqn:Cx; [|reflexivity]. exfalso. apply C. exists x. auto.
  - apply bind_inv in E as (x & Ex & E). unfold p_obj in Ex. destruct (p_objs st s) as [x'|] eqn:Xs; [|discriminate]. apply Ok_inj in Ex. subst x'.
    apply bind_inv in E as (y & _ & E). destruct (Nat.eqb_spec o s) as [->|N].
    + apply Ok_inj in E. subst st'. exact S.
    + apply Ok_inj in E. subst st'. apply sound_move; try assumption. destruct C as [C|C]; [contradiction|exact C].
  - apply bind_inv in E as (x & _ & E). apply Ok_inj in E. subst st'. apply (sound_fresh st o S). right. exact C.
  - apply bind_inv in E as (x & Ex & E). unfold p_obj in Ex. destruct (p_objs st o) as [x'|] eqn:Xo; [|discriminate]. apply Ok_inj in Ex. subst x'.
    apply Ok_inj in E. destruct (p_created x) eqn:Cx.
    + destruct (proj1 S o x Xo Cx) as (m & F & _). rewrite F in E. subst st'. apply (sound_destroy st o x m); assumption.
    + subst st'. apply sound_plain; [exact S| |discriminate]. intros (y & Q & Cy). congruence.
Qed.

(** [C54] Programs in which every call is careful: when all objects are gone, every matrix was destroyed
    exactly once.  Missing: the other calls, for which it is false. *)
Lemma matrices_destroyed_once_partial_pf : forall (cs : list pcall) (st : pstate),
  careful_run p_start cs -> p_run cs = Ok st -> no_objects st -> each_destroyed_once st.
Proof.
  intros cs st C E N.
  assert (G : forall cs st0, sound st0 -> careful_run st0 cs -> foldM p_step cs st0 = Ok st -> sound st).
  { clear. induction cs as [|c cs IH]; intros st0 S C E; cbn [foldM careful_run] in *; [apply Ok_inj in E; subst; exact S|].
    destruct C as [C1 C2]. apply bind_inv in E as (st1 & E1 & E). apply (IH st1); [exact (careful_step _ _ _ S C1 E1)|exact (C2 _ E1)|exact E]. }
  destruct (G cs p_start sound_start C E) as (_ & _ & _ & S4 & _).
  intros m Hm. destruct (S4 m Hm) as [ (o & x & Ho & _) |H]; [rewrite N in Ho; discriminate|exact H].
Qed.

(** [C54] In careful programs no matrix is destroyed twice at any time, and no owned matrix is destroyed. *)
Lemma owned_matrices_alive_partial_pf : forall (cs : list pcall) (st : pstate),
  careful_run p_start cs -> p_run cs = Ok st ->
  (forall m, count_occ Nat.eq_dec (p_destroyed st) m <= 1) /\
  (forall o x m, p_objs st o = Some x -> p_created x = true -> p_mat x = Some m -> ~ In m (p_destroyed st)).
Proof.
  intros cs st C E.
  assert (G : forall cs st0, sound st0 -> careful_run st0 cs -> foldM p_step cs st0 = Ok st -> sound st).
  { clear. induction cs as [|c cs IH]; intros st0 S C E; cbn [foldM careful_run] in *; [apply Ok_inj in E; subst; exact S|].
    destruct C as [C1 C2]. apply bind_inv in E as (st1 & E1 & E). apply (IH st1); [exact (careful_step _ _ _ S C1 E1)|exact (C2 _ E1)|exact E]. }
  destruct (G cs p_start sound_start C E) as (S1 & _ & S3 & S4 & S5). split.
  - intros m. destruct (Nat.lt_ge_cases m (p_next st)) as [L|L]; [|rewrite S5 by exact L; lia].
    destruct (S4 m L) as [ [o H] |H]; [rewrite (S3 _ _ H)|]; lia.
  - intros o x m Ho Hc Hm. apply (count_occ_not_In Nat.eq_dec), (S3 o m). exists x. auto.
Qed.

(** [C54] A copy: destroyed twice.  A move into an object with a matrix, the constructor with a new
    communicator, create on an object with a matrix: never destroyed. *)
Lemma matrices_destroyed_once_refuted_pf :
  (exists cs st m, cs = [PMake 0; PCopy 1 0; PDestroy 1; PDestroy 0] /\ p_run cs = Ok st /\ no_objects st /\
     m < p_next st /\ count_occ Nat.eq_dec (p_destroyed st) m = 2) /\
  (exists cs st m, cs = [PMake 0; PMake 1; PMove 0 1; PDestroy 1; PDestroy 0] /\ p_run cs = Ok st /\ no_objects st /\
     m < p_next st /\ count_occ Nat.eq_dec (p_destroyed st) m = 0) /\
  (exists cs st m, cs = [PMake 0; PSubComm 1 0; PDestroy 1; PDestroy 0] /\ p_run cs = Ok st /\ no_objects st /\
     m < p_next st /\ count_occ Nat.eq_dec (p_destroyed st) m = 0) /\
  (exists cs st m, cs = [PMake 0; PCreate 0; PDestroy 0] /\ p_run cs = Ok st /\ no_objects st /\
     m < p_next st /\ count_occ Nat.eq_dec (p_destroyed st) m = 0).
Proof.
  assert (N : forall o, match o with 0 | 1 | S (S _) => @None pobj end = None) by (intros [|[|o] ]; reflexivity).
  split; [|split; [|split] ].
  - eexists _, _, 0. split; [reflexivity|]. split; [reflexivity|]. split; [intros [|[|o] ]; reflexivity|]. split; [cbn; lia|reflexivity].
  - eexists _, _, 0. split; [reflexivity|]. split; [reflexivity|]. split; [intros [|[|o] ]; reflexivity|]. split; [cbn; lia|reflexivity].
  - eexists _, _, 1. split; [reflexivity|]. split; [reflexivity|]. split; [intros [|[|o] ]; reflexivity|]. split; [cbn; lia|reflexivity].
  - eexists _, _, 0. split; [reflexivity|]. split; [reflexivity|]. split; [intros [|[|o] ]; reflexivity|]. split; [cbn; lia|reflexivity].
Qed.

(** A careful program: matrices made in two ways, moved into an empty object, a copy of an empty object. *)
Definition careful_example : list pcall :=
  [PDefault 0; PMake 1; PCopy 2 0; PMove 0 1; PSubIndex 3 0; PCreate 1; PIdentity 4; PDestroy 0; PDestroy 3; PDestroy 1; PDestroy 2; PDestroy 4].
Lemma careful_example_case_expf : careful_run p_start careful_example /\
  exists st, p_run careful_example = Ok st /\ no_objects st /\ p_next st = 4.
Proof.
  split.
  - unfold careful_example.
    repeat (cbn [careful_run]; split; [|intros ? E; injection E as <-]); cbn [careful]; try exact I.
    + intros (x & E & C). injection E as <-. discriminate.
    + right. intros (x & E & C). injection E as <-. discriminate.
    + intros (x & E & C). injection E as <-. discriminate.
  - exists (match p_run careful_example with Ok st => st | _ => p_start end).
    split; [vm_compute; reflexivity|]. split; [|vm_compute; reflexivity]. intros [|[|[|[|[|o] ] ] ] ]; vm_compute; reflexivity.
Qed.
