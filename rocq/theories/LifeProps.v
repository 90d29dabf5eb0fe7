(** The life of the application object. *)
From Verif Require Import Base LifeModel LifeSpec.

Definition has_object (i v : nat) (p : process) : Prop :=
  ptr p = Some i /\ nth_error (objs p) i = Some (AppObj v true).

Lemma upd_at {A} (l : list A) i a x : nth_error l i = Some x -> nth_error (upd l i a) i = Some a.
Proof. revert i. induction l as [|y l IH]; intros [|i]; cbn; try discriminate; auto. Qed.
Lemma upd_len {A} (l : list A) i a : length (upd l i a) = length l.
Proof. revert i. induction l as [|y l IH]; intros [|i]; cbn; auto. Qed.

Lemma use_one up i l : forall v p, Forall library_use l -> has_object i v p -> mpi p = Running ->
  exists p' w, do_ops up l p = Ok (p', one_object i v l) /\ has_object i w p' /\
    mpi p' = Running /\ inits p' = inits p /\ finals p' = finals p /\ petsc p' = petsc p /\ length (objs p') = length (objs p).
Proof.
  induction l as [|o l IH]; intros v p HF (HP & HN) HM.
  - exists p, v. unfold has_object. cbn. auto 10.
  - inversion HF as [|? ? Ho Hl]; subst. cbn [do_ops].
    assert (G : get_instance p = (p, i)) by (unfold get_instance; rewrite HP; reflexivity).
    assert (D : deref p i = Ok (AppObj v true)) by (unfold deref; rewrite HN; reflexivity).
    destruct o; try contradiction; cbn [do_op one_object]; rewrite G, D, bind_Ok, ?bind_Ok; cbn [fst snd options_of].
    + destruct (IH v p Hl (conj HP HN) HM) as (p' & w & E & R). exists p', w. rewrite E. auto.
    + destruct (IH v0 (set_objs p (upd (objs p) i (AppObj v0 true))) Hl) as (p' & w & E & R1 & R2 & R3 & R4 & R5 & R6); auto.
      { split; [exact HP|]. exact (upd_at _ _ _ _ HN). }
      exists p', w. rewrite E. cbn [objs set_objs] in R6. rewrite upd_len in R6. auto 10.
    + destruct (IH v p Hl (conj HP HN) HM) as (p' & w & E & R). exists p', w. rewrite E. auto.
    + unfold mpi_use. rewrite HM, !bind_Ok. cbn [fst snd].
      destruct (IH v p Hl (conj HP HN) HM) as (p' & w & E & R). exists p', w. rewrite E. auto.
Qed.

Lemma ops_app up l l' p : do_ops up (l ++ l') p =
  (r <- do_ops up l p ;; s <- do_ops up l' (fst r) ;; Ok (fst s, snd r ++ snd s)).
Proof.
  revert p. induction l as [|o l IH]; intros p; cbn [app do_ops].
  - rewrite bind_Ok. cbn [fst snd app]. destruct (do_ops up l' p) as [[a b]| |]; reflexivity.
  - destruct (do_op up o p) as [[p1 e1]| |]; try reflexivity. rewrite !bind_Ok, IH. cbn [fst].
    destruct (do_ops up l p1) as [[p2 e2]| |]; try reflexivity. rewrite !bind_Ok. cbn [fst snd].
    destruct (do_ops up l' p2) as [[p3 e3]| |]; try reflexivity.
Qed.

(** [C78] One application object made at the beginning of main and destroyed at its
    end, with or without PETSc, and any use of the library in between: nothing
    undefined happens, getInstance is that object, its options are the last ones set,
    and MPI is initialised and finalised exactly once; also if the program has
    initialised MPI itself. *)
Lemma app_in_main_pf : forall up (user : bool) o body,
  Forall library_use body ->
  exists p,
    do_ops up ((if user then [UserInit] else []) ++ [NewApp (Some o)] ++ body ++ [Destroy 0]) started_process =
      Ok (p, (if user then [Done] else []) ++ [Created 0] ++ one_object 0 o body ++ [Done]) /\
    mpi p = After /\ inits p = 1 /\ finals p = 1 /\ petsc p = false.
Proof.
  intros up user o body HB.
  set (p1 := Process Running 1 0 up [AppObj o true] (Some 0)).
  assert (E1 : do_ops up ((if user then [UserInit] else []) ++ [NewApp (Some o)]) started_process =
               Ok (p1, (if user then [Done] else []) ++ [Created 0])) by (destruct user, up; reflexivity).
  destruct (use_one up 0 body o p1 HB (conj eq_refl eq_refl) eq_refl) as (p2 & w & E2 & (P2 & N2) & M2 & I2 & F2 & T2 & _).
  rewrite app_assoc, ops_app, E1, bind_Ok. cbn [fst snd]. rewrite ops_app, E2, bind_Ok. cbn [fst snd do_ops do_op].
  destruct p2 as [mp i f pe os pt]. cbn [mpi inits finals petsc objs ptr p1] in *. subst mp i f pe pt.
  unfold destroy. cbn [objs mpi]. rewrite N2. destruct up; cbn; (eexists; split; [f_equal; f_equal; rewrite <- !app_assoc; reflexivity|]); cbn; auto.
Qed.

(** [C78] If reading the options throws, any number of times, the next object can still be made: MPI is not
    initialised again, and the rest is as for a single object. *)
Lemma failed_start_again_pf : forall up n o body,
  Forall library_use body ->
  exists p,
    do_ops up (repeat (NewApp None) n ++ [NewApp (Some o)] ++ body ++ [Destroy 0]) started_process =
      Ok (p, repeat Failed n ++ [Created 0] ++ one_object 0 o body ++ [Done]) /\
    mpi p = After /\ inits p = 1 /\ finals p = 1 /\ petsc p = false.
Proof.
  intros up n o body HB.
  set (p1 := Process Running 1 0 up [AppObj o true] (Some 0)).
  assert (EF : forall k, do_ops up (repeat (NewApp None) k) (Process Running 1 0 up [] None) =
               Ok (Process Running 1 0 up [] None, repeat Failed k)).
  { induction k as [|k IH]; [reflexivity|]. cbn [repeat do_ops do_op].
    replace (new_app up None (Process Running 1 0 up [] None)) with (Ok (Process Running 1 0 up [] None, Failed)) by (destruct up; reflexivity).
    rewrite bind_Ok. cbn [fst snd]. rewrite IH, bind_Ok. reflexivity. }
  assert (E1 : do_ops up (repeat (NewApp None) n ++ [NewApp (Some o)]) started_process =
               Ok (p1, repeat Failed n ++ [Created 0])).
  { destruct n as [|n]; [destruct up; reflexivity|]. cbn [repeat app do_ops do_op].
    replace (new_app up None started_process) with (Ok (Process Running 1 0 up [] None, Failed)) by (destruct up; reflexivity).
    rewrite bind_Ok. cbn [fst snd]. rewrite ops_app, EF, bind_Ok. cbn [fst snd]. destruct up; reflexivity. }
  destruct (use_one up 0 body o p1 HB (conj eq_refl eq_refl) eq_refl) as (p2 & w & E2 & (P2 & N2) & M2 & I2 & F2 & T2 & _).
  rewrite app_assoc, ops_app, E1, bind_Ok. cbn [fst snd]. rewrite ops_app, E2, bind_Ok. cbn [fst snd do_ops do_op].
  destruct p2 as [mp i f pe os pt]. cbn [mpi inits finals petsc objs ptr p1] in *. subst mp i f pe pt.
  unfold destroy. cbn [objs mpi]. rewrite N2. destruct up; cbn; (eexists; split; [f_equal; f_equal; rewrite <- !app_assoc; reflexivity|]); cbn; auto.
Qed.

(** [C78] A program that ends because reading the options throws has initialised MPI and nobody finalises it. *)
Lemma failed_start_refuted_pf : exists up p e,
  do_ops up [NewApp None] started_process = Ok (p, e) /\ mpi p = Running /\ inits p = 1 /\ finals p = 0 /\ objs p = [].
Proof. exists true. do 2 eexists. split; [reflexivity|]. auto. Qed.

(** [C78] A program that never makes an application object and runs MPI itself (the MPI
    tests): getInstance makes one object at its first use and returns it ever after;
    nobody destroys it, and the library does not touch MPI. *)
Lemma no_app_pf : forall up body,
  Forall library_use body ->
  exists p,
    do_ops up ([UserInit] ++ body ++ [UserFinalize]) started_process = Ok (p, [Done] ++ one_object 0 0 body ++ [Done]) /\
    mpi p = After /\ inits p = 1 /\ finals p = 1 /\ length (objs p) <= 1 /\ (forall a, In a (objs p) -> alive a = true).
Proof.
  intros up body HB.
  assert (exists p2, do_ops up body (Process Running 1 0 false [] None) = Ok (p2, one_object 0 0 body) /\
    mpi p2 = Running /\ inits p2 = 1 /\ finals p2 = 0 /\ length (objs p2) <= 1 /\ (forall a, In a (objs p2) -> alive a = true)) as (p2 & E2 & M2 & I2 & F2 & L2 & A2).
  { destruct body as [|o body]; [eexists; split; [reflexivity|]; cbn; auto 10; intuition|].
    assert (H : do_ops up (o :: body) (Process Running 1 0 false [] None) =
                do_ops up (o :: body) (Process Running 1 0 false [AppObj 0 true] (Some 0))).
    { inversion HB as [|? ? Ho Hl]; subst. destruct o; try contradiction; reflexivity. }
    destruct (use_one up 0 (o :: body) 0 (Process Running 1 0 false [AppObj 0 true] (Some 0)) HB (conj eq_refl eq_refl) eq_refl)
      as (p2 & w & E2 & (P2 & N2) & M2 & I2 & F2 & _ & L2).
    exists p2. rewrite H. split; [exact E2|]. split; [exact M2|]. split; [exact I2|]. split; [exact F2|].
    cbn [objs length] in L2. split; [lia|]. intros a Ha.
    destruct (objs p2) as [|b [|c l]]; try discriminate L2. destruct Ha as [<-|[]]. injection N2 as ->. reflexivity. }
  cbn [app do_ops]. change (do_op up UserInit started_process) with (Ok (Process Running 1 0 false [] None, Done)).
  rewrite bind_Ok. cbn [fst snd]. rewrite ops_app, E2, bind_Ok. cbn [fst snd do_ops do_op]. unfold mpi_finalize. rewrite M2, !bind_Ok.
  cbn [fst snd]. eexists. split; [reflexivity|]. cbn [mpi inits finals objs set_mpi]. rewrite I2, F2. auto.
Qed.

(** [C78] No program of these calls gets further than one initialisation and one
    finalisation of MPI. *)
Lemma mpi_once_pf : forall up l p e, do_ops up l started_process = Ok (p, e) ->
  finals p <= inits p <= 1 /\ (mpi p = Before <-> inits p = 0) /\ (mpi p = After <-> finals p = 1).
Proof.
  intros up.
  set (I := fun p => match mpi p with Before => inits p = 0 /\ finals p = 0 | Running => inits p = 1 /\ finals p = 0 | After => inits p = 1 /\ finals p = 1 end).
  assert (HI : forall p, I p -> finals p <= inits p <= 1 /\ (mpi p = Before <-> inits p = 0) /\ (mpi p = After <-> finals p = 1)).
  { intros p. unfold I. destruct (mpi p); intros (-> & ->); repeat split; intros; try lia; try discriminate; reflexivity. }
  assert (HS : forall o p p' e, I p -> do_op up o p = Ok (p', e) -> I p').
  { assert (GI : forall p, I p -> I (fst (get_instance p))).
    { intros p. unfold get_instance, new_default. destruct (ptr p); auto. }
    intros o p p' e Hp E. destruct o; cbn [do_op] in E.
    - unfold new_app in E. apply bind_inv in E as (p1 & E1 & E). apply bind_inv in E as (p2 & E2 & E).
      assert (I p1).
      { unfold mpi_init in E1. destruct (mpi p) eqn:M; apply Ok_inj in E1; subst p1; auto.
        unfold I in *. rewrite M in Hp. cbn. lia. }
      assert (I p2).
      { destruct up; [|apply Ok_inj in E2; subst; auto]. unfold petsc_init in E2.
        destruct (petsc p1); [apply Ok_inj in E2; subst; auto|]. destruct (mpi p1) eqn:M; try discriminate.
        apply Ok_inj in E2. subst p2. unfold I in *. rewrite M in *. cbn. rewrite M. auto. }
      destruct args as [o|]; [|apply Ok_inj in E; injection E as <- <-; auto].
      apply bind_inv in E as (? & _ & E). apply Ok_inj in E. injection E as <- <-. auto.
    - apply Ok_inj in E. injection E as <- <-. auto.
    - unfold destroy in E. destruct (nth_error (objs p) i) as [[o [|]]|]; try discriminate.
      destruct (mpi p) eqn:M.
      + unfold mpi_use in E. cbn [mpi set_objs] in E. rewrite M in E. discriminate E.
      + unfold mpi_use in E. cbn [mpi set_objs] in E. rewrite M, bind_Ok in E.
        unfold I in Hp. rewrite M in Hp. destruct Hp as (H1 & H2). destruct p as [mp i1 f1 pe os pt]. cbn [mpi inits finals] in *. subst mp i1 f1.
        destruct up; cbn in E; apply Ok_inj in E; injection E as <- <-; unfold I; cbn; lia.
      + apply Ok_inj in E. injection E as <- <-. exact Hp.
    - specialize (GI p Hp). destruct (get_instance p) as [q i]. apply bind_inv in E as (? & _ & E). apply Ok_inj in E. injection E as <- <-. exact GI.
    - specialize (GI p Hp). destruct (get_instance p) as [q i]. apply bind_inv in E as (? & _ & E). apply Ok_inj in E. injection E as <- <-. exact GI.
    - specialize (GI p Hp). destruct (get_instance p) as [q i]. apply bind_inv in E as (? & _ & E). apply Ok_inj in E. injection E as <- <-. exact GI.
    - specialize (GI p Hp). destruct (get_instance p) as [q i]. apply bind_inv in E as (? & _ & E). apply bind_inv in E as (? & _ & E). apply Ok_inj in E. injection E as <- <-. exact GI.
    - unfold mpi_init in E. destruct (mpi p) eqn:M; try discriminate E. rewrite bind_Ok in E. apply Ok_inj in E. injection E as <- <-.
      unfold I in *. rewrite M in Hp. cbn. lia.
    - unfold mpi_finalize in E. destruct (mpi p) eqn:M; try discriminate E. rewrite bind_Ok in E. apply Ok_inj in E. injection E as <- <-.
      unfold I in *. rewrite M in Hp. cbn. lia. }
  assert (HA : forall l p p' e, I p -> do_ops up l p = Ok (p', e) -> I p').
  { induction l as [|o l IH]; intros p p' e Hp E; cbn [do_ops] in E; [apply Ok_inj in E; injection E as <- <-; auto|].
    apply bind_inv in E as ([p1 e1] & E1 & E). apply bind_inv in E as ([p2 e2] & E2 & E). apply Ok_inj in E. injection E as <- <-.
    eapply IH; [|exact E2]. eapply HS; eauto. }
  intros l p e E. apply HI. eapply HA; [|exact E]. unfold I. cbn. auto.
Qed.

Lemma after_stays up o p p' e i : mpi p = After -> ptr p = Some i -> (forall v, nth_error (objs p) i <> Some (AppObj v true)) -> i < length (objs p) ->
  do_op up o p = Ok (p', e) ->
  ~ library_use o /\ (forall v, o <> NewApp (Some v)) /\
  mpi p' = After /\ ptr p' = Some i /\ (forall v, nth_error (objs p') i <> Some (AppObj v true)) /\ i < length (objs p').
Proof.
  intros HM HP HN HL E.
  assert (G : get_instance p = (p, i)) by (unfold get_instance; rewrite HP; reflexivity).
  assert (D : deref p i = UB).
  { unfold deref. destruct (nth_error (objs p) i) as [[v [|]]|] eqn:N; try reflexivity. destruct (HN v eq_refl). }
  destruct o; cbn [do_op] in E; try (rewrite G, D in E; discriminate E).
  - unfold new_app in E. rewrite HM, bind_Ok in E. apply bind_inv in E as (p2 & E2 & E).
    assert (p2 = p) as ->.
    { destruct up; [|apply Ok_inj in E2; auto]. unfold petsc_init in E2. destruct (petsc p); [apply Ok_inj in E2; auto|].
      rewrite HM in E2. discriminate E2. }
    destruct args as [o|]; [unfold mpi_use in E; rewrite HM in E; discriminate E|].
    apply Ok_inj in E. injection E as <- <-. cbn. repeat split; auto; try discriminate.
  - apply Ok_inj in E. injection E as <- <-. cbn. repeat split; auto; try discriminate.
    + intros v. rewrite nth_error_app1 by exact HL. apply HN.
    + rewrite app_length. cbn. lia.
  - unfold destroy in E. destruct (nth_error (objs p) i0) as [[v [|]]|] eqn:N; try discriminate E. rewrite HM in E.
    apply Ok_inj in E. injection E as <- <-. cbn. repeat split; auto; try discriminate.
    + intros v'. destruct (Nat.eq_dec i i0) as [<-|NE].
      * rewrite (upd_at _ _ _ _ N). discriminate.
      * intros Q. apply (HN v'). rewrite <- Q. clear -NE. revert i i0 NE.
        induction (objs p) as [|a l IH]; intros [|i] [|j] NE; cbn; try reflexivity; try congruence. apply IH. congruence.
    + rewrite upd_len. exact HL.
  - unfold mpi_init in E. rewrite HM in E. discriminate E.
  - unfold mpi_finalize in E. rewrite HM in E. discriminate E.
Qed.

(** [C78] The end is final: after the object that getInstance returns has been
    destroyed, a program that uses the library again or makes another application
    object has undefined behaviour. *)
Lemma app_is_last_pf : forall up l p e i p1 e1 l2 p2 e2,
  do_ops up l started_process = Ok (p, e) -> ptr p = Some i -> do_op up (Destroy i) p = Ok (p1, e1) ->
  do_ops up l2 p1 = Ok (p2, e2) ->
  forall o, In o l2 -> ~ library_use o /\ (forall v, o <> NewApp (Some v)).
Proof.
  intros up l p e i p1 e1 l2 p2 e2 _ HP E1 E2.
  assert (H : mpi p1 = After /\ ptr p1 = Some i /\ (forall v, nth_error (objs p1) i <> Some (AppObj v true)) /\ i < length (objs p1)).
  { cbn [do_op] in E1. unfold destroy in E1. destruct (nth_error (objs p) i) as [[v [|]]|] eqn:N; try discriminate E1.
    assert (HL : i < length (objs p)) by (apply nth_error_Some; congruence).
    assert (HQ : forall w, nth_error (upd (objs p) i (AppObj v false)) i <> Some (AppObj w true)) by (intros w; rewrite (upd_at _ _ _ _ N); discriminate).
    destruct (mpi p) eqn:M.
    - unfold mpi_use in E1. cbn [mpi set_objs] in E1. rewrite M in E1. discriminate E1.
    - unfold mpi_use in E1. cbn [mpi set_objs] in E1. rewrite M, bind_Ok in E1.
      destruct p as [mp i1 f1 pe os pt]. cbn [mpi ptr objs] in *. subst mp.
      destruct up; cbn in E1; apply Ok_inj in E1; injection E1 as <- <-; cbn; rewrite upd_len; auto.
    - apply Ok_inj in E1. injection E1 as <- <-. cbn. rewrite upd_len. auto. }
  clear E1. revert p1 e2 H E2. induction l2 as [|o l2 IH]; intros q e2 (H1 & H2 & H3 & H4) E2 x Hx; [destruct Hx|].
  cbn [do_ops] in E2. apply bind_inv in E2 as ([q1 f1] & F1 & E2). apply bind_inv in E2 as ([q2 f2] & F2 & E2). apply Ok_inj in E2. injection E2 as <- <-.
  destruct (after_stays up o q q1 f1 i H1 H2 H3 H4 F1) as (A & B & R).
  destruct Hx as [<-|Hx]; [auto|]. exact (IH q1 f2 R F2 x Hx).
Qed.

(** [C78] So getInstance is not always a live object, and there cannot be one
    application object after another in a process. *)
Lemma app_restart_refuted_pf : forall up, exists o,
  do_ops up [NewApp (Some o); Destroy 0; GetInstance] started_process = UB /\
  do_ops up [NewApp (Some o); Destroy 0; NewApp (Some o)] started_process = UB.
Proof. intros up. exists 1. destruct up; split; reflexivity. Qed.

(** [C78] The destructor finalises MPI even if the program has initialised it: the
    program's own MPI_Finalize is then erroneous. *)
Lemma caller_owns_mpi_refuted_pf : forall up, exists o p e,
  do_ops up [UserInit; NewApp (Some o); Destroy 0] started_process = Ok (p, e) /\ mpi p = After /\
  do_op up UserFinalize p = UB.
Proof. intros up. destruct up; exists 1; eexists; eexists; (split; [reflexivity|]); split; reflexivity. Qed.

(** [C78] Two objects at a time: the inner one takes getInstance and MPI away from the
    outer one. *)
Lemma two_apps_refuted_pf : forall up, exists o o' p e,
  do_ops up [NewApp (Some o); NewApp (Some o'); ReadOption; Destroy 1] started_process = Ok (p, e) /\
  nth 2 e Done = Value o' /\ o <> o' /\ nth_error (objs p) 0 = Some (AppObj o true) /\ do_op up Log p = UB.
Proof. intros up. destruct up; exists 1, 2; eexists; eexists; (split; [reflexivity|]); repeat split; discriminate. Qed.

(** [C78] Options set through getInstance before the application object is made are
    lost, and the object that held them is never destroyed. *)
Lemma early_options_refuted_pf : forall up, exists v o p e,
  do_ops up [UserInit; SetOption v; NewApp (Some o); ReadOption; Destroy 1] started_process = Ok (p, e) /\
  nth 3 e Done = Value o /\ v <> o /\ nth_error (objs p) 0 = Some (AppObj v true).
Proof. intros up. destruct up; exists 1, 2; eexists; eexists; (split; [reflexivity|]); repeat split; discriminate. Qed.

(** [C78] A default-constructed object cannot be destroyed before MPI runs. *)
Lemma default_app_refuted_pf : forall up, exists p e,
  do_ops up [NewDefault] started_process = Ok (p, e) /\ do_op up (Destroy 0) p = UB.
Proof. intros up. eexists; eexists; split; reflexivity. Qed.

(** The hypotheses of the theorems hold for programs that use everything. *)
Lemma app_in_main_example_expf :
  Forall library_use [Log; SetOption 3; GetInstance; ReadOption] /\
  one_object 0 7 [ReadOption; Log; SetOption 3; GetInstance; ReadOption] = [Value 7; Done; Done; Instance 0; Value 3].
Proof. split; [repeat constructor|reflexivity]. Qed.
