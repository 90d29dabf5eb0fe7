(** Properties of timers. *)
From Coq Require Import Ascii String Sorted.
From Verif Require Import Base XmlModel TimerModel TimerSpec.

Lemma t_set_same m n t : t_set m n t n = t.
Proof. unfold t_set. destruct (list_eq_dec _ n n); [reflexivity|congruence]. Qed.
Lemma t_set_other m n n' t : n <> n' -> t_set m n t n' = m n'.
Proof. intros H. unfold t_set. destruct (list_eq_dec _ n n'); [congruence|reflexivity]. Qed.
Lemma do_call_other m c n : call_name c <> n -> do_call m c n = m n.
Proof. destruct c; cbn [call_name do_call]; apply t_set_other. Qed.
Lemma do_call_local m m' c n : call_name c = n -> m n = m' n -> do_call m c n = do_call m' c n.
Proof. destruct c; cbn [call_name do_call]; intros -> H; rewrite !t_set_same, ?H; reflexivity. Qed.
Lemma do_calls_concerning n cs : forall m m', m n = m' n -> do_calls m cs n = do_calls m' (concerning n cs) n.
Proof.
  unfold do_calls. induction cs as [|c cs IH]; intros m m' H; [exact H|]. cbn [fold_left concerning filter].
  destruct (list_eq_dec ascii_dec (call_name c) n) as [E|E].
  - cbn [fold_left]. apply IH. apply do_call_local; assumption.
  - apply IH. rewrite do_call_other by exact E. exact H.
Qed.
Lemma do_calls_app m a b : do_calls m (a ++ b) = do_calls (do_calls m a) b.
Proof. apply fold_left_app. Qed.
Lemma total_app a b : total (a ++ b) = (total a + total b)%Qc.
Proof. induction a as [|[s e] a IH]; cbn [total app]; [ring|]. rewrite IH. ring. Qed.
Lemma intervals_time n cs l : intervals n cs l -> forall m, accumulated (m n) = 0%Qc -> accumulated (do_calls m cs n) = total l.
Proof.
  induction 1 as [|t cs l _ IH|cs l s e _ IH]; intros m H; [exact H| |]; rewrite do_calls_app; unfold do_calls at 1; cbn [fold_left do_call].
  - rewrite t_set_same. cbn [t_start accumulated]. apply IH, H.
  - rewrite !t_set_same. cbn [t_start t_stop accumulated started]. rewrite (IH m H), total_app. cbn [total]. ring.
Qed.

(** [C53] After every history, with calls on any timers: a timer reports the total of its start/stop
    intervals since it was created or restarted.  Missing: a stage makes its timer anew. *)
Lemma timer_total_partial_pf : forall (n : text) (m : timers) (history : list call) (l : list (Qc * Qc)),
  timed n history l -> reported (do_calls m history) n = total l.
Proof.
  intros n m history l (b & c & a & E & Hc & Hi). unfold reported, t_time.
  rewrite (do_calls_concerning n history m m eq_refl), E, !do_calls_app. apply intervals_time; [exact Hi|].
  unfold do_calls at 1. cbn [fold_left]. destruct Hc as [-> | ->]; cbn [do_call]; rewrite t_set_same; reflexivity.
Qed.

(** [C53] After every history, running a stage, whose body may use other timers, makes its timer report the
    length of this run; the earlier runs are lost. *)
Lemma stage_timer_partial_pf : forall (n : text) (m : timers) (history body : list call) (begin fin : Qc),
  Forall (fun c => call_name c <> n) body ->
  reported (do_calls m (history ++ stage n begin body fin)) n = (fin - begin)%Qc.
Proof.
  intros n m history body begin fin H. rewrite (timer_total_partial_pf n m _ [(begin, fin)]); [cbn [total]; ring|].
  exists (concerning n history), (AddTimer n), [Start n begin; Stop n fin]. split; [|split; [left; reflexivity|] ].
  - unfold concerning, stage. rewrite !filter_app. cbn [filter call_name].
    destruct (list_eq_dec ascii_dec n n) as [_|Q]; [|congruence]. cbn [app].
    replace (filter _ body) with (@nil call); [reflexivity|]. symmetry.
    induction H as [|c cs Hc _ IH]; [reflexivity|]. cbn [filter]. destruct (list_eq_dec ascii_dec (call_name c) n); [contradiction|exact IH].
  - apply (iv_close n [] []). constructor.
Qed.

(** [C53] Two runs of the build stage: the timer reports the second one only. *)
Lemma stage_timer_refuted_pf : exists (n : text) (b1 f1 b2 f2 : Qc), (b1 < f1 /\ f1 < b2 /\ b2 < f2)%Qc /\
  reported (do_calls no_timers (stage n b1 [] f1 ++ stage n b2 [] f2)) n <> ((f1 - b1) + (f2 - b2))%Qc.
Proof.
  exists (txt "build-stage"), 0%Qc, 1%Qc, q2, (q2 + 1)%Qc. split; [repeat split; vm_compute; reflexivity|].
  intros H. apply (f_equal this) in H. vm_compute in H. discriminate.
Qed.

(** [C53] The condition on histories is needed: a second stop counts the time since the last
    start again, and a stop without a start counts the time since the epoch of the clock. *)
Lemma timer_unpaired_stop_pf : forall (n : text) (s e1 e2 : Qc),
  reported (do_calls no_timers [AddTimer n; Start n s; Stop n e1; Stop n e2]) n = ((e1 - s) + (e2 - s))%Qc /\
  reported (do_calls no_timers [AddTimer n; Stop n e1]) n = e1.
Proof.
  intros n s e1 e2. unfold reported, do_calls. cbn [fold_left do_call]. rewrite !t_set_same.
  cbn [t_start t_stop accumulated started new_timer t_time]. split; ring.
Qed.

(** [C53] A restart while the timer runs does not begin a new interval: at the stop the whole time since the start
    counts, also the part before the restart. *)
Lemma timer_restart_running_pf : forall (n : text) (m : timers) (history between : list call) (s e : Qc),
  Forall (fun c => call_name c <> n) between ->
  reported (do_calls m (history ++ [Start n s; Restart n] ++ between ++ [Stop n e])) n = (e - s)%Qc.
Proof.
  intros n m h b s e H. unfold reported, t_time. rewrite !do_calls_app. set (m1 := do_calls m h).
  assert (K : do_calls (do_calls m1 [Start n s; Restart n]) b n = do_calls m1 [Start n s; Restart n] n).
  { generalize (do_calls m1 [Start n s; Restart n]). unfold do_calls. induction H as [|c cs Hc _ IH]; intros q; [reflexivity|].
    cbn [fold_left]. rewrite IH. apply do_call_other, Hc. }
  unfold do_calls at 1. cbn [fold_left do_call]. rewrite t_set_same, K. unfold do_calls. cbn [fold_left do_call]. rewrite !t_set_same.
  cbn [t_start t_stop t_restart accumulated started]. ring.
Qed.

Lemma readings_app a b : readings (a ++ b) = readings a ++ readings b.
Proof. apply flat_map_app. Qed.
Lemma sorted_app_inv (a b : list Qc) : StronglySorted Qcle (a ++ b) ->
  StronglySorted Qcle a /\ StronglySorted Qcle b /\ (forall x y, In x a -> In y b -> (x <= y)%Qc).
Proof.
  induction a as [|x a IH]; cbn [app]; intros H; [split; [constructor|split; [exact H|intros x y []] ]|].
  apply StronglySorted_inv in H as [H F]. destruct (IH H) as (H1 & H2 & H3). apply Forall_app in F as [F1 F2]. split; [constructor; assumption|].
  split; [exact H2|]. intros u v [<-|Hu] Hv; [rewrite Forall_forall in F2; apply F2, Hv|apply H3; assumption].
Qed.
Lemma readings_concerning n cs : forall t, In t (readings (concerning n cs)) -> In t (readings cs).
Proof.
  unfold readings, concerning. intros t H. apply in_flat_map in H as (c & Hc & Ht). apply filter_In in Hc as [Hc _].
  apply in_flat_map. exists c. auto.
Qed.
Lemma chronological_concerning n cs : chronological cs -> chronological (concerning n cs).
Proof.
  unfold chronological. induction cs as [|c cs IH]; [auto|]. intros H. change (c :: cs) with ([c] ++ cs) in H. rewrite readings_app in H.
  apply sorted_app_inv in H as (H1 & H2 & H3). cbn [concerning filter]. fold (concerning n cs).
  destruct (list_eq_dec ascii_dec (call_name c) n); [|apply IH, H2].
  change (c :: concerning n cs) with ([c] ++ concerning n cs). rewrite readings_app.
  assert (G : forall x, In x (readings [c]) -> forall y, In y (readings (concerning n cs)) -> (x <= y)%Qc).
  { intros x Hx y Hy. apply H3; [exact Hx|apply readings_concerning in Hy; exact Hy]. }
  destruct c; cbn [readings flat_map app] in *; try (apply IH, H2).
  all: constructor; [apply IH, H2|]; apply Forall_forall; intros y Hy; apply G; [left; reflexivity|exact Hy].
Qed.
Lemma intervals_bound n cs l : intervals n cs l -> StronglySorted Qcle (readings cs) ->
  forall b u, (b <= u)%Qc -> (forall t, In t (readings cs) -> (b <= t <= u)%Qc) -> (total l <= u - b)%Qc.
Proof.
  assert (SB : forall x y : Qc, (x <= y)%Qc -> (0 <= y - x)%Qc). { intros x y. rewrite Qcle_minus_iff. auto. }
  assert (BS : forall x y : Qc, (0 <= y - x)%Qc -> (x <= y)%Qc). { intros x y. rewrite (Qcle_minus_iff x y). auto. }
  induction 1 as [|t cs l _ IH|cs l s e _ IH]; intros S b u Hbu H.
  - cbn [total]. apply SB, Hbu.
  - rewrite readings_app in *. apply sorted_app_inv in S as (S & _ & _). apply IH; [exact S|exact Hbu|]. intros x Hx. apply H, in_app_iff. left. exact Hx.
  - rewrite readings_app in *. apply sorted_app_inv in S as (S & S2 & S3). cbn [readings flat_map app] in *.
    assert (Hs : (b <= s <= u)%Qc) by (apply H, in_app_iff; right; left; reflexivity).
    assert (He : (b <= e <= u)%Qc) by (apply H, in_app_iff; right; right; left; reflexivity).
    assert (I : (total l <= s - b)%Qc).
    { apply IH; [exact S|tauto|]. intros x Hx. split; [apply H, in_app_iff; left; exact Hx|]. apply S3; [exact Hx|left; reflexivity]. }
    rewrite total_app. cbn [total]. apply BS. 
    replace (u - b - (total l + (e - s + 0)))%Qc with ((s - b - total l) + (u - e))%Qc by ring.
    apply (Qcle_trans _ (0 + 0)); [vm_compute; discriminate|]. apply Qcplus_le_compat; apply SB; [exact I|tauto].
Qed.
(** [C53] If the clock does not run backwards, the timer of a stage covers its body: what any timer counts in the body is
    at most what the stage reports. *)
Lemma stage_covers_body_pf : forall (n n' : text) (m : timers) (history body : list call) (begin fin : Qc) (l : list (Qc * Qc)),
  Forall (fun c => call_name c <> n) body -> chronological (stage n begin body fin) ->
  intervals n' (concerning n' body) l ->
  (total l <= reported (do_calls m (history ++ stage n begin body fin)) n)%Qc.
Proof.
  intros n n' m h body b f l Hb Hc Hi. rewrite stage_timer_partial_pf by exact Hb.
  unfold chronological, stage in Hc. rewrite !readings_app in Hc. cbn [readings flat_map app] in Hc. fold (readings body) in Hc.
  apply StronglySorted_inv in Hc as [Hc F]. apply sorted_app_inv in Hc as (Hc & _ & H3). rewrite Forall_forall in F.
  apply (intervals_bound n' _ _ Hi).
  - apply (chronological_concerning n' body), Hc.
  - apply F. apply in_app_iff. right. left. reflexivity.
  - intros t Ht. apply readings_concerning in Ht. split; [apply F, in_app_iff; left; exact Ht|]. apply H3; [exact Ht|left; reflexivity].
Qed.
(** A stage from 1 to 5 whose body times 2 to 3 and 3 to 4. *)
Lemma stage_covers_body_example_expf : exists body : list call, body = [Start (txt "a") q2; Stop (txt "a") (q2 + 1)%Qc; Start (txt "a") (q2 + 1)%Qc; Stop (txt "a") (q2 + q2)%Qc] /\
  chronological (stage (txt "s") 1 body (q2 + q2 + 1)%Qc) /\
  intervals (txt "a") (concerning (txt "a") body) [(q2, q2 + 1); (q2 + 1, q2 + q2)]%Qc.
Proof.
  eexists. split; [reflexivity|]. split.
  - unfold chronological. cbn [stage readings flat_map app]. repeat (constructor; [|repeat constructor; vm_compute; discriminate]). constructor.
  - apply (iv_close (txt "a") [Start (txt "a") q2; Stop (txt "a") (q2 + 1)%Qc] [(q2, q2 + 1)%Qc]).
    apply (iv_close (txt "a") [] []). constructor.
Qed.

(** A history with two timers, an interval before and two after a restart. *)
Lemma timed_example_expf : exists history, history =
    [AddTimer (txt "a"); Start (txt "a") 1; AddTimer (txt "b"); Stop (txt "a") q2; Restart (txt "a"); Start (txt "a") q2;
     Start (txt "b") q2; Stop (txt "a") (q2 + 1)%Qc; Start (txt "a") (q2 + 1)%Qc; Stop (txt "a") (q2 + q2)%Qc] /\
  timed (txt "a") history [(q2, q2 + 1); (q2 + 1, q2 + q2)]%Qc.
Proof.
  eexists. split; [reflexivity|]. exists [AddTimer (txt "a"); Start (txt "a") 1; Stop (txt "a") q2], (Restart (txt "a")).
  eexists. split; [reflexivity|]. split; [right; reflexivity|].
  apply (iv_close (txt "a") [Start (txt "a") q2; Stop (txt "a") (q2 + 1)%Qc] [(q2, q2 + 1)%Qc]).
  apply (iv_close (txt "a") [] []). constructor.
Qed.
