(** Confluence of parallel runs. *)
From Verif Require Import Base VectorModel MatrixModel HPSModel TreeModel TreeSpec ParModel ParSpec.

Section conf.
Context {D A : Type}.
Notation config := (@config D A).

Definition eqv (s s' : config) : Prop := forall r, s' r = s r.

Lemma eqv_sym s s' : eqv s s' -> eqv s' s.
Proof. intros H r. symmetry. apply H. Qed.

Lemma step_eqv_l s1 s1' s2 : eqv s1 s1' -> pstep s1 s2 -> pstep s1' s2.
Proof.
  intros E H. destruct H as [c v k H1 H2 H3 H4|c root x k H1 H2 H3 H4|lo hi k H1 H2 H3 H4].
  - apply (step_allreduce _ _ c v k); auto; intros r Hr; rewrite ?E; auto.
  - apply (step_bcast _ _ c root x k); auto; intros r Hr; rewrite ?E; auto.
  - apply (step_group _ _ lo hi k); auto; intros r Hr; rewrite ?E; auto.
Qed.
Lemma step_eqv_r s1 s2 s2' : eqv s2 s2' -> pstep s1 s2 -> pstep s1 s2'.
Proof.
  intros E H. destruct H as [c v k H1 H2 H3 H4|c root x k H1 H2 H3 H4|lo hi k H1 H2 H3 H4].
  - apply (step_allreduce _ _ c v k); auto; intros r Hr; rewrite ?E; auto.
  - apply (step_bcast _ _ c root x k); auto; intros r Hr; rewrite ?E; auto.
  - apply (step_group _ _ lo hi k); auto; intros r Hr; rewrite ?E; auto.
Qed.
Lemma runs_eqv_l n s1 s1' s2 : eqv s1 s1' -> runs n s1 s2 -> runs n s1' s2.
Proof.
  intros E H. inversion H; subst.
  - constructor. intros r. rewrite E. auto.
  - apply (runs_S _ _ s3); auto. apply (step_eqv_l s1); auto.
Qed.
Lemma runs_eqv_r n s1 s2 s2' : eqv s2 s2' -> runs n s1 s2 -> runs n s1 s2'.
Proof.
  intros E H. induction H as [s s' H|n s1 s2 s3 H1 H2 IH].
  - constructor. intros r. rewrite E. auto.
  - apply (runs_S _ _ s2); auto.
Qed.
Lemma runs_app n m (s1 s2 s3 : config) : runs n s1 s2 -> runs m s2 s3 -> runs (n + m) s1 s3.
Proof.
  intros H. revert m s3; induction H as [s s' H|n s1 s2 s2' H1 H2 IH]; intros m s3 H'.
  - apply (runs_eqv_l m s'); auto. apply eqv_sym. exact H.
  - cbn. apply (runs_S _ _ s2); auto.
Qed.
Lemma runs_one (s1 s2 : config) : pstep s1 s2 -> runs 1 s1 s2.
Proof. intros H. apply (runs_S _ _ s2); auto. constructor. reflexivity. Qed.

(** What can complete in a configuration, and for whom. *)
Inductive key : Type := KAll (c : comm) | KBc (c : comm) | KGr (lo hi : nat).
Definition klo (K : key) := match K with KAll c => c_lo c | KBc c => c_lo c | KGr lo _ => lo end.
Definition khi (K : key) := match K with KAll c => c_hi c | KBc c => c_hi c | KGr _ hi => hi end.
Definition at_key (x : cmd D A) (K : key) : Prop :=
  match x, K with
  | Allreduce c _ _, KAll c' => c = c'
  | Bcast c _ _ _, KBc c' => c = c'
  | Group lo hi _, KGr lo' hi' => lo = lo' /\ hi = hi'
  | _, _ => False
  end.
Lemma at_key_inj x K K' : at_key x K -> at_key x K' -> K = K'.
Proof.
  destruct x, K; cbn; try contradiction; destruct K'; cbn; try contradiction; try congruence.
  intros [-> ->] [-> ->]. reflexivity.
Qed.

(** Two collectives that can complete are the same one or concern disjoint ranks. *)
Lemma keyed (s s' : config) : pstep s s' -> exists K, klo K <= khi K /\
  (forall r, member (klo K) (khi K) r -> at_key (s r) K) /\
  (forall r, ~ member (klo K) (khi K) r -> s' r = s r).
Proof.
  intros [c v k H1 H2 H3 H4|c root x k H1 H2 H3 H4|lo hi k H1 H2 H3 H4].
  - exists (KAll c). split; [exact H1|]. split; [|exact H4]. intros r Hr. rewrite H2 by exact Hr. reflexivity.
  - exists (KBc c). split; [cbn; lia|]. split; [|exact H4]. intros r Hr. rewrite H2 by exact Hr. reflexivity.
  - exists (KGr lo hi). split; [exact H1|]. split; [|exact H4]. intros r Hr. rewrite H2 by exact Hr. split; reflexivity.
Qed.

Lemma max_ext lo hi v v' : (forall r, member lo hi r -> v r = v' r) -> max_over lo hi v = max_over lo hi v'.
Proof.
  intros H. unfold max_over. f_equal. apply map_ext_in. intros r Hr. apply in_seq in Hr. apply H. unfold member. lia.
Qed.

(** Deterministic for the same key. *)
Definition at_step (s s' : config) (K : key) : Prop :=
  klo K <= khi K /\
  (forall r, ~ member (klo K) (khi K) r -> s' r = s r) /\
  match K with
  | KAll c => exists v k, (forall r, member (c_lo c) (c_hi c) r -> s r = Allreduce c (v r) (k r)) /\
                (forall r, member (c_lo c) (c_hi c) r -> s' r = k r (max_over (c_lo c) (c_hi c) v))
  | KBc c => exists root x k, c_lo c + root <= c_hi c /\
                (forall r, member (c_lo c) (c_hi c) r -> s r = Bcast c root (x r) (k r)) /\
                (forall r, member (c_lo c) (c_hi c) r -> s' r = k r (x (c_lo c + root)))
  | KGr lo hi => exists k, (forall r, member lo hi r -> s r = Group lo hi (k r)) /\
                (forall r, member lo hi r -> s' r = k r)
  end.

Lemma step_at s s' : pstep s s' <-> exists K, at_step s s' K.
Proof.
  split.
  - intros [c v k H1 H2 H3 H4|c root x k H1 H2 H3 H4|lo hi k H1 H2 H3 H4].
    + exists (KAll c). split; [exact H1|]. split; [exact H4|]. exists v, k. auto.
    + exists (KBc c). split; [cbn; lia|]. split; [exact H4|]. exists root, x, k. auto.
    + exists (KGr lo hi). split; [exact H1|]. split; [exact H4|]. exists k. auto.
  - intros ([c|c|lo hi] & H1 & H2 & H3); cbn [klo khi] in *.
    + destruct H3 as (v & k & H3 & H4). apply (step_allreduce _ _ c v k); auto.
    + destruct H3 as (root & x & k & H3 & H4 & H5). apply (step_bcast _ _ c root x k); auto.
    + destruct H3 as (k & H3 & H4). apply (step_group _ _ lo hi k); auto.
Qed.

Lemma at_step_key s s' K r : at_step s s' K -> member (klo K) (khi K) r -> at_key (s r) K.
Proof.
  intros (_ & _ & H) Hr. destruct K; cbn [klo khi] in *.
  - destruct H as (v & k & H & _). rewrite H by exact Hr. reflexivity.
  - destruct H as (root & x & k & _ & H & _). rewrite H by exact Hr. reflexivity.
  - destruct H as (k & H & _). rewrite H by exact Hr. split; reflexivity.
Qed.

Lemma member_dec lo hi r : {member lo hi r} + {~ member lo hi r}.
Proof.
  unfold member. destruct (le_dec lo r), (le_dec r hi); [left|right|right|right]; lia.
Qed.

Lemma same_key s s1 s2 K : at_step s s1 K -> at_step s s2 K -> eqv s1 s2.
Proof.
  intros (H1 & H2 & H3) (_ & H2' & H3') r.
  destruct (member_dec (klo K) (khi K) r) as [Hr|Hr]; [|rewrite H2, H2' by exact Hr; reflexivity].
  destruct K; cbn [klo khi] in *.
  - destruct H3 as (v & k & Ha & Hb). destruct H3' as (v' & k' & Ha' & Hb').
    rewrite Hb, Hb' by exact Hr.
    rewrite (max_ext _ _ v v').
    + specialize (Ha r Hr). rewrite (Ha' r Hr) in Ha. injection Ha as _ Ek. rewrite Ek. reflexivity.
    + intros r' Hr'. specialize (Ha r' Hr'). rewrite (Ha' r' Hr') in Ha. injection Ha as Ev _. symmetry. exact Ev.
  - destruct H3 as (root & x & k & Hr0 & Ha & Hb). destruct H3' as (root' & x' & k' & Hr0' & Ha' & Hb').
    rewrite Hb, Hb' by exact Hr.
    assert (E : root = root' /\ k' r = k r).
    { specialize (Ha r Hr). rewrite (Ha' r Hr) in Ha. injection Ha as E1 _ E2. auto. }
    destruct E as [<- ->].
    assert (Hm : member (c_lo c) (c_hi c) (c_lo c + root)) by (unfold member; lia).
    specialize (Ha _ Hm). rewrite (Ha' _ Hm) in Ha. injection Ha as Ex _. rewrite Ex. reflexivity.
  - destruct H3 as (k & Ha & Hb). destruct H3' as (k' & Ha' & Hb'). rewrite Hb, Hb' by exact Hr.
    specialize (Ha r Hr). rewrite (Ha' r Hr) in Ha. injection Ha as Ek. exact Ek.
Qed.

(** A step moves to a configuration that agrees on its members. *)
Lemma step_moves s s' t K : at_step s s' K -> (forall r, member (klo K) (khi K) r -> t r = s r) ->
  exists t', at_step t t' K /\ (forall r, member (klo K) (khi K) r -> t' r = s' r).
Proof.
  intros (H1 & H2 & H3) E.
  exists (fun r => if member_dec (klo K) (khi K) r then s' r else t r).
  assert (IN : forall r, member (klo K) (khi K) r -> (if member_dec (klo K) (khi K) r then s' r else t r) = s' r).
  { intros r Hr. destruct (member_dec (klo K) (khi K) r); [reflexivity|contradiction]. }
  split; [|exact IN]. split; [exact H1|]. split.
  { intros r Hr. destruct (member_dec (klo K) (khi K) r); [contradiction|reflexivity]. }
  destruct K; cbn [klo khi] in *.
  - destruct H3 as (v & k & Ha & Hb). exists v, k. split; intros r Hr; [rewrite E by exact Hr; auto|rewrite IN by exact Hr; auto].
  - destruct H3 as (root & x & k & Hr0 & Ha & Hb). exists root, x, k. split; [exact Hr0|].
    split; intros r Hr; [rewrite E by exact Hr; auto|rewrite IN by exact Hr; auto].
  - destruct H3 as (k & Ha & Hb). exists k. split; intros r Hr; [rewrite E by exact Hr; auto|rewrite IN by exact Hr; auto].
Qed.

Definition key_eq_dec (K K' : key) : {K = K'} + {K <> K'}.
Proof.
  assert (C : forall c c' : comm, {c = c'} + {c <> c'}).
  { intros [p a b] [p' a' b']. destruct (list_eq_dec Nat.eq_dec p p'), (Nat.eq_dec a a'), (Nat.eq_dec b b');
      [left; congruence|right; congruence ..]. }
  destruct K as [c|c|a b], K' as [c'|c'|a' b']; try (right; discriminate).
  - destruct (C c c'); [left; congruence|right; congruence].
  - destruct (C c c'); [left; congruence|right; congruence].
  - destruct (Nat.eq_dec a a'), (Nat.eq_dec b b'); [left; congruence|right; congruence ..].
Qed.

Lemma diamond (s s1 s2 : config) : pstep s s1 -> pstep s s2 ->
  eqv s1 s2 \/ exists t, pstep s1 t /\ pstep s2 t.
Proof.
  intros H1 H2. apply step_at in H1 as (K1 & H1). apply step_at in H2 as (K2 & H2).
  destruct (key_eq_dec K1 K2) as [<-|Hne]; [left; apply (same_key s s1 s2 K1); auto|]. right.
  assert (DJ : forall r, member (klo K1) (khi K1) r -> ~ member (klo K2) (khi K2) r).
  { intros r M1 M2. apply Hne. apply (at_key_inj (s r)); [apply (at_step_key s s1)|apply (at_step_key s s2)]; auto. }
  pose proof H1 as (_ & F1 & _). pose proof H2 as (_ & F2 & _).
  destruct (step_moves s s2 s1 K2 H2) as (t & T1 & T2).
  { intros r Hr. apply F1. intros Hr'. exact (DJ r Hr' Hr). }
  destruct (step_moves s s1 s2 K1 H1) as (t' & T1' & T2').
  { intros r Hr. apply F2. intros Hr'. exact (DJ r Hr Hr'). }
  exists t. split; [apply step_at; eauto|]. apply (step_eqv_r s2 t'); [|apply step_at; eauto].
  intros r. pose proof T1 as (_ & G1 & _). pose proof T1' as (_ & G1' & _).
  destruct (member_dec (klo K1) (khi K1) r) as [Hr|Hr].
  - rewrite T2' by exact Hr. rewrite G1 by (apply DJ; exact Hr). reflexivity.
  - rewrite (G1' r Hr). destruct (member_dec (klo K2) (khi K2) r) as [Hr2|Hr2].
    + apply T2. exact Hr2.
    + rewrite G1 by exact Hr2. rewrite F1 by exact Hr. rewrite F2 by exact Hr2. reflexivity.
Qed.

(** One complete run determines all. *)
Definition final (s : config) : Prop := forall s', ~ pstep s s'.

Lemma strip n : forall s t s1 : config, runs n s t -> final t -> pstep s s1 ->
  exists n', n = S n' /\ runs n' s1 t.
Proof.
  induction n as [|n IH]; intros s t s1 H F H1.
  - inversion H; subst. exfalso. apply (F s1). apply (step_eqv_l s); auto.
  - exists n. split; [reflexivity|]. inversion H as [|n0 x s2 y H2 H3]; subst.
    destruct (diamond s s1 s2 H1 H2) as [E|(u & U1 & U2)].
    + apply (runs_eqv_l n s2); auto. apply eqv_sym. exact E.
    + destruct (IH s2 t u H3 F U2) as (n' & -> & H4). apply (runs_S _ _ u); auto.
Qed.

Lemma all_runs n : forall k (s t s1 : config), runs n s t -> final t -> runs k s s1 ->
  k <= n /\ runs (n - k) s1 t.
Proof.
  intros k. revert n; induction k as [|k IH]; intros n s t s1 H F H1.
  - split; [lia|]. rewrite Nat.sub_0_r. inversion H1; subst. apply (runs_eqv_l n s); auto.
  - inversion H1 as [|k0 x s2 y H2 H3]; subst.
    destruct (strip n s t s2 H F H2) as (n' & -> & H4).
    destruct (IH n' s2 t s1 H4 F H3) as [H5 H6]. split; [lia|]. exact H6.
Qed.

Lemma finished_final (s : config) : (forall r, exists x, s r = Fin x) -> final s.
Proof.
  intros H s' H'. apply keyed in H' as (K & HK & H1 & _).
  destruct (H (klo K)) as (x & Ex). specialize (H1 (klo K)). rewrite Ex in H1.
  destruct K; apply H1; unfold member; cbn in *; lia.
Qed.

Lemma ends (s : config) (fin : nat -> res A) n t : runs n s t -> (forall r, t r = Fin (fin r)) -> always_ends s fin.
Proof.
  intros H E. exists n. intros k s1 H1.
  destruct (all_runs n k s t s1 H) as [H2 H3]; auto.
  - apply finished_final. intros r. rewrite E. eauto.
  - split; [exact H2|]. exists t. auto.
Qed.
End conf.
