(** A complete run of merge and split on all ranks. *)
From Verif Require Import Base VectorModel MatrixModel HPSModel TreeModel TreeSpec TreeProofs TreeCtor
  TreeOrder TreeMap TreeOrder2 ParModel ParSpec ParProofs.

(** ** The broadcasting rank *)
Lemma max_holder lo hi a b : lo <= a -> a <= b -> b <= hi ->
  max_over lo hi (fun r => if in_range r a b then r - lo else 0) = b - lo.
Proof.
  intros H1 H2 H3. unfold max_over. apply Nat.le_antisymm.
  - apply list_max_le. apply Forall_forall. intros x Hx. apply in_map_iff in Hx as (r & <- & Hr).
    apply in_seq in Hr. destruct (in_range r a b) eqn:E; [|lia].
    unfold in_range in E. apply andb_true_iff in E as [E1 E2]. apply Nat.leb_le in E1, E2. lia.
  - assert (H : Forall (fun x => x <= list_max (map (fun r => if in_range r a b then r - lo else 0) (seq lo (S hi - lo))))
                 (map (fun r => if in_range r a b then r - lo else 0) (seq lo (S hi - lo)))).
    { apply list_max_le. apply le_n. }
    rewrite Forall_forall in H. apply H. apply in_map_iff. exists b. split.
    + unfold in_range. rewrite (proj2 (Nat.leb_le a b)), (proj2 (Nat.leb_le b b)) by lia. reflexivity.
    + apply in_seq. lia.
Qed.

Section run.
Context {D S R : Type} (F : forest) (dflt : D).
Hypothesis HC : contiguous F.
Hypothesis HG : gapless F.

Lemma in_range_iff r lo hi : in_range r lo hi = true <-> lo <= r <= hi.
Proof. unfold in_range. rewrite andb_true_iff, !Nat.leb_le. reflexivity. Qed.

Lemma range_owners ds f r : sub F ds = Some f -> in_range r (pfirst f) (plast f) = true <-> In r (owners f).
Proof.
  intros Es. assert (C : contiguous f) by (apply (contiguous_sub F ds); auto). split.
  - intros H. apply (range_local r F ds); auto.
    apply in_range_iff in H. apply (HG (pfirst f) (plast f)); auto.
    + apply (owners_sub F ds f); auto. apply pfirst_in.
    + apply (owners_sub F ds f); auto. apply plast_in.
  - intros H. apply local_in_range; auto.
Qed.

(** ** Data of all ranks as one environment *)
Definition env := path -> D.
Definition coh (r : nat) (e : env) (m : nmap D) : Prop :=
  node_map r F m /\ forall ds n, sub F ds <> None -> m (0 :: ds) = Some n -> n_data n = e (0 :: ds).

Lemma coh_ext r e m m' : (forall p, m' p = m p) -> coh r e m -> coh r e m'.
Proof.
  intros E [H1 H2]. split.
  - intros ds f Es. specialize (H1 ds f Es). rewrite E. exact H1.
  - intros ds n Hs. rewrite E. apply H2. exact Hs.
Qed.

Definition upd (e : env) (p : path) (d : D) : env := fun q => if path_eqb p q then d else e q.
Lemma upd_eq e p d : upd e p d p = d.
Proof. unfold upd. rewrite path_eqb_refl. reflexivity. Qed.
Lemma upd_neq e p d q : p <> q -> upd e p d q = e q.
Proof. intros H. unfold upd. rewrite path_eqb_neq by exact H. reflexivity. Qed.

Definition upd_family (e : env) (p : path) (d : D) (ds : four D) : env :=
  upd (upd (upd (upd (upd e p d) (p ++ [0]) (fa ds)) (p ++ [1]) (fb ds)) (p ++ [2]) (fc ds)) (p ++ [3]) (fd ds).
Lemma upd_family_self e p d ds : upd_family e p d ds p = d.
Proof. unfold upd_family. rewrite !(upd_neq _ (p ++ [_])) by apply child_neq'. apply upd_eq. Qed.
Lemma upd_family_child e p d ds i : i < 4 -> upd_family e p d ds (p ++ [i]) = nth i [fa ds; fb ds; fc ds; fd ds] d.
Proof.
  intros Hi. unfold upd_family. destruct i as [|[|[|[|i]]]]; [..|lia]; cbn [nth];
    repeat (rewrite upd_neq by (apply child_neq; lia)); apply upd_eq.
Qed.
Lemma upd_family_other e p d ds k : k <> p -> (forall i, i < 4 -> k <> p ++ [i]) -> upd_family e p d ds k = e k.
Proof.
  intros H1 H2. unfold upd_family.
  rewrite !(upd_neq _ (p ++ [_])) by (intros E; symmetry in E; revert E; apply H2; lia).
  apply upd_neq. congruence.
Qed.

Lemma path_eq_dec (p q : path) : {p = q} + {p <> q}.
Proof. apply list_eq_dec. apply Nat.eq_dec. Qed.

Lemma is_child_dec (k p : path) : (exists i, i < 4 /\ k = p ++ [i]) \/ (forall i, i < 4 -> k <> p ++ [i]).
Proof.
  destruct (path_eq_dec k (p ++ [0])); [left; exists 0; split; [lia|auto]|].
  destruct (path_eq_dec k (p ++ [1])); [left; exists 1; split; [lia|auto]|].
  destruct (path_eq_dec k (p ++ [2])); [left; exists 2; split; [lia|auto]|].
  destruct (path_eq_dec k (p ++ [3])); [left; exists 3; split; [lia|auto]|].
  right. intros i Hi. destruct i as [|[|[|[|i]]]]; auto; lia.
Qed.

(** A rank outside the range is not concerned. *)
Lemma coh_outside r e e' m ds f : coh r e m -> sub F ds = Some f -> in_range r (pfirst f) (plast f) = false ->
  (forall k, outside (0 :: ds) k -> e' k = e k) -> coh r e' m.
Proof.
  intros [H1 H2] Es HR HE. split; [exact H1|]. intros ds' n Hs' Hn.
  rewrite (H2 ds' n Hs' Hn). symmetry. apply HE. intros l El. injection El as ->.
  destruct (sub F (ds ++ l)) as [f'|] eqn:E'; [|congruence].
  specialize (H1 (ds ++ l) f' E').
  assert (X : in_range r (pfirst f') (plast f') = false).
  { destruct (in_range r (pfirst f') (plast f')) eqn:X; [|reflexivity].
    rewrite (sub_app F ds l f Es) in E'.
    assert (C : contiguous f) by (apply (contiguous_sub F ds); auto).
    rewrite (range_sub f l f' r C E' X) in HR. discriminate. }
  rewrite X in H1. congruence.
Qed.

Lemma coh_leaf r e m ds n d : coh r e m -> sub F ds <> None -> m (0 :: ds) = Some n ->
  coh r (upd e (0 :: ds) d) (mset m (0 :: ds) (Some (set_ndata n d))).
Proof.
  intros [H1 H2] Hs Hn. split; [apply node_map_set; auto|]. intros ds' n' Hs' Hn'.
  destruct (path_eq_dec (0 :: ds) (0 :: ds')) as [Eds|Hne]; [injection Eds as <-|].
  - rewrite mset_eq in Hn'. injection Hn' as <-. rewrite upd_eq. reflexivity.
  - rewrite mset_neq in Hn' by exact Hne. rewrite upd_neq by exact Hne. auto.
Qed.

Lemma coh_family r e m ds n d xs : coh r e m -> sub F ds <> None -> m (0 :: ds) = Some n -> n_path n = 0 :: ds ->
  coh r (upd_family e (0 :: ds) d xs) (family_map m (0 :: ds) n d xs).
Proof.
  intros [H1 H2] Hs Hn Ep. split; [apply node_map_family; auto|]. intros ds' n' Hs' Hn'.
  destruct (path_eq_dec (0 :: ds') (0 :: ds)) as [Eds|Hne]; [injection Eds as ->|].
  - rewrite family_map_self in Hn' by exact Ep. injection Hn' as <-. rewrite upd_family_self. reflexivity.
  - destruct (is_child_dec (0 :: ds') (0 :: ds)) as [(i & Hi & E)|Hi].
    + rewrite E in *. rewrite upd_family_child by exact Hi.
      destruct (m ((0 :: ds) ++ [i])) as [ch|] eqn:Ec.
      * rewrite (family_map_child m _ n d xs i ch Ep Ec Hi) in Hn'. injection Hn' as <-. reflexivity.
      * rewrite (family_map_child_none m _ n d xs i Ep Ec) in Hn'. discriminate.
    + rewrite upd_family_other by auto.
      destruct (path_eq_dec (0 :: ds') (0 :: ds)); [contradiction|].
      destruct (sub F ds') as [f'|] eqn:Es'; [|congruence].
      rewrite family_map_other in Hn'; auto.
      * apply H2; congruence.
      * intros i E. destruct (Nat.lt_ge_cases i 4) as [Hlt|Hge]; [exact (Hi i Hlt E)|].
        injection E as ->. pose proof (sub_digits F _ f' Es') as Hd. apply Forall_app in Hd as [_ Hd].
        inversion Hd. lia.
Qed.

(** ** One child is gathered *)
Definition others (lo hi : nat) (s s' : @config D R) : Prop := forall r, ~ member lo hi r -> s' r = s r.

Lemma gather_child_run ds f g i e (node : nat -> qnode D) (m : nat -> nmap D)
  (K : nat -> nmap D * qnode D -> cmd D R) (s : @config D R) :
  sub F ds = Some f -> fchild f i = Some g ->
  (forall r, member (pfirst f) (plast f) r ->
     coh r e (m r) /\ n_path (node r) = 0 :: ds /\ n_pfirst (node r) = pfirst f /\ n_plast (node r) = plast f /\
     s r = gather_child r dflt (node r) i (m r) (K r)) ->
  exists N m' s', runs 2 s s' /\ n_data N = e (0 :: ds ++ [i]) /\
    (forall r, member (pfirst f) (plast f) r -> (forall p, m' r p = m r p) /\ s' r = K r (m' r, N)) /\
    others (pfirst f) (plast f) s s'.
Proof.
  intros Es Eg H. set (lo := pfirst f) in *. set (hi := plast f) in *.
  assert (C : contiguous f) by (apply (contiguous_sub F ds); auto).
  assert (Es' : sub F (ds ++ [i]) = Some g) by (apply (sub_child F ds f); auto).
  assert (C' : contiguous g) by (apply (contiguous_sub F (ds ++ [i])); auto).
  assert (RA : lo <= pfirst g /\ pfirst g <= plast g /\ plast g <= hi).
  { pose proof (range_child f i g (pfirst g) C Eg (first_in_range g C')) as X1.
    pose proof (range_child f i g (plast g) C Eg (last_in_range g C')) as X2.
    pose proof (first_in_range g C') as X3.
    apply in_range_iff in X1, X2, X3. unfold lo, hi. lia. }
  set (key := 0 :: ds ++ [i]).
  assert (CH : forall r, member lo hi r ->
    if in_range r (pfirst g) (plast g) then exists c, m r key = Some c else m r key = None).
  { intros r Hr. destruct (H r Hr) as ([NM _] & _). specialize (NM _ _ Es').
    destruct (in_range r (pfirst g) (plast g)); [destruct NM as (c & Hc & _); eauto|exact NM]. }
  set (c := Comm (0 :: ds) lo hi).
  set (v := fun r => if in_range r (pfirst g) (plast g) then r - lo else 0).
  set (x := fun r => match m r key with Some c => c | None => QNode dflt [] 0 0 0 false end).
  set (mm := fun r (ch : qnode D) => match m r key with Some _ => mset (m r) key (Some ch) | None => m r end).
  set (kB := fun r (ch : qnode D) => K r (mm r ch, ch)).
  set (root := plast g - lo).
  assert (Hlast : member lo hi (plast g)) by (unfold member; lia).
  set (N := x (plast g)).
  exists N, (fun r => mm r N).
  set (s1 := fun r => if member_dec lo hi r then Bcast c root (x r) (kB r) else s r).
  set (s2 := fun r => if member_dec lo hi r then kB r N else s r).
  assert (IN1 : forall r, member lo hi r -> s1 r = Bcast c root (x r) (kB r)).
  { intros r Hr. unfold s1. destruct (member_dec lo hi r); [reflexivity|contradiction]. }
  assert (IN2 : forall r, member lo hi r -> s2 r = kB r N).
  { intros r Hr. unfold s2. destruct (member_dec lo hi r); [reflexivity|contradiction]. }
  assert (OUT1 : forall r, ~ member lo hi r -> s1 r = s r).
  { intros r Hr. unfold s1. destruct (member_dec lo hi r); [contradiction|reflexivity]. }
  assert (OUT2 : forall r, ~ member lo hi r -> s2 r = s r).
  { intros r Hr. unfold s2. destruct (member_dec lo hi r); [contradiction|reflexivity]. }
  exists s2. split; [|split; [|split]].
  - apply (runs_S 1 s s1 s2).
    + apply (step_allreduce s s1 c v (fun r pnode => Bcast c pnode (x r) (kB r))); cbn [c_lo c_hi c].
      * unfold member in Hlast. lia.
      * intros r Hr. destruct (H r Hr) as (_ & Ep & E1 & E2 & ->). unfold gather_child, mget. rewrite Ep, E1, E2.
        fold lo hi. change ((0 :: ds) ++ [i]) with key. fold c. specialize (CH r Hr). unfold v, kB, mm, x.
        destruct (in_range r (pfirst g) (plast g)).
        -- destruct CH as (ch & ->). reflexivity.
        -- rewrite CH. reflexivity.
      * intros r Hr. rewrite IN1 by exact Hr. unfold v. rewrite max_holder by lia. reflexivity.
      * exact OUT1.
    + apply runs_one. apply (step_bcast s1 s2 c root x kB); cbn [c_lo c_hi c].
      * unfold root. lia.
      * exact IN1.
      * intros r Hr. rewrite IN2 by exact Hr. unfold N. replace (lo + root) with (plast g) by (unfold root; lia). reflexivity.
      * intros r Hr. rewrite OUT1, OUT2 by exact Hr. reflexivity.
  - unfold N, x. destruct (H _ Hlast) as ([_ HD] & _).
    pose proof (CH _ Hlast) as Hc. rewrite (last_in_range g C') in Hc. destruct Hc as (ch & Hc). rewrite Hc.
    apply (HD (ds ++ [i])); [congruence|exact Hc].
  - intros r Hr. split; [|apply IN2; exact Hr]. intros p. unfold mm.
    destruct (m r key) as [ch|] eqn:Ec; [|reflexivity].
    destruct (path_eq_dec key p) as [<-|Hne]; [|apply mset_neq; exact Hne]. rewrite mset_eq, Ec. f_equal.
    unfold N, x.
    pose proof (CH r Hr) as Hc. destruct (in_range r (pfirst g) (plast g)) eqn:IRr; [|congruence].
    destruct (H r Hr) as ([NM HD] & _). destruct (H _ Hlast) as ([NM' HD'] & _).
    specialize (NM _ _ Es'). specialize (NM' _ _ Es'). rewrite IRr in NM. rewrite (last_in_range g C') in NM'.
    destruct NM as (n & En & P1 & P2 & P3 & P4 & P5). destruct NM' as (n' & En' & P1' & P2' & P3' & P4' & P5').
    fold key in En, En'. rewrite En'. rewrite Ec in En. injection En as ->.
    assert (DD : n_data n' = n_data n).
    { rewrite (HD (ds ++ [i]) n), (HD' (ds ++ [i]) n'); [reflexivity|congruence|exact En'|congruence|exact Ec]. }
    assert (LL : leaf_here (plast g) g = leaf_here r g).
    { destruct g as [o|]; [|reflexivity]. cbn in IRr. apply own_range in IRr. subst r. reflexivity. }
    destruct n, n'; cbn in *. congruence.
  - exact OUT2.
Qed.

(** ** All four children *)
Lemma gather_run ds a b c d e (node : nat -> qnode D) (m : nat -> nmap D)
  (K : nat -> nmap D * four (qnode D) -> cmd D R) (s : @config D R) :
  let f := FNode a b c d in
  sub F ds = Some f ->
  (forall r, member (pfirst f) (plast f) r ->
     coh r e (m r) /\ n_path (node r) = 0 :: ds /\ n_pfirst (node r) = pfirst f /\ n_plast (node r) = plast f /\
     s r = gather r dflt (node r) (m r) (K r)) ->
  exists ch m' s', runs 8 s s' /\
    fmap n_data ch = Four (e (0 :: ds ++ [0])) (e (0 :: ds ++ [1])) (e (0 :: ds ++ [2])) (e (0 :: ds ++ [3])) /\
    (forall r, member (pfirst f) (plast f) r -> (forall p, m' r p = m r p) /\ s' r = K r (m' r, ch)) /\
    others (pfirst f) (plast f) s s'.
Proof.
  intros f Es H.
  destruct (gather_child_run ds f a 0 e node m
    (fun r r0 => gather_child r dflt (node r) 1 (fst r0) (fun r1 =>
       gather_child r dflt (node r) 2 (fst r1) (fun r2 =>
       gather_child r dflt (node r) 3 (fst r2) (fun r3 =>
       K r (fst r3, Four (snd r0) (snd r1) (snd r2) (snd r3)))))) s Es eq_refl)
    as (N0 & m0 & s0 & R0 & D0 & M0 & O0).
  { intros r Hr. destruct (H r Hr) as (A1 & A2 & A3 & A4 & A5). auto. }
  destruct (gather_child_run ds f b 1 e node m0
    (fun r r1 => 
       gather_child r dflt (node r) 2 (fst r1) (fun r2 =>
       gather_child r dflt (node r) 3 (fst r2) (fun r3 =>
       K r (fst r3, Four N0 (snd r1) (snd r2) (snd r3))))) s0 Es eq_refl)
    as (N1 & m1 & s1 & R1 & D1 & M1 & O1).
  { intros r Hr. destruct (H r Hr) as (A1 & A2 & A3 & A4 & _). destruct (M0 r Hr) as [B1 B2].
    split; [apply (coh_ext r e (m r)); auto|]. auto. }
  destruct (gather_child_run ds f c 2 e node m1
    (fun r r2 => 
       gather_child r dflt (node r) 3 (fst r2) (fun r3 =>
       K r (fst r3, Four N0 N1 (snd r2) (snd r3)))) s1 Es eq_refl)
    as (N2 & m2 & s2 & R2 & D2 & M2 & O2).
  { intros r Hr. destruct (H r Hr) as (A1 & A2 & A3 & A4 & _). destruct (M0 r Hr) as [B1 _]. destruct (M1 r Hr) as [B2 B3].
    split; [apply (coh_ext r e (m0 r)); auto; apply (coh_ext r e (m r)); auto|]. auto. }
  destruct (gather_child_run ds f d 3 e node m2
    (fun r r3 => K r (fst r3, Four N0 N1 N2 (snd r3))) s2 Es eq_refl)
    as (N3 & m3 & s3 & R3 & D3 & M3 & O3).
  { intros r Hr. destruct (H r Hr) as (A1 & A2 & A3 & A4 & _). destruct (M0 r Hr) as [B1 _]. destruct (M1 r Hr) as [B2 _].
    destruct (M2 r Hr) as [B3 B4].
    split; [apply (coh_ext r e (m1 r)); auto; apply (coh_ext r e (m0 r)); auto; apply (coh_ext r e (m r)); auto|]. auto. }
  exists (Four N0 N1 N2 N3), m3, s3. split; [|split; [|split]].
  - apply (runs_app 2 6 s s0 s3); auto. apply (runs_app 2 4 s0 s1 s3); auto. apply (runs_app 2 2 s1 s2 s3); auto.
  - unfold fmap. cbn [fa fb fc fd]. rewrite D0, D1, D2, D3. reflexivity.
  - intros r Hr. destruct (M0 r Hr) as [B0 _]. destruct (M1 r Hr) as [B1 _]. destruct (M2 r Hr) as [B2 _].
    destruct (M3 r Hr) as [B3 B4]. split; [|exact B4]. intros p. rewrite B3, B2, B1, B0. reflexivity.
  - intros r Hr. rewrite O3, O2, O1, O0 by exact Hr. reflexivity.
Qed.
End run.
