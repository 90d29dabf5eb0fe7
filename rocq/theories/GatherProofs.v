(** Proofs about gathering. *)
From Verif Require Import Base MatrixModel WireModel GatherModel GatherSpec.

Section Blocks.
Context {T : Type}.
Implicit Types (bl : list (list T * (Z * Z))) (buf recv : list T).

Lemma nth_error_put_at buf d x p : d + length x <= length buf ->
  nth_error (put_at buf d x) p = if (d <=? p) && (p <? d + length x) then nth_error x (p - d) else nth_error buf p.
Proof.
  intros Hl. unfold put_at.
  assert (Hf : length (firstn d buf) = d) by (rewrite firstn_length; lia).
  destruct (Nat.leb_spec d p) as [H1|H1]; cbn [andb].
  - rewrite nth_error_app2 by lia. rewrite Hf.
    destruct (Nat.ltb_spec p (d + length x)) as [H2|H2].
    + rewrite nth_error_app1 by lia. reflexivity.
    + rewrite nth_error_app2 by lia.
      rewrite <- (firstn_skipn (d + length x) buf) at 2.
      rewrite nth_error_app2 by (rewrite firstn_length; lia).
      f_equal. rewrite firstn_length. lia.
  - rewrite nth_error_app1 by lia. rewrite <- (firstn_skipn d buf) at 2.
    rewrite nth_error_app1 by lia. reflexivity.
Qed.
Lemma put_at_length buf d x : d + length x <= length buf -> length (put_at buf d x) = length buf.
Proof. intros H. unfold put_at. rewrite !app_length, firstn_length, skipn_length. lia. Qed.

Lemma clash_spec (done : list nat) d n :
  existsb (fun p => existsb (Nat.eqb p) done) (seq d n) = true <-> exists p, d <= p < d + n /\ In p done.
Proof.
  rewrite existsb_exists. split.
  - intros (p & Hp & Hd). apply in_seq in Hp. apply existsb_exists in Hd as (q & Hq & E).
    apply Nat.eqb_eq in E. subst q. exists p; auto.
  - intros (p & Hp & Hd). exists p. rewrite in_seq. split; [lia|]. apply existsb_exists.
    exists p; split; auto. apply Nat.eqb_refl.
Qed.

Definition landsb bl (i k p : nat) : Prop :=
  exists x c d, nth_error bl i = Some (x, (c, d)) /\ k < length x /\ Z.of_nat p = (d + Z.of_nat k)%Z.
Definition goodb bl (n : nat) : Prop :=
  (forall i x c d, nth_error bl i = Some (x, (c, d)) -> c = Z.of_nat (length x)) /\
  (forall i x c d k, nth_error bl i = Some (x, (c, d)) -> k < length x -> exists p, p < n /\ landsb bl i k p) /\
  (forall i k j l p, landsb bl i k p -> landsb bl j l p -> i = j /\ k = l).
Definition invb bl recv (st : list T * list nat) : Prop :=
  length (fst st) = length recv /\
  (forall p, In p (snd st) <-> exists i k, landsb bl i k p) /\
  (forall i k p x c d, landsb bl i k p -> nth_error bl i = Some (x, (c, d)) -> nth_error (fst st) p = nth_error x k) /\
  (forall p, (forall i k, ~ landsb bl i k p) -> nth_error (fst st) p = nth_error recv p).

Lemma nth_error_snoc {A} (l : list A) a i y : nth_error (l ++ [a]) i = Some y ->
  (i < length l /\ nth_error l i = Some y) \/ (i = length l /\ y = a).
Proof.
  intros H. destruct (Nat.lt_ge_cases i (length l)) as [Hi|Hi].
  - left. rewrite nth_error_app1 in H by lia. auto.
  - right. rewrite nth_error_app2 in H by lia.
    destruct (i - length l) as [|q] eqn:E; cbn in H; [|destruct q; discriminate].
    split; [lia|congruence].
Qed.
Lemma nth_error_last {A} (l : list A) a : nth_error (l ++ [a]) (length l) = Some a.
Proof. rewrite nth_error_app2 by lia. rewrite Nat.sub_diag. reflexivity. Qed.
Lemma nth_error_left {A} (l : list A) a i y : nth_error l i = Some y -> nth_error (l ++ [a]) i = Some y.
Proof. intros H. rewrite nth_error_app1; auto. apply nth_error_Some. congruence. Qed.

Lemma landsb_snoc bl x c d i k p : landsb (bl ++ [(x, (c, d))]) i k p <->
  landsb bl i k p \/ (i = length bl /\ k < length x /\ Z.of_nat p = (d + Z.of_nat k)%Z).
Proof.
  split.
  - intros (y & c' & d' & E & Hk & Hp). apply nth_error_snoc in E as [(Hi & E)|(Hi & E)].
    + left. exists y, c', d'. auto.
    + right. injection E as -> -> ->. auto.
  - intros [(y & c' & d' & E & Hk & Hp)|(Hi & Hk & Hp)].
    + exists y, c', d'. split; auto. now apply nth_error_left.
    + subst i. exists x, c, d. split; auto. apply nth_error_last.
Qed.
Lemma landsb_lt bl i k p : landsb bl i k p -> i < length bl.
Proof. intros (y & c & d & E & _). apply nth_error_Some. congruence. Qed.

Lemma put_block_inv buf done x c d st : put_block (buf, done) (x, (c, d)) = Ok st ->
  c = Z.of_nat (length x) /\
  ((length x = 0 /\ st = (buf, done)) \/
   (0 < length x /\ (0 <= d)%Z /\ Z.to_nat d + length x <= length buf /\
    (forall p, In p done -> Z.to_nat d <= p < Z.to_nat d + length x -> False) /\
    st = (put_at buf (Z.to_nat d) x, seq (Z.to_nat d) (length x) ++ done))).
Proof.
  unfold put_block. intros H.
  destruct (Z.eqb_spec c (Z.of_nat (length x))) as [E|E]; cbn [negb] in H; [|discriminate].
  split; [exact E|].
  destruct (Nat.eqb_spec (length x) 0) as [E0|E0]; [left; split; congruence|right].
  destruct (Z.ltb_spec d 0); [discriminate|].
  destruct (Nat.ltb_spec (length buf) (Z.to_nat d + length x)); [discriminate|].
  destruct (existsb _ _) eqn:Ec; [discriminate|].
  split; [lia|]. split; [lia|]. split; [lia|]. split; [|congruence].
  intros p Hp Hr. assert (Hc : exists p, Z.to_nat d <= p < Z.to_nat d + length x /\ In p done) by eauto.
  apply clash_spec in Hc. congruence.
Qed.

Lemma fold_blocks_sound bl recv st : foldM put_block bl (recv, []) = Ok st -> goodb bl (length recv) /\ invb bl recv st.
Proof.
  revert st. induction bl as [|[x [c d]] bl IH] using rev_ind; intros st H.
  - cbn in H. injection H as <-. split.
    + split; [intros [|i] ? ? ? E; discriminate|]. split; [intros [|i] ? ? ? ? E; discriminate|].
      intros i k j l p (? & ? & ? & E & _). destruct i; discriminate.
    + split; [reflexivity|]. split; [|split].
      * intros p. split; [intros []|intros (i & k & ? & ? & ? & E & _); destruct i; discriminate].
      * intros [|i] ? ? ? ? ? ? E; discriminate.
      * reflexivity.
  - rewrite foldM_app in H. apply bind_inv in H as ([buf done] & H1 & H2).
    cbn [foldM] in H2. apply bind_inv in H2 as (st' & H2 & E). injection E as <-.
    destruct (IH _ H1) as [(Hc & Hin & Hdis) (Hlen & Hdone & Hval & Hrest)]. cbn [fst snd] in *.
    apply put_block_inv in H2 as (Ec & Hcase).
    assert (Hnew : forall k, k < length x -> exists p, p < length recv /\ Z.of_nat p = (d + Z.of_nat k)%Z /\ ~ In p done).
    { intros k Hk. destruct Hcase as [(H0 & _)|(_ & Hd & Hb & Hno & _)]; [lia|].
      exists (Z.to_nat d + k). split; [lia|]. split; [lia|]. intros Hi. apply (Hno _ Hi). lia. }
    split; [split; [|split]|].
    + intros i y c' d' E. apply nth_error_snoc in E as [(_ & E)|(_ & E)]; [eauto|congruence].
    + intros i y c' d' k E Hk. apply nth_error_snoc in E as [(_ & E)|(Hi & E)].
      * destruct (Hin _ _ _ _ _ E Hk) as (p & Hp & Hl). exists p. split; auto. apply landsb_snoc; auto.
      * injection E as -> -> ->. destruct (Hnew k Hk) as (p & Hp & Ep & _). exists p. split; auto.
        apply landsb_snoc. auto.
    + assert (Hx : forall i k k' p, landsb bl i k p -> k' < length x -> Z.of_nat p = (d + Z.of_nat k')%Z -> False).
      { intros i k k' p Hl Hk' Ep. destruct (Hnew k' Hk') as (p' & _ & Ep' & Hno).
        assert (p' = p) by lia. subst p'. apply Hno. apply Hdone. eauto. }
      intros i k j l p Hi Hj. apply landsb_snoc in Hi. apply landsb_snoc in Hj.
      destruct Hi as [Hi|(-> & Hk & Ep)], Hj as [Hj|(-> & Hl & Eq)].
      * eauto.
      * exfalso. eauto.
      * exfalso. eauto.
      * split; [reflexivity|lia].
    + destruct Hcase as [(H0 & ->)|(Hpos & Hd & Hb & Hno & ->)].
      * split; [exact Hlen|]. split; [|split]; cbn [fst snd].
        -- intros p. rewrite Hdone. split; intros (i & k & Hl); exists i, k.
           ++ apply landsb_snoc. auto.
           ++ apply landsb_snoc in Hl as [Hl|(_ & Hk & _)]; [auto|lia].
        -- intros i k p y c' d' Hl E. apply landsb_snoc in Hl as [Hl|(_ & Hk & _)]; [|lia].
           apply nth_error_snoc in E as [(_ & E)|(Hi & _)]; [eauto|]. apply landsb_lt in Hl. lia.
        -- intros p Hp. apply Hrest. intros i k Hl. apply (Hp i k). apply landsb_snoc. auto.
      * split; [cbn [fst]; rewrite put_at_length by lia; exact Hlen|]. split; [|split]; cbn [fst snd].
        -- intros p. rewrite in_app_iff, in_seq, Hdone. split.
           ++ intros [Hr|(i & k & Hl)].
              ** exists (length bl), (p - Z.to_nat d). apply landsb_snoc. right. repeat split; lia.
              ** exists i, k. apply landsb_snoc. auto.
           ++ intros (i & k & Hl). apply landsb_snoc in Hl as [Hl|(-> & Hk & Ep)]; [right; eauto|left; lia].
        -- intros i k p y c' d' Hl E. rewrite nth_error_put_at by lia.
           apply landsb_snoc in Hl as [Hl|(-> & Hk & Ep)].
           ++ assert (Hout : ~ (Z.to_nat d <= p < Z.to_nat d + length x)).
              { intros Hr. apply (Hno p); [|exact Hr]. apply Hdone. eauto. }
              replace ((Z.to_nat d <=? p) && (p <? Z.to_nat d + length x)) with false
                by (symmetry; apply andb_false_iff; rewrite Nat.leb_gt, Nat.ltb_ge; lia).
              apply nth_error_snoc in E as [(_ & E)|(Hi & _)]; [eauto|]. apply landsb_lt in Hl. lia.
           ++ rewrite nth_error_last in E. injection E as -> -> ->.
              replace ((Z.to_nat d' <=? p) && (p <? Z.to_nat d' + length y)) with true
                by (symmetry; apply andb_true_iff; rewrite Nat.leb_le, Nat.ltb_lt; lia).
              f_equal. lia.
        -- intros p Hp. rewrite nth_error_put_at by lia.
           destruct ((Z.to_nat d <=? p) && (p <? Z.to_nat d + length x)) eqn:Er.
           ++ exfalso. apply andb_true_iff in Er. rewrite Nat.leb_le, Nat.ltb_lt in Er.
              apply (Hp (length bl) (p - Z.to_nat d)). apply landsb_snoc. right. repeat split; lia.
           ++ apply Hrest. intros i k Hl. apply (Hp i k). apply landsb_snoc. auto.
Qed.

Lemma goodb_prefix bl b n : goodb (bl ++ [b]) n -> goodb bl n.
Proof.
  destruct b as [x [c d]]. intros (H1 & H2 & H3). split; [|split].
  - intros i y c' d' E. apply (H1 i y c' d'). now apply nth_error_left.
  - intros i y c' d' k E Hk. destruct (H2 i y c' d' k) as (p & Hp & Hl); auto; [now apply nth_error_left|].
    exists p. split; auto. apply landsb_snoc in Hl as [Hl|(Hi & _)]; auto.
    exfalso. assert (i < length bl) by (apply nth_error_Some; congruence). lia.
  - intros i k j l p Ha Hb. apply (H3 i k j l p); apply landsb_snoc; auto.
Qed.

Lemma fold_blocks_complete bl recv : goodb bl (length recv) -> exists st, foldM put_block bl (recv, []) = Ok st.
Proof.
  induction bl as [|[x [c d]] bl IH] using rev_ind; intros H; [eexists; reflexivity|].
  destruct (IH (goodb_prefix _ _ _ H)) as ([buf done] & E). rewrite foldM_app, E. cbn [bind foldM].
  destruct (fold_blocks_sound _ _ _ E) as [_ (Hlen & Hdone & _)]. cbn [fst snd] in *.
  destruct H as (Hc & Hin & Hdis).
  assert (Ec : c = Z.of_nat (length x)) by (apply (Hc (length bl) x c d); apply nth_error_last).
  unfold put_block. rewrite Ec, Z.eqb_refl. cbn [negb].
  destruct (Nat.eqb_spec (length x) 0) as [E0|E0]; [eexists; reflexivity|].
  assert (Hat : forall k, k < length x -> exists p, p < length recv /\ Z.of_nat p = (d + Z.of_nat k)%Z).
  { intros k Hk. destruct (Hin (length bl) x c d k) as (p & Hp & Hl); auto; [apply nth_error_last|].
    exists p. split; auto. apply landsb_snoc in Hl as [Hl|(_ & _ & Ep)]; auto. apply landsb_lt in Hl. lia. }
  destruct (Hat 0 ltac:(lia)) as (p0 & Hp0 & Ep0).
  destruct (Hat (length x - 1) ltac:(lia)) as (p1 & Hp1 & Ep1).
  destruct (Z.ltb_spec d 0); [lia|].
  destruct (Nat.ltb_spec (length buf) (Z.to_nat d + length x)); [lia|].
  destruct (existsb _ _) eqn:Ee; [|eexists; reflexivity].
  exfalso. apply clash_spec in Ee as (p & Hp & Hi). apply Hdone in Hi as (i & k & Hl).
  pose proof (landsb_lt _ _ _ _ Hl) as Hlt.
  destruct (Hdis i k (length bl) (p - Z.to_nat d) p) as [Ei _].
  - apply landsb_snoc. auto.
  - apply landsb_snoc. right. repeat split; lia.
  - lia.
Qed.

(** ** One rank *)
Lemma nth_error_combine {A B} (l : list A) (m : list B) i :
  nth_error (combine l m) i = match nth_error l i, nth_error m i with Some a, Some b => Some (a, b) | _, _ => None end.
Proof.
  revert m i. induction l as [|a l IH]; intros m i; [destruct i; reflexivity|].
  destruct m as [|b m]; [destruct i; cbn; [reflexivity|destruct (nth_error l i); reflexivity]|].
  destruct i; cbn; [reflexivity|apply IH].
Qed.

Lemma blocks_nth (sends : list (list T)) counts displs i :
  length sends <= length counts -> length sends <= length displs -> i < length sends ->
  nth_error (combine sends (combine counts displs)) i = Some (nth i sends [], (nth i counts 0%Z, nth i displs 0%Z)).
Proof.
  intros H1 H2 Hi. rewrite !nth_error_combine.
  rewrite (nth_error_nth' sends []) by lia. rewrite (nth_error_nth' counts 0%Z) by lia.
  rewrite (nth_error_nth' displs 0%Z) by lia. reflexivity.
Qed.
Lemma blocks_nth_inv (sends : list (list T)) counts displs i b :
  length sends <= length counts -> length sends <= length displs ->
  nth_error (combine sends (combine counts displs)) i = Some b ->
  i < length sends /\ b = (nth i sends [], (nth i counts 0%Z, nth i displs 0%Z)).
Proof.
  intros H1 H2 E. assert (Hi : i < length sends).
  { assert (H : i < length (combine sends (combine counts displs))) by (apply nth_error_Some; congruence).
    rewrite !combine_length in H. lia. }
  split; [exact Hi|]. rewrite blocks_nth in E by auto. congruence.
Qed.
Lemma landsb_lands (sends : list (list T)) counts displs i k p :
  length sends <= length counts -> length sends <= length displs ->
  landsb (combine sends (combine counts displs)) i k p <-> lands sends displs i k p.
Proof.
  intros H1 H2. split.
  - intros (x & c & d & E & Hk & Hp). apply blocks_nth_inv in E as (Hi & E); auto.
    injection E as -> -> ->. repeat split; auto.
  - intros (Hi & Hk & Hp). exists (nth i sends []), (nth i counts 0%Z), (nth i displs 0%Z).
    split; [apply blocks_nth; auto|auto].
Qed.
Lemma goodb_layout (sends : list (list T)) counts displs n :
  length sends <= length counts -> length sends <= length displs ->
  goodb (combine sends (combine counts displs)) n <-> good_layout sends n counts displs.
Proof.
  intros H1 H2. unfold goodb, good_layout. split.
  - intros (A & B & C). split; [exact H1|]. split; [exact H2|]. split; [|split].
    + intros i Hi. eapply A. apply blocks_nth; auto.
    + intros i k Hi Hk. destruct (B i _ _ _ k (blocks_nth _ _ _ _ H1 H2 Hi) Hk) as (p & Hp & Hl).
      exists p. split; auto. apply (landsb_lands _ counts displs i k p H1 H2); auto.
    + intros i k j l p Ha Hb. apply (C i k j l p); apply landsb_lands; auto.
  - intros (_ & _ & A & B & C). split; [|split].
    + intros i x c d E. apply blocks_nth_inv in E as (Hi & E); auto. injection E as -> -> ->. auto.
    + intros i x c d k E Hk. apply blocks_nth_inv in E as (Hi & E); auto. injection E as -> -> ->.
      destruct (B i k Hi Hk) as (p & Hp & Hl). exists p. split; auto. apply landsb_lands; auto.
    + intros i k j l p Ha Hb. apply landsb_lands in Ha; auto. apply landsb_lands in Hb; auto. eauto.
Qed.

Lemma mpi_allgatherv_spec (sends : list (list T)) recv counts displs :
  (good_layout sends (length recv) counts displs ->
   exists out, mpi_allgatherv sends recv counts displs = Ok out) /\
  (forall out, mpi_allgatherv sends recv counts displs = Ok out ->
   good_layout sends (length recv) counts displs /\ gathered sends displs recv out) /\
  (forall e, mpi_allgatherv sends recv counts displs <> Throw e).
Proof.
  unfold mpi_allgatherv.
  destruct (Nat.ltb_spec (length counts) (length sends)) as [H1|H1]; cbn [orb].
  { split; [intros (A & _); lia|]. split; [discriminate|discriminate]. }
  destruct (Nat.ltb_spec (length displs) (length sends)) as [H2|H2].
  { split; [intros (_ & A & _); lia|]. split; [discriminate|discriminate]. }
  split; [|split].
  - intros Hg. apply goodb_layout in Hg; auto. destruct (fold_blocks_complete _ _ Hg) as ([buf done] & E).
    rewrite E. exists buf. reflexivity.
  - intros out H. apply bind_inv in H as ([buf done] & E & H). injection H as <-.
    apply fold_blocks_sound in E as (Hg & Hlen & _ & Hval & Hrest). cbn [fst snd] in *.
    split; [apply goodb_layout in Hg; auto|]. split; [exact Hlen|]. split.
    + intros i k p Hl. pose proof Hl as (Hi & _). apply (landsb_lands _ counts) in Hl; auto.
      eapply Hval; [exact Hl|apply blocks_nth; auto].
    + intros p Hp. apply Hrest. intros i k Hl. apply landsb_lands in Hl; auto. exact (Hp _ _ Hl).
  - intros e H. assert (HT : forall l st e, foldM (@put_block T) l st <> Throw e).
    { clear. induction l as [|[x [c d]] l IH]; intros [buf done] e; cbn [foldM]; [discriminate|].
      unfold put_block at 1.
      repeat match goal with |- context [if ?b then _ else _] => destruct b end; cbn [bind]; auto; discriminate. }
    destruct (foldM put_block _ _) as [[? ?]|e'|] eqn:E; cbn in H; try discriminate.
    exact (HT _ _ _ E).
Qed.

Lemma nth_error_same (a b : list T) : (forall p, nth_error a p = nth_error b p) -> a = b.
Proof.
  revert b. induction a as [|x a IH]; intros [|y b] H; [reflexivity|specialize (H 0); discriminate|specialize (H 0); discriminate|].
  f_equal; [specialize (H 0); cbn in H; congruence|]. apply IH. intros p. exact (H (S p)).
Qed.
(** Two results of the same call are the same. *)
Lemma gathered_unique (sends : list (list T)) displs recv a b :
  gathered sends displs recv a -> gathered sends displs recv b -> a = b.
Proof.
  intros (La & Va & Ra) (Lb & Vb & Rb). apply nth_error_same. intros p.
  destruct (in_dec Nat.eq_dec p (filter (fun p => existsb (fun i => existsb (fun k =>
      (Z.of_nat p =? nth i displs 0 + Z.of_nat k)%Z) (seq 0 (length (nth i sends [])))) (seq 0 (length sends))) [p])) as [H|H].
  - apply filter_In in H as (_ & H). apply existsb_exists in H as (i & Hi & H).
    apply existsb_exists in H as (k & Hk & H). apply Z.eqb_eq in H. apply in_seq in Hi. apply in_seq in Hk.
    assert (Hl : lands sends displs i k p) by (repeat split; [lia|lia|exact H]).
    rewrite (Va _ _ _ Hl), (Vb _ _ _ Hl). reflexivity.
  - assert (Hn : forall i k, ~ lands sends displs i k p).
    { intros i k (Hi & Hk & E). apply H. apply filter_In. split; [left; reflexivity|].
      apply existsb_exists. exists i. split; [apply in_seq; lia|].
      apply existsb_exists. exists k. split; [apply in_seq; lia|]. apply Z.eqb_eq. exact E. }
    rewrite (Ra _ Hn), (Rb _ Hn). reflexivity.
Qed.

(** ** Blocks one after the other *)
Definition off (sends : list (list T)) (i : nat) : nat := length (concat (firstn i sends)).
Lemma off_S sends i : i < length sends -> off sends (S i) = off sends i + length (nth i sends []).
Proof.
  unfold off. revert i. induction sends as [|x s IH]; intros i Hi; cbn in Hi; [lia|].
  destruct i; cbn; rewrite ?app_length; [cbn; lia|].
  specialize (IH i ltac:(lia)). cbn [firstn] in IH. destruct s; cbn in *; lia.
Qed.
Lemma off_all sends : off sends (length sends) = length (concat sends).
Proof. unfold off. rewrite firstn_all. reflexivity. Qed.
Lemma off_mono sends i j : i <= j -> j <= length sends -> off sends i <= off sends j.
Proof. induction 1 as [|j Hj IH]; intros H; [lia|]. rewrite off_S by lia. specialize (IH ltac:(lia)). lia. Qed.
Lemma off_nth sends i k : i < length sends -> k < length (nth i sends []) ->
  nth_error (concat sends) (off sends i + k) = nth_error (nth i sends []) k.
Proof.
  unfold off. revert i. induction sends as [|x s IH]; intros i Hi Hk; cbn in Hi; [lia|].
  destruct i; cbn in *.
  - rewrite nth_error_app1 by lia. reflexivity.
  - rewrite app_length, nth_error_app2 by lia. rewrite <- (IH i) by (auto; lia). f_equal. lia.
Qed.
Lemma off_cover sends p : p < length (concat sends) ->
  exists i k, i < length sends /\ k < length (nth i sends []) /\ p = off sends i + k.
Proof.
  unfold off. revert p. induction sends as [|x s IH]; intros p Hp; cbn in *; [lia|]. rewrite app_length in Hp.
  destruct (Nat.lt_ge_cases p (length x)) as [H|H].
  - exists 0, p. cbn. repeat split; lia.
  - destruct (IH (p - length x) ltac:(lia)) as (i & k & Hi & Hk & E). exists (S i), k. cbn. rewrite app_length.
    repeat split; try lia.
Qed.

Lemma gather_concat sends recv counts displs :
  length sends <= length counts -> length sends <= length displs ->
  (forall i, i < length sends -> nth i counts 0%Z = Z.of_nat (length (nth i sends []))) ->
  (forall i, i < length sends -> nth i displs 0%Z = Z.of_nat (off sends i)) ->
  length recv = length (concat sends) ->
  mpi_allgatherv sends recv counts displs = Ok (concat sends).
Proof.
  intros H1 H2 Hc Hd Hr.
  assert (Hin : forall i k, i < length sends -> k < length (nth i sends []) -> off sends i + k < length (concat sends)).
  { intros i k Hi Hk. pose proof (off_S sends i Hi) as HS. pose proof (off_mono sends (S i) (length sends)) as Hm.
    rewrite off_all in Hm. specialize (Hm ltac:(lia) ltac:(lia)). lia. }
  assert (Hl : forall i k p, lands sends displs i k p <->
    i < length sends /\ k < length (nth i sends []) /\ p = off sends i + k).
  { intros i k p. unfold lands. split; intros (Hi & Hk & E); (split; [exact Hi|split; [exact Hk|]]).
    - rewrite Hd in E by auto. lia.
    - rewrite Hd by auto. lia. }
  assert (Hlt : forall i k j l, i < j -> j < length sends -> i < length sends -> k < length (nth i sends []) ->
    off sends i + k <> off sends j + l).
  { intros i k j l Hij Hj Hi Hk. pose proof (off_S sends i Hi). pose proof (off_mono sends (S i) j). lia. }
  assert (Hg : good_layout sends (length recv) counts displs).
  { split; [exact H1|]. split; [exact H2|]. split; [exact Hc|]. split.
    - intros i k Hi Hk. exists (off sends i + k). split; [rewrite Hr; auto|]. apply Hl; auto.
    - intros i k j l p Ha Hb. apply Hl in Ha as (Hi & Hk & ->). apply Hl in Hb as (Hj & Hlk & E).
      destruct (Nat.lt_trichotomy i j) as [H|[H|H]].
      + exfalso. exact (Hlt i k j l H Hj Hi Hk E).
      + subst j. split; [reflexivity|lia].
      + exfalso. exact (Hlt j l i k H Hi Hj Hlk (eq_sym E)). }
  destruct (mpi_allgatherv_spec sends recv counts displs) as (A & B & _).
  destruct (A Hg) as (out & E). rewrite E. f_equal. destruct (B _ E) as (_ & Hout).
  apply (gathered_unique sends displs recv); [exact Hout|]. split; [auto|]. split.
  - intros i k p Hp. apply Hl in Hp as (Hi & Hk & ->). apply off_nth; auto.
  - intros p Hp. assert (Hge : length (concat sends) <= p).
    { destruct (Nat.lt_ge_cases p (length (concat sends))) as [H|H]; [|exact H].
      destruct (off_cover sends p H) as (i & k & Hi & Hk & E'). exfalso. apply (Hp i k). apply Hl. auto. }
    transitivity (@None T); [|symmetry]; apply nth_error_None; lia.
Qed.
End Blocks.

Lemma off_uniform {T} (sends : list (list T)) n : (forall s, In s sends -> length s = n) ->
  forall i, i <= length sends -> off sends i = i * n.
Proof.
  intros H i Hi. induction i as [|i IH]; [reflexivity|]. rewrite off_S by lia. rewrite IH by lia.
  rewrite (H (nth i sends [])) by (apply nth_In; lia). lia.
Qed.
Lemma nth_map_seq (f : nat -> Z) n i : i < n -> nth i (map f (seq 0 n)) 0%Z = f i.
Proof.
  intros Hi. rewrite (nth_indep _ _ (f 0)) by (rewrite map_length, seq_length; lia).
  rewrite map_nth, seq_nth by lia. reflexivity.
Qed.
Lemma allgather_concat {T} (sends : list (list T)) recv n : (forall s, In s sends -> length s = n) ->
  length recv = length sends * n -> mpi_allgather sends recv (Z.of_nat n) = Ok (concat sends).
Proof.
  intros H Hr. unfold mpi_allgather. apply gather_concat.
  - rewrite repeat_length. lia.
  - rewrite map_length, seq_length. lia.
  - intros i Hi. rewrite (H (nth i sends [])) by (apply nth_In; lia).
    apply (repeat_spec (length sends) (Z.of_nat n)). apply nth_In. rewrite repeat_length. lia.
  - intros i Hi. rewrite (off_uniform _ n) by (auto; lia).
    rewrite (nth_map_seq (fun i => (Z.of_nat i * Z.of_nat n)%Z)) by exact Hi. lia.
  - rewrite <- off_all, (off_uniform _ n) by (auto; lia). lia.
Qed.

Lemma displacements_off {T} (locals : list (list T)) i : i < length locals ->
  nth i (displacements (length locals) (map (fun l => Z.of_nat (length l)) locals)) 0%Z = Z.of_nat (off locals i).
Proof.
  intros Hi. unfold displacements.
  rewrite nth_map_seq by exact Hi.
  assert (H : forall i, i <= length locals ->
    fold_left (fun d j => (d + nth j (map (fun l => Z.of_nat (length l)) locals) 0)%Z) (seq 0 i) 0%Z = Z.of_nat (off locals i)).
  { clear i Hi. intros i Hi. induction i as [|i IH]; [reflexivity|].
    rewrite seq_S, fold_left_app, IH by lia. cbn [fold_left plus]. rewrite off_S by lia.
    change 0%Z with (Z.of_nat (length (@nil T))) at 1. rewrite (map_nth (fun l => Z.of_nat (length l))). lia. }
  apply H. lia.
Qed.

Lemma to_int_small n : (Z.of_nat n < 2147483648)%Z -> to_int n = Z.of_nat n.
Proof. intros H. unfold to_int. rewrite Z.mod_small by lia. lia. Qed.

Lemma mapM_all {A B} (f : A -> res B) (b : B) l : (forall a, In a l -> f a = Ok b) -> mapM f l = Ok (map (fun _ => b) l).
Proof. intros H. apply (mapM_ok f (fun _ => b)). exact H. Qed.

Lemma counts_gathered {T} (strict : bool) (locals : list (list T)) :
  (Z.of_nat (length (concat locals)) < 2147483648)%Z ->
  allgather strict (map (fun l => ACall [to_int (length l)] (repeat 0%Z (length locals)) 1%Z) locals)
  = Ok (map (fun _ => map (fun l => Z.of_nat (length l)) locals) locals).
Proof.
  intros Hs.
  assert (Hlen : forall l, In l locals -> length l <= length (concat locals)).
  { intros l Hl. apply in_split in Hl as (a & b & ->). rewrite concat_app. cbn. rewrite !app_length. lia. }
  assert (Hint : forall l, In l locals -> to_int (length l) = Z.of_nat (length l)).
  { intros l Hl. apply to_int_small. specialize (Hlen l Hl). lia. }
  set (cs := map (fun l => Z.of_nat (length l)) locals).
  unfold allgather. rewrite (mapM_all _ tt).
    - cbn [bind]. rewrite (mapM_all _ cs); [rewrite map_map; reflexivity|].
      intros c Hc. apply in_map_iff in Hc as (l & <- & Hl). cbn [a_send a_recv a_count].
      rewrite map_map. cbn [a_send].
      rewrite (allgather_concat _ _ 1).
      + f_equal. unfold cs. clear -Hint. induction locals as [|l ls IH]; [reflexivity|]. cbn. rewrite IH by (intros; apply Hint; now right).
        rewrite Hint by now left. reflexivity.
      + intros s Hin. apply in_map_iff in Hin as (l' & <- & _). reflexivity.
      + rewrite repeat_length, map_length. lia.
    - intros c Hc. apply in_map_iff in Hc as (l & <- & Hl). cbn [a_send a_recv a_count address bind].
      destruct locals as [|l0 ls]; [destruct Hl|]. reflexivity.
Qed.

Lemma gather_all_ok {T} (strict : bool) (x0 : T) locals :
  (Z.of_nat (length (concat locals)) < 2147483648)%Z -> (strict = true -> forall l, In l locals -> l <> []) ->
  gather_all strict x0 (length (concat locals)) locals = Ok (map (fun _ => concat locals) locals).
Proof.
  intros Hs Hne. unfold gather_all.
  assert (Hlen : forall l, In l locals -> length l <= length (concat locals)).
  { intros l Hl. apply in_split in Hl as (a & b & ->). rewrite concat_app. cbn. rewrite !app_length. lia. }
  assert (Hint : forall l, In l locals -> to_int (length l) = Z.of_nat (length l)).
  { intros l Hl. apply to_int_small. specialize (Hlen l Hl). lia. }
  set (cs := map (fun l => Z.of_nat (length l)) locals).
  pose proof (counts_gathered strict locals Hs) as E1. fold cs in E1.
  rewrite E1. cbn [bind].
  assert (Ecomb : combine locals (map (fun _ => cs) locals) = map (fun l => (l, cs)) locals).
  { clear. induction locals as [|l ls IH]; [reflexivity|]. cbn. generalize (Z.of_nat (length l)). intros z.
    generalize (z :: map (fun l0 => Z.of_nat (length l0)) ls). intros c0. clear.
    f_equal. induction ls as [|l' ls IH]; [reflexivity|]. cbn. f_equal. exact IH. }
  rewrite Ecomb, map_map. cbn [fst snd]. unfold allgatherv. rewrite (mapM_all _ tt).
  - cbn [bind]. rewrite (mapM_all _ (concat locals)); [rewrite map_map; reflexivity|].
    intros c Hc. apply in_map_iff in Hc as (l & <- & Hl). cbn [g_send g_recv g_counts g_displs].
    rewrite map_map. cbn [g_send]. rewrite map_id. apply gather_concat.
    + unfold cs. rewrite map_length. lia.
    + unfold displacements. rewrite map_length, seq_length. lia.
    + intros i Hi. unfold cs. change 0%Z with (Z.of_nat (length (@nil T))).
      rewrite (map_nth (fun l => Z.of_nat (length l))). reflexivity.
    + intros i Hi. apply displacements_off. exact Hi.
    + rewrite repeat_length. reflexivity.
  - intros c Hc. apply in_map_iff in Hc as (l & <- & Hl). cbn [g_send g_recv g_counts g_displs].
    assert (Ea : address strict l = Ok tt).
    { unfold address. destruct l; [|reflexivity]. destruct strict; [|reflexivity]. exfalso. exact (Hne eq_refl _ Hl eq_refl). }
    rewrite Ea. cbn [bind].
    assert (Eb : address strict (repeat x0 (length (concat locals))) = Ok tt).
    { unfold address. destruct (length (concat locals)) eqn:E; cbn; [|reflexivity]. destruct strict; [|reflexivity].
      exfalso. apply (Hne eq_refl l Hl). apply length_zero_iff_nil. specialize (Hlen l Hl). lia. }
    rewrite Eb. cbn [bind]. unfold count_ok. rewrite Hint by exact Hl.
    destruct (Z.leb_spec 0 (Z.of_nat (length l))); [reflexivity|lia].
Qed.

Lemma mapM_UB {A B} (f : A -> res B) l : (forall a, In a l -> f a = UB \/ exists b, f a = Ok b) ->
  (exists a, In a l /\ f a = UB) -> mapM f l = UB.
Proof.
  induction l as [|a l IH]; intros H (x & Hx & E); [destruct Hx|]. cbn [mapM].
  destruct (H a (or_introl eq_refl)) as [Ea|(b & Ea)]; rewrite Ea; [reflexivity|]. cbn [bind].
  destruct Hx as [->|Hx]; [congruence|]. rewrite IH; [reflexivity| |eauto]. intros c Hc. apply H. now right.
Qed.

Lemma gather_all_empty {T} (x0 : T) n locals :
  (Z.of_nat (length (concat locals)) < 2147483648)%Z -> In [] locals -> gather_all true x0 n locals = UB.
Proof.
  intros Hs Hin. unfold gather_all. rewrite counts_gathered by exact Hs. cbn [bind].
  set (cs := map (fun l => Z.of_nat (length l)) locals). unfold allgatherv. rewrite mapM_UB; [reflexivity| |].
  - intros c _. unfold address, count_ok. destruct (g_send c); [left; reflexivity|]. cbn [bind].
    destruct (g_recv c); [left; reflexivity|]. cbn [bind].
    destruct (_ <=? _)%Z; [right; eexists; reflexivity|left; reflexivity].
  - apply in_split in Hin as (a & b & E).
    exists (GCall [] (repeat x0 n) cs (displacements (length locals) cs)). split; [|reflexivity].
    apply in_map_iff. exists ([], cs). split; [reflexivity|].
    assert (Ec : combine locals (map (fun _ => cs) locals) = map (fun l => (l, cs)) locals).
    { generalize cs. intros c0. clear. induction locals as [|l ls IH]; [reflexivity|]. cbn. f_equal. exact IH. }
    rewrite Ec. apply in_map_iff. exists []. split; [reflexivity|]. rewrite E. apply in_elt.
Qed.

Lemma gauss_total n : length (concat (map (fun r => repeat (Z.of_nat r) r) (seq 0 n))) = fold_left Nat.add (seq 0 n) 0.
Proof.
  induction n as [|n IH]; [reflexivity|]. rewrite seq_S, map_app, concat_app, app_length, fold_left_app, IH. cbn.
  rewrite app_nil_r, repeat_length. reflexivity.
Qed.
