(** Proofs about options. *)
From Coq Require Import Ascii String.
From Verif Require Import Base XmlModel OptModel OptSpec.

Lemma text_eqb_spec a b : reflect (a = b) (text_eqb a b).
Proof. unfold text_eqb. destruct (list_eq_dec ascii_dec a b); constructor; assumption. Qed.
Lemma text_eqb_refl a : text_eqb a a = true.
Proof. destruct (text_eqb_spec a a); congruence. Qed.
Lemma text_eqb_neq a b : a <> b -> text_eqb a b = false.
Proof. destruct (text_eqb_spec a b); congruence. Qed.

(** ** Spans *)
Lemma span_app p s : fst (span p s) ++ snd (span p s) = s.
Proof. induction s as [|c s IH]; cbn; [reflexivity|]. destruct (p c); [|reflexivity]. destruct (span p s). cbn in *. congruence. Qed.
Lemma span_all p a b : forallb p a = true -> match b with c :: _ => p c = false | [] => True end -> span p (a ++ b) = (a, b).
Proof.
  intros Ha Hb. induction a as [|c a IH]; cbn in *.
  - destruct b as [|c b]; [reflexivity|]. cbn. rewrite Hb. reflexivity.
  - apply andb_true_iff in Ha as [-> Ha]. rewrite IH by exact Ha. reflexivity.
Qed.
Lemma span_fst p s : forallb p (fst (span p s)) = true.
Proof. induction s as [|c s IH]; cbn; [reflexivity|]. destruct (p c) eqn:E; [|reflexivity]. destruct (span p s). cbn in *. rewrite E. exact IH. Qed.
Lemma span_snd p s : match snd (span p s) with c :: _ => p c = false | [] => True end.
Proof. induction s as [|c s IH]; cbn; [exact I|]. destruct (p c) eqn:E; [|exact E]. destruct (span p s). exact IH. Qed.

(** ** Lines *)
Lemma get_lines_app l s acc : ~ In newline l -> get_lines acc (l ++ s) = get_lines (rev l ++ acc) s.
Proof.
  revert acc. induction l as [|c l IH]; intros acc H; [reflexivity|]. cbn [app get_lines rev]. cbn in H.
  destruct (Ascii.eqb_spec c newline); [tauto|]. rewrite IH by tauto. rewrite <- app_assoc. reflexivity.
Qed.
Lemma lines_of_eq s ls : lines_of s ls -> file_lines s = ls.
Proof.
  unfold file_lines. induction 1 as [|l Hl Hn|l s ls Hn H IH].
  - reflexivity.
  - rewrite <- (app_nil_r l) at 1. rewrite get_lines_app by exact Hn. cbn. rewrite app_nil_r.
    destruct (rev l) eqn:E; [|rewrite <- E, rev_involutive; reflexivity].
    apply (f_equal (@rev ascii)) in E. rewrite rev_involutive in E. contradiction.
  - rewrite get_lines_app by exact Hn. cbn. rewrite app_nil_r, rev_involutive, IH. reflexivity.
Qed.
Lemma lines_exist s : exists ls, lines_of s ls.
Proof.
  remember (List.length s) as n eqn:E. assert (H : List.length s <= n) by lia. clear E. revert s H.
  induction n as [|n IH]; intros s H.
  - destruct s; [|cbn in H; lia]. exists []. constructor.
  - destruct s as [|c s]; [exists []; constructor|].
    set (p := fun c => negb (Ascii.eqb c newline)).
    pose proof (span_app p (c :: s)) as E. pose proof (span_fst p (c :: s)) as F. pose proof (span_snd p (c :: s)) as G.
    destruct (span p (c :: s)) as [l r]. cbn [fst snd] in *.
    assert (Hn : ~ In newline l). { intros Q. rewrite forallb_forall in F. specialize (F _ Q). unfold p in F. rewrite Ascii.eqb_refl in F. discriminate. }
    destruct r as [|d r].
    + rewrite app_nil_r in E. subst l. exists [c :: s]. apply lines_last; [discriminate|exact Hn].
    + unfold p in G. apply negb_false_iff, Ascii.eqb_eq in G. subst d.
      destruct (IH r) as [ls Hls]. { apply (f_equal (@List.length ascii)) in E. rewrite app_length in E. cbn in E, H. lia. }
      exists (l :: ls). rewrite <- E. apply lines_next; assumption.
Qed.
Lemma lines_ascii s ls : lines_of s ls -> ascii_text s -> Forall ascii_text ls.
Proof.
  unfold ascii_text. induction 1 as [|l Hl Hn|l s ls Hn H IH]; intros A; constructor; auto.
  - apply Forall_app in A. tauto.
  - apply IH. apply Forall_app in A as [_ A]. inversion A; assumption.
Qed.

(** ** Trimming *)
Lemma blank_spec c : blank c = true <-> is_blank c.
Proof.
  unfold blank, is_blank. rewrite orb_true_iff, !Nat.eqb_eq. unfold ccode. split.
  - intros [H|H]; [left|right]; rewrite <- (ascii_nat_embedding c), H; reflexivity.
  - intros [-> | ->]; [left|right]; reflexivity.
Qed.
Lemma blank_all l : forallb blank l = true <-> Forall is_blank l.
Proof. rewrite forallb_forall, Forall_forall. split; intros H x Hx; apply blank_spec; auto. Qed.

Lemma trim_line_ok l : trimmed_line l (trim_line l).
Proof.
  unfold trim_line, drop. set (l1 := snd (span blank l)). set (l2 := snd (span blank (rev l1))).
  pose proof (span_app blank l) as E1. pose proof (span_app blank (rev l1)) as E2. fold l1 in E1. fold l2 in E2.
  exists (fst (span blank l)), (rev (fst (span blank (rev l1)))).
  assert (E3 : rev l2 ++ rev (fst (span blank (rev l1))) = l1).
  { rewrite <- rev_app_distr, E2. apply rev_involutive. }
  split; [rewrite E3, E1; reflexivity|]. split; [apply blank_all, span_fst|].
  split; [apply blank_all; apply forallb_forall; intros x Hx; apply in_rev in Hx; revert x Hx; apply forallb_forall, span_fst|].
  split.
  - intros c t' E. rewrite E in E3. cbn in E3. pose proof (span_snd blank l) as G. fold l1 in G. rewrite <- E3 in G.
    rewrite <- blank_spec. congruence.
  - intros c t' E. apply (f_equal (@rev ascii)) in E. rewrite rev_involutive, rev_app_distr in E. cbn in E.
    pose proof (span_snd blank (rev l1)) as G. fold l2 in G. rewrite E in G. rewrite <- blank_spec. congruence.
Qed.
Lemma trim_line_unique l t : trimmed_line l t -> t = trim_line l.
Proof.
  intros (a & b & -> & Ha & Hb & H1 & H2). unfold trim_line, drop.
  apply blank_all in Ha. apply blank_all in Hb.
  destruct t as [|c t].
  - cbn [app]. rewrite <- (app_nil_r (a ++ b)), span_all; [reflexivity| |exact I]. rewrite forallb_app, Ha, Hb. reflexivity.
  - rewrite span_all; [|exact Ha|]. 2:{ cbn. specialize (H1 c t eq_refl). rewrite <- blank_spec in H1. destruct (blank c); congruence. }
    cbn [snd]. rewrite rev_app_distr. rewrite span_all.
    + cbn [snd]. rewrite rev_involutive. reflexivity.
    + apply forallb_forall. intros x Hx. apply in_rev in Hx. revert x Hx. apply forallb_forall. exact Hb.
    + destruct (rev (c :: t)) as [|d r] eqn:E; [exact I|]. apply (f_equal (@rev ascii)) in E. rewrite rev_involutive in E. cbn in E.
      specialize (H2 d (rev r) E). rewrite <- blank_spec in H2. destruct (blank d); congruence.
Qed.

Lemma section_header_spec t name : section_header t = Some name <-> names_section t name.
Proof.
  unfold section_header, names_section. destruct t as [|c t].
  - split; [discriminate|]. intros H. discriminate.
  - destruct (Ascii.eqb_spec c "["%char) as [->|N]; cbn [andb].
    + destruct (Ascii.eqb_spec (last ("["%char :: t) "["%char) "]"%char) as [E|E].
      * destruct t as [|x t] using rev_ind; [discriminate|]. clear IHt.
        change ("["%char :: t ++ [x]) with (("["%char :: t) ++ [x]) in E. rewrite last_last in E. subst x.
        cbn [skipn]. replace (List.length ("["%char :: t ++ ["]"%char]) - 2) with (List.length t) by (cbn; rewrite app_length; cbn; lia).
        rewrite firstn_app, Nat.sub_diag, firstn_all, firstn_O, app_nil_r. split.
        -- intros Q. injection Q as <-. reflexivity.
        -- intros Q. change (txt "[") with ["["%char] in Q. cbn in Q. injection Q as Q. apply app_inj_tail in Q as [-> _]. reflexivity.
      * split; [discriminate|]. intros Q. exfalso. apply E. rewrite Q. rewrite app_assoc. change (txt "]") with ["]"%char]. apply last_last.
    + split; [discriminate|]. intros Q. injection Q as -> _. congruence.
Qed.
Lemma header_line_spec l : header_line l <-> exists name, section_header (trim_line l) = Some name.
Proof.
  split.
  - intros (t & name & Ht & Hn). apply trim_line_unique in Ht. subst t. exists name. apply section_header_spec, Hn.
  - intros (name & H). exists (trim_line l), name. split; [apply trim_line_ok|apply section_header_spec, H].
Qed.

Lemma split_at_spec x s a b : split_at x s = Some (a, b) <-> s = a ++ x :: b /\ ~ In x a.
Proof.
  unfold split_at. set (p := fun c => negb (Ascii.eqb c x)). split.
  - pose proof (span_app p s) as E. pose proof (span_fst p s) as F. pose proof (span_snd p s) as G.
    destruct (span p s) as [u [|d r]]; [discriminate|]. cbn [fst snd] in *. intros Q. injection Q as <- <-.
    unfold p in G. apply negb_false_iff, Ascii.eqb_eq in G. subst d. split; [auto|].
    intros Q. rewrite forallb_forall in F. specialize (F _ Q). unfold p in F. rewrite Ascii.eqb_refl in F. discriminate.
  - intros [-> Hn]. rewrite span_all.
    + reflexivity.
    + apply forallb_forall. intros c Hc. unfold p. destruct (Ascii.eqb_spec c x); [subst; contradiction|reflexivity].
    + unfold p. rewrite Ascii.eqb_refl. reflexivity.
Qed.

Lemma spaceb_white c : spaceb c = true <-> white c.
Proof.
  unfold spaceb, white, ccode. rewrite orb_true_iff, andb_true_iff, Nat.eqb_eq, !Nat.leb_le. cbn [In].
  split; [|intuition lia]. intros H. destruct (Nat.eq_dec (nat_of_ascii c) 32); [intuition lia|]. lia.
Qed.
Lemma spaceb_black c : spaceb c = false <-> ~ white c.
Proof. rewrite <- spaceb_white. destruct (spaceb c); intuition congruence. Qed.
Lemma ctype_char c : ctype_defined c <-> negative_char c = false.
Proof.
  unfold ctype_defined, negative_char, ccode. pose proof (nat_ascii_bounded c).
  destruct (Nat.leb_spec 128 (nat_of_ascii c)), (Nat.leb_spec (nat_of_ascii c) 254); cbn; split; intros; try lia; try congruence.
Qed.

Lemma strip_spec s t : stripWhitespace s = Ok t -> without_space s t.
Proof.
  revert t. induction s as [|c s IH]; cbn [stripWhitespace]; intros t H.
  - apply Ok_inj in H. subst. constructor.
  - unfold c_isspace in H. destruct (negative_char c); [discriminate|]. rewrite bind_Ok in H.
    destruct (stripWhitespace s) as [u| |]; [|discriminate..]. rewrite bind_Ok in H. apply Ok_inj in H. subst t.
    destruct (spaceb c) eqn:E; [apply ws_skip; [apply spaceb_white, E|]|apply ws_keep; [apply spaceb_black, E|]]; auto.
Qed.
Lemma strip_ok s : ascii_text s -> exists t, stripWhitespace s = Ok t.
Proof.
  induction 1 as [|c s Hc H [t IH]]; cbn [stripWhitespace]; [eexists; reflexivity|].
  unfold c_isspace. rewrite (proj1 (ctype_char c) Hc), bind_Ok, IH, bind_Ok. eexists; reflexivity.
Qed.
Lemma without_space_fun s t t' : without_space s t -> without_space s t' -> t = t'.
Proof. intros H. revert t'. induction H; intros t' H'; inversion H'; subst; try contradiction; auto. f_equal. auto. Qed.

(** ** Reading lines *)
Lemma in_section_ext ls ls' name i : (forall j, j < i -> nth_error ls j = nth_error ls' j) -> in_section ls name i -> in_section ls' name i.
Proof.
  intros E (j & lj & t & Hj & Hn & Ht & Hs & Hk). exists j, lj, t. rewrite <- E by exact Hj. repeat (split; [assumption|]).
  intros k lk Hjk Hki. rewrite <- E by exact Hki. exact (Hk k lk Hjk Hki).
Qed.
Lemma assigns_ext ls ls' name i k v : (forall j, j <= i -> nth_error ls j = nth_error ls' j) -> assigns ls name i k v -> assigns ls' name i k v.
Proof.
  intros E (l & t & a & b & Hl & Ht & Hc & Hh & Hs & X). exists l, t, a, b. rewrite <- E by lia. repeat (split; [assumption|]).
  split; [|exact X]. eapply in_section_ext; [|exact Hs]. intros; apply E; lia.
Qed.
Lemma assigns_lt ls name i k v : assigns ls name i k v -> i < List.length ls.
Proof. intros (l & _ & _ & _ & H & _). apply nth_error_Some. congruence. Qed.
Lemma nth_snoc {A} (l : list A) x j : j < List.length l -> nth_error l j = nth_error (l ++ [x]) j.
Proof. intros H. rewrite nth_error_app1 by exact H. reflexivity. Qed.
Lemma nth_snoc_last {A} (l : list A) x : nth_error (l ++ [x]) (List.length l) = Some x.
Proof. rewrite nth_error_app2, Nat.sub_diag by lia. reflexivity. Qed.

Lemma in_section_snoc_header ls l name name' : header_line l -> section_header (trim_line l) = Some name' ->
  (in_section (ls ++ [l]) name (S (List.length ls)) <-> name' = name).
Proof.
  intros Hh E. split.
  - intros (j & lj & t & Hj & Hn & Ht & Hs & Hk). destruct (Nat.eq_dec j (List.length ls)) as [->|Q].
    + rewrite nth_snoc_last in Hn. injection Hn as <-. apply trim_line_unique in Ht. subst t. apply section_header_spec in Hs. congruence.
    + exfalso. apply (Hk (List.length ls) l); [lia|lia|apply nth_snoc_last|exact Hh].
  - intros ->. exists (List.length ls), l, (trim_line l). split; [lia|]. split; [apply nth_snoc_last|]. split; [apply trim_line_ok|].
    split; [apply section_header_spec, E|]. intros; lia.
Qed.
Lemma in_section_snoc_other ls l name : ~ header_line l ->
  (in_section (ls ++ [l]) name (S (List.length ls)) <-> in_section ls name (List.length ls)).
Proof.
  intros Hh. split.
  - intros (j & lj & t & Hj & Hn & Ht & Hs & Hk). destruct (Nat.eq_dec j (List.length ls)) as [->|Q].
    + exfalso. rewrite nth_snoc_last in Hn. injection Hn as <-. apply Hh. exists t, name. auto.
    + exists j, lj, t. split; [lia|]. rewrite <- nth_snoc in Hn by lia. repeat (split; [assumption|]).
      intros k lk H1 H2 H3. apply (Hk k lk H1); [lia|]. rewrite <- nth_snoc by lia. exact H3.
  - intros (j & lj & t & Hj & Hn & Ht & Hs & Hk). exists j, lj, t. split; [lia|]. rewrite <- nth_snoc by lia. repeat (split; [assumption|]).
    intros k lk H1 H2 H3. destruct (Nat.eq_dec k (List.length ls)) as [->|Q].
    + rewrite nth_snoc_last in H3. injection H3 as <-. exact Hh.
    + apply (Hk k lk H1); [lia|]. rewrite nth_snoc with (x := l) by lia. exact H3.
Qed.

(** The state after the lines [ls]. *)
Definition after (name : text) (o : options) (ls : list text) (st : bool * options) : Prop :=
  (fst st = true <-> in_section ls name (List.length ls)) /\
  forall key,
    (forall i v, assigns ls name i key v -> (forall i' v', assigns ls name i' key v' -> i' <= i) ->
       exists x, checkValue v = Ok x /\ snd st key = Some x) /\
    ((forall i v, ~ assigns ls name i key v) -> snd st key = o key).

Lemma after_same name o ls l st : after name o ls st -> ~ header_line l ->
  (forall k v, ~ assigns (ls ++ [l]) name (List.length ls) k v) -> after name o (ls ++ [l]) st.
Proof.
  intros (Hf & Hk) Hh Hn. split.
  - rewrite app_length, Nat.add_1_r, in_section_snoc_other by exact Hh. exact Hf.
  - assert (R : forall i k v, assigns (ls ++ [l]) name i k v <-> assigns ls name i k v).
    { intros i k v. split; intros H.
      - assert (i < List.length ls). { apply assigns_lt in H as H'. rewrite app_length in H'. cbn in H'.
          destruct (Nat.eq_dec i (List.length ls)) as [->|]; [exfalso; exact (Hn _ _ H)|lia]. }
        eapply assigns_ext; [|exact H]. intros j Hj. symmetry. apply nth_snoc. lia.
      - apply assigns_lt in H as H'. eapply assigns_ext; [|exact H]. intros j Hj. apply nth_snoc. lia. }
    intros key. destruct (Hk key) as [H1 H2]. split.
    + intros i v Ha Hl. apply (H1 i v); [apply R, Ha|]. intros i' v' H'. apply (Hl i' v'), R, H'.
    + intros H. apply H2. intros i v Ha. apply (H i v), R, Ha.
Qed.

Lemma read_lines_after name o ls st : foldM (read_line name) ls (false, o) = Ok st -> after name o ls st.
Proof.
  revert st. induction ls as [|l ls IH] using rev_ind; intros st H.
  - cbn [foldM] in H. apply Ok_inj in H. subst st. split; cbn [fst snd List.length].
    + split; [discriminate|]. intros (j & _ & _ & Hj & _). lia.
    + intros key. split; [|reflexivity]. intros i v Ha. apply assigns_lt in Ha. cbn in Ha. lia.
  - rewrite foldM_app in H. apply bind_inv in H as ([f o1] & E & H). specialize (IH _ E). clear E.
    cbn [foldM] in H. apply bind_inv in H as (st' & H & H'). apply Ok_inj in H'. subst st'.
    unfold read_line in H. pose proof (trim_line_ok l) as Ht.
    assert (NA : forall k v, assigns (ls ++ [l]) name (List.length ls) k v -> 
      (forall t', trim_line l <> ";"%char :: t') /\ ~ header_line l /\ in_section ls name (List.length ls) /\
      exists a b, split_at "=" (trim_line l) = Some (a, b) /\ without_space a k /\ without_space b v).
    { intros k v (l' & t & a & b & Hl & Htt & Hc & Hh & Hs & Ea & Hi & Wa & Wb). rewrite nth_snoc_last in Hl. injection Hl as <-.
      apply trim_line_unique in Htt. subst t. split; [exact Hc|]. split; [exact Hh|]. split.
      - eapply in_section_ext; [|exact Hs]. intros j Hj. symmetry. apply nth_snoc, Hj.
      - exists a, b. split; [apply split_at_spec; split; [exact Ea|exact Hi]|auto]. }
    destruct (trim_line l) as [|c t] eqn:El.
    { apply Ok_inj in H. subst st. apply after_same; [exact IH| |].
      - rewrite header_line_spec, El. intros (nm & Q). discriminate.
      - intros k v Ha. destruct (NA k v Ha) as (_ & _ & _ & a & b & Q & _). discriminate. }
    destruct (Ascii.eqb_spec c ";"%char) as [->|Nc].
    { apply Ok_inj in H. subst st. apply after_same; [exact IH| |].
      - rewrite header_line_spec, El. intros (nm & Q). discriminate.
      - intros k v Ha. destruct (NA k v Ha) as (Q & _). exact (Q t eq_refl). }
    destruct (section_header (c :: t)) as [name'|] eqn:Eh.
    { apply Ok_inj in H. subst st. assert (Hh : header_line l). { apply header_line_spec. exists name'. rewrite El. exact Eh. }
      assert (Hn : forall k v, ~ assigns (ls ++ [l]) name (List.length ls) k v).
      { intros k v Ha. destruct (NA k v Ha) as (_ & Q & _). exact (Q Hh). }
      destruct IH as (Hf & Hk). split.
      - cbn [fst]. rewrite app_length, Nat.add_1_r. rewrite in_section_snoc_header by (try exact Hh; rewrite El; exact Eh).
        destruct (text_eqb_spec name' name); split; congruence.
      - assert (R : forall i k v, assigns (ls ++ [l]) name i k v <-> assigns ls name i k v).
        { intros i k v. split; intros H.
          - assert (i < List.length ls). { apply assigns_lt in H as H'. rewrite app_length in H'. cbn in H'.
              destruct (Nat.eq_dec i (List.length ls)) as [->|]; [exfalso; exact (Hn _ _ H)|lia]. }
            eapply assigns_ext; [|exact H]. intros j Hj. symmetry. apply nth_snoc. lia.
          - apply assigns_lt in H as H'. eapply assigns_ext; [|exact H]. intros j Hj. apply nth_snoc. lia. }
        cbn [snd] in *. intros key. destruct (Hk key) as [H1 H2]. split.
        + intros i v Ha Hl. apply (H1 i v); [apply R, Ha|]. intros i' v' H'. apply (Hl i' v'), R, H'.
        + intros H. apply H2. intros i v Ha. apply (H i v), R, Ha. }
    assert (Hh : ~ header_line l). { rewrite header_line_spec, El, Eh. intros (nm & Q). discriminate. }
    destruct f eqn:Ef.
    2:{ apply Ok_inj in H. subst st. apply after_same; [exact IH|exact Hh|].
        intros k v Ha. destruct (NA k v Ha) as (_ & _ & Q & _). destruct IH as [Hf _]. cbn in Hf. apply Hf in Q. discriminate. }
    destruct (split_at "=" (c :: t)) as [[a b]|] eqn:Es.
    2:{ apply Ok_inj in H. subst st. apply after_same; [exact IH|exact Hh|].
        intros k v Ha. destruct (NA k v Ha) as (_ & _ & _ & a & b & Q & _). discriminate. }
    apply bind_inv in H as (k & Ek & H). apply bind_inv in H as (v & Ev & H). apply bind_inv in H as (x & Ex & H).
    apply Ok_inj in H. subst st. apply strip_spec in Ek, Ev.
    destruct IH as (Hf & Hk). cbn [fst snd] in Hf, Hk.
    assert (Hs : in_section ls name (List.length ls)) by (apply Hf; reflexivity).
    assert (HA : assigns (ls ++ [l]) name (List.length ls) k v).
    { apply split_at_spec in Es as [Es Hi]. exists l, (c :: t), a, b. split; [apply nth_snoc_last|]. split; [exact Ht|].
      split; [congruence|]. split; [exact Hh|]. split; [eapply in_section_ext; [|exact Hs]; intros j Hj; apply nth_snoc, Hj|].
      split; [exact Es|]. auto. }
    assert (HU : forall k' v', assigns (ls ++ [l]) name (List.length ls) k' v' -> k' = k /\ v' = v).
    { intros k' v' Ha. destruct (NA k' v' Ha) as (_ & _ & _ & a' & b' & Q & Wa & Wb). injection Q as <- <-.
      split; eapply without_space_fun; eassumption. }
    assert (R : forall i k' v', i <> List.length ls -> assigns (ls ++ [l]) name i k' v' -> assigns ls name i k' v').
    { intros i k' v' Hne H. apply assigns_lt in H as H'. rewrite app_length in H'. cbn in H'.
      eapply assigns_ext; [|exact H]. intros j Hj. symmetry. apply nth_snoc. lia. }
    assert (R' : forall i k' v', assigns ls name i k' v' -> assigns (ls ++ [l]) name i k' v').
    { intros i k' v' H. apply assigns_lt in H as H'. eapply assigns_ext; [|exact H]. intros j Hj. apply nth_snoc. lia. }
    split.
    + cbn [fst]. rewrite app_length, Nat.add_1_r, in_section_snoc_other by exact Hh. exact Hf.
    + cbn [snd]. intros key. unfold oset. destruct (text_eqb_spec k key) as [->|Nk].
      * split; [|intros Q; exfalso; exact (Q _ _ HA)]. intros i v' Ha Hl. specialize (Hl _ _ HA). 
        assert (i = List.length ls). { apply assigns_lt in Ha. rewrite app_length in Ha. cbn in Ha. lia. }
        subst i. destruct (HU _ _ Ha) as [_ ->]. exists x. auto.
      * destruct (Hk key) as [H1 H2]. split.
        -- intros i v' Ha Hl. assert (i <> List.length ls). { intros ->. destruct (HU _ _ Ha) as [-> _]. congruence. }
           apply (H1 i v'); [apply R; assumption|]. intros i' v'' H'. apply (Hl i' v''), R', H'.
        -- intros Q. apply H2. intros i v' Ha. exact (Q i v' (R' _ _ _ Ha)).
Qed.

(** Reading succeeds if all values can be converted. *)
Lemma read_lines_ok name o ls : Forall ascii_text ls ->
  (forall i k v, assigns ls name i k v -> exists x, checkValue v = Ok x) ->
  exists st, foldM (read_line name) ls (false, o) = Ok st.
Proof.
  induction ls as [|l ls IH] using rev_ind; intros A H; [eexists; reflexivity|].
  apply Forall_app in A as [A Al]. inversion Al as [|? ? Al' _]; subst.
  destruct IH as ([f o1] & E); [exact A| |].
  { intros i k v Ha. apply (H i k v). apply assigns_lt in Ha as H'. eapply assigns_ext; [|exact Ha]. intros j Hj. apply nth_snoc. lia. }
  rewrite foldM_app, E, bind_Ok. pose proof (read_lines_after name o ls _ E) as (Hf & _). cbn [fst] in Hf.
  cbn [foldM]. unfold read_line at 1. pose proof (trim_line_ok l) as Ht. 
  destruct (trim_line l) as [|c t] eqn:El; [eexists; reflexivity|].
  destruct (Ascii.eqb_spec c ";"%char) as [->|Nc]; [eexists; reflexivity|].
  destruct (section_header (c :: t)) as [name'|] eqn:Eh; [eexists; reflexivity|].
  destruct f; [|eexists; reflexivity].
  destruct (split_at "=" (c :: t)) as [[a b]|] eqn:Es; [|eexists; reflexivity].
  apply split_at_spec in Es as [Es Hi].
  assert (At : ascii_text (c :: t)). { destruct Ht as (u & w & -> & _). unfold ascii_text in *. apply Forall_app in Al' as [_ Q]. apply Forall_app in Q as [Q _]. exact Q. }
  rewrite Es in At. unfold ascii_text in At. apply Forall_app in At as [Aa Ab]. inversion Ab as [|? ? _ Ab']; subst.
  destruct (strip_ok a Aa) as (k & Ek). destruct (strip_ok b Ab') as (v & Ev). rewrite Ek, bind_Ok, Ev, bind_Ok.
  destruct (H (List.length ls) k v) as (x & Ex).
  { exists l, (c :: t), a, b. split; [apply nth_snoc_last|]. split; [exact Ht|]. split; [congruence|].
    split; [rewrite header_line_spec, El, Eh; intros (nm & Q); discriminate|].
    split; [eapply in_section_ext; [|apply Hf; reflexivity]; intros j Hj; apply nth_snoc, Hj|].
    split; [exact Es|]. split; [exact Hi|]. split; apply strip_spec; assumption. }
  rewrite Ex, bind_Ok. eexists; reflexivity.
Qed.
