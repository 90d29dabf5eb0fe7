(** Proofs about written XML. *)
From Coq Require Import Ascii String.
From Verif Require Import Base XmlModel XmlSpec.

Arguments txt : simpl never.

(** ** Splitting text *)
Lemma span_unique (P : ascii -> bool) a b a' b' : forallb P a = true -> forallb P a' = true ->
  match b with c :: _ => P c = false | [] => True end -> match b' with c :: _ => P c = false | [] => True end ->
  a ++ b = a' ++ b' -> a = a' /\ b = b'.
Proof.
  revert a'; induction a as [|c a IH]; intros [|c' a'] Ha Ha' Hb Hb' E; cbn [app forallb] in *.
  - auto.
  - exfalso. rewrite E in Hb. apply andb_true_iff in Ha' as [H _]. congruence.
  - exfalso. rewrite <- E in Hb'. apply andb_true_iff in Ha as [H _]. congruence.
  - injection E as <- E. apply andb_true_iff in Ha as [_ Ha]. apply andb_true_iff in Ha' as [_ Ha'].
    destruct (IH a' Ha Ha' Hb Hb' E) as [-> ->]. auto.
Qed.

Lemma is_name_chars n : is_name n = true -> n <> [] /\ forallb name_char n = true.
Proof.
  destruct n as [|c n]; cbn; [discriminate|]. rewrite andb_true_iff. intros [H1 H2]. split; [discriminate|].
  rewrite H2, andb_true_r. unfold name_char. rewrite H1. reflexivity.
Qed.

Lemma all_ascii (P : ascii -> bool) : forallb P (map ascii_of_nat (seq 0 256)) = true -> forall c, P c = true.
Proof.
  intros H c. rewrite forallb_forall in H. apply H. apply in_map_iff. exists (nat_of_ascii c).
  split; [apply ascii_nat_embedding|]. apply in_seq. pose proof (nat_ascii_bounded c). lia.
Qed.
Ltac by_ascii P := 
  match goal with |- forall c : ascii, @?Q c => 
    let H := fresh in assert (H := all_ascii P ltac:(vm_compute; reflexivity)) end.

Lemma name_not_space c : name_char c = true -> is_space c = false.
Proof.
  pose proof (all_ascii (fun c => negb (name_char c) || negb (is_space c)) ltac:(vm_compute; reflexivity) c) as H.
  cbn beta in H. intros E. rewrite E in H. cbn in H. destruct (is_space c); [discriminate|reflexivity].
Qed.

Lemma name_first_char n : is_name n = true -> exists c n', n = c :: n' /\ name_start c = true /\ is_space c = false /\ name_char c = true.
Proof.
  destruct n as [|c n]; cbn; [discriminate|]. rewrite andb_true_iff. intros [H1 H2]. exists c, n.
  assert (name_char c = true) by (unfold name_char; rewrite H1; reflexivity).
  split; [reflexivity|]. split; [exact H1|]. split; [apply name_not_space|]; assumption.
Qed.

(** ** One way to read *)
Lemma skip_app_space w s : forallb is_space w = true -> skip (w ++ s) = skip s.
Proof. induction w as [|c w IH]; cbn; [auto|]. rewrite andb_true_iff. intros [-> H]. auto. Qed.

Lemma skip_idem s : match skip s with c :: _ => is_space c = false | [] => True end.
Proof. induction s as [|c s IH]; cbn; [exact I|]. destruct (is_space c) eqn:E; [exact IH|exact E]. Qed.

Lemma attributes_unique s l r : attributes s l r -> forall l' r', attributes s l' r' -> l = l' /\ r = r'.
Proof.
  induction 1 as [s r E|w n v s l r Hw Hs Hn Hv H IH]; intros l' r' H'.
  - inversion H' as [s0 r0 E'|w' n' v' s' l0 r0 Hw' Hs' Hn' Hv' H0]; subst.
    + rewrite E in E'. split; [reflexivity|]. injection E' as ->. reflexivity.
    + exfalso. rewrite skip_app_space in E by exact Hs'.
      destruct (name_first_char n' Hn') as (c & n1 & -> & H1 & H2 & _). cbn [app skip] in E. rewrite H2 in E.
      injection E as -> _. vm_compute in H1. discriminate.
  - inversion H' as [s0 r0 E'|w' n' v' s' l0 r0 Hw' Hs' Hn' Hv' H0]; subst.
    + exfalso. rewrite skip_app_space in E' by exact Hs.
      destruct (name_first_char n Hn) as (c & n1 & -> & H1 & H2 & _). cbn [app skip] in E'. rewrite H2 in E'.
      injection E' as -> _. vm_compute in H1. discriminate.
    + destruct (name_first_char n Hn) as (c & n1 & En & _ & H2 & _).
      destruct (name_first_char n' Hn') as (c' & n1' & En' & _ & H2' & _).
      match goal with E : _ ++ n' ++ _ = _ |- _ => rename E into EQ end.
      symmetry in EQ. apply (span_unique is_space) in EQ as [<- EQ];
        [|exact Hs|exact Hs'|rewrite En; exact H2|rewrite En'; exact H2'].
      apply (span_unique name_char) in EQ as [<- EQ]; [|apply is_name_chars; auto..|reflexivity|reflexivity].
      injection EQ as EQ.
      apply (span_unique value_char) in EQ as [<- EQ]; [|exact Hv|exact Hv'|reflexivity|reflexivity].
      injection EQ as EQ. subst s'.
      destruct (IH _ _ H0) as [-> ->]. auto.
Qed.

Scheme element_ind2 := Minimality for element Sort Prop
  with content_ind2 := Minimality for content Sort Prop.
Combined Scheme element_content_ind from element_ind2, content_ind2.

Lemma element_starts s e r : element s e r -> exists c s', s = "<"%char :: c :: s' /\ name_start c = true.
Proof.
  intros H. inversion H as [n s0 ? ? ? ? ? Hn]; subst. destruct (name_first_char n Hn) as (c & n' & -> & HH & _).
  exists c, (n' ++ s0). split; [reflexivity|exact HH].
Qed.

Lemma char_data_not_lt t s : forallb char_data t = true -> t <> [] -> hd_error (t ++ s) <> Some "<"%char.
Proof.
  destruct t as [|c t]; [congruence|]. cbn. rewrite andb_true_iff. intros [H _] _ E. injection E as ->. vm_compute in H. discriminate.
Qed.

Lemma name_start_not_slash c : name_start c = true -> c <> "/"%char.
Proof. intros H ->. vm_compute in H. discriminate. Qed.

Lemma attributes_begin s l r : attributes s l r -> match s with c :: _ => name_char c = false | [] => True end.
Proof.
  destruct 1 as [s r E|w n v s l r Hw Hs Hn Hv H].
  - destruct s as [|c s]; [exact I|]. cbn in E. destruct (is_space c) eqn:Ec.
    + destruct (name_char c) eqn:En; [|reflexivity]. apply name_not_space in En. congruence.
    + injection E as -> _. reflexivity.
  - destruct w as [|c w]; [congruence|]. cbn in *. apply andb_true_iff in Hs as [Hc _].
    destruct (name_char c) eqn:En; [|reflexivity]. apply name_not_space in En. congruence.
Qed.

Lemma skip_gt_begin s r : skip s = txt ">" ++ r -> match s with c :: _ => name_char c = false | [] => True end.
Proof.
  intros E. destruct s as [|c s]; [exact I|]. cbn in E. destruct (is_space c) eqn:Ec.
  - destruct (name_char c) eqn:En; [|reflexivity]. apply name_not_space in En. congruence.
  - injection E as -> _. reflexivity.
Qed.

Lemma lt_not_text t : forallb char_data t = true -> forall s, match t ++ s with [] => True | c :: _ => t = [] \/ c <> "<"%char end.
Proof.
  intros H s. destruct t as [|c t]; cbn; [destruct s; auto|]. right. intros ->. cbn in H. vm_compute in H. discriminate.
Qed.

Lemma unique_all :
  (forall s e r, element s e r -> forall e' r', element s e' r' -> e = e' /\ r = r') /\
  (forall s l r, content s l r -> forall l' r', content s l' r' -> l = l' /\ r = r').
Proof.
  apply element_content_ind.
  - intros n s attrs s1 items s2 s3 Hn Ha Hd Hc IH E e' r' H'.
    inversion H' as [n' s' attrs' s1' items' s2' s3' Hn' Ha' Hd' Hc' E' EQ]; subst.
    symmetry in EQ.
    apply (span_unique name_char) in EQ as [<- <-];
      [|apply is_name_chars; auto..|exact (attributes_begin _ _ _ Ha)|exact (attributes_begin _ _ _ Ha')].
    destruct (attributes_unique _ _ _ Ha _ _ Ha') as [<- <-].
    destruct (IH _ _ Hc') as [<- EQ]. apply app_inv_head in EQ. apply app_inv_head in EQ. subst s2'.
    rewrite E in E'. apply app_inv_head in E'. subst. auto.
  - intros s l' r' H'. inversion H'; subst.
    + split; reflexivity.
    + exfalso. match goal with H : element _ _ _ |- _ => destruct (element_starts _ _ _ H) as (c & s' & E & Hc) end.
      injection E as <- _. vm_compute in Hc. discriminate.
    + exfalso. eapply char_data_not_lt; [eassumption|eassumption|]. 
      match goal with E : _ ++ _ = _ |- _ => rewrite E end. reflexivity.
  - intros s e s1 l s2 He IHe Hc IHc l' r' H'. inversion H' as [s0 E|s0 e0 s10 l0 s20 He0 Hc0|t s0 l0 s20 Ht1 Ht2 Ht3 Hs Hc0 E]; subst.
    + exfalso. destruct (element_starts _ _ _ He) as (c & s' & E & Hcc). injection E as <- _. vm_compute in Hcc. discriminate.
    + destruct (IHe _ _ He0) as [<- <-]. destruct (IHc _ _ Hc0) as [<- <-]. auto.
    + exfalso. destruct (element_starts _ _ _ He) as (c & s' & E & Hcc). eapply char_data_not_lt; [exact Ht2|exact Ht1|].
      rewrite E. reflexivity.
  - intros t s l s2 Ht1 Ht2 Ht3 Hs Hc IHc l' r' H'. inversion H' as [s0 E|s0 e0 s10 l0 s20 He0 Hc0|t0 s0 l0 s20 Ht10 Ht20 Ht30 Hs0 Hc0 E]; subst.
    + exfalso. eapply char_data_not_lt; [exact Ht2|exact Ht1|]. rewrite <- E. reflexivity.
    + exfalso. destruct (element_starts _ _ _ He0) as (c & s' & E & Hcc). eapply char_data_not_lt; [exact Ht2|exact Ht1|].
      rewrite E. reflexivity.
    + apply (span_unique char_data) in E as [<- <-]; auto.
      * destruct (IHc _ _ Hc0) as [<- <-]. auto.
      * destruct s0 as [|c s0]; [exact I|]. injection Hs0 as ->. reflexivity.
      * destruct s as [|c s]; [exact I|]. injection Hs as ->. reflexivity.
Qed.

Lemma document_unique s e e' : document s e -> document s e' -> e = e'.
Proof.
  intros (s1 & s2 & -> & H & _) (s1' & s2' & E & H' & _). apply app_inv_head in E. subst.
  exact (proj1 (proj1 unique_all _ _ _ H _ _ H')).
Qed.

(** ** Induction on trees *)
Lemma xtree_ind2 (P : xtree -> Prop) : (forall n a d ch, Forall P ch -> P (XTree n a d ch)) -> forall t, P t.
Proof.
  intros H. fix IH 1. intros [n a d ch]. apply H. induction ch as [|t ch IHch]; constructor; [apply IH|exact IHch].
Qed.

(** ** The text of a tree *)
Definition attr_text (a : text * text) : text := txt " " ++ fst a ++ txt "=""" ++ snd a ++ txt """".
Definition open_tag (n : text) (a : list (text * text)) : text := txt "<" ++ n ++ flat_map attr_text a ++ txt ">".
Definition data_lines (d : text) : text := match d with [] => [] | _ => d ++ [newline] end.
Fixpoint text_of (p : text) (t : xtree) : text :=
  match t with
  | XTree n a d ch => p ++ open_tag n a ++ [newline] ++ data_lines d ++ flat_map (text_of (p ++ txt "  ")) ch ++
      p ++ txt "</" ++ n ++ txt ">" ++ [newline]
  end.

Lemma header_text p o : header p o = p ++ open_tag (xname o) (xattrs o).
Proof.
  unfold header, open_tag.
  assert (E : forall l : list (text * text), txt " " ++ flat_map (fun a => fst a ++ txt "=" ++ [quote] ++ snd a ++ [quote] ++ txt " ") l
    = flat_map attr_text l ++ txt " ").
  { induction l as [|a l IH]; [reflexivity|]. cbn [flat_map]. rewrite <- (app_assoc (attr_text a)), <- IH. unfold attr_text.
    change (txt "=""") with (txt "=" ++ [quote]). change (txt """") with [quote]. rewrite <- !app_assoc. reflexivity. }
  rewrite E. rewrite !app_assoc. change (txt " ") with [" "%char]. rewrite removelast_last. reflexivity.
Qed.

Lemma height_children a d n ch t : In t ch -> height t < height (XTree n a d ch).
Proof.
  intros H. cbn [height]. apply le_n_S. induction ch as [|c ch IH]; [destruct H|]. cbn [fold_right].
  destruct H as [->|H]; [lia|]. specialize (IH H). lia.
Qed.

Scheme tree_at_ind2 := Minimality for tree_at Sort Prop
  with trees_at_ind2 := Minimality for trees_at Sort Prop.
Combined Scheme tree_at_ind' from tree_at_ind2, trees_at_ind2.

Lemma write_text h :
  (forall a t, tree_at h a t -> forall stack p, height t <= stack -> write_ stack h a p = Ok (text_of p t)) /\
  (forall l ts, trees_at h l ts -> forall stack p, Forall (fun t => height t <= stack) ts ->
     mapM (fun c => write_ stack h c p) l = Ok (map (text_of p) ts)).
Proof.
  apply tree_at_ind'.
  - intros a o ts E H IH stack p Hs. destruct stack as [|stack]; [cbn in Hs; lia|]. cbn [write_]. rewrite E.
    rewrite IH.
    + cbn [bind text_of]. rewrite header_text, flat_map_concat_map, <- app_assoc. reflexivity.
    + apply Forall_forall. intros t Ht. pose proof (height_children (xattrs o) (xdata o) (xname o) ts t Ht). lia.
  - intros stack p _. reflexivity.
  - intros a l t ts H IH H' IH' stack p F. inversion F; subst. cbn [mapM map]. rewrite IH by assumption. cbn [bind].
    rewrite IH' by assumption. reflexivity.
Qed.

(** ** Reading it back *)
Definition spaces (p : text) : Prop := forallb (fun c => code c =? 32) p = true.

Lemma spaces_space p : spaces p -> forallb is_space p = true.
Proof.
  unfold spaces. induction p as [|c p IH]; [auto|]. cbn. rewrite !andb_true_iff. intros [H1 H2]. split; [|auto].
  unfold is_space. rewrite H1. reflexivity.
Qed.

Lemma space_char c : is_space c = true -> char_data c = true /\ (code c =? 93) = false /\ (code c =? 62) = false.
Proof.
  pose proof (all_ascii (fun c => negb (is_space c) || (char_data c && negb (code c =? 93) && negb (code c =? 62))) ltac:(vm_compute; reflexivity) c) as H.
  cbn beta in H. intros E. rewrite E in H. cbn [negb orb] in H. rewrite !andb_true_iff, !negb_true_iff in H. tauto.
Qed.

Lemma spaces_data w : forallb is_space w = true -> forallb char_data w = true.
Proof. intros H. apply forallb_forall. intros c Hc. rewrite forallb_forall in H. apply space_char, H, Hc. Qed.

Lemma has_end_space_l w s : forallb is_space w = true -> has_end (w ++ s) = has_end s.
Proof.
  induction w as [|c w IH]; [auto|]. cbn [forallb]. rewrite andb_true_iff. intros [Hc Hw]. cbn [app has_end].
  rewrite IH by exact Hw. assert (E : begins_end (c :: w ++ s) = false).
  { unfold begins_end. destruct (w ++ s) as [|x [|y l]]; try reflexivity. rewrite (proj1 (proj2 (space_char c Hc))). reflexivity. }
  rewrite E. reflexivity.
Qed.

Lemma has_end_space w : forallb is_space w = true -> has_end w = false.
Proof. intros H. rewrite <- (app_nil_r w), has_end_space_l by exact H. reflexivity. Qed.

Lemma has_end_space_r s w : forallb is_space w = true -> has_end (s ++ w) = has_end s.
Proof.
  intros Hw. induction s as [|c s IH]; [apply has_end_space; exact Hw|]. cbn [app has_end]. rewrite IH. f_equal.
  assert (W : forall x l, w = x :: l -> is_space x = true).
  { intros x l ->. cbn in Hw. apply andb_true_iff in Hw. tauto. }
  destruct s as [|x [|y s]]; cbn [app begins_end].
  - destruct w as [|a [|b l]]; try reflexivity. rewrite (proj1 (proj2 (space_char a (W _ _ eq_refl)))), andb_false_r. reflexivity.
  - destruct w as [|a l]; try reflexivity. rewrite (proj2 (proj2 (space_char a (W _ _ eq_refl)))), andb_false_r. reflexivity.
  - reflexivity.
Qed.

(** Text and elements as the reader sees them. *)
Fixpoint items_of (p lead : text) (es : list elem) : list (text + elem) :=
  match es with
  | [] => [inl (lead ++ p)]
  | e :: es' => inl (lead ++ p ++ txt "  ") :: inr e :: items_of p [newline] es'
  end.
Fixpoint elem_of (p : text) (t : xtree) : elem :=
  match t with
  | XTree n a d ch => Elem n a (items_of p ([newline] ++ data_lines d) (map (elem_of (p ++ txt "  ")) ch))
  end.
Definition body (p : text) (t : xtree) : text :=
  match t with
  | XTree n a d ch => open_tag n a ++ [newline] ++ data_lines d ++ flat_map (text_of (p ++ txt "  ")) ch ++
      p ++ txt "</" ++ n ++ txt ">"
  end.
Lemma text_body p t : text_of p t = p ++ body p t ++ [newline].
Proof. destruct t. cbn [text_of body]. rewrite <- !app_assoc. reflexivity. Qed.

Lemma plain_value c : value_char c && printable c = true -> value_char c = true /\ (if is_space c then " "%char else c) = c.
Proof.
  pose proof (all_ascii (fun c => negb (value_char c && printable c) || (value_char c && Ascii.eqb (if is_space c then " "%char else c) c))
    ltac:(vm_compute; reflexivity) c) as H. cbn beta in H. intros E. rewrite E in H. cbn [negb orb] in H.
  apply andb_true_iff in H as [H1 H2]. apply Ascii.eqb_eq in H2. auto.
Qed.

Lemma read_attrs a s : 
  forallb (fun p => is_name (fst p) && forallb (fun c => value_char c && printable c) (snd p)) a = true ->
  attributes (flat_map attr_text a ++ txt ">" ++ s) a s.
Proof.
  induction a as [|[k v] a IH]; cbn [forallb flat_map fst snd]; intros H.
  - apply attributes_end. reflexivity.
  - rewrite !andb_true_iff in H. destruct H as ((Hk & Hv) & Ha). unfold attr_text. cbn [fst snd].
    rewrite <- !app_assoc.
    assert (Ev : normalise v = v).
    { clear - Hv. unfold normalise. induction v as [|c v IH]; [reflexivity|]. cbn [forallb map] in *. apply andb_true_iff in Hv as [Hc Hv].
      rewrite (proj2 (plain_value c Hc)), IH by exact Hv. reflexivity. }
    rewrite <- Ev at 2. apply attributes_next; auto; [discriminate|].
    clear - Hv. apply forallb_forall. intros c Hc. rewrite forallb_forall in Hv. apply plain_value, Hv, Hc.
Qed.

Lemma read_items p lead es ts s : spaces p -> forallb char_data lead = true -> lead <> [] -> has_end lead = false ->
  Forall2 (fun t e => forall s, element (body (p ++ txt "  ") t ++ s) e s) ts es ->
  content (lead ++ flat_map (text_of (p ++ txt "  ")) ts ++ p ++ txt "</" ++ s) (items_of p lead es) (txt "</" ++ s).
Proof.
  intros Hp Hd Hne He F. pose proof (spaces_space p Hp) as Sp.
  assert (Sp2 : forallb is_space (p ++ txt "  ") = true) by (rewrite forallb_app, Sp; reflexivity).
  revert lead Hd Hne He. induction F as [|t e ts es H F IH]; intros lead Hd Hne He; cbn [flat_map items_of].
  - cbn [app]. rewrite app_assoc. apply content_text.
    + destruct lead; [congruence|discriminate].
    + rewrite forallb_app, Hd. apply spaces_data. exact Sp.
    + rewrite has_end_space_r; auto.
    + reflexivity.
    + apply content_end.
  - rewrite text_body, <- !app_assoc.
    rewrite (app_assoc p (txt "  ")). rewrite (app_assoc lead (p ++ txt "  ")). apply content_text.
    + destruct lead; [congruence|discriminate].
    + rewrite forallb_app, Hd. apply spaces_data. exact Sp2.
    + rewrite has_end_space_r; auto.
    + destruct t. reflexivity.
    + eapply content_elem; [apply H|]. apply IH; [reflexivity|discriminate|reflexivity].
Qed.

Lemma plain_children t ch : fold_right (fun t P => plain t /\ P) True ch -> In t ch -> plain t.
Proof. induction ch as [|c ch IH]; cbn; [tauto|]. intros [H1 H2] [->|H]; auto. Qed.

Lemma read_body t : plain t -> forall p, spaces p -> forall s, element (body p t ++ s) (elem_of p t) s.
Proof.
  induction t as [n a d ch IH] using xtree_ind2. intros (Hn & Ha & Hnd & Hd & He & Hch) p Hp s.
  cbn [body elem_of]. unfold open_tag. rewrite <- !app_assoc.
  eapply element_tag with (s2 := txt ">" ++ s); [exact Hn|apply read_attrs; exact Ha|exact Hnd| |reflexivity].
  rewrite (app_assoc [newline] (data_lines d)).
  apply read_items.
  - exact Hp.
  - rewrite forallb_app. apply andb_true_iff. split; [reflexivity|]. destruct d; [reflexivity|]. unfold data_lines.
    rewrite forallb_app, Hd. reflexivity.
  - discriminate.
  - rewrite has_end_space_l by reflexivity. destruct d as [|c d]; [reflexivity|]. unfold data_lines.
    rewrite has_end_space_r by reflexivity. exact He.
  - assert (Hp2 : spaces (p ++ txt "  ")) by (unfold spaces in *; rewrite forallb_app, Hp; reflexivity).
    clear - IH Hch Hp2. induction ch as [|t ch IHch]; cbn [map]; constructor.
    + intros s. inversion IH; subst. destruct Hch. auto.
    + inversion IH; subst. destruct Hch. auto.
Qed.

(** ** What the reader makes of it *)
Lemma items_texts p lead es : spaces p -> exists w, forallb is_space w = true /\
  flat_map (fun i : text + elem => match i with inl t => t | inr _ => [] end) (items_of p lead es) = lead ++ w.
Proof.
  intros Hp. pose proof (spaces_space p Hp) as Sp. revert lead. induction es as [|e es IH]; intros lead; cbn [items_of flat_map].
  - exists p. split; [exact Sp|]. rewrite app_nil_r. reflexivity.
  - destruct (IH [newline]) as (w & Hw & ->). exists ((p ++ txt "  ") ++ [newline] ++ w). split.
    + rewrite !forallb_app, Sp, Hw. reflexivity.
    + rewrite <- !app_assoc. reflexivity.
Qed.

Lemma items_elems p lead es :
  flat_map (fun i : text + elem => match i with inl _ => [] | inr e => [read e] end) (items_of p lead es) = map read es.
Proof. revert lead. induction es as [|e es IH]; intros lead; cbn [items_of flat_map map app]; [reflexivity|]. rewrite IH. reflexivity. Qed.

Lemma trim_space w : forallb is_space w = true -> trim w = [].
Proof. intros H. unfold trim. rewrite <- (app_nil_r w), skip_app_space by exact H. reflexivity. Qed.
Lemma trim_space_l w s : forallb is_space w = true -> trim (w ++ s) = trim s.
Proof. intros H. unfold trim. rewrite skip_app_space by exact H. reflexivity. Qed.
Lemma skip_app s w : skip (s ++ w) = match skip s with [] => skip w | l => l ++ w end.
Proof. induction s as [|c s IH]; cbn; [reflexivity|]. destruct (is_space c); [exact IH|reflexivity]. Qed.
Lemma forallb_rev {A} (f : A -> bool) l : forallb f (rev l) = forallb f l.
Proof.
  destruct (forallb f l) eqn:E.
  - apply forallb_forall. intros x Hx. apply in_rev in Hx. rewrite forallb_forall in E. auto.
  - destruct (forallb f (rev l)) eqn:E2; [|reflexivity]. rewrite <- E. symmetry. apply forallb_forall. intros x Hx.
    rewrite forallb_forall in E2. apply E2. apply -> in_rev. exact Hx.
Qed.
Lemma trim_space_r s w : forallb is_space w = true -> trim (s ++ w) = trim s.
Proof.
  intros H. unfold trim. rewrite skip_app. destruct (skip s) as [|c l] eqn:E.
  - fold (trim w). unfold trim. rewrite <- (app_nil_r w), skip_app_space by exact H. reflexivity.
  - rewrite rev_app_distr, skip_app_space by (rewrite forallb_rev; exact H). reflexivity.
Qed.

Lemma read_elem_of t : forall p, spaces p -> read (elem_of p t) = trimmed t.
Proof.
  induction t as [n a d ch IH] using xtree_ind2. intros p Hp. cbn [elem_of read trimmed].
  rewrite items_elems. destruct (items_texts p ([newline] ++ data_lines d) (map (elem_of (p ++ txt "  ")) ch) Hp) as (w & Hw & Ew).
  f_equal.
  - change (flat_map _ _) with (flat_map (fun i : text + elem => match i with inl t => t | inr _ => [] end)
      (items_of p ([newline] ++ data_lines d) (map (elem_of (p ++ txt "  ")) ch))).
    rewrite Ew, <- app_assoc, trim_space_l by reflexivity. unfold data_lines. destruct d as [|c d].
    + apply trim_space. exact Hw.
    + rewrite <- app_assoc. apply trim_space_r. rewrite forallb_app, Hw. reflexivity.
  - assert (Hp2 : spaces (p ++ txt "  ")) by (unfold spaces in *; rewrite forallb_app, Hp; reflexivity).
    rewrite map_map. apply map_ext_in. intros t Ht. rewrite Forall_forall in IH. apply IH; auto.
Qed.

Lemma written_document t : plain t -> holds_tree (xml_line ++ text_of [] t) t.
Proof.
  intros P. exists (elem_of [] t).
  assert (D : document (xml_line ++ text_of [] t) (elem_of [] t)).
  { exists ([newline] ++ text_of [] t), [newline]. split; [reflexivity|]. split; [|reflexivity].
    rewrite skip_app_space by reflexivity. rewrite text_body. cbn [app].
    replace (skip (body [] t ++ [newline])) with (body [] t ++ [newline]) by (destruct t; reflexivity).
    apply read_body; auto. reflexivity. }
  split; [exact D|]. split; [intros e' H'; exact (document_unique _ _ _ H' D)|].
  apply read_elem_of. reflexivity.
Qed.

Lemma write_document stack h a t : tree_at h a t -> height t <= stack ->
  write stack h a = Ok (xml_line ++ text_of [] t).
Proof. intros H Hs. unfold write. rewrite (proj1 (write_text h) a t H stack [] Hs). reflexivity. Qed.
