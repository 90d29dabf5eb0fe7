(** Properties of options, INI files, the command line and the cache. *)
From Coq Require Import Ascii String.
From Verif Require Import Base XmlModel OptModel OptSpec.
From Verif Require Import OptProofs OptProofs2.

(** ** Values *)

Lemma stored_check v x : stored_as v x -> checkValue v = Ok x.
Proof. intros [ | |s n H1 H2|s q H]; [reflexivity|reflexivity|apply check_numeral; assumption|apply check_decimal; assumption]. Qed.

Lemma numeral_not_word s n : numeral s n -> s <> txt "true" /\ s <> txt "false".
Proof. intros H. apply numeral_spec in H as (_ & H & _). split; intros ->; vm_compute in H; discriminate. Qed.
Lemma stored_natural v x : stored_as v x -> natural_type v x.
Proof.
  intros [ | |s n H1 H2|s q H]; try constructor; try assumption.
  exists [], 1%Z, s, n. apply numeral_spec in H1 as H'. repeat split; try assumption; try constructor; lia.
Qed.

Lemma parse_long o k v x : checkValue v = Ok x -> ~ In "="%char k ->
  parse_arg o (txt "--" ++ k ++ txt "=" ++ v) = Ok (oset o k x).
Proof.
  intros E H. unfold parse_arg. cbn [app txt list_ascii_of_string].
  change (Ascii.eqb "-" "-") with true. cbv iota.
  assert (S : split_at "=" (k ++ "="%char :: v) = Some (k, v)) by (apply split_at_spec; auto).
  rewrite S, E, bind_Ok. reflexivity.
Qed.

(** The text of the only line of a section. *)
Definition one_line_file (k v : text) : text :=
  txt "[EllipticForest]" ++ newline :: k ++ txt " = " ++ v ++ [newline].

(** [C48] Missing: negative integers, integers out of the range of int, other texts.  For
    the others the natural type is stored, from the command line and from a file. *)
Lemma option_values_typed_partial_pf : forall v x, stored_as v x ->
  natural_type v x /\
  (forall o k, ~ In "="%char k -> exists o', parse [txt "--" ++ k ++ txt "=" ++ v] o = Ok o' /\ o' k = Some x) /\
  (forall files filename content ls o i k,
     files filename = Some content -> ascii_text content -> lines_of content ls ->
     3 <= List.length filename -> skipn (List.length filename - 3) filename = txt "ini" ->
     (forall i' k' v', assigns ls (txt "EllipticForest") i' k' v' -> exists x', stored_as v' x') ->
     assigns ls (txt "EllipticForest") i k v -> (forall i' v', assigns ls (txt "EllipticForest") i' k v' -> i' <= i) ->
     exists o', setFromFile files filename o = Ok o' /\ o' k = Some x).
Proof.
  intros v x H. split; [apply stored_natural, H|]. apply stored_check in H as E. split.
  - intros o k Hk. unfold parse. cbn [foldM]. rewrite (parse_long o k v x E Hk), bind_Ok. eexists. split; [reflexivity|].
    unfold oset. rewrite text_eqb_refl. reflexivity.
  - intros files fn c ls o i k Hf Ha Hl Hn Hi Hall Has Hlast. unfold setFromFile.
    destruct (Nat.ltb_spec (List.length fn) 3); [lia|]. rewrite Hi, text_eqb_refl, Hf. unfold readINIFile.
    rewrite (lines_of_eq c ls Hl).
    destruct (read_lines_ok (txt "EllipticForest") o ls) as (st & Es).
    + exact (lines_ascii c ls Hl Ha).
    + intros i' k' v' Q. destruct (Hall _ _ _ Q) as (x' & Hx). exists x'. apply stored_check, Hx.
    + rewrite Es, bind_Ok. eexists. split; [reflexivity|].
      destruct (read_lines_after _ _ _ _ Es) as (_ & A). destruct (A k) as [A1 _]. destruct (A1 i v Has Hlast) as (y & E1 & E2).
      rewrite E in E1. apply Ok_inj in E1. subst y. exact E2.
Qed.

(** The property for every text is false: the negative integer is stored as an empty text. *)
(** [C48] A negative integer, a word and a file name do not get their natural type. *)
Lemma option_values_typed_refuted_pf :
  (exists v x o, natural_type v x /\ x = OInt (-5) /\ parse [txt "--k=" ++ v] (fun _ => None) = Ok o /\ o (txt "k") = Some (OStr [])) /\
  (exists v x o, natural_type v x /\ x = OStr (txt "abc") /\ parse [txt "--k=" ++ v] (fun _ => None) = Ok o /\ o (txt "k") = Some (OStr [])) /\
  (exists v x, natural_type v x /\ x = OStr (txt "mesh.vtk") /\ parse [txt "--k=" ++ v] (fun _ => None) = Throw invalid_argument) /\
  (exists v x, natural_type v x /\ x = OStr [] /\ parse [txt "--k=" ++ v] (fun _ => None) = Throw invalid_argument).
Proof.
  assert (NI : forall s, (forall a sg b n, sign a sg -> numeral b n -> s <> a ++ b) -> forall z, ~ integer s z).
  { intros s H z (a & sg & b & n & Ha & Hb & E & _). exact (H a sg b n Ha Hb E). }
  assert (ND : forall s, isDouble s = false -> forall q, ~ decimal_number s q).
  { intros s H q (a & sg & i & m & f & n & x & e & _ & _ & _ & _ & _ & -> & _). unfold isDouble in H. rewrite !existsb_app in H. cbn in H. rewrite !orb_true_r in H. discriminate. }
  assert (NB : forall s a sg b n, sign a sg -> numeral b n -> s = a ++ b -> forallb (fun c => digitb c || Ascii.eqb c "+" || Ascii.eqb c "-") s = true /\ s <> []).
  { intros s a sg b n Ha Hb ->. apply numeral_spec in Hb as (N & D & _). split; [|destruct a, b; cbn; congruence].
    rewrite forallb_app. apply andb_true_iff. split; [destruct Ha; reflexivity|].
    rewrite forallb_forall in *. intros c Hc. rewrite (D c Hc). reflexivity. }
  split; [|split; [|split] ].
  - exists (txt "-5"), (OInt (-5)). eexists. split; [|split; [reflexivity|split; [reflexivity|reflexivity] ] ].
    apply nt_int. exists (txt "-"), (-1)%Z, (txt "5"), 5%Z. split; [constructor|]. split; [apply numeral_one; split; [lia|reflexivity]|].
    split; [reflexivity|]. split; [reflexivity|lia].
  - exists (txt "abc"), (OStr (txt "abc")). eexists. split; [|split; [reflexivity|split; [reflexivity|reflexivity] ] ].
    apply nt_text; [discriminate|discriminate| |apply ND; reflexivity].
    apply NI. intros a sg b n Ha Hb E. destruct (NB _ _ _ _ _ Ha Hb E) as [Q _]. discriminate.
  - exists (txt "mesh.vtk"), (OStr (txt "mesh.vtk")). split; [|split; [reflexivity|reflexivity] ].
    apply nt_text; [discriminate|discriminate| |].
    + apply NI. intros a sg b n Ha Hb E. destruct (NB _ _ _ _ _ Ha Hb E) as [Q _]. discriminate.
    + intros q (a & sg & i & m & f & n & x & e & Ha & Hi & _ & _ & _ & E & _). apply numeral0_spec in Hi as (D & _).
      destruct Ha; cbn in E; [|discriminate|discriminate].
      destruct i as [|c i]; cbn in E; [discriminate|]. injection E as E _. subst c. discriminate.
  - exists [], (OStr []). split; [|split; [reflexivity|reflexivity] ].
    apply nt_text; [discriminate|discriminate| |apply ND; reflexivity].
    apply NI. intros a sg b n Ha Hb E. destruct (NB _ _ _ _ _ Ha Hb E) as [_ Q]. congruence.
Qed.

Lemma isInt_other s : ascii_text s -> existsb (fun c => negb (digitb c)) s = true -> isInt s = Ok false.
Proof.
  induction 1 as [|c s Hc H IH]; cbn [existsb isInt]; [discriminate|]. unfold c_isdigit. rewrite (proj1 (ctype_char c) Hc), bind_Ok.
  destruct (digitb c); [exact IH|reflexivity].
Qed.
(** [C48] Every other text without a full stop is lost: the empty text is stored. *)
Lemma option_text_lost_pf : forall v o k, ascii_text v -> ~ In "."%char v -> v <> txt "true" -> v <> txt "false" ->
  (exists c, In c v /\ forall d, ~ is_digit c d) -> ~ In "="%char k ->
  exists o', parse [txt "--" ++ k ++ txt "=" ++ v] o = Ok o' /\ o' k = Some (OStr []).
Proof.
  intros v o k Ha Hd Ht Hf (c & Hc & Hn) Hk.
  assert (E : checkValue v = Ok (OStr [])).
  { unfold checkValue. rewrite !text_eqb_neq by assumption.
    replace (isDouble v) with false.
    2:{ symmetry. unfold isDouble. apply not_true_is_false. intros Q. apply existsb_exists in Q as (x & Hx & Q).
        apply Ascii.eqb_eq in Q. subst x. exact (Hd Hx). }
    rewrite isInt_other; [rewrite bind_Ok; reflexivity|exact Ha|]. apply existsb_exists. exists c. split; [exact Hc|].
    apply negb_true_iff, not_true_is_false. intros Q. unfold digitb in Q. apply andb_true_iff in Q as [Q1 Q2].
    apply Nat.leb_le in Q1, Q2. apply (Hn (digit_value c)). unfold is_digit, digit_value.
    split; [lia|]. replace (48 + Z.to_nat (Z.of_nat (ccode c) - 48)) with (ccode c) by lia. symmetry. apply ascii_nat_embedding. }
  unfold parse. cbn [foldM]. rewrite (parse_long o k v _ E Hk), bind_Ok. eexists. split; [reflexivity|].
  unfold oset. rewrite text_eqb_refl. reflexivity.
Qed.

(** [C48] A text without a full stop in which a byte from 128 to 254 follows digits only: isdigit is called with a
    negative number, which is undefined. *)
Lemma option_nonascii_undefined_pf : forall o k a c b, Forall (fun x => exists d, is_digit x d) a ->
  128 <= nat_of_ascii c <= 254 -> ~ In "."%char (a ++ c :: b) -> ~ In "="%char k ->
  parse [txt "--" ++ k ++ txt "=" ++ a ++ c :: b] o = UB.
Proof.
  intros o k a c b Ha Hc Hd Hk.
  assert (I : isInt (a ++ c :: b) = UB).
  { clear Hd. induction Ha as [|x a (d & Hx) _ IH]; cbn [app isInt]; unfold c_isdigit.
    - replace (negative_char c) with true; [reflexivity|]. symmetry. unfold negative_char, ccode. apply andb_true_iff. rewrite !Nat.leb_le. lia.
    - assert (N : numeral [x] d) by (constructor; exact Hx). apply numeral_spec in N as (_ & D & _). cbn in D. rewrite andb_true_r in D.
      replace (negative_char x) with false.
      2:{ symmetry. unfold digitb in D. apply andb_true_iff in D as [_ D]. apply Nat.leb_le in D. unfold negative_char.
          destruct (Nat.leb_spec 128 (ccode x)); [lia|reflexivity]. }
      rewrite bind_Ok, D. exact IH. }
  assert (B : In c (a ++ c :: b)) by (apply in_app_iff; right; left; reflexivity).
  assert (W : forall w, Forall (fun x => nat_of_ascii x < 128) w -> a ++ c :: b <> w).
  { intros w Hw E. rewrite E in B. rewrite Forall_forall in Hw. specialize (Hw _ B). lia. }
  assert (E : checkValue (a ++ c :: b) = UB).
  { unfold checkValue. rewrite !text_eqb_neq by (apply W; repeat constructor; vm_compute; lia).
    replace (isDouble (a ++ c :: b)) with false.
    2:{ symmetry. unfold isDouble. apply not_true_is_false. intros Q. apply existsb_exists in Q as (x & Hx & Q).
        apply Ascii.eqb_eq in Q. subst x. exact (Hd Hx). }
    rewrite I. reflexivity. }
  unfold parse. cbn [foldM]. unfold parse_arg. cbn [app txt list_ascii_of_string].
  change (Ascii.eqb "-" "-") with true. cbv iota.
  assert (S : split_at "=" (k ++ "="%char :: a ++ c :: b) = Some (k, a ++ c :: b)) by (apply split_at_spec; auto).
  rewrite S, E. reflexivity.
Qed.
(** The value 3, then the two bytes of the micro sign in UTF-8, then m. *)
Lemma option_nonascii_example_expf : forall o,
  parse [txt "--h=3" ++ [ascii_of_nat 194; ascii_of_nat 181] ++ txt "m"] o = UB.
Proof.
  intros o. apply (option_nonascii_undefined_pf o (txt "h") (txt "3") (ascii_of_nat 194) (ascii_of_nat 181 :: txt "m")).
  - repeat constructor. exists 3%Z. split; [lia|reflexivity].
  - vm_compute. lia.
  - vm_compute. intuition discriminate.
  - vm_compute. intuition discriminate.
Qed.

(** The result of an argument is the result of reading its value. *)
Lemma parse_throw o k v e : checkValue v = Throw e -> ~ In "="%char k -> parse [txt "--" ++ k ++ txt "=" ++ v] o = Throw e.
Proof.
  intros E Hk. unfold parse. cbn [foldM]. unfold parse_arg. cbn [app txt list_ascii_of_string].
  change (Ascii.eqb "-" "-") with true. cbv iota.
  assert (S : split_at "=" (k ++ "="%char :: v) = Some (k, v)) by (apply split_at_spec; auto).
  rewrite S, E. reflexivity.
Qed.

(** [C48] Digits that write a number greater than the greatest int: std::out_of_range, nothing is stored. *)
Lemma option_integer_range_pf : forall v n o k, numeral v n -> (2147483647 < n)%Z -> ~ In "="%char k ->
  parse [txt "--" ++ k ++ txt "=" ++ v] o = Throw out_of_range.
Proof.
  intros v n o k H Hn Hk. apply parse_throw; [|exact Hk].
  apply numeral_spec in H as (Hne & Hd & Hv & H0 & Ha). unfold checkValue.
  destruct (digits_not_bool v Hd) as [-> ->]. rewrite digits_no_dot, isInt_digits, bind_Ok by assumption.
  unfold stoi. destruct v as [|c s]; [congruence|].
  assert (Hc : digitb c = true) by (cbn in Hd; apply andb_true_iff in Hd; tauto).
  destruct (digit_not_space c Hc) as (Q1 & Q2 & Q3).
  unfold drop. cbn [span]. rewrite Q1. cbn [snd take_sign]. rewrite Q2, Q3.
  rewrite <- (app_nil_r (c :: s)) at 1. rewrite span_all by (try exact Hd; exact I). rewrite Hv.
  destruct (Z.ltb_spec n (-2147483648)); [lia|]. destruct (Z.ltb_spec 2147483647 n); [|lia]. reflexivity.
Qed.
Lemma option_integer_range_example_expf : numeral (txt "2147483648") 2147483648 /\
  forall o, parse [txt "--n=2147483648"] o = Throw out_of_range.
Proof.
  assert (N : numeral (txt "2147483648") 2147483648).
  { assert (D : forall d, (0 <= d <= 9)%Z -> is_digit (ascii_of_nat (48 + Z.to_nat d)) d) by (intros d Hd; split; [exact Hd|reflexivity]).
    pose proof (numeral_one _ _ (D 2%Z ltac:(lia))) as H.
    apply (fun x => numeral_more _ _ _ _ x (D 1%Z ltac:(lia))) in H. apply (fun x => numeral_more _ _ _ _ x (D 4%Z ltac:(lia))) in H.
    apply (fun x => numeral_more _ _ _ _ x (D 7%Z ltac:(lia))) in H. apply (fun x => numeral_more _ _ _ _ x (D 4%Z ltac:(lia))) in H.
    apply (fun x => numeral_more _ _ _ _ x (D 8%Z ltac:(lia))) in H. apply (fun x => numeral_more _ _ _ _ x (D 3%Z ltac:(lia))) in H.
    apply (fun x => numeral_more _ _ _ _ x (D 6%Z ltac:(lia))) in H. apply (fun x => numeral_more _ _ _ _ x (D 4%Z ltac:(lia))) in H.
    apply (fun x => numeral_more _ _ _ _ x (D 8%Z ltac:(lia))) in H. exact H. }
  split; [exact N|]. intros o. apply (option_integer_range_pf (txt "2147483648") 2147483648 o (txt "n")).
  - exact N.
  - lia.
  - vm_compute. intuition discriminate.
Qed.

(** [C48] A text that begins with a decimal number without exponent is stored as this number: the rest is dropped. *)
Lemma option_tail_dropped_pf : forall v q c j o k, decimal_number v q -> ~ In "e"%char v -> ~ In "E"%char v ->
  (forall d, ~ is_digit c d) -> c <> "e"%char -> c <> "E"%char -> ~ In "="%char k ->
  exists o', parse [txt "--" ++ k ++ txt "=" ++ v ++ c :: j] o = Ok o' /\ o' k = Some (ODbl (Fin q)).
Proof.
  intros v q c j o k H He HE Hc Hce HcE Hk. pose proof (check_decimal v q H) as C.
  destruct H as (a & sg & i & m & f & n & x & e & Hs & Hi & Hf & Hne & Hx & Ev & _).
  assert (x = []).
  { destruct Hx as [|c' a' sg' b' n' [->| ->] _ _]; [reflexivity| |]; exfalso.
    - apply He. rewrite Ev. rewrite !in_app_iff. right. right. right. right. left. reflexivity.
    - apply HE. rewrite Ev. rewrite !in_app_iff. right. right. right. right. left. reflexivity. }
  subst x v. clear He HE. rewrite app_nil_r in C |- *.
  apply numeral0_spec in Hi as (Di & _). apply numeral0_spec in Hf as (Df & _).
  assert (Dc : digitb c = false).
  { apply not_true_is_false. intros Q. unfold digitb in Q. apply andb_true_iff in Q as [Q1 Q2]. apply Nat.leb_le in Q1, Q2.
    apply (Hc (digit_value c)). unfold is_digit, digit_value. split; [lia|].
    replace (48 + Z.to_nat (Z.of_nat (ccode c) - 48)) with (ccode c) by lia. symmetry. apply ascii_nat_embedding. }
  assert (Lc : Ascii.eqb (lower c) "e" = false).
  { apply Ascii.eqb_neq. intros Q. unfold lower in Q. destruct ((65 <=? ccode c) && (ccode c <=? 90)) eqn:U; [|exact (Hce Q)].
    apply andb_true_iff in U as [U1 U2]. apply Nat.leb_le in U1, U2. apply (f_equal nat_of_ascii) in Q.
    rewrite nat_ascii_embedding in Q by (unfold ccode in *; lia). change (nat_of_ascii "e") with 101 in Q.
    apply HcE. rewrite <- (ascii_nat_embedding c). unfold ccode in Q. replace (nat_of_ascii c) with 69 by lia. reflexivity. }
  assert (E : checkValue ((a ++ i ++ txt "." ++ f) ++ c :: j) = checkValue (a ++ i ++ txt "." ++ f)).
  { assert (T : forall t, isDouble (a ++ i ++ txt "." ++ f ++ t) = true).
    { intros t. unfold isDouble. rewrite !existsb_app. cbn. rewrite !orb_true_r. reflexivity. }
    assert (G : forall t, match t with c :: _ => digitb c = false | [] => True end -> take_exponent t = 0%Z ->
      checkValue (a ++ i ++ txt "." ++ f ++ t) =
      (d <- (match i ++ f with
             | [] => Throw invalid_argument
             | ds => let a := (Qc_of_Z (digits_value ds) * ten_power (0 - Z.of_nat (List.length f)))%Qc in
                     let v := if (sg =? -1)%Z then (- a)%Qc else a in
                     if Qclt_b a double_limit then
                       if negb (digits_value ds =? 0)%Z && Qclt_b a double_tiny then Ok Special else Ok (Fin v)
                     else Throw out_of_range
             end) ;; Ok (ODbl d))).
    { intros t Ht He. unfold checkValue. rewrite !text_eqb_neq by (intros Q; specialize (T t); rewrite Q in T; vm_compute in T; discriminate).
      rewrite T. unfold stod.
      assert (E : take_sign (drop spaceb (a ++ i ++ txt "." ++ f ++ t)) = ((sg =? -1)%Z, i ++ txt "." ++ f ++ t)).
      { assert (B : drop spaceb (i ++ txt "." ++ f ++ t) = i ++ txt "." ++ f ++ t /\ take_sign (i ++ txt "." ++ f ++ t) = (false, i ++ txt "." ++ f ++ t)).
        { unfold drop. destruct i as [|c' i]; [split; reflexivity|]. cbn in Di. apply andb_true_iff in Di as [Dc' _].
          destruct (digit_not_space c' Dc') as (Q1 & Q2 & Q3). cbn. rewrite Q1, Q2, Q3. auto. }
        destruct B as [B1 B2]. destruct Hs.
        - cbn [app]. rewrite B1, B2. reflexivity.
        - reflexivity.
        - reflexivity. }
      rewrite E, not_special by assumption. unfold take_decimal.
      rewrite (span_all digitb i) by (try exact Di; reflexivity). cbn [app txt list_ascii_of_string].
      change (Ascii.eqb "."%char "."%char) with true. cbv iota. rewrite span_all by assumption. rewrite He. reflexivity. }
    pose proof (G [] I eq_refl) as G1. rewrite app_nil_r in G1. rewrite G1. rewrite <- !app_assoc.
    apply G; [exact Dc|]. cbn [take_exponent]. rewrite Lc. reflexivity. }
  rewrite C in E. unfold parse. cbn [foldM]. rewrite (parse_long o k _ _ E Hk), bind_Ok. eexists. split; [reflexivity|].
  unfold oset. rewrite text_eqb_refl. reflexivity.
Qed.
(** The address 10.0.0.1 becomes the number 10. *)
Lemma option_tail_dropped_example_expf : forall o,
  exists o', parse [txt "--host=10.0.0.1"] o = Ok o' /\ o' (txt "host") = Some (ODbl (Fin (Qc_of_Z 10))).
Proof.
  intros o. apply (option_tail_dropped_pf (txt "10.0") (Qc_of_Z 10) "."%char (txt "0.1") o (txt "host")).
  - exists [], 1%Z, (txt "10"), 10%Z, (txt "0"), 0%Z, [], 0%Z.
    split; [constructor|]. split; [right; apply (numeral_more (txt "1") 1 "0"%char 0); [constructor; split; [lia|reflexivity]|split; [lia|reflexivity]]|].
    split; [right; constructor; split; [lia|reflexivity]|]. split; [discriminate|]. split; [constructor|]. split; [reflexivity|].
    cbv zeta. split; [vm_compute; apply Qc_is_canon; reflexivity|]. split; [vm_compute; reflexivity|right; vm_compute; discriminate].
  - vm_compute. intuition discriminate.
  - vm_compute. intuition discriminate.
  - intros d (Hd & Q). apply (f_equal nat_of_ascii) in Q. rewrite nat_ascii_embedding in Q by lia. change (nat_of_ascii ".") with 46 in Q. lia.
  - discriminate.
  - discriminate.
  - vm_compute. intuition discriminate.
Qed.

(** [C48] A text with a full stop that begins with a letter other than i and n, as file names do:
    std::invalid_argument, nothing is stored. *)
Lemma option_words_rejected_pf : forall c w o k,
  (65 <= nat_of_ascii c <= 90 \/ 97 <= nat_of_ascii c <= 122) -> ~ In c [ "i"; "I"; "n"; "N" ]%char ->
  In "."%char (c :: w) -> ~ In "="%char k ->
  parse [txt "--" ++ k ++ txt "=" ++ c :: w] o = Throw invalid_argument.
Proof.
  intros c w o k Hc Hn Hd Hk. apply parse_throw; [|exact Hk].
  assert (D : isDouble (c :: w) = true).
  { unfold isDouble. apply existsb_exists. exists "."%char. split; [exact Hd|reflexivity]. }
  unfold checkValue. rewrite !text_eqb_neq by (intros Q; rewrite Q in D; vm_compute in D; discriminate). rewrite D.
  assert (M : exists m, c = ascii_of_nat m /\ (65 <= m <= 90 \/ 97 <= m <= 122)) by (exists (nat_of_ascii c); rewrite ascii_nat_embedding; auto).
  destruct M as (m & -> & Hm). clear Hc D Hd.
  assert (L : In m (seq 65 26 ++ seq 97 26)) by (rewrite in_app_iff, !in_seq; lia). clear Hm.
  unfold stod. cbv [seq app In] in L.
  repeat (destruct L as [<-|L]; [try (exfalso; apply Hn; vm_compute; tauto); reflexivity|]). contradiction.
Qed.
Lemma option_words_rejected_example_expf : forall o, parse [txt "--mesh=mesh.vtk"] o = Throw invalid_argument.
Proof.
  intros o. apply (option_words_rejected_pf "m"%char (txt "esh.vtk") o (txt "mesh")).
  - vm_compute. lia.
  - vm_compute. intuition discriminate.
  - vm_compute. tauto.
  - vm_compute. intuition discriminate.
Qed.

(** Values of each kind: true, 1024, -2.50, .5, 1.5e-3. *)
Lemma stored_as_example_expf : stored_as (txt "true") (OBool true) /\ stored_as (txt "1024") (OInt 1024) /\
  stored_as (txt "-2.50") (ODbl (Fin (Q2Qc (-5 # 2)))) /\ stored_as (txt ".5") (ODbl (Fin (Q2Qc (1 # 2)))) /\
  stored_as (txt "1.5e-3") (ODbl (Fin (Q2Qc (3 # 2000)))).
Proof.
  assert (D : forall d, (0 <= d <= 9)%Z -> is_digit (ascii_of_nat (48 + Z.to_nat d)) d) by (intros d H; split; [exact H|reflexivity]).
  assert (N1 : numeral (txt "1024") 1024).
  { change (txt "1024") with ((([ascii_of_nat (48 + Z.to_nat 1)] ++ [ascii_of_nat (48 + Z.to_nat 0)]) ++ [ascii_of_nat (48 + Z.to_nat 2)]) ++ [ascii_of_nat (48 + Z.to_nat 4)]).
    change 1024%Z with (10 * (10 * (10 * 1 + 0) + 2) + 4)%Z. repeat apply numeral_more; try apply D; try lia. apply numeral_one, D. lia. }
  assert (N2 : numeral (txt "50") 50).
  { change (txt "50") with ([ascii_of_nat (48 + Z.to_nat 5)] ++ [ascii_of_nat (48 + Z.to_nat 0)]).
    change 50%Z with (10 * 5 + 0)%Z. repeat apply numeral_more; try apply D; try lia. apply numeral_one, D. lia. }
  assert (N3 : forall d, (0 <= d <= 9)%Z -> numeral [ascii_of_nat (48 + Z.to_nat d)] d) by (intros; apply numeral_one, D; assumption).
  split; [constructor|]. split; [constructor; [exact N1|lia]|]. split; [|split]; apply sa_double.
  - exists (txt "-"), (-1)%Z, (txt "2"), 2%Z, (txt "50"), 50%Z, [], 0%Z. split; [constructor|]. split; [right; apply (N3 2%Z); lia|]. split; [right; exact N2|].
    split; [discriminate|]. split; [constructor|]. split; [reflexivity|]. cbv zeta. split; [apply Qc_is_canon; vm_compute; reflexivity|].
    split; [vm_compute; reflexivity|right; vm_compute; discriminate].
  - exists [], 1%Z, [], 0%Z, (txt "5"), 5%Z, [], 0%Z. split; [constructor|]. split; [left; auto|]. split; [right; apply (N3 5%Z); lia|].
    split; [discriminate|]. split; [constructor|]. split; [reflexivity|]. cbv zeta. split; [apply Qc_is_canon; vm_compute; reflexivity|].
    split; [vm_compute; reflexivity|right; vm_compute; discriminate].
  - exists [], 1%Z, (txt "1"), 1%Z, (txt "5"), 5%Z, (txt "e-3"), (-1 * 3)%Z. split; [constructor|].
    split; [right; apply (N3 1%Z); lia|]. split; [right; apply (N3 5%Z); lia|].
    split; [discriminate|]. split; [apply (exp_some "e"%char (txt "-") (-1) (txt "3") 3); [left; reflexivity|constructor|apply (N3 3%Z); lia]|].
    split; [reflexivity|]. cbv zeta. split; [apply Qc_is_canon; vm_compute; reflexivity|].
    split; [vm_compute; reflexivity|right; vm_compute; discriminate].
Qed.

(** ** Files *)

Lemma forallb_Forall_ascii s : forallb (fun c => nat_of_ascii c <? 128) s = true -> Forall ctype_defined s.
Proof. rewrite forallb_forall, Forall_forall. intros H c Hc. left. apply Nat.ltb_lt, H, Hc. Qed.

(** [C49] For every content of 7-bit characters in which the values assigned in the section are truth
    values, unsigned integers or decimal numbers: reading succeeds, the last assignment
    to a key in the section wins, and other keys keep their values.  White space is removed also inside keys
    and values.  Missing: other values, and files with carriage returns. *)
Lemma ini_file_partial_pf : forall files filename content ls o,
  files filename = Some content -> ascii_text content -> lines_of content ls ->
  3 <= List.length filename -> skipn (List.length filename - 3) filename = txt "ini" ->
  (forall i k v, assigns ls (txt "EllipticForest") i k v -> exists x, stored_as v x) ->
  exists o', setFromFile files filename o = Ok o' /\
  forall k,
    (forall i v x, assigns ls (txt "EllipticForest") i k v ->
       (forall i' v', assigns ls (txt "EllipticForest") i' k v' -> i' <= i) -> stored_as v x -> o' k = Some x) /\
    ((forall i v, ~ assigns ls (txt "EllipticForest") i k v) -> o' k = o k).
Proof.
  intros files fn c ls o Hf Ha Hl Hn Hi Hall. unfold setFromFile.
  destruct (Nat.ltb_spec (List.length fn) 3); [lia|]. rewrite Hi, text_eqb_refl, Hf. unfold readINIFile.
  rewrite (lines_of_eq c ls Hl).
  destruct (read_lines_ok (txt "EllipticForest") o ls) as (st & Es).
  { exact (lines_ascii c ls Hl Ha). }
  { intros i' k' v' Q. destruct (Hall _ _ _ Q) as (x' & Hx). exists x'. apply stored_check, Hx. }
  rewrite Es, bind_Ok. eexists. split; [reflexivity|]. intros k.
  destruct (read_lines_after _ _ _ _ Es) as (_ & A). destruct (A k) as [A1 A2]. split; [|exact A2].
  intros i v x H1 H2 H3. destruct (A1 i v H1 H2) as (y & E1 & E2). rewrite (stored_check v x H3) in E1. apply Ok_inj in E1. subst y. exact E2.
Qed.

(** [C49] Without the condition on values: whenever reading succeeds, the keys that are
    not assigned in the section keep their values, and every key that is assigned exists afterwards. *)
Lemma ini_file_keys_partial_pf : forall files filename content ls o o',
  files filename = Some content -> lines_of content ls -> setFromFile files filename o = Ok o' ->
  (forall k, (forall i v, ~ assigns ls (txt "EllipticForest") i k v) -> o' k = o k) /\
  (forall i k v, assigns ls (txt "EllipticForest") i k v -> optionExists o' k = true).
Proof.
  intros files fn c ls o o' Hf Hl. unfold setFromFile. destruct (List.length fn <? 3); [discriminate|].
  destruct (text_eqb _ _); [|discriminate]. rewrite Hf. unfold readINIFile. rewrite (lines_of_eq c ls Hl). intros H.
  apply bind_inv in H as (st & Es & H). apply Ok_inj in H. subst o'. destruct (read_lines_after _ _ _ _ Es) as (_ & A). split.
  - intros k. apply A.
  - intros i k v Ha.
    destruct (optionExists (snd st) k) eqn:X; [reflexivity|]. exfalso.
    assert (Q : forall n i v, assigns ls (txt "EllipticForest") i k v -> List.length ls <= i + n -> False).
    { induction n as [|n IH]; intros i' v' H' L; [apply assigns_lt in H'; lia|].
      destruct (A k) as [A1 _]. destruct (A1 i' v' H') as (x & _ & E).
      - intros i2 v2 H2. destruct (Nat.le_gt_cases i2 i') as [|G]; [assumption|]. exfalso. apply (IH i2 v2 H2). lia.
      - unfold optionExists in X. rewrite E in X. discriminate. }
    apply (Q (List.length ls) i v Ha). lia.
Qed.

Definition ini_name : text := txt "opts.ini".
Definition ini_files (content : text) (f : text) : option text := if text_eqb f ini_name then Some content else None.
Definition eol : text := [newline].
Definition cr : text := [ascii_of_nat 13].

(** [C49] A file with carriage returns: the section is not found.  White space inside a
    key is removed.  A file name as value, or no value, aborts reading; the later key is not set. *)
Lemma ini_file_refuted_pf :
  (exists content o o', content = txt "[EllipticForest]" ++ cr ++ eol ++ txt "n = 4" ++ cr ++ eol /\
     setFromFile (ini_files content) ini_name o = Ok o' /\ o (txt "n") = None /\ o' (txt "n") = None) /\
  (exists content o o', content = txt "[EllipticForest]" ++ eol ++ txt "my key = 4" ++ eol /\
     setFromFile (ini_files content) ini_name o = Ok o' /\ o' (txt "my key") = None /\ o' (txt "mykey") = Some (OInt 4)) /\
  (exists content o, content = txt "[EllipticForest]" ++ eol ++ txt "mesh = mesh.vtk" ++ eol ++ txt "n = 4" ++ eol /\
     setFromFile (ini_files content) ini_name o = Throw invalid_argument) /\
  (exists content o, content = txt "[EllipticForest]" ++ eol ++ txt "title =" ++ eol ++ txt "n = 4" ++ eol /\
     setFromFile (ini_files content) ini_name o = Throw invalid_argument).
Proof.
  split; [|split; [|split] ].
  - eexists _, (fun _ => None), _. split; [reflexivity|]. split; [vm_compute; reflexivity|]. split; reflexivity.
  - eexists _, (fun _ => None), _. split; [reflexivity|]. split; [vm_compute; reflexivity|]. split; vm_compute; reflexivity.
  - eexists _, (fun _ => None). split; [reflexivity|]. vm_compute. reflexivity.
  - eexists _, (fun _ => None). split; [reflexivity|]. vm_compute. reflexivity.
Qed.

(** A file with a comment, two sections and a repeated key; its lines, and the last assignment to n. *)
Definition ini_example_lines : list text :=
  [txt "; comment"; txt "[Other]"; txt "n = 1"; txt ""; txt "[EllipticForest]"; txt "  n = 2 "; txt "n = 3"].
Definition ini_example : text := flat_map (fun l => l ++ eol) ini_example_lines.
Lemma ini_example_case_expf :
  lines_of ini_example ini_example_lines /\ ascii_text ini_example /\
  assigns ini_example_lines (txt "EllipticForest") 6 (txt "n") (txt "3") /\
  (exists o', setFromFile (ini_files ini_example) ini_name (fun _ => None) = Ok o' /\ o' (txt "n") = Some (OInt 3)).
Proof.
  split; [|split; [|split] ].
  - unfold ini_example, ini_example_lines. cbn [flat_map]. unfold eol.
    repeat (rewrite <- app_assoc; change ([newline] ++ ?r) with (newline :: r); apply lines_next; [cbn; intuition discriminate|]). constructor.
  - unfold ascii_text. apply forallb_Forall_ascii. vm_compute. reflexivity.
  - exists (txt "n = 3"), (txt "n = 3"), (txt "n "), (txt " 3"). split; [reflexivity|].
    assert (T : forall l, nth_error ini_example_lines 6 = Some l -> trimmed_line l l) .
    { intros l E. injection E as <-. exists [], []. split; [reflexivity|]. split; [constructor|]. split; [constructor|]. split.
      - intros c t E. injection E as <- _. intros [Q|Q]; discriminate.
      - intros c t E. assert (E' : txt "n = " ++ ["3"%char] = t ++ [c]) by exact E. apply app_inj_tail in E' as [_ <-]. intros [Q|Q]; discriminate. }
    split; [apply T; reflexivity|]. split; [discriminate|].
    split; [rewrite header_line_spec; intros (nm & Q); vm_compute in Q; discriminate|].
    split.
    { exists 4, (txt "[EllipticForest]"), (txt "[EllipticForest]"). split; [lia|]. split; [reflexivity|].
      split; [change (trimmed_line (txt "[EllipticForest]") (trim_line (txt "[EllipticForest]"))); apply trim_line_ok|]. split; [reflexivity|].
      intros k lk H1 H2 E. assert (k = 5) by lia. subst k. injection E as <-. rewrite header_line_spec. intros (nm & Q); vm_compute in Q; discriminate. }
    split; [reflexivity|]. split; [cbn; intuition discriminate|].
    split; apply strip_spec; reflexivity.
  - eexists. split; [vm_compute; reflexivity|vm_compute; reflexivity].
Qed.

(** ** Maps *)

(** One operation on the options. *)
Definition option_op (o : options) (p : mapop optval) : options :=
  match p with
  | MSet k v => setOption o k v
  | MGet k => snd (oget o k)
  | MQuery k => let _ := optionExists o k in o
  end.
Definition option_ops (ops : list (mapop optval)) (o : options) : options := fold_left option_op ops o.
(** One operation on the cache. *)
Definition cache_op {T} (d : T) (m : cache (T := T)) (p : mapop T) : cache (T := T) :=
  match p with
  | MSet k v => cstore m k v
  | MGet k => snd (clookup d m k)
  | MQuery k => let _ := contains m k in m
  end.
Definition cache_ops {T} (d : T) (ops : list (mapop T)) (m : cache (T := T)) : cache (T := T) := fold_left (cache_op d) ops m.

Lemma cput_eq {T} (m : cache (T := T)) k v x : cput m k v x = if list_eq_dec ascii_dec x k then Some v else m x.
Proof.
  unfold cput. destruct (list_eq_dec ascii_dec x k) as [->|N]; [rewrite text_eqb_refl; reflexivity|].
  rewrite text_eqb_neq by congruence. reflexivity.
Qed.
Lemma cache_ops_value {T} (d : T) ops : forall m k,
  match last_set m ops k with
  | Some v => cache_ops d ops m k = Some v
  | None => (cache_ops d ops m k = Some d /\ read_in ops k) \/ (cache_ops d ops m k = None /\ ~ read_in ops k)
  end.
Proof.
  unfold last_set, cache_ops, read_in. induction ops as [|p ops IH] using rev_ind; intros m k.
  - cbn. destruct (m k); auto.
  - rewrite !fold_left_app. cbn [fold_left]. specialize (IH m). set (mm := fold_left (cache_op d) ops m) in *. 
    set (sp := fold_left (fun m p => match p with MSet k v => fun x => if list_eq_dec ascii_dec x k then Some v else m x | _ => m end) ops m) in *.
    assert (R : forall k', In (MGet k') (ops ++ [p]) <-> In (MGet k') ops \/ p = MGet k').
    { intros k'. rewrite in_app_iff. cbn. tauto. }
    pose proof (R k) as Rk. clear R. destruct p as [k' v'|k'|k']; cbn [cache_op].
    + unfold cstore. rewrite cput_eq. destruct (list_eq_dec ascii_dec k k') as [Q|Q]; [reflexivity|].
      specialize (IH k). destruct (sp k); [exact IH|]. rewrite Rk. intuition discriminate.
    + unfold clookup. pose proof (IH k) as IHk. pose proof (IH k') as IHk'. destruct (mm k') as [u|] eqn:E; cbn [snd].
      * destruct (sp k); [exact IHk|]. destruct IHk as [ [H1 H2] |[H1 H2] ]; [left; tauto|].
        right. split; [exact H1|]. rewrite Rk. intros [G|G]; [exact (H2 G)|]. congruence.
      * rewrite cput_eq. destruct (list_eq_dec ascii_dec k k') as [Q|Q].
        -- subst k'. destruct (sp k); [congruence|]. left. tauto.
        -- destruct (sp k); [exact IHk|]. assert (@MGet T k' <> MGet k) by congruence. tauto.
    + specialize (IH k). destruct (sp k); [exact IH|]. rewrite Rk. intuition discriminate.
Qed.
Lemma option_ops_cache ops o k : option_ops ops o k = cache_ops (OStr []) ops o k.
Proof. reflexivity. Qed.

(** [C50] For every sequence of operations on options or on a cache: a key exists afterwards exactly
    if it existed before, was set, or was read with operator[]; queries change nothing;
    the value of a key that was set is the one set last.  Missing: operator[]
    inserts keys that were never set. *)
Lemma map_operations_partial_pf :
  (forall (ops : list (mapop optval)) (o : options) k,
     (optionExists (option_ops ops o) k = true <-> last_set o ops k <> None \/ read_in ops k) /\
     (forall v, last_set o ops k = Some v -> option_ops ops o k = Some v /\ fst (oget (option_ops ops o) k) = v)) /\
  (forall (T : Type) (d : T) (ops : list (mapop T)) (m : text -> option T) k,
     (contains (cache_ops d ops m) k = true <-> last_set m ops k <> None \/ read_in ops k) /\
     (forall v, last_set m ops k = Some v -> cache_ops d ops m k = Some v /\ fst (clookup d (cache_ops d ops m) k) = v)).
Proof.
  assert (G : forall (T : Type) (d : T) (ops : list (mapop T)) (m : text -> option T) k,
     (contains (cache_ops d ops m) k = true <-> last_set m ops k <> None \/ read_in ops k) /\
     (forall v, last_set m ops k = Some v -> cache_ops d ops m k = Some v /\ fst (clookup d (cache_ops d ops m) k) = v)).
  { intros T d ops m k. pose proof (cache_ops_value d ops m k) as H. unfold contains, clookup. destruct (last_set m ops k) as [v|].
    - rewrite H. split; [split; [intros _; left; discriminate|reflexivity]|]. intros v' E. injection E as <-. auto.
    - split; [|discriminate]. destruct H as [ [-> H] |[-> H] ]; [tauto|]. split; [discriminate|]. intros [Q|Q]; [congruence|contradiction]. }
  split; [|exact G]. intros ops o k. exact (G optval (OStr []) ops o k).
Qed.

(** [C50] If operator[] is only used to read keys that were set: a key exists exactly if it was set. *)
Lemma map_operations_guarded_partial_pf : forall (T : Type) (d : T) (ops : list (mapop T)) (m : text -> option T),
  (forall before k after, ops = before ++ MGet k :: after -> last_set m before k <> None) ->
  forall k, contains (cache_ops d ops m) k = true <-> last_set m ops k <> None.
Proof.
  intros T d ops m H k. rewrite (proj1 (proj2 map_operations_partial_pf T d ops m k)). split; [|tauto].
  intros [Q|Q]; [exact Q|]. apply in_split in Q as (b & a & E). specialize (H _ _ _ E).
  rewrite E. unfold last_set in *. rewrite fold_left_app. cbn [fold_left]. clear E. revert H. generalize (fold_left (fun m p => match p with MSet k v => fun x => if list_eq_dec ascii_dec x k then Some v else m x | _ => m end) b m).
  intros q H. revert q H. induction a as [|p a IH]; intros q H; [exact H|]. cbn [fold_left]. apply IH. destruct p; [|exact H|exact H].
  destruct (list_eq_dec ascii_dec k k0); [discriminate|exact H].
Qed.

(** [C50] Reading a key that was never set makes it exist. *)
Lemma map_operations_refuted_pf :
  (exists (ops : list (mapop optval)) (o : options) k, last_set o ops k = None /\ optionExists (option_ops ops o) k = true) /\
  (exists (ops : list (mapop nat)) (m : text -> option nat) k, last_set m ops k = None /\ contains (cache_ops 0 ops m) k = true).
Proof. split; exists [MGet (txt "n")], (fun _ => None), (txt "n"); split; reflexivity. Qed.

(** A sequence with sets, reads of set keys and queries. *)
Lemma map_operations_expf : exists ops : list (mapop nat),
  ops = [MSet (txt "a") 1; MGet (txt "a"); MSet (txt "a") 2; MQuery (txt "b")] /\
  (forall before k after, ops = before ++ MGet k :: after -> last_set (fun _ => None) before k <> None) /\
  cache_ops 0 ops (fun _ => None) (txt "a") = Some 2 /\ contains (cache_ops 0 ops (fun _ => None)) (txt "b") = false.
Proof.
  eexists. split; [reflexivity|]. split; [|split; reflexivity]. intros b k a E.
  destruct b as [|p1 b]; [discriminate|]. cbn [app] in E. injection E as E1 E. subst p1.
  destruct b as [|p2 b]; cbn [app] in E; [injection E as E1 E; subst k; discriminate|]. injection E as E1 E.
  destruct b as [|p3 b]; cbn [app] in E; [discriminate|]. injection E as E2 E.
  destruct b as [|p4 b]; cbn [app] in E; [discriminate|]. injection E as E3 E.
  destruct b; discriminate.
Qed.

(** ** Command line *)

Lemma split_none c s : ~ In c s -> split_at c s = None.
Proof.
  intros H. destruct (split_at c s) as [ [a b] |] eqn:E; [|reflexivity]. apply split_at_spec in E as [-> _].
  exfalso. apply H. apply in_app_iff. right. left. reflexivity.
Qed.
Lemma parse_arg_sets o a k x : arg_sets a k x -> parse_arg o a = Ok (oset o k x).
Proof.
  intros [k' v x' Hk Hv|k' Hk|k' v Hk Hd|k' Hk Hd].
  - apply parse_long; [apply stored_check, Hv|exact Hk].
  - unfold parse_arg. cbn [app txt list_ascii_of_string]. change (Ascii.eqb "-" "-") with true. cbv iota. rewrite split_none by exact Hk. reflexivity.
  - unfold parse_arg. cbn [app txt list_ascii_of_string]. change (Ascii.eqb "-" "-") with true. cbv iota.
    assert (S : split_at "=" (k' ++ "="%char :: v) = Some (k', v)) by (apply split_at_spec; auto).
    destruct (k' ++ "="%char :: v) as [|c r] eqn:E; [destruct k'; discriminate|].
    destruct (Ascii.eqb_spec c "-"%char) as [->|_]; [|rewrite S; reflexivity].
    destruct k' as [|c' k']; cbn in E; [discriminate|]. injection E as -> _. destruct (Hd k' eq_refl).
  - unfold parse_arg. cbn [app txt list_ascii_of_string]. change (Ascii.eqb "-" "-") with true. cbv iota.
    destruct k' as [|c r]; [reflexivity|]. destruct (Ascii.eqb_spec c "-"%char) as [->|_]; [destruct (Hd r eq_refl)|].
    rewrite split_none by exact Hk. reflexivity.
Qed.
Lemma parse_arg_plain o a : plain_arg a -> parse_arg o a = Ok o.
Proof.
  intros H. destruct a as [|c a]; [reflexivity|]. unfold parse_arg. destruct (Ascii.eqb_spec c "-"%char) as [->|_]; [destruct (H a eq_refl)|reflexivity].
Qed.

(** [C87] Parsing succeeds; for every key the last argument that gives it a value decides, and a key that no argument
    mentions keeps its value.  An option with one dash keeps its text.  For arguments with two
    dashes and other values see [command_line_last] and C48. *)
Lemma command_line_values_pf : forall args o,
  Forall (fun a => plain_arg a \/ exists k x, arg_sets a k x) args ->
  exists o', parse args o = Ok o' /\
  forall k,
    (forall before a x after, args = before ++ a :: after -> arg_sets a k x ->
       (forall b y, In b after -> ~ arg_sets b k y) -> o' k = Some x) /\
    ((forall a x, In a args -> ~ arg_sets a k x) -> o' k = o k).
Proof.
  unfold parse. induction args as [|a args IH]; intros o H.
  - exists o. split; [reflexivity|]. intros k. split; [|auto]. intros b a x r E. destruct b; discriminate.
  - inversion H as [|? ? Ha Hr]; subst. cbn [foldM].
    assert (P : exists o1, parse_arg o a = Ok o1 /\ forall k, (forall x, arg_sets a k x -> o1 k = Some x) /\ ((forall x, ~ arg_sets a k x) -> o1 k = o k)).
    { destruct Ha as [Hp|(k & x & Hs)].
      - exists o. split; [apply parse_arg_plain, Hp|]. intros k. split; [|auto]. intros x Hs. exfalso.
        destruct Hs; cbn in Hp; eapply Hp; reflexivity.
      - exists (oset o k x). split; [apply parse_arg_sets, Hs|]. intros k2. split.
        + intros x2 H2. pose proof (parse_arg_sets (fun _ => None) a k x Hs) as E1.
          rewrite (parse_arg_sets _ _ _ _ H2) in E1. apply Ok_inj in E1. apply (f_equal (fun f => f k2)) in E1.
          unfold oset in *. rewrite text_eqb_refl in E1. destruct (text_eqb k k2); congruence.
        + intros Hn. unfold oset. rewrite text_eqb_neq; [reflexivity|]. intros ->. exact (Hn x Hs). }
    destruct P as (o1 & E1 & P1). rewrite E1, bind_Ok. destruct (IH o1 Hr) as (o' & E & P). exists o'. split; [exact E|].
    intros k. destruct (P k) as [Pa Pb]. destruct (P1 k) as [P1a P1b]. split.
    + intros [|b0 before] a' x after Eq Hs Hl; cbn [app] in Eq; injection Eq as <- Eq.
      * subst after. rewrite Pb by (intros; apply Hl; assumption). apply P1a, Hs.
      * exact (Pa before a' x after Eq Hs Hl).
    + intros Hn. rewrite Pb by (intros b y Hb; apply Hn; right; exact Hb). apply P1b. intros x. apply Hn. left. reflexivity.
Qed.

(** An argument that is not an option, a repeated key, a text with one dash and a flag. *)
Lemma command_line_example_expf : exists o',
  parse [txt "mesh.vtk"; txt "--n=4"; txt "-title=a=b.c"; txt "--n=16"; txt "--vtk"] (fun _ => None) = Ok o' /\
  arg_sets (txt "--n=16") (txt "n") (OInt 16) /\ arg_sets (txt "-title=a=b.c") (txt "title") (OStr (txt "a=b.c")) /\
  arg_sets (txt "--vtk") (txt "vtk") (OStr []) /\ plain_arg (txt "mesh.vtk") /\
  o' (txt "n") = Some (OInt 16) /\ o' (txt "title") = Some (OStr (txt "a=b.c")) /\ o' (txt "vtk") = Some (OStr []) /\ o' (txt "mesh.vtk") = None.
Proof.
  eexists. split; [vm_compute; reflexivity|].
  split. { apply (as_long (txt "n") (txt "16") (OInt 16)); [cbn; intuition discriminate|]. constructor; [|lia].
    apply (numeral_more (txt "1") 1 "6"%char 6); [apply numeral_one|]; (split; [lia|reflexivity]). }
  split. { apply (as_short (txt "title") (txt "a=b.c")); [cbn; intuition discriminate|discriminate]. }
  split. { apply (as_long_flag (txt "vtk")). cbn. intuition discriminate. }
  split; [intros a; discriminate|]. repeat split; vm_compute; reflexivity.
Qed.

Lemma check_bool v b : checkValue v = Ok (OBool b) -> v = word b.
Proof.
  unfold checkValue, text_eqb. destruct (list_eq_dec ascii_dec v (txt "true")) as [->|_]; [intros E; apply Ok_inj in E; injection E as <-; reflexivity|].
  destruct (list_eq_dec ascii_dec v (txt "false")) as [->|_]; [intros E; apply Ok_inj in E; injection E as <-; reflexivity|].
  destruct (isDouble v).
  - intros E. apply bind_inv in E as (d & _ & E). discriminate.
  - intros E. apply bind_inv in E as ([|] & _ & E); [apply bind_inv in E as (z & _ & E)|]; discriminate.
Qed.

Lemma mentions_inv a k : mentions a k ->
  (exists v, a = txt "--" ++ k ++ txt "=" ++ v) \/ a = txt "--" ++ k \/
  (exists v, (forall k', k <> "-"%char :: k') /\ a = txt "-" ++ k ++ txt "=" ++ v) \/ ((forall k', k <> "-"%char :: k') /\ a = txt "-" ++ k).
Proof. intros [k1 v|k1|k1 v Hd|k1 Hd]; eauto 6. Qed.

(** What one argument does to one key. *)
Lemma parse_arg_key o a o1 k : parse_arg o a = Ok o1 -> ~ In "="%char k ->
  (mentions a k /\ exists x, o1 k = Some x /\ forall b, x = OBool b <-> a = txt "--" ++ k ++ txt "=" ++ word b) \/
  (~ mentions a k /\ o1 k = o k).
Proof.
  intros E Hk. unfold parse_arg in E.
  destruct a as [|c a]. { right. apply Ok_inj in E. subst. split; [|reflexivity]. intros M. apply mentions_inv in M as [(v2 & Q)|[Q|[(v2 & Hd & Q)|(Hd & Q)] ] ]; discriminate. }
  destruct (Ascii.eqb_spec c "-"%char) as [->|Nc].
  2:{ right. apply Ok_inj in E. subst. split; [|reflexivity]. intros M. apply mentions_inv in M as [(v2 & Q)|[Q|[(v2 & Hd & Q)|(Hd & Q)] ] ]; cbn in Q; congruence. }
  assert (KV : forall (k1 v1 k2 v2 : text), ~ In "="%char k1 -> ~ In "="%char k2 -> k1 ++ "="%char :: v1 = k2 ++ "="%char :: v2 -> k1 = k2 /\ v1 = v2).
  { intros k1 v1 k2 v2 H1 H2 Q. pose proof (proj2 (split_at_spec "="%char (k1 ++ "="%char :: v1) k1 v1) (conj eq_refl H1)) as S1.
    pose proof (proj2 (split_at_spec "="%char (k2 ++ "="%char :: v2) k2 v2) (conj eq_refl H2)) as S2. rewrite Q, S2 in S1. injection S1 as -> ->. auto. }
  assert (KN : forall (s k1 v1 : text), ~ In "="%char s -> s <> k1 ++ "="%char :: v1).
  { intros s k1 v1 H ->. apply H. apply in_app_iff. right. left. reflexivity. }
  assert (SN : forall s, split_at "=" s = None -> ~ In "="%char s).
  { intros s H Q. apply in_split in Q as (p & q & Q). assert (exists p q, s = p ++ "="%char :: q /\ ~ In "="%char p) as (p' & q' & Q1 & Q2).
    { clear - Q. revert p q Q. induction s as [|c s IH]; intros p q Q; [destruct p; discriminate|].
      destruct (ascii_dec c "="%char) as [->|N]; [exists [], s; split; [reflexivity|intros []]|].
      destruct p as [|p0 p]; cbn in Q; injection Q as -> Q; [congruence|]. destruct (IH p q Q) as (p' & q' & -> & H).
      exists (p0 :: p'), q'. split; [reflexivity|]. intros [->|G]; [congruence|exact (H G)]. }
    pose proof (proj2 (split_at_spec "="%char s p' q') (conj Q1 Q2)) as S. congruence. }
  assert (TR : forall k1 x, o1 = oset o k1 x -> k1 = k \/ (k1 <> k /\ o1 k = o k)).
  { intros k1 x ->. destruct (list_eq_dec ascii_dec k1 k) as [|N]; [auto|]. right. split; [exact N|]. unfold oset. rewrite text_eqb_neq by exact N. reflexivity. }
  destruct a as [|c2 a].
  { apply Ok_inj in E. symmetry in E. destruct (TR _ _ E) as [<-|[N G] ].
    - left. split; [apply (me_short_flag []); discriminate|]. subst o1. exists (OStr []). split; [reflexivity|]. intros b; split; discriminate.
    - right. split; [|exact G]. intros M. apply mentions_inv in M as [(v2 & Q)|[Q|[(v2 & Hd & Q)|(Hd & Q)] ] ]; cbn in Q; try discriminate; injection Q as Q.
      + destruct k; discriminate.
      + congruence. }
  destruct (Ascii.eqb_spec c2 "-"%char) as [->|Nd].
  - destruct (split_at "=" a) as [ [k1 v] |] eqn:S.
    + apply split_at_spec in S as [-> H1]. apply bind_inv in E as (x & Ex & E). apply Ok_inj in E. symmetry in E.
      destruct (TR _ _ E) as [->|[N G] ].
      * left. split; [apply (me_long k v)|]. exists x. subst o1. split; [unfold oset; rewrite text_eqb_refl; reflexivity|].
        intros b. split.
        -- intros ->. apply check_bool in Ex. subst v. reflexivity.
        -- intros Q. cbn in Q. injection Q as Q. apply KV in Q as [_ ->]; [|assumption..]. 
           assert (W : checkValue (word b) = Ok (OBool b)) by (destruct b; reflexivity). rewrite W in Ex. apply Ok_inj in Ex. congruence.
      * right. split; [|exact G]. intros M. apply mentions_inv in M as [(v2 & Q)|[Q|[(v2 & Hd & Q)|(Hd & Q)] ] ]; cbn in Q.
        -- injection Q as Q. apply KV in Q as [Q _]; [congruence|assumption..].
        -- injection Q as Q. first [exact (KN _ _ _ Hk Q)|exact (KN _ _ _ Hk (eq_sym Q))].
        -- destruct k as [|c k]; cbn in Q; [discriminate|]. injection Q as Q _. subst c. exact (Hd k eq_refl).
        -- injection Q as Q. first [exact (Hd _ Q)|exact (Hd _ (eq_sym Q))].
    + apply SN in S. apply Ok_inj in E. symmetry in E. destruct (TR _ _ E) as [->|[N G] ].
      * left. split; [apply (me_long_flag k)|]. exists (OStr []). subst o1. split; [unfold oset; rewrite text_eqb_refl; reflexivity|].
        intros b. split; [discriminate|]. intros Q. cbn in Q. injection Q as Q. destruct (KN _ _ _ Hk Q).
      * right. split; [|exact G]. intros M. apply mentions_inv in M as [(v2 & Q)|[Q|[(v2 & Hd & Q)|(Hd & Q)] ] ]; cbn in Q.
        -- injection Q as Q. first [exact (KN _ _ _ S Q)|exact (KN _ _ _ S (eq_sym Q))].
        -- injection Q as Q. congruence.
        -- destruct k as [|c k]; cbn in Q; [discriminate|]. injection Q as Q _. subst c. exact (Hd k eq_refl).
        -- injection Q as Q. first [exact (Hd _ Q)|exact (Hd _ (eq_sym Q))].
  - assert (ND : forall b, "-"%char :: c2 :: a <> txt "--" ++ k ++ txt "=" ++ word b) by (intros b Q; cbn in Q; congruence).
    destruct (split_at "=" (c2 :: a)) as [ [k1 v] |] eqn:S.
    + apply split_at_spec in S as [S H1]. apply Ok_inj in E. symmetry in E. rewrite S.
      assert (Hd1 : forall k', k1 <> "-"%char :: k'). { intros k' ->. cbn in S. congruence. }
      destruct (TR _ _ E) as [->|[N G] ].
      * left. split; [apply (me_short k v); exact Hd1|]. exists (OStr v). subst o1. split; [unfold oset; rewrite text_eqb_refl; reflexivity|].
        intros b. split; [discriminate|]. rewrite <- S. intros Q. destruct (ND b Q).
      * right. split; [|exact G]. intros M. apply mentions_inv in M as [(v2 & Q)|[Q|[(v2 & Hd & Q)|(Hd & Q)] ] ]; cbn in Q.
        -- rewrite <- S in Q. congruence.
        -- rewrite <- S in Q. congruence.
        -- injection Q as Q. apply KV in Q as [Q _]; [congruence|assumption..].
        -- injection Q as Q. first [exact (KN _ _ _ Hk Q)|exact (KN _ _ _ Hk (eq_sym Q))].
    + apply SN in S. apply Ok_inj in E. symmetry in E. destruct (TR _ _ E) as [Q0|[N G] ].
      * left. subst k. split; [apply (me_short_flag (c2 :: a)); intros k' Q; congruence|]. exists (OStr []). subst o1.
        split; [unfold oset; rewrite text_eqb_refl; reflexivity|]. intros b. split; [discriminate|]. intros Q. destruct (ND b Q).
      * right. split; [|exact G]. intros M. apply mentions_inv in M as [(v2 & Q)|[Q|[(v2 & Hd & Q)|(Hd & Q)] ] ]; cbn in Q.
        -- congruence.
        -- congruence.
        -- injection Q as Q. first [exact (KN _ _ _ S Q)|exact (KN _ _ _ S (eq_sym Q))].
        -- injection Q as Q. congruence.
Qed.

(** [C88] For every command line that is parsed: reading a key as a truth value gives [b] exactly if the last argument that
    mentions the key is --key=true or --key=false with that value.  In all other cases (key never mentioned, key without
    value, one dash, another value) the read throws. *)
Lemma flag_read_pf : forall args o k b, parse args (fun _ => None) = Ok o -> ~ In "="%char k ->
  (fst (get_bool o k) = Ok b <->
   exists before after, args = before ++ (txt "--" ++ k ++ txt "=" ++ word b) :: after /\ forall a, In a after -> ~ mentions a k) /\
  ((forall b', fst (get_bool o k) <> Ok b') -> fst (get_bool o k) = Throw bad_variant_access).
Proof.
  intros args o k b H Hk. 
  assert (GB : forall o b, fst (get_bool o k) = Ok b <-> o k = Some (OBool b)).
  { intros q b'. unfold get_bool, oget. destruct (q k) as [ [s|b0|z|d] |]; cbn; split; intros Q; try discriminate; congruence. }
  split.
  - rewrite GB. unfold parse in H. revert o H. induction args as [|a args IH] using rev_ind; intros o H.
    + cbn in H. apply Ok_inj in H. subst o. split; [discriminate|]. intros (p & q & Q & _). destruct p; discriminate.
    + rewrite foldM_app in H. apply bind_inv in H as (o1 & E1 & H). cbn [foldM] in H. apply bind_inv in H as (o2 & E2 & H).
      apply Ok_inj in H. subst o2. specialize (IH o1 E1). destruct (parse_arg_key _ _ _ k E2 Hk) as [(M & x & Hx & Hb)|(NM & Hx)].
      * rewrite Hx. split.
        -- intros Q. injection Q as Q. apply Hb in Q. exists args, []. subst a. split; [reflexivity|intros ? []].
        -- intros (p & q & Q & Hq). destruct q as [|q0 q] using rev_ind.
           ++ apply app_inj_tail in Q as [_ Q]. f_equal. apply Hb. exact Q.
           ++ clear IHq. exfalso. rewrite app_comm_cons, app_assoc in Q. apply app_inj_tail in Q as [_ <-].
              apply (Hq a); [apply in_app_iff; right; left; reflexivity|exact M].
      * rewrite Hx, IH. split.
        -- intros (p & q & -> & Hq). exists p, (q ++ [a]). split; [rewrite <- app_assoc; reflexivity|].
           intros a' Ha. apply in_app_iff in Ha as [Ha|[<-|[] ] ]; [apply Hq, Ha|exact NM].
        -- intros (p & q & Q & Hq). destruct q as [|q0 q] using rev_ind.
           ++ apply app_inj_tail in Q as [_ ->]. exfalso. apply NM. constructor.
           ++ clear IHq. rewrite app_comm_cons, app_assoc in Q. apply app_inj_tail in Q as [-> <-].
              exists p, q. split; [reflexivity|]. intros a' Ha. apply Hq, in_app_iff. left. exact Ha.
  - intros N. unfold get_bool in *. destruct (oget o k) as [ [s|b0|z|d] o']; cbn in *; try reflexivity. destruct (N b0 eq_refl).
Qed.
(** [C88] So a switch that is given without a value, or not at all, is not read as a truth value. *)
Lemma flag_read_refuted_pf :
  (exists args o, args = [txt "--homogeneous-rhs"] /\ parse args (fun _ => None) = Ok o /\
     fst (get_bool o (txt "homogeneous-rhs")) = Throw bad_variant_access) /\
  (exists o, parse [] (fun _ => None) = Ok o /\ fst (get_bool o (txt "cache-operators")) = Throw bad_variant_access) /\
  (exists o, parse [txt "--cache-operators=1"] (fun _ => None) = Ok o /\ fst (get_bool o (txt "cache-operators")) = Throw bad_variant_access).
Proof. split; [|split]; eexists; [eexists; split; [reflexivity|]|..]; (split; [vm_compute; reflexivity|vm_compute; reflexivity]). Qed.
Lemma flag_read_example_expf : exists o,
  parse [txt "--cache-operators=false"; txt "-x"; txt "--cache-operators=true"; txt "--n=4"] (fun _ => None) = Ok o /\
  fst (get_bool o (txt "cache-operators")) = Ok true.
Proof. eexists. split; vm_compute; reflexivity. Qed.

Lemma parse_arg_uniform a : (forall o, parse_arg o a = Ok o) \/
  exists k r, ~ In "="%char k /\ forall o, parse_arg o a = (x <- r ;; Ok (oset o k x)).
Proof.
  assert (SN : forall s, split_at "=" s = None -> ~ In "="%char s).
  { intros s H Q. unfold split_at in H. clear - H Q. revert H Q. induction s as [|c s IH]; intros H Q; [destruct Q|]. cbn [span] in H.
    destruct (Ascii.eqb_spec c "="%char) as [->|N]; cbn [negb] in H; [discriminate|]. destruct Q as [->|Q]; [congruence|].
    apply IH; [|exact Q]. destruct (span (fun c => negb (Ascii.eqb c "=")) s) as [p [|q0 q]]; [reflexivity|discriminate]. }
  destruct a as [|c a]; [left; reflexivity|]. unfold parse_arg. destruct (Ascii.eqb c "-"); [|left; reflexivity]. right.
  destruct a as [|c2 a]; [exists [], (Ok (OStr [])); split; [intros []|reflexivity]|].
  destruct (Ascii.eqb c2 "-").
  - destruct (split_at "=" a) as [[k v]|] eqn:S.
    + apply split_at_spec in S as [_ H]. exists k, (checkValue v). split; [exact H|reflexivity].
    + exists a, (Ok (OStr [])). split; [apply SN, S|reflexivity].
  - destruct (split_at "=" (c2 :: a)) as [[k v]|] eqn:S.
    + apply split_at_spec in S as [_ H]. exists k, (Ok (OStr v)). split; [exact H|reflexivity].
    + exists (c2 :: a), (Ok (OStr [])). split; [apply SN, S|reflexivity].
Qed.

(** [C87] Whatever the values: after a command line has been parsed, every key has the value that the last argument
    mentioning it gives when it is the only argument, and a key that no argument mentions keeps its value.  Keys with an
    equals sign are never set. *)
Lemma command_line_last_pf : forall args o o' k, parse args o = Ok o' ->
  (forall before a after, args = before ++ a :: after -> ~ In "="%char k -> mentions a k -> (forall b, In b after -> ~ mentions b k) ->
     exists o1 x, parse [a] (fun _ => None) = Ok o1 /\ o1 k = Some x /\ o' k = Some x) /\
  (In "="%char k \/ (forall a, In a args -> ~ mentions a k) -> o' k = o k).
Proof.
  intros args o o' k. revert o. unfold parse. induction args as [|a args IH]; intros o H.
  - cbn in H. apply Ok_inj in H. subst o'. split; [|auto]. intros [|b0 b] a r Q; discriminate.
  - cbn [foldM] in H. apply bind_inv in H as (o1 & E1 & H). destruct (IH o1 H) as [Pa Pb]. split.
    + intros [|b0 before] a' after Q Hk M Hl; cbn [app] in Q; injection Q as -> Q.
      * subst after. destruct (parse_arg_uniform a') as [U|(k1 & r & Hk1 & U)].
        { exfalso. destruct (parse_arg_key (fun _ => None) a' _ k (U _) Hk) as [(_ & x & Q & _)|(N & _)]; [discriminate|exact (N M)]. }
        rewrite U in E1. apply bind_inv in E1 as (x & -> & E1). apply Ok_inj in E1.
        pose proof (U (fun _ => None)) as U0. rewrite bind_Ok in U0. exists (oset (fun _ => None) k1 x), x. cbn [foldM]. rewrite U0, bind_Ok.
        split; [reflexivity|]. 
        destruct (parse_arg_key (fun _ => None) a' _ k U0 Hk) as [(_ & y & Q & _)|(N & _)]; [|destruct (N M)].
        unfold oset in Q at 1. destruct (text_eqb k1 k) eqn:T; [|discriminate]. unfold oset at 1. rewrite T. split; [reflexivity|].
        rewrite Pb by (right; exact Hl). subst o1. unfold oset. rewrite T. reflexivity.
      * eapply Pa; eauto.
    + intros Hn. rewrite Pb by (destruct Hn as [Hn|Hn]; [left; exact Hn|right; intros b Hb; apply Hn; right; exact Hb]).
      destruct (parse_arg_uniform a) as [U|(k1 & r & Hk1 & U)]; [rewrite U in E1; apply Ok_inj in E1; congruence|].
      destruct (in_dec ascii_dec "="%char k) as [He|He].
      * rewrite U in E1. apply bind_inv in E1 as (x & _ & E1). apply Ok_inj in E1. subst o1. unfold oset. rewrite text_eqb_neq; [reflexivity|].
        intros ->. exact (Hk1 He).
      * destruct Hn as [Hn|Hn]; [destruct (He Hn)|]. destruct (parse_arg_key _ _ _ k E1 He) as [(M & _)|(_ & Q)]; [|exact Q].
        destruct (Hn a (or_introl eq_refl) M).
Qed.

(** [C87] The command line is parsed exactly if every argument is when given alone; otherwise the first bad argument decides
    how parsing ends. *)
Lemma command_line_ends_pf : forall args o,
  (is_ok (parse args o) <-> Forall (fun a => is_ok (parse [a] (fun _ => None))) args) /\
  (forall e, parse args o = Throw e -> exists before a after, args = before ++ a :: after /\ is_ok (parse before o) /\
     parse [a] (fun _ => None) = Throw e) /\
  (parse args o = UB -> exists before a after, args = before ++ a :: after /\ is_ok (parse before o) /\
     parse [a] (fun _ => None) = UB).
Proof.
  assert (AL : forall a o, match parse_arg o a, parse [a] (fun _ => None) with
     | Ok _, Ok _ => True | Throw e, Throw e' => e = e' | UB, UB => True | _, _ => False end).
  { intros a o. unfold parse. cbn [foldM]. destruct (parse_arg_uniform a) as [U|(k & r & _ & U)].
    - rewrite !U. exact I.
    - rewrite !U. destruct r; cbn; auto. }
  induction args as [|a args IH]; intros o.
  - split; [split; [constructor|exists o; reflexivity]|]. split; discriminate.
  - pose proof (AL a o) as A. assert (E : parse (a :: args) o = (o1 <- parse_arg o a ;; parse args o1)) by reflexivity.
    assert (C : forall o1, parse_arg o a = Ok o1 -> forall before, is_ok (parse before o1) -> is_ok (parse (a :: before) o)).
    { intros o1 E1 before (y & Hy). exists y. change (parse (a :: before) o) with (o1 <- parse_arg o a ;; parse before o1).
      rewrite E1, bind_Ok. exact Hy. }
    rewrite E. destruct (parse_arg o a) as [o1|e|] eqn:E1.
    + rewrite bind_Ok. destruct (IH o1) as (I1 & I2 & I3). split; [|split].
      * rewrite I1. split; [|intros F; inversion F; assumption]. intros F. constructor; [|exact F].
        destruct (parse [a] (fun _ => None)) as [y| |]; try destruct A. exists y. reflexivity.
      * intros e Q. destruct (I2 e Q) as (b & a' & r & -> & Hb & Ha). exists (a :: b), a', r. eauto.
      * intros Q. destruct (I3 Q) as (b & a' & r & -> & Hb & Ha). exists (a :: b), a', r. eauto.
    + cbn [bind]. split; [|split].
      * split; [intros (y & Q); discriminate|]. intros F. inversion F as [|? ? (y & Q) _]; subst. rewrite Q in A. destruct A.
      * intros e' Q. injection Q as <-. exists [], a, args. split; [reflexivity|]. split; [exists o; reflexivity|].
        destruct (parse [a] (fun _ => None)); try destruct A. reflexivity.
      * discriminate.
    + cbn [bind]. split; [|split].
      * split; [intros (y & Q); discriminate|]. intros F. inversion F as [|? ? (y & Q) _]; subst. rewrite Q in A. destruct A.
      * discriminate.
      * intros _. exists [], a, args. split; [reflexivity|]. split; [exists o; reflexivity|].
        destruct (parse [a] (fun _ => None)); try destruct A. reflexivity.
Qed.
Lemma command_line_ends_example_expf :
  (exists o', parse [txt "a"; txt "--t=abc"; txt "--n=4"; txt "-t=x"] (fun _ => None) = Ok o' /\ o' (txt "t") = Some (OStr (txt "x"))) /\
  parse [txt "--n=4"; txt "--f=mesh.vtk"; txt "--k="] (fun _ => None) = Throw invalid_argument.
Proof. split; [eexists; split|]; vm_compute; reflexivity. Qed.
