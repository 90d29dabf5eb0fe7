(** Proofs about messages. *)
From Coq Require Import Ascii String.
From Verif Require Import Base MatrixModel XmlModel WireModel WireSpec.

Definition elem_ok {T} (e : elem T) : Prop := forall x, dec e (enc e x) = Some x.
Lemma int_ok : elem_ok int_e. Proof. intros x. reflexivity. Qed.
Lemma dbl_ok : elem_ok dbl_e. Proof. intros x. reflexivity. Qed.
Lemma char_ok : elem_ok char_e. Proof. intros x. reflexivity. Qed.
Lemma bool_ok : elem_ok bool_e. Proof. intros x. reflexivity. Qed.

Lemma to_int_small n : small n -> to_int n = Z.of_nat n.
Proof. unfold small, to_int. intros H. rewrite Z.mod_small by lia. lia. Qed.
Lemma from_to n : small n -> from_int (to_int n) = n.
Proof. intros H. rewrite to_int_small by exact H. unfold from_int, small in *. rewrite Z.mod_small by lia. lia. Qed.

Lemma take_head tag m q : take tag ((tag, m) :: q) = Ok (m, q).
Proof. cbn. rewrite Z.eqb_refl. reflexivity. Qed.

Section One.
Context {T : Type} (e : elem T) (He : elem_ok e).
Lemma decode_enc v : decode e (map (enc e) v) = Ok v.
Proof. unfold decode. induction v as [|x v IH]; [reflexivity|]. cbn [map mapM]. rewrite He, bind_Ok, IH, bind_Ok. reflexivity. Qed.
Lemma fill_enc buf v : List.length buf = List.length v -> fill e buf (map (enc e) v) = Ok v.
Proof.
  intros H. unfold fill. rewrite map_length, H, Nat.ltb_irrefl, decode_enc, bind_Ok. rewrite <- H, skipn_all, app_nil_r. reflexivity.
Qed.
Lemma bfill_enc buf v : List.length buf = List.length v -> bfill e buf (map (enc e) v) = Ok v.
Proof. intros H. unfold bfill. rewrite map_length, H, Nat.eqb_refl. apply decode_enc. Qed.
Lemma recv1_ok tag x old q : recv1 e tag old ((tag, [enc e x]) :: q) = Ok (x, q).
Proof. unfold recv1. rewrite take_head, bind_Ok. change [enc e x] with (map (enc e) [x]). rewrite fill_enc by reflexivity. reflexivity. Qed.
Lemma brecv1_ok x old b : brecv1 e old (bsend1 e x ++ b) = Ok (x, b).
Proof. unfold brecv1, bsend1. cbn [app]. change [enc e x] with (map (enc e) [x]). rewrite bfill_enc by reflexivity. reflexivity. Qed.
Lemma resize_small v n : small n -> exists w, resize e v (to_int n) = Ok w /\ List.length w = n.
Proof.
  intros H. rewrite to_int_small by exact H. unfold resize. destruct (Z.ltb_spec (Z.of_nat n) 0); [lia|]. eexists. split; [reflexivity|].
  rewrite app_length, firstn_length, repeat_length, Nat2Z.id. lia.
Qed.
End One.

Lemma count_small {T} (v : list T) : small (List.length v) -> count_ok v = Ok tt.
Proof. intros H. unfold count_ok. rewrite to_int_small by exact H. destruct (Z.leb_spec 0 (Z.of_nat (List.length v))); [reflexivity|lia]. Qed.
Lemma address_ok {T} strict (v w : list T) : nonempty_if strict v -> List.length w = List.length v -> address strict w = Ok tt.
Proof. intros H E. unfold address. destruct w; [|reflexivity]. destruct strict; [|reflexivity]. destruct v; [|discriminate]. exfalso. apply H; reflexivity. Qed.

Section Wire.
Context (strict : bool).

Lemma vec_transmitted {T} (e : elem T) (He : elem_ok e) tag v : vec_fine strict v -> transmitted (vec_send strict e tag) (vec_recv strict e tag) v.
Proof.
  intros [Hs Hn]. exists [(tag, [enc int_e (to_int (List.length v))]); (tag, map (enc e) v)]. split.
  - intros q. unfold vec_send, send1. rewrite (address_ok strict v v Hn eq_refl), bind_Ok, (count_small v Hs), bind_Ok, <- app_assoc. reflexivity.
  - intros old rest. unfold vec_recv. cbn [app]. rewrite (recv1_ok int_e int_ok), bind_Ok.
    destruct (resize_small e old _ Hs) as (w & E & L). rewrite E, bind_Ok, (address_ok strict v w Hn L), bind_Ok.
    rewrite count_small, bind_Ok by (rewrite L; exact Hs). rewrite take_head, bind_Ok, (fill_enc e He) by exact L. reflexivity.
Qed.
Lemma vec_b {T} (e : elem T) (He : elem_ok e) v : vec_fine strict v ->
  exists ms, vec_bsend strict e v = Ok ms /\ forall old rest, vec_brecv strict e old (ms ++ rest) = Ok (v, rest).
Proof.
  intros [Hs Hn]. eexists. split.
  - unfold vec_bsend. rewrite (address_ok strict v v Hn eq_refl), bind_Ok, (count_small v Hs), bind_Ok. reflexivity.
  - intros old rest. unfold vec_brecv. rewrite <- app_assoc, (brecv1_ok int_e int_ok), bind_Ok.
    destruct (resize_small e old _ Hs) as (w & E & L). rewrite E, bind_Ok, (address_ok strict v w Hn L), bind_Ok.
    rewrite count_small, bind_Ok by (rewrite L; exact Hs). cbn [app]. rewrite (bfill_enc e He) by exact L. reflexivity.
Qed.

Lemma str_transmitted tag s : small (List.length s) -> transmitted (str_send tag) (str_recv tag) s.
Proof.
  intros Hs. exists [(tag, [enc int_e (to_int (List.length s))]); (tag, map (enc char_e) s)]. split.
  - intros q. unfold str_send, send1. rewrite (count_small s Hs), bind_Ok, <- app_assoc. reflexivity.
  - intros old rest. unfold str_recv. cbn [app]. rewrite (recv1_ok int_e int_ok), bind_Ok.
    destruct (resize_small char_e old _ Hs) as (w & E & L). rewrite E, bind_Ok.
    rewrite count_small, bind_Ok by (rewrite L; exact Hs). rewrite take_head, bind_Ok, (fill_enc char_e char_ok) by exact L. reflexivity.
Qed.
Lemma str_b s : small (List.length s) ->
  exists ms, str_bsend s = Ok ms /\ forall old rest, string_fits strict s old -> str_brecv strict old (ms ++ rest) = Ok (s, rest).
Proof.
  intros Hs. eexists. split.
  - unfold str_bsend. rewrite (count_small s Hs), bind_Ok. reflexivity.
  - intros old rest Hf. unfold str_brecv. rewrite <- app_assoc, (brecv1_ok int_e int_ok), bind_Ok.
    assert (R : exists w, read_own strict old (to_int (List.length s)) = Ok w /\ List.length w = List.length s).
    { rewrite to_int_small by exact Hs. unfold read_own. destruct (Z.ltb_spec (Z.of_nat (List.length s)) 0); [lia|].
      cbv zeta. rewrite Nat2Z.id. destruct (Nat.leb_spec (List.length s) (List.length old + 1)) as [L|L].
      - eexists. split; [reflexivity|]. rewrite firstn_length, app_length. cbn. lia.
      - destruct strict eqn:X; [specialize (Hf eq_refl); lia|]. eexists. split; [reflexivity|].
        rewrite app_length, firstn_length, app_length, repeat_length. cbn. lia. }
    destruct R as (w & E & L). rewrite E, bind_Ok. rewrite count_small, bind_Ok by (rewrite L; exact Hs).
    cbn [app]. rewrite (bfill_enc char_e char_ok) by exact L. reflexivity.
Qed.

Lemma vector_transmitted {T} (e : elem T) (He : elem_ok e) tag v : vec_fine strict v -> transmitted (vector_send strict e tag) (vector_recv strict e tag) v.
Proof.
  intros H. destruct (vec_transmitted e He tag v H) as (ms & H1 & H2). exists ms. split; [exact H1|]. intros old rest. apply H2.
Qed.
Lemma vector_b {T} (e : elem T) (He : elem_ok e) v : vec_fine strict v ->
  exists ms, vector_bsend strict e v = Ok ms /\ forall old rest, vector_brecv strict e old (ms ++ rest) = Ok (v, rest).
Proof. intros H. destruct (vec_b e He v H) as (ms & H1 & H2). exists ms. split; [exact H1|]. intros old rest. apply H2. Qed.

Lemma matrix_transmitted {T} (e : elem T) (He : elem_ok e) tag m : mat_fine strict m -> transmitted (matrix_send strict e tag) (matrix_recv strict e tag) m.
Proof.
  intros (Hr & Hc & Hv). destruct (vec_transmitted e He tag (dat m) Hv) as (ms & H1 & H2).
  exists (((tag + 1)%Z, [enc int_e (to_int (nr m))]) :: ((tag + 2)%Z, [enc int_e (to_int (nc m))]) :: ms). split.
  - intros q. unfold matrix_send. cbv zeta. rewrite H1. unfold send1. rewrite <- !app_assoc. reflexivity.
  - intros old rest. unfold matrix_recv. cbn [app]. rewrite (recv1_ok int_e int_ok), bind_Ok, (recv1_ok int_e int_ok), bind_Ok, H2, bind_Ok.
    rewrite !from_to by assumption. destruct m. reflexivity.
Qed.
Lemma matrix_b {T} (e : elem T) (He : elem_ok e) m : mat_fine strict m ->
  exists ms, matrix_bsend strict e m = Ok ms /\ forall old rest, matrix_brecv strict e old (ms ++ rest) = Ok (m, rest).
Proof.
  intros (Hr & Hc & Hv). destruct (vec_b e He (dat m) Hv) as (ms & H1 & H2). eexists. split.
  - unfold matrix_bsend. rewrite H1, bind_Ok. reflexivity.
  - intros old rest. unfold matrix_brecv. rewrite <- !app_assoc, (brecv1_ok int_e int_ok), bind_Ok, (brecv1_ok int_e int_ok), bind_Ok, H2, bind_Ok.
    rewrite !from_to by assumption. destruct m. reflexivity.
Qed.

Lemma grid_b g : grid_fine g -> broadcasted (fun _ => True) grid_bsend grid_brecv g.
Proof.
  intros [H1 H2]. assert (E : grid_make (w_nx g) (w_xl g) (w_xu g) (w_ny g) (w_yl g) (w_yu g) = g).
  { unfold grid_make. rewrite <- H1, <- H2. destruct g. reflexivity. }
  eexists. split; [unfold grid_bsend; rewrite E; reflexivity|]. intros old rest _. unfold grid_brecv. rewrite <- !app_assoc.
  do 2 rewrite (brecv1_ok int_e int_ok), bind_Ok. do 4 rewrite (brecv1_ok dbl_e dbl_ok), bind_Ok. rewrite E. reflexivity.
Qed.

Lemma patch_b p : patch_fine strict p -> broadcasted (fun _ => True) (patch_bsend strict) (patch_brecv strict) p.
Proof.
  intros (Hg & HX & HH & HS & HT & Hu & Hgv & Hv & Hf & Hh & Hw).
  destruct (grid_b _ Hg) as (mg & G1 & G2).
  destruct (matrix_b dbl_e dbl_ok _ HX) as (m1 & A1 & B1). destruct (matrix_b dbl_e dbl_ok _ HH) as (m2 & A2 & B2).
  destruct (matrix_b dbl_e dbl_ok _ HS) as (m3 & A3 & B3). destruct (matrix_b dbl_e dbl_ok _ HT) as (m4 & A4 & B4).
  destruct (vector_b dbl_e dbl_ok _ Hu) as (m5 & A5 & B5). destruct (vector_b dbl_e dbl_ok _ Hgv) as (m6 & A6 & B6).
  destruct (vector_b dbl_e dbl_ok _ Hv) as (m7 & A7 & B7). destruct (vector_b dbl_e dbl_ok _ Hf) as (m8 & A8 & B8).
  destruct (vector_b dbl_e dbl_ok _ Hh) as (m9 & A9 & B9). destruct (vector_b dbl_e dbl_ok _ Hw) as (m10 & A10 & B10).
  eexists. split.
  - unfold patch_bsend. rewrite G1, bind_Ok, A1, bind_Ok, A2, bind_Ok, A3, bind_Ok, A4, bind_Ok, A5, bind_Ok, A6, bind_Ok, A7, bind_Ok, A8, bind_Ok, A9, bind_Ok, A10, bind_Ok.
    destruct p. reflexivity.
  - intros old rest _. unfold patch_brecv. rewrite <- !app_assoc.
    rewrite (brecv1_ok int_e int_ok), bind_Ok, G2, bind_Ok by exact I.
    rewrite B1, bind_Ok, B2, bind_Ok, B3, bind_Ok, B4, bind_Ok, B5, bind_Ok, B6, bind_Ok, B7, bind_Ok, B8, bind_Ok, B9, bind_Ok, B10, bind_Ok.
    destruct p. reflexivity.
Qed.

Lemma node_transmitted {D} (dsend : Z -> D -> mailbox -> res mailbox) drecv tag (n : wnode D) :
  transmitted (dsend tag) (drecv tag) (n_data n) -> small (List.length (n_path n)) ->
  transmitted (node_send dsend tag) (node_recv drecv tag) n.
Proof.
  intros (m1 & A1 & B1) Hs. destruct (str_transmitted tag _ Hs) as (m2 & A2 & B2).
  exists (m1 ++ m2 ++ [(tag, [enc int_e (n_level n)])] ++ [(tag, [enc int_e (n_pfirst n)])] ++ [(tag, [enc int_e (n_plast n)])] ++ [(tag, [enc bool_e (n_leaf n)])]). split.
  - intros q. unfold node_send. rewrite A1, bind_Ok, A2, bind_Ok. cbv zeta. unfold send1. rewrite <- !app_assoc. reflexivity.
  - intros old rest. unfold node_recv. rewrite <- !app_assoc, B1, bind_Ok, B2, bind_Ok. cbn [app].
    do 3 rewrite (recv1_ok int_e int_ok), bind_Ok. rewrite (recv1_ok bool_e bool_ok), bind_Ok. destruct n. reflexivity.
Qed.
Lemma node_b {D} (fits : D -> Prop) dbsend dbrecv (n : wnode D) :
  broadcasted fits dbsend dbrecv (n_data n) -> small (List.length (n_path n)) ->
  broadcasted (fun old => fits (n_data old) /\ string_fits strict (n_path n) (n_path old)) (node_bsend dbsend) (node_brecv strict dbrecv) n.
Proof.
  intros (m1 & A1 & B1) Hs. destruct (str_b _ Hs) as (m2 & A2 & B2). eexists. split.
  - unfold node_bsend. rewrite A1, bind_Ok, A2, bind_Ok. destruct n. reflexivity.
  - intros old rest [F1 F2]. unfold node_brecv. rewrite <- !app_assoc, B1, bind_Ok by exact F1. rewrite B2, bind_Ok by exact F2.
    do 3 rewrite (brecv1_ok int_e int_ok), bind_Ok. rewrite (brecv1_ok bool_e bool_ok), bind_Ok. destruct n. reflexivity.
Qed.
End Wire.

Lemma same_b {A} (fits : A -> Prop) bsend (brecv : A -> list msg -> res (A * list msg)) x :
  (exists ms, bsend x = Ok ms /\ forall old rest, fits old -> brecv old (ms ++ rest) = Ok (x, rest)) -> broadcasted fits (same bsend) brecv x.
Proof. intros (ms & H1 & H2). exists ms. split; [unfold same; rewrite H1, bind_Ok; reflexivity|exact H2]. Qed.

(** A sequence of objects, sent and received in the same order. *)
Lemma sequence_transmitted {A} (send : A -> mailbox -> res mailbox) recv (xs : list A) :
  Forall (transmitted send recv) xs ->
  exists ms, (forall q, foldM (fun q x => send x q) xs q = Ok (q ++ ms)) /\
  forall olds rest, List.length olds = List.length xs ->
    foldM (fun '(got, q) old => '(x, q) <- recv old q ;; Ok (got ++ [x], q)) olds ([], ms ++ rest) = Ok (xs, rest).
Proof.
  intros H.
  assert (G : exists ms, (forall q, foldM (fun q x => send x q) xs q = Ok (q ++ ms)) /\
    forall olds got rest, List.length olds = List.length xs ->
    foldM (fun '(got, q) old => '(x, q) <- recv old q ;; Ok (got ++ [x], q)) olds (got, ms ++ rest) = Ok (got ++ xs, rest)).
  { induction H as [|x xs (ms & H1 & H2) _ (ms' & H3 & H4)].
    - exists []. split; [intros; cbn; rewrite app_nil_r; reflexivity|]. intros [|? ?] got rest L; [|discriminate]. cbn. rewrite app_nil_r. reflexivity.
    - exists (ms ++ ms'). split.
      + intros q. cbn [foldM]. rewrite H1, bind_Ok, H3, app_assoc. reflexivity.
      + intros [|o olds] got rest L; [discriminate|]. cbn [foldM]. rewrite <- app_assoc, H2, !bind_Ok. rewrite H4 by (cbn in L; lia).
        rewrite <- app_assoc. reflexivity. }
  destruct G as (ms & G1 & G2). exists ms. split; [exact G1|]. intros olds rest L. rewrite G2 by exact L. reflexivity.
Qed.
