(** Properties of messages. *)
From Coq Require Import Ascii String.
From Verif Require Import Base MatrixModel XmlModel WireModel WireSpec.
From Verif Require Import WireProofs.

(** [C52] Send and receive of vectors, matrices, strings and nodes with such data, for every previous content of
    the receiving object.  Missing with [strict = true], that is by the rules of C++: empty containers.  Sizes fit in
    an int. *)
Lemma send_receive_partial_pf : forall (strict : bool) (tag : Z),
  (forall v : list Qc, vec_fine strict v -> transmitted (vector_send strict dbl_e tag) (vector_recv strict dbl_e tag) v) /\
  (forall v : list Z, vec_fine strict v -> transmitted (vec_send strict int_e tag) (vec_recv strict int_e tag) v) /\
  (forall m : matrix Qc, mat_fine strict m -> transmitted (matrix_send strict dbl_e tag) (matrix_recv strict dbl_e tag) m) /\
  (forall s : text, small (List.length s) -> transmitted (str_send tag) (str_recv tag) s) /\
  (forall n : wnode (matrix Qc), mat_fine strict (n_data n) -> small (List.length (n_path n)) ->
     transmitted (node_send (matrix_send strict dbl_e) tag) (node_recv (matrix_recv strict dbl_e) tag) n) /\
  (forall n : wnode (list Qc), vec_fine strict (n_data n) -> small (List.length (n_path n)) ->
     transmitted (node_send (vector_send strict dbl_e) tag) (node_recv (vector_recv strict dbl_e) tag) n).
Proof.
  intros strict tag. split; [intros; apply vector_transmitted; [exact dbl_ok|assumption]|].
  split; [intros; apply vec_transmitted; [exact int_ok|assumption]|].
  split; [intros; apply matrix_transmitted; [exact dbl_ok|assumption]|].
  split; [intros; apply str_transmitted; assumption|].
  split; intros; apply node_transmitted; try assumption.
  - apply matrix_transmitted; [exact dbl_ok|assumption].
  - apply vector_transmitted; [exact dbl_ok|assumption].
Qed.

(** [C52] Sequences of matrices sent with one tag arrive in order. *)
Lemma send_receive_sequence_partial_pf : forall (strict : bool) (tag : Z) (ms : list (matrix Qc)),
  Forall (mat_fine strict) ms ->
  exists sent, (forall q, foldM (fun q x => matrix_send strict dbl_e tag x q) ms q = Ok (q ++ sent)) /\
  forall olds rest, List.length olds = List.length ms ->
    foldM (fun '(got, q) old => '(x, q) <- matrix_recv strict dbl_e tag old q ;; Ok (got ++ [x], q)) olds ([], sent ++ rest) = Ok (ms, rest).
Proof.
  intros strict tag ms H. apply sequence_transmitted. eapply Forall_impl; [|exact H]. intros m Hm.
  apply matrix_transmitted; [exact dbl_ok|exact Hm].
Qed.

(** [C52] Broadcast of vectors, matrices, strings, grids, patches and nodes with patches.  Missing with
    [strict = true]: empty containers, and strings longer than the receiving one by more than one; for every [strict]: grids
    whose spacing is not the one of their bounds. *)
Lemma broadcast_partial_pf : forall strict : bool,
  (forall v : list Qc, vec_fine strict v -> broadcasted (fun _ => True) (same (vector_bsend strict dbl_e)) (vector_brecv strict dbl_e) v) /\
  (forall m : matrix Qc, mat_fine strict m -> broadcasted (fun _ => True) (same (matrix_bsend strict dbl_e)) (matrix_brecv strict dbl_e) m) /\
  (forall s : text, small (List.length s) -> broadcasted (string_fits strict s) (same str_bsend) (str_brecv strict) s) /\
  (forall g, grid_fine g -> broadcasted (fun _ => True) grid_bsend grid_brecv g) /\
  (forall p, patch_fine strict p -> broadcasted (fun _ => True) (patch_bsend strict) (patch_brecv strict) p) /\
  (forall n : wnode wpatch, patch_fine strict (n_data n) -> small (List.length (n_path n)) ->
     broadcasted (fun old => string_fits strict (n_path n) (n_path old)) (node_bsend (patch_bsend strict)) (node_brecv strict (patch_brecv strict)) n).
Proof.
  intros strict.
  split; [intros v H; apply same_b; destruct (vector_b strict dbl_e dbl_ok v H) as (ms & H1 & H2); exists ms; split; [exact H1|intros; apply H2]|].
  split; [intros v H; apply same_b; destruct (matrix_b strict dbl_e dbl_ok v H) as (ms & H1 & H2); exists ms; split; [exact H1|intros; apply H2]|].
  split; [intros s H; apply same_b; exact (str_b strict s H)|].
  split; [exact grid_b|]. split; [exact (patch_b strict)|].
  intros n Hp Hs. destruct (node_b strict (fun _ => True) (patch_bsend strict) (patch_brecv strict) n (patch_b strict _ Hp) Hs) as (ms & H1 & H2).
  exists ms. split; [exact H1|]. intros old rest Hf. apply H2. auto.
Qed.

(** [C52] Where accesses outside of containers do no harm, the restrictions are only those on sizes and on grids: in
    particular every patch of a grid made by the constructor, with any of its matrices and
    vectors empty, arrives in every node. *)
Lemma broadcast_lenient_partial_pf : forall (n : wnode wpatch) (nx ny : Z) (xl xu yl yu : Qc),
  p_grid (n_data n) = grid_make nx xl xu ny yl yu ->
  Forall (fun m => small (nr m) /\ small (nc m) /\ small (List.length (dat m))) [p_X (n_data n); p_H (n_data n); p_S (n_data n); p_T (n_data n)] ->
  Forall (fun v => small (List.length v)) [p_u (n_data n); p_g (n_data n); p_v (n_data n); p_f (n_data n); p_h (n_data n); p_w (n_data n)] ->
  small (List.length (n_path n)) ->
  broadcasted (fun _ => True) (node_bsend (patch_bsend false)) (node_brecv false (patch_brecv false)) n.
Proof.
  intros n nx ny xl xu yl yu Hg Hm Hv Hs.
  assert (P : patch_fine false (n_data n)).
  { unfold patch_fine. split; [rewrite Hg; split; reflexivity|].
    repeat match goal with H : Forall _ (_ :: _) |- _ => let H1 := fresh in let H2 := fresh in apply Forall_inv in H as H1; apply Forall_inv_tail in H; try destruct H1 as (? & ? & ?) end.
    unfold mat_fine, vec_fine, nonempty_if. repeat split; try assumption; discriminate. }
  destruct (proj2 (proj2 (proj2 (proj2 (proj2 (broadcast_partial_pf false))))) n P Hs) as (ms & H1 & H2).
  exists ms. split; [exact H1|]. intros old rest _. apply H2. discriminate.
Qed.

(** [C52] By the rules of C++, sending or broadcasting an empty vector is undefined, and so are an empty matrix
    and broadcasting a path of two characters to a new node, as the merge of a parallel
    quadtree does.  A default-constructed grid changes its spacing when it is
    broadcast, on the root and elsewhere. *)
Lemma messages_refuted_pf :
  (exists v : list Qc, forall tag q, vector_send true dbl_e tag v q = UB /\ vector_bsend true dbl_e v = UB) /\
  (exists m : matrix Qc, forall tag q, matrix_send true dbl_e tag m q = UB /\ matrix_bsend true dbl_e m = UB) /\
  (exists s old ms, str_bsend s = Ok ms /\ s = txt "00" /\ old = [] /\ str_brecv true old ms = UB) /\
  (exists g ms g', g = grid_default /\ g = WGrid 0 0 0 (Some 0%Qc) 0 0 0 (Some 0%Qc) /\ g' = WGrid 0 0 0 None 0 0 0 None /\
     grid_bsend g = Ok (ms, g') /\ g' <> g /\ grid_brecv grid_default ms = Ok (g', [])).
Proof.
  split; [exists []; intros; split; reflexivity|].
  split; [exists (Mat 0 0 []); intros; split; reflexivity|].
  split; [eexists (txt "00"), [], _; split; [reflexivity|]; split; [reflexivity|]; split; reflexivity|].
  exists grid_default. eexists _, _. split; [reflexivity|]. split; [reflexivity|]. split; [reflexivity|]. split; [reflexivity|]. split; [discriminate|reflexivity].
Qed.

(** [C52] Two matrices sent with the tags 0 and 1 cannot be received in the other order: the tags of their parts
    overlap.  (With tags that differ by three or more they could.) *)
Lemma messages_tags_refuted_pf : exists (a b : matrix Qc) q1 q2, mat_fine true a /\ mat_fine true b /\
  matrix_send true dbl_e 0 a [] = Ok q1 /\ matrix_send true dbl_e 1 b q1 = Ok q2 /\
  forall old, matrix_recv true dbl_e 1 old q2 = UB.
Proof.
  exists (Mat 1 1 [1%Qc]), (Mat 1 1 [0%Qc]). eexists _, _.
  assert (F : forall x : Qc, mat_fine true (Mat 1 1 [x])).
  { intros x. unfold mat_fine, vec_fine, small, nonempty_if. cbn. repeat split; try lia. discriminate. }
  split; [apply F|]. split; [apply F|]. split; [reflexivity|]. split; [reflexivity|]. intros old. reflexivity.
Qed.

(** A patch all of whose matrices and vectors have entries, in a node; its broadcast to a node with other content. *)
Definition wire_patch : wpatch :=
  WPatch 1 (grid_make 2 0 1 2 0 1) (Mat 1 2 [1; q2]%Qc) (Mat 1 1 [1]%Qc) (Mat 1 1 [q2]%Qc) (Mat 2 1 [1; 0]%Qc)
    [1]%Qc [0]%Qc [q2; 1]%Qc [1]%Qc [1]%Qc [0; 0]%Qc.
Definition wire_node : wnode wpatch := WNode wire_patch (txt "01") 1 0 2 true.
Lemma wire_node_case_expf : patch_fine true (n_data wire_node) /\ small (List.length (n_path wire_node)) /\
  string_fits true (n_path wire_node) (txt "0").
Proof.
  unfold patch_fine, mat_fine, vec_fine, grid_fine, small, nonempty_if, string_fits. cbn.
  repeat split; try reflexivity; try lia; try discriminate.
Qed.
