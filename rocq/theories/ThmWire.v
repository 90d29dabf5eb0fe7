(** Property theorems.  Proofs are in WireProps.v; this file only restates the
    statements.  Written by tools/gen_thm.py. *)
From Coq Require Import Ascii String.
From Verif Require Import Base MatrixModel XmlModel WireModel WireSpec.
From Verif Require Import WireProofs.
From Verif Require Import WireProps.

(** [C52] Send and receive of vectors, matrices, strings and nodes with such data, for every previous content of
    the receiving object.  Missing with [strict = true], that is by the rules of C++: empty containers.  Sizes fit in
    an int. *)
Theorem send_receive_partial : forall (strict : bool) (tag : Z),
  (forall v : list Qc, vec_fine strict v -> transmitted (vector_send strict dbl_e tag) (vector_recv strict dbl_e tag) v) /\
  (forall v : list Z, vec_fine strict v -> transmitted (vec_send strict int_e tag) (vec_recv strict int_e tag) v) /\
  (forall m : matrix Qc, mat_fine strict m -> transmitted (matrix_send strict dbl_e tag) (matrix_recv strict dbl_e tag) m) /\
  (forall s : text, small (List.length s) -> transmitted (str_send tag) (str_recv tag) s) /\
  (forall n : wnode (matrix Qc), mat_fine strict (n_data n) -> small (List.length (n_path n)) ->
     transmitted (node_send (matrix_send strict dbl_e) tag) (node_recv (matrix_recv strict dbl_e) tag) n) /\
  (forall n : wnode (list Qc), vec_fine strict (n_data n) -> small (List.length (n_path n)) ->
     transmitted (node_send (vector_send strict dbl_e) tag) (node_recv (vector_recv strict dbl_e) tag) n).
Proof. exact @send_receive_partial_pf. Qed.
Print Assumptions send_receive_partial.

(** [C52] Sequences of matrices sent with one tag arrive in order. *)
Theorem send_receive_sequence_partial : forall (strict : bool) (tag : Z) (ms : list (matrix Qc)),
  Forall (mat_fine strict) ms ->
  exists sent, (forall q, foldM (fun q x => matrix_send strict dbl_e tag x q) ms q = Ok (q ++ sent)) /\
  forall olds rest, List.length olds = List.length ms ->
    foldM (fun '(got, q) old => '(x, q) <- matrix_recv strict dbl_e tag old q ;; Ok (got ++ [x], q)) olds ([], sent ++ rest) = Ok (ms, rest).
Proof. exact @send_receive_sequence_partial_pf. Qed.
Print Assumptions send_receive_sequence_partial.

(** [C52] Broadcast of vectors, matrices, strings, grids, patches and nodes with patches.  Missing with
    [strict = true]: empty containers, and strings longer than the receiving one by more than one; for every [strict]: grids
    whose spacing is not the one of their bounds. *)
Theorem broadcast_partial : forall strict : bool,
  (forall v : list Qc, vec_fine strict v -> broadcasted (fun _ => True) (same (vector_bsend strict dbl_e)) (vector_brecv strict dbl_e) v) /\
  (forall m : matrix Qc, mat_fine strict m -> broadcasted (fun _ => True) (same (matrix_bsend strict dbl_e)) (matrix_brecv strict dbl_e) m) /\
  (forall s : text, small (List.length s) -> broadcasted (string_fits strict s) (same str_bsend) (str_brecv strict) s) /\
  (forall g, grid_fine g -> broadcasted (fun _ => True) grid_bsend grid_brecv g) /\
  (forall p, patch_fine strict p -> broadcasted (fun _ => True) (patch_bsend strict) (patch_brecv strict) p) /\
  (forall n : wnode wpatch, patch_fine strict (n_data n) -> small (List.length (n_path n)) ->
     broadcasted (fun old => string_fits strict (n_path n) (n_path old)) (node_bsend (patch_bsend strict)) (node_brecv strict (patch_brecv strict)) n).
Proof. exact @broadcast_partial_pf. Qed.
Print Assumptions broadcast_partial.

(** [C52] Where accesses outside of containers do no harm, the restrictions are only those on sizes and on grids: in
    particular every patch of a grid made by the constructor, with any of its matrices and
    vectors empty, arrives in every node. *)
Theorem broadcast_lenient_partial : forall (n : wnode wpatch) (nx ny : Z) (xl xu yl yu : Qc),
  p_grid (n_data n) = grid_make nx xl xu ny yl yu ->
  Forall (fun m => small (nr m) /\ small (nc m) /\ small (List.length (dat m))) [p_X (n_data n); p_H (n_data n); p_S (n_data n); p_T (n_data n)] ->
  Forall (fun v => small (List.length v)) [p_u (n_data n); p_g (n_data n); p_v (n_data n); p_f (n_data n); p_h (n_data n); p_w (n_data n)] ->
  small (List.length (n_path n)) ->
  broadcasted (fun _ => True) (node_bsend (patch_bsend false)) (node_brecv false (patch_brecv false)) n.
Proof. exact @broadcast_lenient_partial_pf. Qed.
Print Assumptions broadcast_lenient_partial.

(** [C52] By the rules of C++, sending or broadcasting an empty vector is undefined, and so are an empty matrix
    and broadcasting a path of two characters to a new node, as the merge of a parallel
    quadtree does.  A default-constructed grid changes its spacing when it is
    broadcast, on the root and elsewhere. *)
Theorem messages_refuted :
  (exists v : list Qc, forall tag q, vector_send true dbl_e tag v q = UB /\ vector_bsend true dbl_e v = UB) /\
  (exists m : matrix Qc, forall tag q, matrix_send true dbl_e tag m q = UB /\ matrix_bsend true dbl_e m = UB) /\
  (exists s old ms, str_bsend s = Ok ms /\ s = txt "00" /\ old = [] /\ str_brecv true old ms = UB) /\
  (exists g ms g', g = grid_default /\ g = WGrid 0 0 0 (Some 0%Qc) 0 0 0 (Some 0%Qc) /\ g' = WGrid 0 0 0 None 0 0 0 None /\
     grid_bsend g = Ok (ms, g') /\ g' <> g /\ grid_brecv grid_default ms = Ok (g', [])).
Proof. exact @messages_refuted_pf. Qed.
Print Assumptions messages_refuted.

(** [C52] Two matrices sent with the tags 0 and 1 cannot be received in the other order: the tags of their parts
    overlap.  (With tags that differ by three or more they could.) *)
Theorem messages_tags_refuted : exists (a b : matrix Qc) q1 q2, mat_fine true a /\ mat_fine true b /\
  matrix_send true dbl_e 0 a [] = Ok q1 /\ matrix_send true dbl_e 1 b q1 = Ok q2 /\
  forall old, matrix_recv true dbl_e 1 old q2 = UB.
Proof. exact @messages_tags_refuted_pf. Qed.
Print Assumptions messages_tags_refuted.

Example wire_node_case : patch_fine true (n_data wire_node) /\ small (List.length (n_path wire_node)) /\
  string_fits true (n_path wire_node) (txt "0").
Proof. exact @wire_node_case_expf. Qed.
