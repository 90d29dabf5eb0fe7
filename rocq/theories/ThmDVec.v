(** Property theorems.  Proofs are in DVecProps.v; this file only restates the
    statements.  Written by tools/gen_thm.py. *)
From Verif Require Import Base VectorModel MatrixModel PMatModel PMatSpec PMatProps DVecModel DVecSpec DVecProofs.
From Verif Require Import DVecProps.

(** [C81] Every row belongs to exactly one rank. *)
Theorem rows_divided : forall (n p : nat), 0 < p -> one_owner n p (row_start n p) (row_count n p).
Proof. exact @rows_divided_pf. Qed.
Print Assumptions rows_divided.

(** [C81] If the ranks write every entry of a vector, on whatever rank and as often as they like, and do not
    contradict each other, then after assembly the vector has the values written, whatever the order in
    which the messages arrive; negative indices are skipped. *)
Theorem vector_after_assembly : forall (n p : nat) (f : nat -> Qc) (idx : nat -> list Z) (vals : nat -> list Qc) (order : nat -> list nat),
  0 < p ->
  (forall r, r < p -> length (idx r) <= length (vals r)) ->
  (forall r i, r < p -> In i (idx r) -> (i < Z.of_nat n)%Z) ->
  (forall r k v, r < p -> In (Z.of_nat k, v) (combine (idx r) (vals r)) -> v = f k) ->
  (forall k, k < n -> exists r, r < p /\ In (Z.of_nat k) (idx r)) ->
  (forall r s, r < p -> (In s (order r) <-> s < p)) ->
  exists ranks, mapM (fun r => vec_set_values n p r (fresh_rank n p 1 r) (idx r) (vals r)) (seq 0 p) = Ok ranks /\
    global (assemble n p 1 order ranks) = map f (seq 0 n).
Proof. exact @vector_after_assembly_pf. Qed.
Print Assumptions vector_after_assembly.

(** [C81] The same for the blocks of values written into a matrix of [n] rows and [w] columns. *)
Theorem matrix_after_assembly : forall (n p w : nat) (f : nat -> nat -> Qc) (rows cols : nat -> list Z) (vals : nat -> list Qc) (order : nat -> list nat),
  0 < p ->
  (forall r, r < p -> length (rows r) * length (cols r) <= length (vals r)) ->
  (forall r i, r < p -> In i (rows r) -> (0 <= i < Z.of_nat n)%Z) ->
  (forall r j, r < p -> In j (cols r) -> (0 <= j < Z.of_nat w)%Z) ->
  (forall r i j a b, r < p -> nth_error (rows r) a = Some (Z.of_nat i) -> nth_error (cols r) b = Some (Z.of_nat j) ->
     nth (a * length (cols r) + b) (vals r) 0%Qc = f i j) ->
  (forall i j, i < n -> j < w -> exists r, r < p /\ In (Z.of_nat i) (rows r) /\ In (Z.of_nat j) (cols r)) ->
  (forall r s, r < p -> (In s (order r) <-> s < p)) ->
  exists ranks, mapM (fun r => mat_set_values n p w r (fresh_rank n p w r) (rows r) (cols r) (vals r)) (seq 0 p) = Ok ranks /\
    length (global (assemble n p w order ranks)) = n * w /\
    forall i j, i < n -> j < w -> nth (i * w + j) (global (assemble n p w order ranks)) 0%Qc = f i j.
Proof. exact @matrix_after_assembly_pf. Qed.
Print Assumptions matrix_after_assembly.

(** [C81] A serial vector that is the same on every rank: the entries are right on every rank at once,
    and stay so when the vector is assembled, in every order of messages. *)
Theorem serial_vector_distributed : forall (p : nat) (v : list Qc), 0 < p ->
  exists ranks, from_serial_vector (repeat v p) = Ok ranks /\ global ranks = v /\
    forall order, (forall r s, r < p -> In s (order r) -> s < p) -> global (assemble (length v) p 1 order ranks) = v.
Proof. exact @serial_vector_distributed_pf. Qed.
Print Assumptions serial_vector_distributed.

(** [C81] A serial matrix that is the same on every rank. *)
Theorem serial_matrix_distributed : forall (p : nat) (m : matrix Qc), 0 < p -> length (dat m) = nr m * nc m ->
  exists ranks, from_serial_matrix (repeat m p) = Ok ranks /\ global ranks = dat m /\
    forall order, (forall r s, r < p -> In s (order r) -> s < p) -> global (assemble (nr m) p (nc m) order ranks) = dat m.
Proof. exact @serial_matrix_distributed_pf. Qed.
Print Assumptions serial_matrix_distributed.

(** [C81] Serial vectors that differ: the owner's values at first, after assembly those of the rank whose
    message comes last. *)
Theorem different_serials_refuted : exists (serials : list (list Qc)) (ranks : list vrank) (order order' : nat -> list nat),
  from_serial_vector serials = Ok ranks /\
  (forall r s, r < 3 -> (In s (order r) <-> s < 3)) /\ (forall r s, r < 3 -> (In s (order' r) <-> s < 3)) /\
  global (assemble 3 3 1 order ranks) <> global (assemble 3 3 1 order' ranks) /\
  global (assemble 3 3 1 order ranks) <> global ranks.
Proof. exact @different_serials_refuted_pf. Qed.
Print Assumptions different_serials_refuted.

(** [C81] setValues reads as many values as there are indices, or rows times columns; fewer are not noticed. *)
Theorem short_values_undefined : forall (n p w r : nat) (x : vrank) (idx rows cols : list Z) (vals : list Qc),
  (length vals < length idx -> vec_set_values n p r x idx vals = UB) /\
  (length vals < length rows * length cols -> mat_set_values n p w r x rows cols vals = UB).
Proof. exact @short_values_undefined_pf. Qed.
Print Assumptions short_values_undefined.

(** [C81] Programs that neither copy a vector nor write over one: when all objects are gone every vector was
    destroyed exactly once.  Missing: the other programs, for which it is false. *)
Theorem vectors_destroyed_once_partial : forall (cs : list vcall) (st : vstate),
  single_owner_run v_start cs -> v_run cs = Ok st -> all_gone st -> each_vector_once st.
Proof. exact @vectors_destroyed_once_partial_pf. Qed.
Print Assumptions vectors_destroyed_once_partial.

(** [C81] A copy of a vector and its original destroy it twice; an assignment loses the vector on the left
    and destroys the other one twice; a second create loses the first vector. *)
Theorem vectors_destroyed_once_refuted :
  (exists st, v_run [VMake 0; VCopy 1 0; VDestroy 1; VDestroy 0] = Ok st /\ all_gone st /\ count_occ Nat.eq_dec (v_destroyed st) 0 = 2) /\
  (exists st, v_run [VMake 0; VMake 1; VAssign 0 1; VDestroy 1; VDestroy 0] = Ok st /\ all_gone st /\
     count_occ Nat.eq_dec (v_destroyed st) 0 = 0 /\ count_occ Nat.eq_dec (v_destroyed st) 1 = 2) /\
  (exists st, v_run [VMake 0; VCreate 0; VDestroy 0] = Ok st /\ all_gone st /\ count_occ Nat.eq_dec (v_destroyed st) 0 = 0).
Proof. exact @vectors_destroyed_once_refuted_pf. Qed.
Print Assumptions vectors_destroyed_once_refuted.

(** [C81] The vectors inside of a patch are never made (FiniteVolumePatch.hpp:103-133), so patches may be
    copied and assigned: no vector is ever made or destroyed. *)
Theorem patch_vectors_harmless : forall (cs : list vcall) (st : vstate),
  Forall patch_use cs -> v_run cs = Ok st -> v_next st = 0 /\ v_destroyed st = [] /\ forall o, ~ has_vector st o.
Proof. exact @patch_vectors_harmless_pf. Qed.
Print Assumptions patch_vectors_harmless.

(** [C81] Five entries on two ranks; a program that owns two vectors. *)
Example distributed_example :
  (exists ranks, from_serial_vector (repeat [1; 0; 1; 0; 1]%Qc 2) = Ok ranks /\ map (fun r => length (v_own r)) ranks = [3; 2] /\
     map (fun r => length (v_stash r)) ranks = [2; 3]) /\
  single_owner_run v_start [VMake 0; VDefault 1; VCreate 1; VDefault 2; VCopy 3 2; VDestroy 0; VDestroy 1] /\
  is_ok (v_run [VMake 0; VDefault 1; VCreate 1; VDefault 2; VCopy 3 2; VDestroy 0; VDestroy 1]).
Proof. exact @distributed_example_expf. Qed.
