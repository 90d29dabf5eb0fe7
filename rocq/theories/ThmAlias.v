(** Property theorems.  Proofs are in AliasProps.v; this file only restates the
    statements.  Written by tools/gen_thm.py. *)
From Coq Require Import Ascii String.
From Verif Require Import Base VectorModel MatrixModel LinSpec MatProofs XmlModel AliasModel AliasSpec.
Local Open Scope nat_scope.
Local Open Scope list_scope.
From Verif Require Import AliasProps.

(** [C73] With a scalar passed by value, or an object outside the vector, every entry is
    combined with the value the scalar had before the call. *)
Theorem scalar_update : forall (A : Type) (op : A -> A -> A) (v : list A) (s : scalar A) (x : A), deref v s = Ok x ->
  (exists w, scalar_by_value op v s = Ok w /\ combined op v x w) /\
  (s = Outside x -> exists w, scalar_by_reference op v s = Ok w /\ combined op v x w).
Proof. exact @scalar_update_pf. Qed.
Print Assumptions scalar_update.

(** [C73] With a reference to entry [k] of the vector itself, entries up to [k] are combined
    with its old value [x] and the entries behind it with its new value. *)
Theorem own_entry_update : forall (A : Type) (op : A -> A -> A) (v : list A) (k : nat) (x : A), nth_error v k = Some x ->
  exists w, scalar_by_reference op v (Entry k) = Ok w /\ length w = length v /\
    forall i a, nth_error v i = Some a -> nth_error w i = Some (op a (if i <=? k then x else op x x)).
Proof. exact @own_entry_update_pf. Qed.
Print Assumptions own_entry_update.

(** [C73] Dividing a vector by its first entry does not divide the other entries by it. *)
Theorem own_entry_refuted : exists (v : list Qc) (k : nat) (x : Qc) (w : list Qc), nth_error v k = Some x /\
  scalar_by_reference Qcdiv v (Entry k) = Ok w /\ ~ combined Qcdiv v x w.
Proof. exact @own_entry_refuted_pf. Qed.
Print Assumptions own_entry_refuted.

(** [C73] A vector may be added to or subtracted from itself. *)
Theorem self_update : forall (A : Type) (op : A -> A -> A) (v : list A),
  vector_update op v Same = Ok (map (fun a => op a a) v) /\
  (forall w, length w = length v -> vector_update op v (Other w) = Ok (map (fun p => op (fst p) (snd p)) (combine v w))) /\
  (forall w, length w <> length v -> vector_update op v (Other w) = Throw invalid_argument).
Proof. exact @self_update_pf. Qed.
Print Assumptions self_update.

(** [C73] A copy has the entries of the original and nothing else of it; an assigned vector
    has the entries of the right-hand side and keeps the name it had. *)
Theorem copies : forall (A : Type) (v t : vobj A),
  o_data (copy_vobj v) = o_data v /\ o_name (copy_vobj v) = txt "Vector" /\
  o_data (assign_vobj false t v) = o_data v /\ o_name (assign_vobj false t v) = o_name t /\
  assign_vobj true v v = v.
Proof. exact @copies_pf. Qed.
Print Assumptions copies.

(** [C73] The name of a vector, under which it is written to files, is not copied. *)
Theorem copy_name_refuted : exists v : vobj nat, o_name (copy_vobj v) <> o_name v.
Proof. exact @copy_name_refuted_pf. Qed.
Print Assumptions copy_name_refuted.

(** [C73] A matrix made from r*c entries has them by rows. *)
Theorem matrix_from_data : forall (A : Type) (r c : nat) (d : list A), length d = r * c ->
  exists m, matrix_from r c d = Ok m /\ nr m = r /\ nc m = c /\
    forall i j, i < r -> j < c -> exists a, mget m i j = Ok a /\ nth_error d (i * c + j) = Some a.
Proof. exact @matrix_from_data_pf. Qed.
Print Assumptions matrix_from_data.

(** [C73] Other numbers of entries are accepted, too: reading an entry inside the matrix is
    then undefined. *)
Theorem matrix_from_refuted : exists (r c : nat) (d : list nat) (m : matrix nat) (i j : nat),
  matrix_from r c d = Ok m /\ i < r /\ j < c /\ mget m i j = UB.
Proof. exact @matrix_from_refuted_pf. Qed.
Print Assumptions matrix_from_refuted.

Example scalar_update_example :
  scalar_by_value Nat.add [1; 2; 3] (Entry 1) = Ok [3; 4; 5] /\
  scalar_by_reference Nat.sub [5; 2; 3] (Entry 1) = Ok [3; 0; 3] /\
  vector_update Nat.add [1; 2] Same = Ok [2; 4].
Proof. exact @scalar_update_example_expf. Qed.
