(** Property theorems.  Proofs are in PMatProps.v; this file only restates the
    statements.  Written by tools/gen_thm.py. *)
From Verif Require Import Base PMatModel PMatSpec.
From Verif Require Import PMatProps.

(** [C54] Programs in which every call is careful: when all objects are gone, every matrix was destroyed
    exactly once.  Missing: the other calls, for which it is false. *)
Theorem matrices_destroyed_once_partial : forall (cs : list pcall) (st : pstate),
  careful_run p_start cs -> p_run cs = Ok st -> no_objects st -> each_destroyed_once st.
Proof. exact @matrices_destroyed_once_partial_pf. Qed.
Print Assumptions matrices_destroyed_once_partial.

(** [C54] In careful programs no matrix is destroyed twice at any time, and no owned matrix is destroyed. *)
Theorem owned_matrices_alive_partial : forall (cs : list pcall) (st : pstate),
  careful_run p_start cs -> p_run cs = Ok st ->
  (forall m, count_occ Nat.eq_dec (p_destroyed st) m <= 1) /\
  (forall o x m, p_objs st o = Some x -> p_created x = true -> p_mat x = Some m -> ~ In m (p_destroyed st)).
Proof. exact @owned_matrices_alive_partial_pf. Qed.
Print Assumptions owned_matrices_alive_partial.

(** [C54] A copy: destroyed twice.  A move into an object with a matrix, the constructor with a new
    communicator, create on an object with a matrix: never destroyed. *)
Theorem matrices_destroyed_once_refuted :
  (exists cs st m, cs = [PMake 0; PCopy 1 0; PDestroy 1; PDestroy 0] /\ p_run cs = Ok st /\ no_objects st /\
     m < p_next st /\ count_occ Nat.eq_dec (p_destroyed st) m = 2) /\
  (exists cs st m, cs = [PMake 0; PMake 1; PMove 0 1; PDestroy 1; PDestroy 0] /\ p_run cs = Ok st /\ no_objects st /\
     m < p_next st /\ count_occ Nat.eq_dec (p_destroyed st) m = 0) /\
  (exists cs st m, cs = [PMake 0; PSubComm 1 0; PDestroy 1; PDestroy 0] /\ p_run cs = Ok st /\ no_objects st /\
     m < p_next st /\ count_occ Nat.eq_dec (p_destroyed st) m = 0) /\
  (exists cs st m, cs = [PMake 0; PCreate 0; PDestroy 0] /\ p_run cs = Ok st /\ no_objects st /\
     m < p_next st /\ count_occ Nat.eq_dec (p_destroyed st) m = 0).
Proof. exact @matrices_destroyed_once_refuted_pf. Qed.
Print Assumptions matrices_destroyed_once_refuted.

Example careful_example_case : careful_run p_start careful_example /\
  exists st, p_run careful_example = Ok st /\ no_objects st /\ p_next st = 4.
Proof. exact @careful_example_case_expf. Qed.
