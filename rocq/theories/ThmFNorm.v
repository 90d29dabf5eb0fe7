(** Property theorems.  Proofs are in FNormProps.v; this file only restates the
    statements.  Written by tools/gen_thm.py. *)
From Coq Require Import Reals Lra.
From Flocq Require Import Core Binary Bits.
From Verif Require Import Base VectorModel MatrixModel LinSpec MatProofs FloatModel FloatSpec FloatProofs
  FNormModel FNormSpec FNormProofs.
Local Open Scope R_scope.
From Verif Require Import FNormProps.

(** [C72] The infinity norm of a difference of vectors is the greatest difference of
    entries rounded once. *)
Theorem double_vector_norm : forall v w : list double, length v = length w -> Forall tame (combine v w) ->
  exists M r, dvectorInfNorm v w = Ok r /\ greatest (combine v w) M /\ nearest M r.
Proof. exact @double_vector_norm_pf. Qed.
Print Assumptions double_vector_norm.

(** [C72] The same for matrices. *)
Theorem double_matrix_norm : forall a b : matrix double, well_formed a -> well_formed b -> nr a = nr b -> nc a = nc b ->
  Forall tame (combine (dat a) (dat b)) ->
  exists M r, dmatrixInfNorm a b = Ok r /\ greatest (combine (dat a) (dat b)) M /\ nearest M r.
Proof. exact @double_matrix_norm_pf. Qed.
Print Assumptions double_matrix_norm.

(** [C72] The norm of finite data, however large, is zero exactly if the entries are equal. *)
Theorem double_norm_zero : forall v w : list double, length v = length w ->
  Forall (fun p => finite (fst p) /\ finite (snd p)) (combine v w) ->
  exists r, dvectorInfNorm v w = Ok r /\ (is_zero r <-> Forall (fun p => val (fst p) = val (snd p)) (combine v w)).
Proof. exact @double_norm_zero_pf. Qed.
Print Assumptions double_norm_zero.

(** [C72] Entries whose difference is not a number do not count. *)
Theorem double_norm_skips_nan : forall v w : list double, length v = length w ->
  let numbers := filter (fun p => negb (dnan (dsub (fst p) (snd p)))) (combine v w) in
  dvectorInfNorm v w = dvectorInfNorm (map fst numbers) (map snd numbers).
Proof. exact @double_norm_skips_nan_pf. Qed.
Print Assumptions double_norm_skips_nan.

(** [C72] A norm of zero does not mean that the vectors agree: a vector that has no number in
    it is reported to have distance zero from another one. *)
Theorem double_norm_hides_nan_refuted : exists v w : list double, length v = length w /\ v <> [] /\
  (forall x, In x v -> dnan x = true) /\ (forall x, In x w -> finite x) /\ dvectorInfNorm v w = Ok (dint 0).
Proof. exact @double_norm_hides_nan_refuted_pf. Qed.
Print Assumptions double_norm_hides_nan_refuted.

(** [C72] The norm of squares shows that an entry is not a number, if pow does. *)
Theorem double_l2_shows_nan : forall (pow2 : double -> double) (v w : list double), length v = length w ->
  (forall x, dnan x = true -> dnan (pow2 x) = true) ->
  (exists p, In p (combine v w) /\ dnan (dsub (fst p) (snd p)) = true) ->
  exists r, dvectorL2Norm pow2 v w = Ok r /\ dnan r = true.
Proof. exact @double_l2_shows_nan_pf. Qed.
Print Assumptions double_l2_shows_nan.

(** The hypotheses hold for entries 1 and 1/3 against 0 and 1/3; the norm is 1. *)
Example double_norm_example :
  let third := ddiv (dint 1) (dint 3) in
  Forall tame (combine [dint 1; third] [dint 0; third]) /\
  dvectorInfNorm [dint 1; third] [dint 0; third] = Ok (dint 1) /\
  dvectorInfNorm [third] [dint 0] = Ok third.
Proof. exact @double_norm_example_expf. Qed.
