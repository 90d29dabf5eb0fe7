(** Property theorems.  Proofs are in NormProps.v; this file only restates the
    statements.  Written by tools/gen_thm.py. *)
From Verif Require Import Base VectorModel MatrixModel LinSpec NormSpec MatProofs LinProofs.
From Coq Require Import Lia.
From Verif Require Import NormProps.

(** [C62] The infinity norm is the largest modulus of a difference of entries; for
    different sizes an exception is raised. *)
Theorem vector_inf_norm : forall v w : list Qc,
  (length v = length w ->
   exists m, vectorInfNorm v w = Ok m /\ largest (fun i => i < length v) (fun i => vval v i - vval w i)%Qc m) /\
  (length v <> length w -> vectorInfNorm v w = Throw invalid_argument).
Proof. exact @vector_inf_norm_pf. Qed.
Print Assumptions vector_inf_norm.

(** [C62] The same for matrices. *)
Theorem matrix_inf_norm : forall a b : matrix Qc, well_formed a -> well_formed b ->
  (nr a = nr b -> nc a = nc b ->
   exists m, matrixInfNorm a b = Ok m /\
     largest (fun p => fst p < nr a /\ snd p < nc a) (fun p => val a (fst p) (snd p) - val b (fst p) (snd p))%Qc m) /\
  (nr a <> nr b \/ nc a <> nc b -> matrixInfNorm a b = Throw invalid_argument).
Proof. exact @matrix_inf_norm_pf. Qed.
Print Assumptions matrix_inf_norm.

(** [C62] The sum under the root of the two-norm. *)
Theorem vector_two_norm : forall v w : list Qc,
  (length v = length w ->
   vectorL2NormSquared v w = Ok (sum (length v) (fun i => (vval v i - vval w i) * (vval v i - vval w i))%Qc)) /\
  (length v <> length w -> vectorL2NormSquared v w = Throw invalid_argument).
Proof. exact @vector_two_norm_pf. Qed.
Print Assumptions vector_two_norm.

(** [C62] The infinity norm is zero exactly for equal vectors. *)
Theorem inf_norm_zero : forall v w : list Qc, length v = length w -> (vectorInfNorm v w = Ok 0%Qc <-> v = w).
Proof. exact @inf_norm_zero_pf. Qed.
Print Assumptions inf_norm_zero.

Example norm_example :
  vectorInfNorm [1; 0; 1]%Qc [0; 1 + 1; 1]%Qc = Ok (1 + 1)%Qc /\
  vectorL2NormSquared [1; 0; 1]%Qc [0; 1 + 1; 1]%Qc = Ok (1 + 1 + 1 + 1 + 1)%Qc /\
  matrixInfNorm (Mat 2 2 [0; 1 + 1; 0; 0]%Qc) (Mat 2 2 [1; 0; 1; 0]%Qc) = Ok (1 + 1)%Qc.
Proof. exact @norm_example_expf. Qed.
