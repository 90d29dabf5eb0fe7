(** Property theorems.  Proofs are in DtnProps.v; this file only restates the
    statements.  Written by tools/gen_thm.py. *)
From Coq Require Import Lqa.
From Verif Require Import Base VectorModel MatrixModel LinSpec HPSModel HPSSpec FVModel FVSpec DtnModel DtnSpec.
From Verif Require Import MatProofs MatProofs2 LinProofs Gauss LinProps HPSProofs3 HPSStage2 FVProofs FVProofs2 FVProofs3 FVMax FVFish FVProps FVGlobal ConvProofs DtnProofs.
From Coq Require Import Lia.
From Verif Require Import DtnProps.

(** [C68] On a square patch whose coefficients are symmetric, the shortened construction
    gives the operator of the full one. *)
Theorem shortened_operator_partial : forall lu c G n,
  lu_contract lu -> proper G -> 2 <= n -> square_patch n G -> symmetric_coefs G c -> fv_unique c G ->
  (forall x y, c_alpha c x y <> 0%Qc) -> c_beta c (gxl G) (gyl G) <> 0%Qc ->
  exists T, fv_build (fv_map (fv_solve lu c)) G = Ok T /\ fv_build_opt (fv_map (fv_solve lu c)) G = Ok T.
Proof. exact @shortened_operator_partial_pf. Qed.
Print Assumptions shortened_operator_partial.

(** [C68] The same for FISHPACK: every square patch. *)
Theorem shortened_operator_fish_partial : forall hst c G n,
  hst_contract hst -> oriented G -> 3 <= n -> square_patch n G -> fv_unique (helmholtz (c_lambda c 0%Qc 0%Qc)) G ->
  exists T, fv_build (fv_map (fish_solve hst c)) G = Ok T /\ fv_build_opt (fv_map (fish_solve hst c)) G = Ok T.
Proof. exact @shortened_operator_fish_partial_pf. Qed.
Print Assumptions shortened_operator_fish_partial.

(** Constant coefficients on any square, and coefficients that grow towards the edge of
    the square [-1,1] x [-1,1] with beta = 1. *)
Example shortened_operator_example :
  (forall a b l xl yl w n, a <> 0%Qc -> (0 < b)%Qc -> (a * l <= 0)%Qc -> (0 < w)%Qc -> 2 <= n ->
     let c := Coefs (fun _ _ => a) (fun _ _ => b) (fun _ _ => l) in let G := Grid n n xl (xl + w)%Qc yl (yl + w)%Qc in
     proper G /\ square_patch n G /\ symmetric_coefs G c /\ fv_unique c G /\ c_beta c (gxl G) (gyl G) <> 0%Qc) /\
  let c := Coefs (fun x y => 1 + x * x + y * y)%Qc (fun _ _ => 1%Qc) (fun x y => - (x * x + y * y))%Qc in
  let G := Grid 2 2 (- (1)) 1 (- (1)) 1 in symmetric_coefs G c /\ fv_unique c G.
Proof. exact @shortened_operator_example_expf. Qed.

(** [C68] Not so for other coefficients, and not on other rectangles. *)
Theorem shortened_operator_refuted :
  (exists lu c G T T', lu_contract lu /\ right_signs c /\ oriented G /\ square_patch 2 G /\
     fv_build (fv_map (fv_solve lu c)) G = Ok T /\ fv_build_opt (fv_map (fv_solve lu c)) G = Ok T' /\ val T 0 2 <> val T' 0 2) /\
  (exists lu c G T T', lu_contract lu /\ (forall x y, c_alpha c x y = 1%Qc /\ c_beta c x y = 1%Qc /\ c_lambda c x y = 0%Qc) /\
     oriented G /\ gnx G = 2 /\ gny G = 2 /\
     fv_build (fv_map (fv_solve lu c)) G = Ok T /\ fv_build_opt (fv_map (fv_solve lu c)) G = Ok T' /\ val T 4 4 <> val T' 4 4).
Proof. exact @shortened_operator_refuted_pf. Qed.
Print Assumptions shortened_operator_refuted.
