(** Property theorems.  Proofs are in SymProps.v; this file only restates the
    statements.  Written by tools/gen_thm.py. *)
From Coq Require Import Lqa.
From Verif Require Import Base VectorModel MatrixModel LinSpec HPSModel HPSSpec FVModel FVSpec StageSpec GlobalSpec AdaptSpec CompareSpec ConvSpec MixSpec SymSpec.
From Verif Require Import MatProofs MatProofs2 LinProofs Gauss LinProps HPSProofs HPSProofs3 HPSProofs4 HPSStage2 HPSTree HPSTree2 HPSHistory HPSRebuild HPSProps StageProps.
From Verif Require Import FVProofs FVProofs2 FVProofs3 FVMax FVJoin FVGlobal FVFish FVEnd FVProps FVCompare CompareProps ConvProofs ConvProps FVMixed MixProps SymProofs.
From Coq Require Import Lia.
From Verif Require Import SymProps.

(** [C67] Green's identity on every rectangle: the work of the first flux on the second
    boundary data minus the reverse is the same difference for the loads. *)
Theorem green_identity : forall c G g f u g' f' u', proper G -> (forall x y, c_alpha c x y <> 0%Qc) ->
  fv_solution c G g f u -> fv_solution c G g' f' u' ->
  (boundary_work c G (boundary_flux G g u) g' - boundary_work c G (boundary_flux G g' u') g =
   load_work c G f u' - load_work c G f' u)%Qc.
Proof. exact @green_identity_pf. Qed.
Print Assumptions green_identity.

(** [C67] The operator of the root of a uniform mesh (five-point patches). *)
Theorem root_operator : forall m l lu c gesv rhs xl xu yl yu s t st,
  2 <= m -> lu_contract lu -> gesv_contract gesv -> right_signs c -> (xl < xu)%Qc -> (yl < yu)%Qc ->
  let G := whole m l xl xu yl yu in uniform m l G s -> fresh (sampled rhs) s t ->
  exists st1 t1, buildStage (fv_solver lu c) gesv false st t = Ok (st1, t1) /\
    nr (pT (data t1)) = 4 * (m * 2 ^ l) /\ well_behaved c (m * 2 ^ l) G (pT (data t1)).
Proof. exact @root_operator_pf. Qed.
Print Assumptions root_operator.

(** [C67] The same with FISHPACK patches, alpha = beta = 1 and lambda <= 0. *)
Theorem root_operator_fish : forall m l hst c lam gesv rhs xl xu yl yu s t st,
  3 <= m -> hst_contract hst -> gesv_contract gesv ->
  (forall x y, c_alpha c x y = 1%Qc /\ c_beta c x y = 1%Qc /\ c_lambda c x y = lam) -> (lam <= 0)%Qc -> (xl < xu)%Qc -> (yl < yu)%Qc ->
  let G := whole m l xl xu yl yu in uniform m l G s -> fresh (sampled rhs) s t ->
  exists st1 t1, buildStage (fish_solver hst c) gesv false st t = Ok (st1, t1) /\
    nr (pT (data t1)) = 4 * (m * 2 ^ l) /\ well_behaved c (m * 2 ^ l) G (pT (data t1)).
Proof. exact @root_operator_fish_pf. Qed.
Print Assumptions root_operator_fish.

Example root_operator_example : forall l,
  let G := whole 2 l 0 (1 + 1) 0 1 in let rhs := fun x y : Qc => (x + y)%Qc in
  right_signs sym_coefs /\ uniform 2 l G (divided rhs 2 l G) /\ fresh (sampled rhs) (divided rhs 2 l G) (fresh_tree (divided rhs 2 l G)).
Proof. exact @root_operator_example_expf. Qed.
