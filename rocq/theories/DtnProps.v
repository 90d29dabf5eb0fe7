(** The shortened construction of the Dirichlet-to-Neumann operator. *)
From Coq Require Import Lqa.
From Verif Require Import Base VectorModel MatrixModel LinSpec HPSModel HPSSpec FVModel FVSpec DtnModel DtnSpec.
From Verif Require Import MatProofs MatProofs2 LinProofs Gauss LinProps HPSProofs3 HPSStage2 FVProofs FVProofs2 FVProofs3 FVMax FVFish FVProps FVGlobal ConvProofs DtnProofs.
From Coq Require Import Lia.

(** [C68] On a square patch whose coefficients are symmetric, the shortened construction
    gives the operator of the full one. *)
Lemma shortened_operator_partial_pf : forall lu c G n,
  lu_contract lu -> proper G -> 2 <= n -> square_patch n G -> symmetric_coefs G c -> fv_unique c G ->
  (forall x y, c_alpha c x y <> 0%Qc) -> c_beta c (gxl G) (gyl G) <> 0%Qc ->
  exists T, fv_build (fv_map (fv_solve lu c)) G = Ok T /\ fv_build_opt (fv_map (fv_solve lu c)) G = Ok T.
Proof.
  intros lu c G n HL HP Hn HQ HC HU Ha Hb. pose proof HQ as (Ex & Ey & _).
  assert (HS : forall g f, length g = 4 * n -> length f = n * n -> exists u, fv_solve lu c G g f = Ok u /\ fv_solution c G g f u).
  { intros g f Lg Lf. apply (fv_solve_ok G n Ex Ey); auto. }
  rewrite (opt_is_full c G n HP HQ HC HU Ha Hb (fv_solve lu c) HS). rewrite (build_ok_mat c G n HP Ex Ey _ HS). eexists. split; reflexivity.
Qed.

(** [C68] The same for FISHPACK: every square patch. *)
Lemma shortened_operator_fish_partial_pf : forall hst c G n,
  hst_contract hst -> oriented G -> 3 <= n -> square_patch n G -> fv_unique (helmholtz (c_lambda c 0%Qc 0%Qc)) G ->
  exists T, fv_build (fv_map (fish_solve hst c)) G = Ok T /\ fv_build_opt (fv_map (fish_solve hst c)) G = Ok T.
Proof.
  intros hst c G n HL HO Hn HQ HU. pose proof HQ as (Ex & Ey & _). pose proof (orp _ HO) as HP. destruct HO as (Ox & Oy & _).
  set (c' := helmholtz (c_lambda c 0%Qc 0%Qc)) in *.
  assert (HS : forall g f, length g = 4 * n -> length f = n * n -> exists u, fish_solve hst c G g f = Ok u /\ fv_solution c' G g f u).
  { intros g f Lg Lf. apply (fish_solve_ok hst HL c G n Ex Ey Ox Oy Hn); auto. }
  assert (HC : symmetric_coefs G c') by (repeat split).
  assert (HB : c_beta c' (gxl G) (gyl G) <> 0%Qc) by discriminate. assert (HA : forall x y, c_alpha c' x y <> 0%Qc) by discriminate.
  rewrite (opt_is_full c' G n HP HQ HC HU HA HB (fish_solve hst c) HS). rewrite (build_ok_mat c' G n HP Ex Ey _ HS). eexists. split; reflexivity.
Qed.

(** Constant coefficients on any square, and coefficients that grow towards the edge of
    the square [-1,1] x [-1,1] with beta = 1. *)
Lemma shortened_operator_example_expf :
  (forall a b l xl yl w n, a <> 0%Qc -> (0 < b)%Qc -> (a * l <= 0)%Qc -> (0 < w)%Qc -> 2 <= n ->
     let c := Coefs (fun _ _ => a) (fun _ _ => b) (fun _ _ => l) in let G := Grid n n xl (xl + w)%Qc yl (yl + w)%Qc in
     proper G /\ square_patch n G /\ symmetric_coefs G c /\ fv_unique c G /\ c_beta c (gxl G) (gyl G) <> 0%Qc) /\
  let c := Coefs (fun x y => 1 + x * x + y * y)%Qc (fun _ _ => 1%Qc) (fun x y => - (x * x + y * y))%Qc in
  let G := Grid 2 2 (- (1)) 1 (- (1)) 1 in symmetric_coefs G c /\ fv_unique c G.
Proof.
  split.
  - intros a b l xl yl w n Ha Hb Hl Hw Hn c G.
    assert (HP : proper G).
    { repeat split; cbn [G gxl gxu gyl gyu gnx gny]; try lia; intros E.
      - assert (Z : w = 0%Qc) by (transitivity (xl + w - xl)%Qc; [ring|rewrite <- E; ring]). rewrite Z in Hw. discriminate Hw.
      - assert (Z : w = 0%Qc) by (transitivity (yl + w - yl)%Qc; [ring|rewrite <- E; ring]). rewrite Z in Hw. discriminate Hw. }
    split; [exact HP|]. split; [repeat split; cbn [G gxl gxu gyl gyu]; ring|]. split; [repeat split|]. split.
    + apply maximum_principle; [exact HP|]. intros x y. auto.
    + cbn. intros E. rewrite E in Hb. discriminate Hb.
  - cbv zeta. split.
    + repeat split; intros; cbn [c_alpha c_beta c_lambda gxl gxu gyl gyu]; ring.
    + apply maximum_principle; [repeat split; discriminate|]. intros x y. cbn [c_alpha c_beta c_lambda].
      assert (S : (0 <= x * x + y * y)%Qc) by (apply add_nonneg; apply sq_nonneg).
      assert (P : (0 < 1 + x * x + y * y)%Qc).
      { unfold Qcle, Qclt in *. rewrite this_plus, this_plus. rewrite this_plus in S. change (this 0%Qc) with 0%Q in *. change (this 1%Qc) with 1%Q. lra. }
      split; [intros E; rewrite E in P; discriminate P|]. split; [reflexivity|].
      replace ((1 + x * x + y * y) * - (x * x + y * y))%Qc with (- ((1 + x * x + y * y) * (x * x + y * y)))%Qc by ring.
      replace 0%Qc with (- 0)%Qc by ring. apply Qcopp_le_compat. apply mul_nonneg; [apply Qclt_le_weak; exact P|exact S].
Qed.

(** [C68] Not so for other coefficients, and not on other rectangles. *)
Lemma shortened_operator_refuted_pf :
  (exists lu c G T T', lu_contract lu /\ right_signs c /\ oriented G /\ square_patch 2 G /\
     fv_build (fv_map (fv_solve lu c)) G = Ok T /\ fv_build_opt (fv_map (fv_solve lu c)) G = Ok T' /\ val T 0 2 <> val T' 0 2) /\
  (exists lu c G T T', lu_contract lu /\ (forall x y, c_alpha c x y = 1%Qc /\ c_beta c x y = 1%Qc /\ c_lambda c x y = 0%Qc) /\
     oriented G /\ gnx G = 2 /\ gny G = 2 /\
     fv_build (fv_map (fv_solve lu c)) G = Ok T /\ fv_build_opt (fv_map (fv_solve lu c)) G = Ok T' /\ val T 4 4 <> val T' 4 4).
Proof.
  assert (EX : forall c G i j, (match fv_build (fv_map (fv_solve lu_gauss c)) G, fv_build_opt (fv_map (fv_solve lu_gauss c)) G with
    | Ok T, Ok T' => Qeq_bool (this (val T i j)) (this (val T' i j)) | _, _ => true end) = false ->
    exists T T', fv_build (fv_map (fv_solve lu_gauss c)) G = Ok T /\ fv_build_opt (fv_map (fv_solve lu_gauss c)) G = Ok T' /\ val T i j <> val T' i j).
  { intros c G i j. destruct (fv_build _ G) as [T| |]; try discriminate. destruct (fv_build_opt _ G) as [T'| |]; try discriminate. intros E. exists T, T'.
    split; [reflexivity|]. split; [reflexivity|]. intros Q. rewrite Q in E. apply Qeq_bool_neq in E. apply E. reflexivity. }
  split.
  - exists lu_gauss, (Coefs (fun _ _ => 1%Qc) (fun x _ => 1 + x * x)%Qc (fun _ _ => 0%Qc)), (Grid 2 2 0 1 0 1).
    destruct (EX (Coefs (fun _ _ => 1%Qc) (fun x _ => 1 + x * x)%Qc (fun _ _ => 0%Qc)) (Grid 2 2 0 1 0 1) 0 2) as (T & T' & E & E' & N); [vm_compute; reflexivity|].
    exists T, T'. split; [exact lu_gauss_contract|]. split; [|repeat split; auto; discriminate].
    intros x y. cbn [c_alpha c_beta c_lambda]. split; [discriminate|]. split; [|discriminate].
    pose proof (sq_nonneg x) as P. unfold Qcle, Qclt in *. rewrite this_plus. change (this 0%Qc) with 0%Q in *. change (this 1%Qc) with 1%Q. lra.
  - exists lu_gauss, (helmholtz 0), (Grid 2 2 0 (1 + 1) 0 1).
    destruct (EX (helmholtz 0) (Grid 2 2 0 (1 + 1) 0 1) 4 4) as (T & T' & E & E' & N); [vm_compute; reflexivity|].
    exists T, T'. split; [exact lu_gauss_contract|]. repeat split; auto; discriminate.
Qed.
