(** Model of src/HPSAlgorithm.hpp (build, upwards and solve stage) on patches and
    on quadtrees, and of the parts of src/Patch.hpp it uses.

    Simplifications: the quadtree is an inductive tree here (the map of nodes and
    the traversal by p4est are modelled in TreeModel, with the proof that
    they agree); logging and timers are left out; pow(2,n) and the quotient by it
    are computed exactly; entries are rational numbers. *)
From Verif Require Import Base VectorModel MatrixModel.

(** FiniteVolumeGrid.hpp: cell counts and bounds.  PatchGrid.hpp. *)
Record grid : Type := Grid { gnx : nat; gny : nat; gxl : Qc; gxu : Qc; gyl : Qc; gyu : Qc }.

(** Patch.hpp:15-171, FiniteVolumePatch.hpp: the serial data of a patch.
    vectorV is never used by the algorithm and left out. *)
Record patch : Type := Patch {
  pgrid : grid;
  pX : matrix Qc; pH : matrix Qc; pS : matrix Qc; pT : matrix Qc;
  pu : list Qc; pg : list Qc; pf : list Qc; ph : list Qc; pw : list Qc;
  pnc : nat }.

Definition set_grid (p : patch) (x : grid) := Patch x (pX p) (pH p) (pS p) (pT p) (pu p) (pg p) (pf p) (ph p) (pw p) (pnc p).
Definition set_X (p : patch) (x : matrix Qc) := Patch (pgrid p) x (pH p) (pS p) (pT p) (pu p) (pg p) (pf p) (ph p) (pw p) (pnc p).
Definition set_H (p : patch) (x : matrix Qc) := Patch (pgrid p) (pX p) x (pS p) (pT p) (pu p) (pg p) (pf p) (ph p) (pw p) (pnc p).
Definition set_S (p : patch) (x : matrix Qc) := Patch (pgrid p) (pX p) (pH p) x (pT p) (pu p) (pg p) (pf p) (ph p) (pw p) (pnc p).
Definition set_T (p : patch) (x : matrix Qc) := Patch (pgrid p) (pX p) (pH p) (pS p) x (pu p) (pg p) (pf p) (ph p) (pw p) (pnc p).
Definition set_u (p : patch) (x : list Qc) := Patch (pgrid p) (pX p) (pH p) (pS p) (pT p) x (pg p) (pf p) (ph p) (pw p) (pnc p).
Definition set_g (p : patch) (x : list Qc) := Patch (pgrid p) (pX p) (pH p) (pS p) (pT p) (pu p) x (pf p) (ph p) (pw p) (pnc p).
Definition set_f (p : patch) (x : list Qc) := Patch (pgrid p) (pX p) (pH p) (pS p) (pT p) (pu p) (pg p) x (ph p) (pw p) (pnc p).
Definition set_h (p : patch) (x : list Qc) := Patch (pgrid p) (pX p) (pH p) (pS p) (pT p) (pu p) (pg p) (pf p) x (pw p) (pnc p).
Definition set_w (p : patch) (x : list Qc) := Patch (pgrid p) (pX p) (pH p) (pS p) (pT p) (pu p) (pg p) (pf p) (ph p) x (pnc p).
Definition set_nc (p : patch) (x : nat) := Patch (pgrid p) (pX p) (pH p) (pS p) (pT p) (pu p) (pg p) (pf p) (ph p) (pw p) x.

(** Patch.hpp:99-101 size: the int value of nx / 2^n_coarsens. *)
Definition psize (p : patch) : nat := gnx (pgrid p) / 2 ^ pnc p.

(** The interface of a patch solver used by the algorithm
    (PatchSolver.hpp, FiniteVolumeSolver.hpp): solve, mapD2N, buildD2N,
    particularNeumannData.  mapD2N is not called by the algorithm itself; it is
    the flux map of the property statements. *)
Record solver : Type := Solver {
  sv_solve : grid -> list Qc -> list Qc -> res (list Qc);
  sv_map : grid -> list Qc -> list Qc -> res (list Qc);
  sv_build : grid -> res (matrix Qc);
  sv_h : grid -> list Qc -> res (list Qc) }.

(** The four children alpha (lower left), beta (lower right), gamma (upper left)
    and omega (upper right). *)
Record four (A : Type) : Type := Four { fa : A; fb : A; fc : A; fd : A }.
Arguments Four {A} _ _ _ _.
Arguments fa {A} _.
Arguments fb {A} _.
Arguments fc {A} _.
Arguments fd {A} _.
Definition fmap {A B} (f : A -> B) (x : four A) : four B :=
  Four (f (fa x)) (f (fb x)) (f (fc x)) (f (fd x)).
(** A loop body applied to the four children in order. *)
Definition fmapM {A B} (f : A -> res B) (x : four A) : res (four B) :=
  a <- f (fa x) ;; b <- f (fb x) ;; c <- f (fc x) ;; d <- f (fd x) ;; Ok (Four a b c d).

(** ** Build *)

(** static_cast<int>(log2(s)) of a positive int s; log2(0) is -infinity, whose
    conversion to int is undefined. *)
Definition int_log2 (s : nat) : res nat := if s =? 0 then UB else Ok (Nat.log2 s).

(** HPSAlgorithm.hpp:676-696 tagPatchesForCoarsening_.  The difference is an
    int; it is never negative because log2 is monotone. *)
Definition tagPatches (ch : four patch) : res (four nat) :=
  let sides := fmap psize ch in
  let min_side := Nat.min (Nat.min (Nat.min (fa sides) (fb sides)) (fc sides)) (fd sides) in
  fmapM (fun s => a <- int_log2 s ;; b <- int_log2 min_side ;; Ok (a - b)) sides.

(** Block diagonal matrix with four equal blocks (HPSAlgorithm.hpp:725-731,
    1040-1042, 1176-1178). *)
Definition four_diag (L : matrix Qc) : res (matrix Qc) := blockDiagonalMatrix [L; L; L; L].

(** HPSAlgorithm.hpp:718-737, one pass of the inner loop of coarsen_. *)
Definition coarsen_step (p : patch) (n : nat) : res patch :=
  let nfine := gnx (pgrid p) / 2 ^ n in
  let ncoarse := nfine / 2 in
  L21_side <- Fine2Coarse ncoarse ;;
  L21 <- four_diag L21_side ;;
  L12_side <- Coarse2Fine nfine ;;
  L12 <- four_diag L12_side ;;
  T1 <- mulm L21 (pT p) ;;
  let p1 := set_T p T1 in
  T2 <- mulm (pT p1) L12 ;;
  let p2 := set_T p1 T2 in
  Ok (set_nc p2 (pnc p2 + 1)).

(** HPSAlgorithm.hpp:707-741 coarsen_. *)
Definition coarsen_one (p : patch) (tag : nat) : res patch :=
  foldM coarsen_step (seq 0 tag) p.
Definition coarsen (ch : four patch) : res (four patch) :=
  tags <- tagPatches ch ;;
  a <- coarsen_one (fa ch) (fa tags) ;;
  b <- coarsen_one (fb ch) (fb tags) ;;
  c <- coarsen_one (fc ch) (fc tags) ;;
  d <- coarsen_one (fd ch) (fd tags) ;;
  Ok (Four a b c d).

(** HPSAlgorithm.hpp:599-619: the index sets that are used. *)
Record index_sets : Type := IS {
  is_ab : list Z; is_ag : list Z; is_at : list Z;
  is_ba : list Z; is_bo : list Z; is_bt : list Z;
  is_ga : list Z; is_go : list Z; is_gt : list Z;
  is_ob : list Z; is_og : list Z; is_ot : list Z }.

(** HPSAlgorithm.hpp:752-788 createIndexSets_. *)
Definition createIndexSets (ch : four patch) : res index_sets :=
  let n := fmap psize ch in
  if negb ((fb n =? fa n) && (fc n =? fb n) && (fd n =? fc n)) then Throw invalid_argument
  else
    let nside := Z.of_nat (nr (pT (fa ch)) / 4) in
    I_W <- vectorRange 0 (nside - 1) ;;
    I_E <- vectorRange nside (2 * nside - 1) ;;
    I_S <- vectorRange (2 * nside) (3 * nside - 1) ;;
    I_N <- vectorRange (3 * nside) (4 * nside - 1) ;;
    at_ <- concatenate 0%Z [I_W; I_S] ;;
    bt <- concatenate 0%Z [I_E; I_S] ;;
    gt <- concatenate 0%Z [I_W; I_N] ;;
    ot <- concatenate 0%Z [I_E; I_N] ;;
    Ok (IS I_E I_N at_ I_W I_N bt I_S I_E gt I_S I_W ot).

(** HPSAlgorithm.hpp:622-661: the matrix blocks. *)
Record blocks : Type := Blocks {
  ag_ag : matrix Qc; ga_ga : matrix Qc; ag_ab : matrix Qc; ga_go : matrix Qc;
  bo_bo : matrix Qc; ob_ob : matrix Qc; bo_ba : matrix Qc; ob_og : matrix Qc;
  ab_ag : matrix Qc; ba_bo : matrix Qc; ab_ab : matrix Qc; ba_ba : matrix Qc;
  go_ga : matrix Qc; og_ob : matrix Qc; go_go : matrix Qc; og_og : matrix Qc;
  ag_at : matrix Qc; ga_gt : matrix Qc; bo_bt : matrix Qc; ob_ot : matrix Qc;
  ab_at : matrix Qc; ba_bt : matrix Qc; go_gt : matrix Qc; og_ot : matrix Qc;
  at_at : matrix Qc; bt_bt : matrix Qc; gt_gt : matrix Qc; ot_ot : matrix Qc;
  at_ag : matrix Qc; at_ab : matrix Qc; bt_bo : matrix Qc; bt_ba : matrix Qc;
  gt_ga : matrix Qc; gt_go : matrix Qc; ot_ob : matrix Qc; ot_og : matrix Qc }.

(** HPSAlgorithm.hpp:799-859 createMatrixBlocks_. *)
Definition createMatrixBlocks (s : index_sets) (ch : four patch) : res blocks :=
  let Ta := pT (fa ch) in let Tb := pT (fb ch) in
  let Tg := pT (fc ch) in let To := pT (fd ch) in
  let sel := @mgetFromIndexSet Qc in
  b01 <- sel Ta (is_ag s) (is_ag s) ;;
  b02 <- sel Tg (is_ga s) (is_ga s) ;;
  b03 <- sel Ta (is_ag s) (is_ab s) ;;
  b04 <- sel Tg (is_ga s) (is_go s) ;;
  b05 <- sel Tb (is_bo s) (is_bo s) ;;
  b06 <- sel To (is_ob s) (is_ob s) ;;
  b07 <- sel Tb (is_bo s) (is_ba s) ;;
  b08 <- sel To (is_ob s) (is_og s) ;;
  b09 <- sel Ta (is_ab s) (is_ag s) ;;
  b10 <- sel Tb (is_ba s) (is_bo s) ;;
  b11 <- sel Ta (is_ab s) (is_ab s) ;;
  b12 <- sel Tb (is_ba s) (is_ba s) ;;
  b13 <- sel Tg (is_go s) (is_ga s) ;;
  b14 <- sel To (is_og s) (is_ob s) ;;
  b15 <- sel Tg (is_go s) (is_go s) ;;
  b16 <- sel To (is_og s) (is_og s) ;;
  b17 <- sel Ta (is_ag s) (is_at s) ;;
  b18 <- sel Tg (is_ga s) (is_gt s) ;;
  b19 <- sel Tb (is_bo s) (is_bt s) ;;
  b20 <- sel To (is_ob s) (is_ot s) ;;
  b21 <- sel Ta (is_ab s) (is_at s) ;;
  b22 <- sel Tb (is_ba s) (is_bt s) ;;
  b23 <- sel Tg (is_go s) (is_gt s) ;;
  b24 <- sel To (is_og s) (is_ot s) ;;
  b25 <- sel Ta (is_at s) (is_at s) ;;
  b26 <- sel Tb (is_bt s) (is_bt s) ;;
  b27 <- sel Tg (is_gt s) (is_gt s) ;;
  b28 <- sel To (is_ot s) (is_ot s) ;;
  b29 <- sel Ta (is_at s) (is_ag s) ;;
  b30 <- sel Ta (is_at s) (is_ab s) ;;
  b31 <- sel Tb (is_bt s) (is_bo s) ;;
  b32 <- sel Tb (is_bt s) (is_ba s) ;;
  b33 <- sel Tg (is_gt s) (is_ga s) ;;
  b34 <- sel Tg (is_gt s) (is_go s) ;;
  b35 <- sel To (is_ot s) (is_ob s) ;;
  b36 <- sel To (is_ot s) (is_og s) ;;
  n04 <- mneg b04 ;;
  n08 <- mneg b08 ;;
  n10 <- mneg b10 ;;
  n14 <- mneg b14 ;;
  n17 <- mneg b17 ;;
  n19 <- mneg b19 ;;
  n21 <- mneg b21 ;;
  n23 <- mneg b23 ;;
  Ok (Blocks b01 b02 b03 n04 b05 b06 b07 n08 b09 n10 b11 b12 b13 n14 b15 b16
             n17 b18 n19 b20 n21 b22 n23 b24
             b25 b26 b27 b28 b29 b30 b31 b32 b33 b34 b35 b36).

(** HPSAlgorithm.hpp:870-895 mergeX_. *)
Definition mergeX (tau : patch) (b : blocks) : res patch :=
  d1 <- msub (ag_ag b) (ga_ga b) ;;
  d2 <- msub (bo_bo b) (ob_ob b) ;;
  d3 <- msub (ab_ab b) (ba_ba b) ;;
  d4 <- msub (go_go b) (og_og b) ;;
  let r0 := 0 in let r1 := nr d1 in let r2 := nr d1 + nr d2 in let r3 := nr d1 + nr d2 + nr d3 in
  let c0 := 0 in let c1 := nc d1 in let c2 := nc d1 + nc d2 in let c3 := nc d1 + nc d2 + nc d3 in
  X0 <- blockDiagonalMatrix [d1; d2; d3; d4] ;;
  X1 <- setBlock X0 r0 c2 (ag_ab b) ;;
  X2 <- setBlock X1 r0 c3 (ga_go b) ;;
  X3 <- setBlock X2 r1 c2 (bo_ba b) ;;
  X4 <- setBlock X3 r1 c3 (ob_og b) ;;
  X5 <- setBlock X4 r2 c0 (ab_ag b) ;;
  X6 <- setBlock X5 r2 c1 (ba_bo b) ;;
  X7 <- setBlock X6 r3 c0 (go_ga b) ;;
  X8 <- setBlock X7 r3 c1 (og_ob b) ;;
  Ok (set_X tau X8).

(** HPSAlgorithm.hpp:906-929 mergeS_: right-hand side and solve. *)
Definition S_RHS (b : blocks) : res (matrix Qc) :=
  let nrows := nr (ag_at b) + nr (bo_bt b) + nr (ab_at b) + nr (go_gt b) in
  let ncols := nc (ag_at b) + nc (bo_bt b) + nc (ga_gt b) + nc (ob_ot b) in
  let r0 := 0 in let r1 := nr (ag_at b) in let r2 := nr (ag_at b) + nr (bo_bt b) in
  let r3 := nr (ag_at b) + nr (bo_bt b) + nr (ab_at b) in
  let c0 := 0 in let c1 := nc (ag_at b) in let c2 := nc (ag_at b) + nc (bo_bt b) in
  let c3 := nc (ag_at b) + nc (bo_bt b) + nc (ga_gt b) in
  M1 <- setBlock (mconst nrows ncols 0%Qc) r0 c0 (ag_at b) ;;
  M2 <- setBlock M1 r0 c2 (ga_gt b) ;;
  M3 <- setBlock M2 r1 c1 (bo_bt b) ;;
  M4 <- setBlock M3 r1 c3 (ob_ot b) ;;
  M5 <- setBlock M4 r2 c0 (ab_at b) ;;
  M6 <- setBlock M5 r2 c1 (ba_bt b) ;;
  M7 <- setBlock M6 r3 c2 (go_gt b) ;;
  setBlock M7 r3 c3 (og_ot b).

Definition mergeS (gesv : gesv_t) (tau : patch) (b : blocks) : res patch :=
  R <- S_RHS b ;;
  S <- solvem gesv (pX tau) R ;;
  Ok (set_S tau S).

(** HPSAlgorithm.hpp:940-968 mergeT_. *)
Definition buildH (b : blocks) : res (matrix Qc) :=
  let nrows := nr (at_ag b) + nr (bt_bo b) + nr (gt_ga b) + nr (ot_ob b) in
  let ncols := nc (at_ag b) + nc (bt_bo b) + nc (at_ab b) + nc (gt_go b) in
  let r0 := 0 in let r1 := nr (at_ag b) in let r2 := nr (at_ag b) + nr (bt_bo b) in
  let r3 := nr (at_ag b) + nr (bt_bo b) + nr (gt_ga b) in
  let c0 := 0 in let c1 := nc (at_ag b) in let c2 := nc (at_ag b) + nc (bt_bo b) in
  let c3 := nc (at_ag b) + nc (bt_bo b) + nc (at_ab b) in
  M1 <- setBlock (mconst nrows ncols 0%Qc) r0 c0 (at_ag b) ;;
  M2 <- setBlock M1 r0 c2 (at_ab b) ;;
  M3 <- setBlock M2 r1 c1 (bt_bo b) ;;
  M4 <- setBlock M3 r1 c2 (bt_ba b) ;;
  M5 <- setBlock M4 r2 c0 (gt_ga b) ;;
  M6 <- setBlock M5 r2 c3 (gt_go b) ;;
  M7 <- setBlock M6 r3 c1 (ot_ob b) ;;
  setBlock M7 r3 c3 (ot_og b).

Definition mergeT (tau : patch) (b : blocks) : res patch :=
  T_LHS <- blockDiagonalMatrix [at_at b; bt_bt b; gt_gt b; ot_ot b] ;;
  H <- buildH b ;;
  let tau1 := set_H tau H in
  T_RHS <- mulm (pH tau1) (pS tau1) ;;
  T <- madd T_LHS T_RHS ;;
  Ok (set_T tau1 T).

Definition pi_WESN : list nat := [0; 4; 2; 6; 1; 3; 5; 7].

(** HPSAlgorithm.hpp:979-993 reorderOperators_. *)
Definition reorderOperators (tau : patch) (ch : four patch) : res patch :=
  let nside := nr (pT (fa ch)) / 4 in
  S <- mblockPermute (pS tau) [0; 1; 2; 3] pi_WESN (repeat nside 4) (repeat nside 8) ;;
  let tau1 := set_S tau S in
  T <- mblockPermute (pT tau1) pi_WESN pi_WESN (repeat nside 8) (repeat nside 8) ;;
  Ok (set_T tau1 T).

(** HPSAlgorithm.hpp:1004-1009 mergePatch_. *)
Definition mergePatch (tau : patch) (ch : four patch) : patch :=
  set_grid tau (Grid (psize (fa ch) + psize (fb ch)) (psize (fa ch) + psize (fc ch))
                     (gxl (pgrid (fa ch))) (gxu (pgrid (fb ch)))
                     (gyl (pgrid (fa ch))) (gyu (pgrid (fc ch)))).

(** HPSAlgorithm.hpp:497-518 merge4to1. *)
Definition merge4to1 (gesv : gesv_t) (tau : patch) (ch : four patch)
  : res (patch * four patch) :=
  ch' <- coarsen ch ;;
  s <- createIndexSets ch' ;;
  b <- createMatrixBlocks s ch' ;;
  t1 <- mergeX tau b ;;
  t2 <- mergeS gesv t1 b ;;
  t3 <- mergeT t2 b ;;
  t4 <- reorderOperators t3 ch' ;;
  Ok (mergePatch t4 ch', ch').

(** ** Upwards *)

(** HPSAlgorithm.hpp:1034-1044, one child of coarsenUpwards_. *)
Definition coarsenUp_one (p : patch) : res patch :=
  foldM (fun p n =>
    let nfine := gnx (pgrid p) / 2 ^ n in
    let ncoarse := nfine / 2 in
    L21_side <- Fine2Coarse ncoarse ;;
    L21 <- four_diag L21_side ;;
    h <- mulv L21 (ph p) ;;
    Ok (set_h p h)) (seq 0 (pnc p)) p.
(** HPSAlgorithm.hpp:1024-1048 coarsenUpwards_. *)
Definition coarsenUpwards (ch : four patch) : res (four patch) := fmapM coarsenUp_one ch.

(** HPSAlgorithm.hpp:1059-1087 mergeW_. *)
Definition hDiff (s : index_sets) (ch : four patch) : res (list Qc) :=
  let sel := @vgetFromIndexSet Qc in
  h_ga <- sel (ph (fc ch)) (is_ga s) ;;
  h_ag <- sel (ph (fa ch)) (is_ag s) ;;
  h_ob <- sel (ph (fd ch)) (is_ob s) ;;
  h_bo <- sel (ph (fb ch)) (is_bo s) ;;
  h_ba <- sel (ph (fb ch)) (is_ba s) ;;
  h_ab <- sel (ph (fa ch)) (is_ab s) ;;
  h_og <- sel (ph (fd ch)) (is_og s) ;;
  h_go <- sel (ph (fc ch)) (is_go s) ;;
  d1 <- vsub h_ga h_ag ;;
  d2 <- vsub h_ob h_bo ;;
  d3 <- vsub h_ba h_ab ;;
  d4 <- vsub h_og h_go ;;
  concatenate 0%Qc [d1; d2; d3; d4].

Definition mergeW (gesv : gesv_t) (tau : patch) (s : index_sets) (ch : four patch) : res patch :=
  d <- hDiff s ch ;;
  w <- solvev gesv (pX tau) d ;;
  Ok (set_w tau w).

(** HPSAlgorithm.hpp:1098-1117 mergeH_. *)
Definition mergeH (tau : patch) (s : index_sets) (ch : four patch) : res patch :=
  h0 <- mulv (pH tau) (pw tau) ;;
  h_a <- vgetFromIndexSet (ph (fa ch)) (is_at s) ;;
  h_b <- vgetFromIndexSet (ph (fb ch)) (is_bt s) ;;
  h_g <- vgetFromIndexSet (ph (fc ch)) (is_gt s) ;;
  h_o <- vgetFromIndexSet (ph (fd ch)) (is_ot s) ;;
  up <- concatenate 0%Qc [h_a; h_b; h_g; h_o] ;;
  h <- vaddeq h0 up ;;
  Ok (set_h tau h).

(** HPSAlgorithm.hpp:1128-1150 reorderOperatorsUpwards_. *)
Definition reorderUpwards (tau : patch) (ch : four patch) : res patch :=
  let n := fmap psize ch in
  if negb ((fb n =? fa n) && (fc n =? fb n) && (fd n =? fc n)) then Throw invalid_argument
  else
    let nside := nr (pT (fa ch)) / 4 in
    h <- vblockPermute (ph tau) pi_WESN (repeat nside 8) ;;
    Ok (set_h tau h).

(** HPSAlgorithm.hpp:529-551 upwards4to1; [hom] is the option homogeneous-rhs. *)
Definition upwards4to1 (gesv : gesv_t) (hom : bool) (tau : patch) (ch : four patch)
  : res (patch * four patch) :=
  if hom then Ok (tau, ch)
  else
    ch' <- coarsenUpwards ch ;;
    s <- createIndexSets ch' ;;
    b <- createMatrixBlocks s ch' ;;
    t1 <- mergeX tau b ;;
    t2 <- mergeW gesv t1 s ch' ;;
    t3 <- mergeH t2 s ch' ;;
    t4 <- reorderUpwards t3 ch' ;;
    Ok (t4, ch').

(** ** Solve *)

(** HPSAlgorithm.hpp:1165-1183 uncoarsen_. *)
Definition uncoarsen (tau : patch) : res patch :=
  foldM (fun p n =>
    let nfine := gnx (pgrid p) / 2 ^ (pnc p - (n + 1)) in
    L12_side <- Coarse2Fine nfine ;;
    L12 <- four_diag L12_side ;;
    g <- mulv L12 (pg p) ;;
    Ok (set_g p g)) (seq 0 (pnc tau)) tau.

(** HPSAlgorithm.hpp:1194-1230 applyS_. *)
Definition applyS (hom : bool) (tau : patch) (ch : four patch) : res (four patch) :=
  u0 <- mulv (pS tau) (pg tau) ;;
  u <- (if hom then Ok u0 else vadd u0 (pw tau)) ;;
  let nside := psize (fa ch) in
  g_ag <- getSegment u (0 * nside) nside ;;
  g_bo <- getSegment u (1 * nside) nside ;;
  g_ab <- getSegment u (2 * nside) nside ;;
  g_go <- getSegment u (3 * nside) nside ;;
  g_aW <- getSegment (pg tau) (0 * nside) nside ;;
  g_gW <- getSegment (pg tau) (1 * nside) nside ;;
  g_bE <- getSegment (pg tau) (2 * nside) nside ;;
  g_oE <- getSegment (pg tau) (3 * nside) nside ;;
  g_aS <- getSegment (pg tau) (4 * nside) nside ;;
  g_bS <- getSegment (pg tau) (5 * nside) nside ;;
  g_gN <- getSegment (pg tau) (6 * nside) nside ;;
  g_oN <- getSegment (pg tau) (7 * nside) nside ;;
  ga <- concatenate 0%Qc [g_aW; g_ab; g_aS; g_ag] ;;
  gb <- concatenate 0%Qc [g_ab; g_bE; g_bS; g_bo] ;;
  gg <- concatenate 0%Qc [g_gW; g_go; g_ag; g_gN] ;;
  go <- concatenate 0%Qc [g_go; g_oE; g_bo; g_oN] ;;
  Ok (Four (set_g (fa ch) ga) (set_g (fb ch) gb) (set_g (fc ch) gg) (set_g (fd ch) go)).

(** HPSAlgorithm.hpp:562-577 split1to4. *)
Definition split1to4 (hom : bool) (tau : patch) (ch : four patch)
  : res (patch * four patch) :=
  tau' <- uncoarsen tau ;;
  ch' <- applyS hom tau' ch ;;
  Ok (tau', ch').

(** HPSAlgorithm.hpp:584-596 leafSolve. *)
Definition leafSolve (sv : solver) (hom : bool) (p : patch) : res patch :=
  let p1 := if hom then set_f p (repeat 0%Qc (gnx (pgrid p) * gny (pgrid p))) else p in
  u <- sv_solve sv (pgrid p1) (pg p1) (pf p1) ;;
  Ok (set_u p1 u).

(** ** Stages on a quadtree *)

(** The tree of patches held by Quadtree::map; children in the order 0,1,2,3. *)
Inductive tree : Type :=
| Leaf (p : patch)
| Node (p : patch) (a b c d : tree).

Definition data (t : tree) : patch := match t with Leaf p => p | Node p _ _ _ _ => p end.
Definition set_data (t : tree) (p : patch) : tree :=
  match t with Leaf _ => Leaf p | Node _ a b c d => Node p a b c d end.

(** Quadtree.hpp:322-337 merge, serial case: leaves first, then the family
    callback on the way up.  The callbacks may keep state outside the tree. *)
Fixpoint tmerge {St} (leaf : St -> patch -> res (St * patch))
  (fam : patch -> four patch -> res (patch * four patch)) (st : St) (t : tree)
  : res (St * tree) :=
  match t with
  | Leaf p => r <- leaf st p ;; Ok (fst r, Leaf (snd r))
  | Node p a b c d =>
      ra <- tmerge leaf fam st a ;;
      rb <- tmerge leaf fam (fst ra) b ;;
      rc <- tmerge leaf fam (fst rb) c ;;
      rd <- tmerge leaf fam (fst rc) d ;;
      f <- fam p (Four (data (snd ra)) (data (snd rb)) (data (snd rc)) (data (snd rd))) ;;
      Ok (fst rd, Node (fst f) (set_data (snd ra) (fa (snd f))) (set_data (snd rb) (fb (snd f)))
                               (set_data (snd rc) (fc (snd f))) (set_data (snd rd) (fd (snd f))))
  end.

(** Quadtree.hpp:345-360 split, serial case: the family callback on the way down,
    then leaves.  The recursion is on the shape of the tree; the patch of the
    current node comes from the parent's callback. *)
Fixpoint tsplit (leaf : patch -> res patch)
  (fam : patch -> four patch -> res (patch * four patch)) (t : tree) (p : patch) : res tree :=
  match t with
  | Leaf _ => p' <- leaf p ;; Ok (Leaf p')
  | Node _ a b c d =>
      f <- fam p (Four (data a) (data b) (data c) (data d)) ;;
      a' <- tsplit leaf fam a (fa (snd f)) ;;
      b' <- tsplit leaf fam b (fb (snd f)) ;;
      c' <- tsplit leaf fam c (fc (snd f)) ;;
      d' <- tsplit leaf fam d (fd (snd f)) ;;
      Ok (Node (fst f) a' b' c' d')
  end.

(** HPSAlgorithm.hpp:120-161 buildStage.  The state is the entry "T_leaf" of
    matrixCache, [cache] the option cache-operators. *)
Definition build_leaf (sv : solver) (cache : bool) (st : option (matrix Qc)) (p : patch)
  : res (option (matrix Qc) * patch) :=
  if cache then
    match st with
    | Some T => Ok (st, set_T p T)
    | None => T <- sv_build sv (pgrid p) ;; Ok (Some T, set_T p T)
    end
  else T <- sv_build sv (pgrid p) ;; Ok (st, set_T p T).
Definition buildStage (sv : solver) (gesv : gesv_t) (cache : bool)
  (st : option (matrix Qc)) (t : tree) : res (option (matrix Qc) * tree) :=
  tmerge (build_leaf sv cache) (merge4to1 gesv) st t.

(** HPSAlgorithm.hpp:178-216 upwardsStage with a callback that fills the patch's
    load; [load] is the vector the callback leaves in vectorF of the leaf with the
    given grid.  The callback is assumed to change nothing else. *)
Definition up_leaf (sv : solver) (load : grid -> list Qc) (st : unit) (p : patch)
  : res (unit * patch) :=
  let p1 := set_f p (load (pgrid p)) in
  h <- sv_h sv (pgrid p1) (pf p1) ;;
  Ok (tt, set_h p1 h).
Definition upwardsStage (sv : solver) (gesv : gesv_t) (hom : bool) (load : grid -> list Qc)
  (t : tree) : res tree :=
  r <- tmerge (up_leaf sv load) (upwards4to1 gesv hom) tt t ;; Ok (snd r).

(** HPSAlgorithm.hpp:291-324 solveStage with a callback that sets the root's
    boundary data to [g]. *)
Definition solveStage (sv : solver) (hom : bool) (g : list Qc) (t : tree) : res tree :=
  tsplit (leafSolve sv hom) (split1to4 hom) t (set_g (data t) g).

(** FiniteVolumeGrid.cpp:73-90 operator()(DIM, index): cell centres. *)
Definition gdx (G : grid) : Qc := ((gxu G - gxl G) / Qc_of_nat (gnx G))%Qc.
Definition gdy (G : grid) : Qc := ((gyu G - gyl G) / Qc_of_nat (gny G))%Qc.
Definition gx (G : grid) (i : nat) : Qc :=
  ((gxl G + gdx G / Q2Qc (2 # 1)) + Qc_of_nat i * gdx G)%Qc.
Definition gy (G : grid) (j : nat) : Qc :=
  ((gyl G + gdy G / Q2Qc (2 # 1)) + Qc_of_nat j * gdy G)%Qc.

(** HPSAlgorithm.hpp:241-249: the load vector filled from a function; entry
    j + i*ny belongs to the cell (i,j). *)
Definition load_of (rhs : Qc -> Qc -> Qc) (G : grid) : list Qc :=
  concat (map (fun i => map (fun j => rhs (gx G i) (gy G j)) (seq 0 (gny G))) (seq 0 (gnx G))).

(** HPSAlgorithm.hpp:225-272 upwardsStage with a function. *)
Definition upwardsStage_fn (sv : solver) (gesv : gesv_t) (hom : bool) (rhs : Qc -> Qc -> Qc)
  (t : tree) : res tree := upwardsStage sv gesv hom (load_of rhs) t.

(** HPSAlgorithm.hpp:352-420: boundary data of the root from the functions a, b, r
    of side number and point. *)
Definition boundary_point (G : grid) (n i : nat) : Qc * Qc :=
  match n with
  | 0 => (gxl G, gy G i)
  | 1 => (gxu G, gy G i)
  | 2 => (gx G i, gyl G)
  | _ => (gx G i, gyu G)
  end.
Definition boundary_vec (G : grid) (f : nat -> Qc -> Qc -> Qc) : res (list Qc) :=
  concatenate 0%Qc (map (fun n => map (fun i => f n (fst (boundary_point G n i)) (snd (boundary_point G n i)))
                                      (seq 0 (gnx G))) [0; 1; 2; 3]).
Definition root_data (gesv : gesv_t) (fa_ fb_ fr_ : nat -> Qc -> Qc -> Qc) (p : patch)
  : res (list Qc) :=
  r <- boundary_vec (pgrid p) fr_ ;;
  a <- boundary_vec (pgrid p) fa_ ;;
  b <- boundary_vec (pgrid p) fb_ ;;
  A <- DiagonalMatrix a ;;
  B <- DiagonalMatrix b ;;
  bh <- mulv B (ph p) ;;
  rhs <- vsub r bh ;;
  B' <- mulm B (pT p) ;;
  A' <- madd A B' ;;
  solvev gesv A' rhs.

(** HPSAlgorithm.hpp:343-445 solveStage with boundary functions. *)
Definition solveStage_fn (sv : solver) (gesv : gesv_t) (hom : bool)
  (fa_ fb_ fr_ : nat -> Qc -> Qc -> Qc) (t : tree) : res tree :=
  g <- root_data gesv fa_ fb_ fr_ (data t) ;;
  tsplit (leafSolve sv hom) (split1to4 hom) t (set_g (data t) g).
