(** Property theorems.  Proofs are in WorldProps.v; this file only restates the
    statements.  Written by tools/gen_thm.py. *)
From Verif Require Import Base VectorModel MatrixModel HPSModel TreeModel TreeSpec TreeProofs TreeCtor
  TreeOrder TreeMap TreeOrder2 TreeProps ParModel ParSpec ParProofs ParRun ParSearch ParCtor ParStages ParProps
  WorldModel WorldSpec WorldProofs WorldProofs2 WorldProofs3.
From Verif Require Import WorldProps.

(** [C85] A merge whose leaf solves make collective calls over all ranks (the build or the
    upwards stage with the five-point patch solver) can complete only if all ranks have
    the same number of leaves. *)
Theorem five_point_needs_equal_leaves : forall {D S} size n F (dflt : D) fn fam (st : nat -> S * nmap D) N s',
  1 <= n -> depth F <= qmaxlevel -> (forall r, node_map r F (snd (st r))) ->
  runs N (fun r => run_stage_w size n r dflt F (Merge fn fam) (st r) finish) s' -> all_done size s' ->
  forall r r', r < size -> r' < size -> leaves_of r F = leaves_of r' F.
Proof. exact @five_point_needs_equal_leaves_pf. Qed.
Print Assumptions five_point_needs_equal_leaves.

(** [C85] A quadtree has 3 k + 1 leaves: on three ranks, or any multiple of three, no
    distribution of the leaves lets the build stage with the five-point solver complete. *)
Theorem five_point_three_ranks : forall {D S} m n F (dflt : D) fn fam (st : nat -> S * nmap D) N s',
  1 <= n -> 1 <= m -> depth F <= qmaxlevel -> (forall r, node_map r F (snd (st r))) ->
  (forall o, In o (owners F) -> o < 3 * m) ->
  runs N (fun r => run_stage_w (3 * m) n r dflt F (Merge fn fam) (st r) finish) s' -> ~ all_done (3 * m) s'.
Proof. exact @five_point_three_ranks_pf. Qed.
Print Assumptions five_point_three_ranks.

(** [C85] Four leaves, three on rank 0 and one on rank 1: without collective calls in the
    leaf solves the merge completes; with them it hangs, whatever their number. *)
Theorem five_point_parallel_completes_refuted :
  exists F (m : nat -> nmap nat), contiguous F /\ gapless F /\ depth F <= qmaxlevel /\
    (forall r, In r (owners F) <-> r < 2) /\
    (forall r, construct nat_factory r 0 F = Ok (m r)) /\
    (exists fin, always_ends (fun r => run_stages r 0 F [Merge size_leaf size_fam] (tt, m r) finish) fin /\
       forall r, In r (owners F) -> exists st', fin r = Ok st') /\
    forall n, 1 <= n ->
      let s0 := fun r => run_stage_w 2 n r 0 F (Merge size_leaf size_fam) (tt, m r) finish in
      (exists N s, runs N s0 s /\ deadlock s) /\ forall N s, runs N s0 s -> ~ all_done 2 s.
Proof. exact @five_point_parallel_completes_refuted_pf. Qed.
Print Assumptions five_point_parallel_completes_refuted.

(** [C85] The same number of leaves on every rank is not enough: ten leaves, five on each
    of two ranks, as p4est_partition distributes them. *)
Theorem five_point_equal_leaves_refuted :
  exists F (m : nat -> nmap nat), contiguous F /\ gapless F /\ depth F <= qmaxlevel /\
    leaves_of 0 F = 5 /\ leaves_of 1 F = 5 /\ length (owners F) = 10 /\
    (forall r, construct nat_factory r 0 F = Ok (m r)) /\
    (exists fin, always_ends (fun r => run_stages r 0 F [Merge size_leaf size_fam] (tt, m r) finish) fin /\
       forall r, In r (owners F) -> exists st', fin r = Ok st') /\
    forall n, 1 <= n ->
      exists N s, runs N (fun r => run_stage_w 2 n r 0 F (Merge size_leaf size_fam) (tt, m r) finish) s /\ deadlock s.
Proof. exact @five_point_equal_leaves_refuted_pf. Qed.
Print Assumptions five_point_equal_leaves_refuted.

(** [C85] On one rank the calls do not matter: any sequence of stages that succeeds
    without them succeeds with them, with the same result. *)
Theorem five_point_one_rank : forall {D S} F (dflt : D) (l : list (nat * stage D S)) st x (s : config) o,
  run_stages 0 dflt F (map snd l) st finish = Fin x ->
  s 0 = run_stages_w 1 0 dflt F l st finish -> (forall r, r <> 0 -> s r = Fin (o r)) ->
  always_ends s (fun r => if Nat.eqb r 0 then x else o r).
Proof. exact @five_point_one_rank_pf. Qed.
Print Assumptions five_point_one_rank.

(** [C85] The direct solver with the five-point stencil on one rank. *)
Theorem five_point_solver_one_rank : forall nside sv gesv hom load rg F dflt st x (s : config) o,
  run_stages 0 dflt F (hps_stages sv gesv hom load rg) st finish = Fin x ->
  s 0 = run_stages_w 1 0 dflt F (five_point_stages nside sv gesv hom load rg) st finish -> (forall r, r <> 0 -> s r = Fin (o r)) ->
  always_ends s (fun r => if Nat.eqb r 0 then x else o r).
Proof. exact @five_point_solver_one_rank_pf. Qed.
Print Assumptions five_point_solver_one_rank.

(** [C85] The calls are harmless when all ranks have the same number of leaves and no
    quadrant is shared by ranks that have further leaves elsewhere: every order of
    collectives ends, with the serial data on every rank. *)
Theorem five_point_aligned_completes : forall {D S} size cnt F (dflt : D) (l : list (nat * stage D S)) st st0 st0',
  contiguous F -> gapless F -> depth F <= qmaxlevel ->
  (forall r, In r (owners F) <-> r < size) -> aligned F -> (forall r, r < size -> leaves_of r F = cnt) ->
  Forall rank_independent (map snd l) -> Forall descends (map snd l) ->
  (forall r, node_map r F (snd (st r))) -> node_map 0 (serial F) (snd st0) ->
  (forall r, same_data F (snd (st r)) (snd st0)) ->
  run_stages 0 dflt (serial F) (map snd l) st0 finish = Fin (Ok st0') ->
  exists fin, always_ends (fun r => run_stages_w size r dflt F l (st r) finish) fin /\
    forall r, r < size -> exists st', fin r = Ok st' /\ node_map r F (snd st') /\ same_data F (snd st') (snd st0').
Proof. exact @five_point_aligned_completes_pf. Qed.
Print Assumptions five_point_aligned_completes.

(** [C85] The direct solver with the five-point stencil, from the construction of the
    quadtree on: under the same conditions it completes with the serial data. *)
Theorem five_point_solver_aligned : forall size cnt nside sv gesv hom load rg dflt rd F m0 c0 c0' m0',
  contiguous F -> gapless F -> depth F <= qmaxlevel ->
  (forall r, In r (owners F) <-> r < size) -> aligned F -> (forall r, r < size -> leaves_of r F = cnt) ->
  construct fv_factory 0 rd (serial F) = Ok m0 ->
  run_stages 0 dflt (serial F) (hps_stages sv gesv hom load rg) (c0, m0) finish = Fin (Ok (c0', m0')) ->
  exists fin,
    always_ends (fun r => cseq (construct_prog fv_factory r rd (search_all r F root_quadrant) mempty)
                  (fun m => run_stages_w size r dflt F (five_point_stages nside sv gesv hom load rg) (c0, m) finish)) fin /\
    forall r, r < size -> exists c m, fin r = Ok (c, m) /\ node_map r F m /\ same_data F m m0'.
Proof. exact @five_point_solver_aligned_pf. Qed.
Print Assumptions five_point_solver_aligned.

Example five_point_aligned_example :
  contiguous quarters /\ gapless quarters /\ depth quarters <= qmaxlevel /\
  (forall r, In r (owners quarters) <-> r < 4) /\ aligned quarters /\ (forall r, r < 4 -> leaves_of r quarters = 4) /\
  ~ aligned even /\ ~ (leaves_of 0 uneven = leaves_of 1 uneven).
Proof. exact @five_point_aligned_example_expf. Qed.

(** [C86] Every solve with the five-point stencil leaves two index sets behind; matrices
    and vectors are all destroyed. *)
Theorem solve_leaks_index_sets : forall m,
  held PIS (concat (repeat solve_ops m)) = Z.of_nat (solve_calls * m) /\
  held PMat (concat (repeat solve_ops m)) = 0%Z /\ held PVec (concat (repeat solve_ops m)) = 0%Z.
Proof. exact @solve_leaks_index_sets_pf. Qed.
Print Assumptions solve_leaks_index_sets.

(** [C86] So it is false that a solve destroys every PETSc object it creates. *)
Theorem solve_releases_objects_refuted :
  exists k, held k solve_ops <> 0%Z.
Proof. exact @solve_releases_objects_refuted_pf. Qed.
Print Assumptions solve_releases_objects_refuted.
