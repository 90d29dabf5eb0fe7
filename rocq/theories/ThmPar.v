(** Property theorems.  Proofs are in ParProps.v; this file only restates the
    statements.  Written by tools/gen_thm.py. *)
From Verif Require Import Base VectorModel MatrixModel HPSModel TreeModel TreeSpec TreeProofs TreeCtor
  TreeOrder TreeMap TreeOrder2 TreeProps Gauss HPSCert HPSProps ParModel ParSpec ParProofs ParRun ParSearch ParCtor ParStages.
From Verif Require Import ParProps.

(** [C37] A sequence of merges, splits and accesses to the root on a tree whose leaves
    are distributed over ranks in contiguous ranges without gaps.  The callbacks
    compute new data from path and data; their serial run on the same initial data
    succeeds.  Then whatever order the collectives complete in, no rank waits for
    ever, and every rank with leaves ends with the nodes it had, holding the data of
    the serial run.  A rank without leaves ends with what it had (it must not access
    the root). *)
Theorem parallel_equals_serial_partial : forall {D S} F (dflt : D) (l : list (stage D S)) st st0 st0',
  contiguous F -> gapless F -> depth F <= qmaxlevel -> Forall rank_independent l ->
  (forall r, node_map r F (snd (st r))) -> node_map 0 (serial F) (snd st0) ->
  (forall r, same_data F (snd (st r)) (snd st0)) ->
  run_stages 0 dflt (serial F) l st0 finish = Fin (Ok st0') ->
  exists fin, always_ends (fun r => run_stages r dflt F l (st r) finish) fin /\
    node_map 0 (serial F) (snd st0') /\
    (forall r, In r (owners F) -> exists st', fin r = Ok st' /\ node_map r F (snd st') /\ same_data F (snd st') (snd st0')) /\
    (forall r, ~ In r (owners F) -> (forall h, ~ In (AtRoot h) l) -> fin r = Ok (st r)).
Proof. exact @parallel_equals_serial_partial_pf. Qed.
Print Assumptions parallel_equals_serial_partial.

(** [C37] The constructor, which creates one communicator per quadrant, completes on
    every contiguous distribution, with gaps or without; every rank ends with the
    map it would build on its own. *)
Theorem construction_completes : forall {D} (fac : factory D) rd F, factory_ok fac ->
  contiguous F -> depth F <= qmaxlevel ->
  exists fin, always_ends (fun r => construct_prog fac r rd (search_all r F root_quadrant) mempty) (fun r => Ok (fin r)) /\
    forall r, construct fac r rd F = Ok (fin r) /\ node_map r F (fin r).
Proof. exact @construction_completes_pf. Qed.
Print Assumptions construction_completes.

(** [C59] Construction of the quadtree followed by build, upwards and solve stage
    (without cache-operators): when the serial run succeeds, the parallel run ends
    in every order of collectives, with the serial data on every rank with leaves. *)
Theorem parallel_solver_equals_serial : forall sv gesv hom load rg dflt rd F m0 c0 c0' m0',
  contiguous F -> gapless F -> depth F <= qmaxlevel ->
  construct fv_factory 0 rd (serial F) = Ok m0 ->
  run_stages 0 dflt (serial F) (hps_stages sv gesv hom load rg) (c0, m0) finish = Fin (Ok (c0', m0')) ->
  exists fin,
    always_ends (fun r => cseq (construct_prog fv_factory r rd (search_all r F root_quadrant) mempty)
                  (fun m => run_stages r dflt F (hps_stages sv gesv hom load rg) (c0, m) finish)) fin /\
    forall r, In r (owners F) -> exists c m, fin r = Ok (c, m) /\ node_map r F m /\ same_data F m m0'.
Proof. exact @parallel_solver_equals_serial_pf. Qed.
Print Assumptions parallel_solver_equals_serial.

Example parallel_equals_serial_example :
  contiguous ex_forest /\ gapless ex_forest /\ depth ex_forest <= qmaxlevel /\ Forall rank_independent ex_stages /\
  match construct nat_factory 0 0 (serial ex_forest) with
  | Ok m => match run_stages 0 0 (serial ex_forest) ex_stages (tt, m) finish with
            | Fin (Ok (_, m')) =>
                map (fun p => match m' p with Some n => n_data n | None => 99 end) [[0]; [0;0]; [0;1]; [0;1;0]; [0;1;3]; [0;3]]
                = [109; 218; 110; 220; 226; 224]
            | _ => False
            end
  | _ => False
  end.
Proof. exact @parallel_equals_serial_example_expf. Qed.

(** [C37] A rank without leaves between ranks with leaves is a member of the
    communicators of the quadrants around it but does not take part in their
    collectives: merge hangs.  p4est_partition
    leaves such ranks when there are more ranks than leaves: 4 leaves on 7 ranks, as
    below, start at leaf floor(4p/7) on rank p, so ranks 0, 2 and 4 are empty. *)
Theorem parallel_merge_completes_refuted :
  exists F (m : nat -> nmap nat), contiguous F /\ depth F <= qmaxlevel /\
    (forall r, construct nat_factory r 0 F = Ok (m r)) /\
    deadlock (fun r => merge r BROADCAST 0 size_leaf size_fam F (tt, m r) finish : cmd nat (unit * nmap nat)) /\
    is_ok (construct nat_factory 0 0 (serial F)) /\
    (forall m0, construct nat_factory 0 0 (serial F) = Ok m0 ->
       exists st, merge 0 BROADCAST 0 size_leaf size_fam (serial F) (tt, m0) finish = Fin (Ok st : res (unit * nmap nat))).
Proof. exact @parallel_merge_completes_refuted_pf. Qed.
Print Assumptions parallel_merge_completes_refuted.

(** [C37] Every rank looks at the root before the solve stage; on a rank without
    leaves outside the root's range there is none. *)
Theorem solve_on_leafless_rank_refuted :
  exists F (m : nat -> nmap nat), contiguous F /\ gapless F /\
    (forall r, construct nat_factory r 0 F = Ok (m r)) /\
    run_stages 1 0 F [AtRoot (fun s d => Ok (s, d))] (tt, m 1) finish = Fin (UB : res (unit * nmap nat)) /\
    forall m0, construct nat_factory 0 0 (serial F) = Ok m0 ->
      exists st, run_stages 0 0 (serial F) [AtRoot (fun s d => Ok (s, d))] (tt, m0) finish = Fin (Ok st : res (unit * nmap nat)).
Proof. exact @solve_on_leafless_rank_refuted_pf. Qed.
Print Assumptions solve_on_leafless_rank_refuted.

(** [C37] With cache-operators every rank keeps the operator of its own first leaf:
    a rank whose first leaf has another size than the first leaf of the tree stores
    another operator than the serial run. *)
Theorem parallel_cached_build_refuted :
  exists F rd (m : nat -> nmap patch) m0 fin fin0,
    contiguous F /\ gapless F /\ depth F <= qmaxlevel /\
    (forall r, construct fv_factory r rd F = Ok (m r)) /\ construct fv_factory 0 rd (serial F) = Ok m0 /\
    always_ends (fun r => run_stages r rd F [cached_build] (None, m r) finish) fin /\
    run_stages 0 rd (serial F) [cached_build] (None, m0) finish = Fin fin0 /\
    T_at (fin 1) [0; 3] = [1 # 2]%Q /\ T_at fin0 [0; 3] = [1 # 4]%Q.
Proof. exact @parallel_cached_build_refuted_pf. Qed.
Print Assumptions parallel_cached_build_refuted.

(** [C38] A family of a contiguous distribution (gaps allowed), any child: all ranks of
    the family call the same reduction; with its result they all call a broadcast
    with the same root, a member of the family that holds the child and sends it. *)
Theorem broadcast_root_agreed : forall {D R} F ds f i g (dflt : D) (m : nat -> nmap D) (node : nat -> qnode D)
  (k : nat -> nmap D * qnode D -> cmd D R),
  contiguous F -> sub F ds = Some f -> fchild f i = Some g ->
  (forall r, member (pfirst f) (plast f) r -> node_map r F (m r) /\ m r (0 :: ds) = Some (node r)) ->
  exists c v next, c_lo c = pfirst f /\ c_hi c = plast f /\
    (forall r, member (pfirst f) (plast f) r -> gather_child r dflt (node r) i (m r) (k r) = Allreduce c (v r) (next r)) /\
    let root := max_over (c_lo c) (c_hi c) v in
    member (pfirst f) (plast f) (c_lo c + root) /\
    (exists child, m (c_lo c + root) (0 :: ds ++ [i]) = Some child) /\
    forall r, member (pfirst f) (plast f) r -> exists mine k',
      next r root = Bcast c root mine k' /\ (r = c_lo c + root -> m r (0 :: ds ++ [i]) = Some mine).
Proof. exact @broadcast_root_agreed_pf. Qed.
Print Assumptions broadcast_root_agreed.

Example broadcast_root_agreed_example :
  let F := FNode (FLeaf 1) (FNode (FLeaf 1) (FLeaf 2) (FLeaf 4) (FLeaf 4)) (FLeaf 4) (FLeaf 6) in
  contiguous F /\ sub F [] = Some F /\ fchild F 1 = Some (FNode (FLeaf 1) (FLeaf 2) (FLeaf 4) (FLeaf 4)) /\
  max_over 1 6 (fun r => match construct nat_factory r 0 F with
                         | Ok m => match m [0; 1] with Some _ => r - 1 | None => 0 end | _ => 0 end) = 3.
Proof. exact @broadcast_root_agreed_example_expf. Qed.

(** [C35] merge and split on all ranks: when the serial run succeeds, the record of
    every rank with leaves is post-order (merge) and pre-order (split). *)
Theorem parallel_merge_split_order_partial : forall {D S} F (dflt : D) fn fam gl gf (s : nat -> S) m s0 m0,
  contiguous F -> gapless F -> depth F <= qmaxlevel -> leaf_fun fn gl -> family_fun fam gf ->
  (forall r, node_map r F (m r)) -> node_map 0 (serial F) m0 -> (forall r, same_data F (m r) m0) ->
  (is_ok (match merge 0 BROADCAST dflt fn fam (serial F) (s0, m0) finish with Fin x => x | _ => UB end) ->
   exists fin, always_ends (fun r => merge r BROADCAST dflt (logged fn) (logged_family fam) F ((s r, []), m r) finish) fin /\
     forall r, In r (owners F) -> exists s' L m', fin r = Ok ((s', L), m') /\ postorder_log r F L) /\
  (is_ok (match split 0 BROADCAST dflt fn fam (serial F) (s0, m0) finish with Fin x => x | _ => UB end) ->
   exists fin, always_ends (fun r => split r BROADCAST dflt (logged fn) (logged_family fam) F ((s r, []), m r) finish) fin /\
     forall r, In r (owners F) -> exists s' L m', fin r = Ok ((s', L), m') /\ preorder_log r F L).
Proof. exact @parallel_merge_split_order_partial_pf. Qed.
Print Assumptions parallel_merge_split_order_partial.

(** The hypotheses of the theorem on the solver hold: four leaves with one cell on two
    ranks, a toy patch solver, Gaussian elimination. *)
Example parallel_solver_equals_serial_example :
  let F := FNode (FLeaf 0) (FLeaf 0) (FLeaf 1) (FLeaf 1) in
  let rd := new_patch (Grid 1 1 0%Qc 1%Qc 0%Qc 1%Qc) in
  contiguous F /\ gapless F /\ depth F <= qmaxlevel /\
  match construct fv_factory 0 rd (serial F) with
  | Ok m0 => match run_stages 0 rd (serial F) (hps_stages (toy 1) gauss_gesv false (ex_load 1) (fun _ => Ok (map Qc_of_nat (seq 1 8)))) (None, m0) finish with
             | Fin (Ok (_, m)) => match m [0; 2] with
                                  | Some n => map this (pg (n_data n)) = [2; 27 # 8; 21 # 8; 7]%Q /\ map this (pu (n_data n)) = [245 # 8]%Q
                                  | None => False end
             | _ => False
             end
  | _ => False
  end.
Proof. exact @parallel_solver_equals_serial_example_expf. Qed.
