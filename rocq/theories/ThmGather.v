(** Property theorems.  Proofs are in GatherProps.v; this file only restates the
    statements.  Written by tools/gen_thm.py. *)
From Verif Require Import Base MatrixModel WireModel GatherModel GatherSpec GatherProofs.
From Verif Require Import GatherProps.

(** [C80] When allgatherv returns, the arguments described one place for each element, and on every rank
    the elements are in their places and the rest of the receive buffer is as before. *)
Theorem allgatherv_places : forall (strict : bool) (T : Type) (w : list (@gcall T)) (outs : list (list T)),
  allgatherv strict w = Ok outs ->
  length outs = length w /\
  (forall r c out, nth_error w r = Some c -> nth_error outs r = Some out ->
     good_layout (map g_send w) (length (g_recv c)) (g_counts c) (g_displs c) /\
     gathered (map g_send w) (g_displs c) (g_recv c) out).
Proof. exact @allgatherv_places_pf. Qed.
Print Assumptions allgatherv_places.

(** [C80] allgatherv returns if every rank describes the senders and gives each element a place of its own, no
    count exceeds an int, and (strictly) no vector is empty. *)
Theorem allgatherv_returns_partial : forall (strict : bool) (T : Type) (w : list (@gcall T)),
  (forall c, In c w -> good_layout (map g_send w) (length (g_recv c)) (g_counts c) (g_displs c)) ->
  (forall c, In c w -> (Z.of_nat (length (g_send c)) < 2147483648)%Z) ->
  (strict = true -> forall c, In c w -> g_send c <> [] /\ g_recv c <> []) ->
  exists outs, allgatherv strict w = Ok outs.
Proof. exact @allgatherv_returns_partial_pf. Qed.
Print Assumptions allgatherv_returns_partial.

(** [C80] allgather with the same number of elements from every rank: all of them, in the order of the ranks, on
    every rank. *)
Theorem allgather_order : forall (strict : bool) (T : Type) (w : list (@acall T)) (n : nat),
  0 < n -> (Z.of_nat n < 2147483648)%Z ->
  (forall c, In c w -> length (a_send c) = n /\ length (a_recv c) = length w * n /\ a_count c = Z.of_nat n) ->
  allgather strict w = Ok (map (fun _ => concat (map a_send w)) w).
Proof. exact @allgather_order_pf. Qed.
Print Assumptions allgather_order.

(** [C80] allgather is defined only if the numbers of elements are the same everywhere. *)
Theorem allgather_needs_equal_counts : forall (strict : bool) (T : Type) (w : list (@acall T)) (outs : list (list T)),
  allgather strict w = Ok outs ->
  forall c c', In c w -> In c' w -> a_count c = Z.of_nat (length (a_send c')).
Proof. exact @allgather_needs_equal_counts_pf. Qed.
Print Assumptions allgather_needs_equal_counts.

(** [C80] Counts first, then the data with the sums of the counts as displacements: every rank gets the
    concatenation in the order of the ranks, if no rank contributes an empty vector or the address of an
    empty vector is harmless. *)
Theorem counts_then_data_partial : forall (strict : bool) (T : Type) (x0 : T) (locals : list (list T)),
  (Z.of_nat (length (concat locals)) < 2147483648)%Z ->
  (strict = true -> forall l, In l locals -> l <> []) ->
  gather_all strict x0 (length (concat locals)) locals = Ok (map (fun _ => concat locals) locals).
Proof. exact @counts_then_data_partial_pf. Qed.
Print Assumptions counts_then_data_partial.

(** [C80] One rank without elements makes the call undefined: getAddress and getType look at the first element. *)
Theorem empty_contribution_undefined : forall (T : Type) (x0 : T) (n : nat) (locals : list (list T)),
  (Z.of_nat (length (concat locals)) < 2147483648)%Z -> In [] locals -> gather_all true x0 n locals = UB.
Proof. exact @empty_contribution_undefined_pf. Qed.
Print Assumptions empty_contribution_undefined.

(** [C80] Some contributions cannot be gathered. *)
Theorem any_contributions_refuted : exists (locals : list (list Z)),
  (Z.of_nat (length (concat locals)) < 2147483648)%Z /\ length locals = 3 /\
  gather_all true 0%Z (length (concat locals)) locals = UB.
Proof. exact @any_contributions_refuted_pf. Qed.
Print Assumptions any_contributions_refuted.

(** [C80] The test program for allgatherv is undefined on every number of ranks, rank 0 sends an empty vector;
    where that is harmless, every rank gets r times the number r for all ranks r. *)
Theorem shipped_gather_test : forall (size : nat), 0 < size ->
  (Z.of_nat (fold_left Nat.add (seq 0 size) 0%nat) < 2147483648)%Z ->
  allgatherv_test true size = UB /\
  allgatherv_test false size =
    Ok (map (fun _ => concat (map (fun r => repeat (Z.of_nat r) r) (seq 0 size))) (seq 0 size)).
Proof. exact @shipped_gather_test_pf. Qed.
Print Assumptions shipped_gather_test.

(** [C80] A scalar has room for the value of one rank only. *)
Theorem scalar_gather_one_rank : forall (T : Type) (w : list (T * T * Z)) (outs : list T),
  allgather_scalar w = Ok outs -> length w <= 1 /\ outs = map (fun c => fst (fst c)) w.
Proof. exact @scalar_gather_one_rank_pf. Qed.
Print Assumptions scalar_gather_one_rank.

(** [C80] Scalars of two ranks cannot be gathered. *)
Theorem scalar_gather_refuted : exists (w : list (Z * Z * Z)), length w = 2 /\ allgather_scalar w = UB.
Proof. exact @scalar_gather_refuted_pf. Qed.
Print Assumptions scalar_gather_refuted.

(** [C80] allreduce with the same length everywhere: on every rank each entry is the reduction of the
    entries of the ranks, in the order of the ranks. *)
Theorem allreduce_entries : forall (strict : bool) (T : Type) (op : T -> T -> T) (w : list (list T * list T)) (n : nat) (d : T),
  0 < n -> (Z.of_nat n < 2147483648)%Z ->
  (forall c, In c w -> length (fst c) = n /\ length (snd c) = n) ->
  exists outs, allreduce strict op w = Ok outs /\ length outs = length w /\
    forall out, In out outs -> length out = n /\ forall k, k < n -> nth k out d = reduced op (map fst w) d k.
Proof. exact @allreduce_entries_pf. Qed.
Print Assumptions allreduce_entries.

(** [C80] Three ranks with different numbers of elements. *)
Example gather_example :
  gather_all true 0%Z 6 [[5]; [7; 8]; [1; 2; 3]]%Z = Ok (repeat [5; 7; 8; 1; 2; 3]%Z 3) /\
  allreduce true Z.add [([1; 2], [0; 0]); ([10; 20], [0; 0])]%Z = Ok [[11; 22]; [11; 22]]%Z /\
  allgather true [ACall [1; 2] [0; 0; 0; 0] 2; ACall [3; 4] [0; 0; 0; 0] 2]%Z = Ok (repeat [1; 2; 3; 4]%Z 2).
Proof. exact @gather_example_expf. Qed.

(** [C80] Places that overlap, that lie outside of the buffer, or counts that do not fit are undefined. *)
Example gather_wrong_example :
  allgatherv true [GCall [1; 2] [0; 0; 0] [2; 1] [0; 1]; GCall [3] [0; 0; 0] [2; 1] [0; 2]]%Z = UB /\
  allgatherv true [GCall [1; 2] [0; 0] [2; 1] [0; 2]; GCall [3] [0; 0; 0] [2; 1] [0; 2]]%Z = UB /\
  allgatherv true [GCall [1; 2] [0; 0; 0] [2; 2] [0; 2]; GCall [3] [0; 0; 0] [2; 1] [0; 2]]%Z = UB /\
  allgatherv true [GCall [1; 2] [0; 0; 9; 0] [2; 1] [0; 3]; GCall [3] [0; 0; 0] [2; 1] [1; 0]]%Z = Ok [[1; 2; 9; 3]; [3; 1; 2]]%Z.
Proof. exact @gather_wrong_example_expf. Qed.
