(** Properties of the gathering functions. *)
From Verif Require Import Base MatrixModel WireModel GatherModel GatherSpec GatherProofs.

(** [C80] When allgatherv returns, the arguments described one place for each element, and on every rank
    the elements are in their places and the rest of the receive buffer is as before. *)
Lemma allgatherv_places_pf : forall (strict : bool) (T : Type) (w : list (@gcall T)) (outs : list (list T)),
  allgatherv strict w = Ok outs ->
  length outs = length w /\
  (forall r c out, nth_error w r = Some c -> nth_error outs r = Some out ->
     good_layout (map g_send w) (length (g_recv c)) (g_counts c) (g_displs c) /\
     gathered (map g_send w) (g_displs c) (g_recv c) out).
Proof.
  intros strict T w outs H. unfold allgatherv in H. apply bind_inv in H as (u & _ & H).
  split; [exact (mapM_length _ _ _ H)|].
  intros r c out Hc Ho.
  assert (E : mpi_allgatherv (map g_send w) (g_recv c) (g_counts c) (g_displs c) = Ok out).
  { revert H. generalize (map g_send w). intros ss H. clear u. revert outs r H Hc Ho.
    induction w as [|c0 w IH]; intros outs r H Hc Ho; [destruct r; discriminate|].
    cbn [mapM] in H. apply bind_inv in H as (o & Eo & H). apply bind_inv in H as (os & Eos & H). injection H as <-.
    destruct r; cbn in Hc, Ho; [congruence|]. eapply IH; eauto. }
  destruct (mpi_allgatherv_spec (map g_send w) (g_recv c) (g_counts c) (g_displs c)) as (_ & B & _).
  exact (B _ E).
Qed.

(** [C80] allgatherv returns if every rank describes the senders and gives each element a place of its own, no
    count exceeds an int, and (strictly) no vector is empty. *)
Lemma allgatherv_returns_partial_pf : forall (strict : bool) (T : Type) (w : list (@gcall T)),
  (forall c, In c w -> good_layout (map g_send w) (length (g_recv c)) (g_counts c) (g_displs c)) ->
  (forall c, In c w -> (Z.of_nat (length (g_send c)) < 2147483648)%Z) ->
  (strict = true -> forall c, In c w -> g_send c <> [] /\ g_recv c <> []) ->
  exists outs, allgatherv strict w = Ok outs.
Proof.
  intros strict T w Hg Hn Hs. unfold allgatherv. rewrite (mapM_all _ tt).
  - cbn [bind]. revert Hg. generalize (map g_send w). intros ss Hg. clear Hn Hs.
    induction w as [|c w IH]; [eexists; reflexivity|]. cbn [mapM].
    destruct (mpi_allgatherv_spec ss (g_recv c) (g_counts c) (g_displs c)) as (A & _ & _).
    destruct (A (Hg c (or_introl eq_refl))) as (o & ->). cbn [bind].
    destruct IH as (os & ->); [intros; apply Hg; now right|]. eexists; reflexivity.
  - intros c Hc. unfold address, count_ok. specialize (Hn c Hc).
    assert (E1 : (0 <=? to_int (length (g_send c)))%Z = true).
    { rewrite to_int_small by exact Hn. apply Z.leb_le. lia. }
    rewrite E1. destruct strict; [destruct (Hs eq_refl c Hc) as [N1 N2]|];
      destruct (g_send c), (g_recv c); try congruence; reflexivity.
Qed.

(** [C80] allgather with the same number of elements from every rank: all of them, in the order of the ranks, on
    every rank. *)
Lemma allgather_order_pf : forall (strict : bool) (T : Type) (w : list (@acall T)) (n : nat),
  0 < n -> (Z.of_nat n < 2147483648)%Z ->
  (forall c, In c w -> length (a_send c) = n /\ length (a_recv c) = length w * n /\ a_count c = Z.of_nat n) ->
  allgather strict w = Ok (map (fun _ => concat (map a_send w)) w).
Proof.
  intros strict T w n Hp Hn H. unfold allgather. rewrite (mapM_all _ tt).
  - cbn [bind]. apply mapM_all. intros c Hc. destruct (H c Hc) as (_ & Hr & ->). apply allgather_concat.
    + intros s Hin. apply in_map_iff in Hin as (c' & <- & Hc'). apply (H c' Hc').
    + rewrite map_length. exact Hr.
  - intros c Hc. destruct (H c Hc) as (Hl & Hr & _).
    assert (Hw : 0 < length w) by (destruct w; [destruct Hc|cbn; lia]).
    unfold address, count_ok. rewrite Hl, to_int_small by exact Hn.
    destruct (a_send c); [cbn in Hl; lia|]. destruct (a_recv c); [cbn in Hr; nia|]. cbn [bind].
    destruct (Z.leb_spec 0 (Z.of_nat n)); [reflexivity|lia].
Qed.

(** [C80] allgather is defined only if the numbers of elements are the same everywhere. *)
Lemma allgather_needs_equal_counts_pf : forall (strict : bool) (T : Type) (w : list (@acall T)) (outs : list (list T)),
  allgather strict w = Ok outs ->
  forall c c', In c w -> In c' w -> a_count c = Z.of_nat (length (a_send c')).
Proof.
  intros strict T w outs H c c' Hc Hc'. unfold allgather in H. apply bind_inv in H as (u & _ & H).
  assert (E : exists o, mpi_allgather (map a_send w) (a_recv c) (a_count c) = Ok o).
  { revert outs H Hc. generalize (map a_send w). intros ss. clear. induction w as [|c0 w IH]; intros outs H Hc; [destruct Hc|].
    cbn [mapM] in H. apply bind_inv in H as (o & Eo & H). apply bind_inv in H as (os & Eos & _).
    destruct Hc as [->|Hc]; eauto. }
  destruct E as (o & E). unfold mpi_allgather in E.
  match type of E with mpi_allgatherv ?a ?b ?c ?d = _ => destruct (mpi_allgatherv_spec a b c d) as (_ & B & _) end.
  destruct (B _ E) as ((_ & _ & Hcnt & _) & _).
  apply (in_map a_send) in Hc'. apply (In_nth _ _ []) in Hc' as (i & Hi & Ei).
  specialize (Hcnt i Hi). rewrite Ei in Hcnt. rewrite <- Hcnt. symmetry.
  apply (repeat_spec (length (map a_send w)) (a_count c)). apply nth_In. rewrite repeat_length. exact Hi.
Qed.

(** [C80] Counts first, then the data with the sums of the counts as displacements: every rank gets the
    concatenation in the order of the ranks, if no rank contributes an empty vector or the address of an
    empty vector is harmless. *)
Lemma counts_then_data_partial_pf : forall (strict : bool) (T : Type) (x0 : T) (locals : list (list T)),
  (Z.of_nat (length (concat locals)) < 2147483648)%Z ->
  (strict = true -> forall l, In l locals -> l <> []) ->
  gather_all strict x0 (length (concat locals)) locals = Ok (map (fun _ => concat locals) locals).
Proof. intros strict T x0 locals. apply gather_all_ok. Qed.

(** [C80] One rank without elements makes the call undefined: getAddress and getType look at the first element. *)
Lemma empty_contribution_undefined_pf : forall (T : Type) (x0 : T) (n : nat) (locals : list (list T)),
  (Z.of_nat (length (concat locals)) < 2147483648)%Z -> In [] locals -> gather_all true x0 n locals = UB.
Proof. intros T. exact gather_all_empty. Qed.

(** [C80] Some contributions cannot be gathered. *)
Lemma any_contributions_refuted_pf : exists (locals : list (list Z)),
  (Z.of_nat (length (concat locals)) < 2147483648)%Z /\ length locals = 3 /\
  gather_all true 0%Z (length (concat locals)) locals = UB.
Proof. exists [[1%Z; 2%Z]; []; [3%Z]]. repeat split. Qed.

(** [C80] The test program for allgatherv is undefined on every number of ranks, rank 0 sends an empty vector;
    where that is harmless, every rank gets r times the number r for all ranks r. *)
Lemma shipped_gather_test_pf : forall (size : nat), 0 < size ->
  (Z.of_nat (fold_left Nat.add (seq 0 size) 0%nat) < 2147483648)%Z ->
  allgatherv_test true size = UB /\
  allgatherv_test false size =
    Ok (map (fun _ => concat (map (fun r => repeat (Z.of_nat r) r) (seq 0 size))) (seq 0 size)).
Proof.
  intros size Hp Hs. unfold allgatherv_test. rewrite <- gauss_total in *. split.
  - apply gather_all_empty; [exact Hs|]. apply in_map_iff. exists 0. split; [reflexivity|]. apply in_seq. lia.
  - rewrite gather_all_ok; [|exact Hs|discriminate]. rewrite map_map. reflexivity.
Qed.

(** [C80] A scalar has room for the value of one rank only. *)
Lemma scalar_gather_one_rank_pf : forall (T : Type) (w : list (T * T * Z)) (outs : list T),
  allgather_scalar w = Ok outs -> length w <= 1 /\ outs = map (fun c => fst (fst c)) w.
Proof.
  intros T w outs H. unfold allgather_scalar in H. apply bind_inv in H as (r & H1 & H2).
  destruct w as [|[[x y] n] [|c1 w]].
  - cbn in H1. injection H1 as <-. cbn in H2. injection H2 as <-. split; [cbn; lia|reflexivity].
  - split; [cbn; lia|]. cbn [mapM map fst snd] in H1. apply bind_inv in H1 as (o & E & H1). cbn in H1. injection H1 as <-.
    unfold mpi_allgather in E. cbn [length map repeat seq] in E.
    match type of E with mpi_allgatherv ?a ?b ?c ?d = _ => destruct (mpi_allgatherv_spec a b c d) as (_ & B & _) end.
    destruct (B _ E) as (_ & Hl & Hv & _).
    specialize (Hv 0 0 0). cbn in Hv. destruct o as [|a [|b o]]; cbn in Hl; try discriminate.
    cbn in H2. injection H2 as <-. cbn in Hv. cbn [map fst]. f_equal.
    assert (Ha : Some a = Some x) by (apply Hv; repeat split; cbn; lia). congruence.
  - exfalso. cbn [mapM] in H1. apply bind_inv in H1 as (o & E & _).
    unfold mpi_allgather in E. cbn [map fst snd] in E.
    set (ss := [x] :: [fst (fst c1)] :: map (fun c => [fst (fst c)]) w) in *.
    match type of E with mpi_allgatherv ?a ?b ?c ?d = _ => destruct (mpi_allgatherv_spec a b c d) as (_ & B & _) end.
    destruct (B _ E) as ((_ & _ & Hc & Hin & _) & _).
    assert (Hn : n = 1%Z).
    { specialize (Hc 0). cbn in Hc. apply Hc. lia. }
    subst n. destruct (Hin 1 0) as (p & Hp & _ & _ & Ep); [cbn; lia|cbn; lia|]. cbn in Hp, Ep. lia.
Qed.

(** [C80] Scalars of two ranks cannot be gathered. *)
Lemma scalar_gather_refuted_pf : exists (w : list (Z * Z * Z)), length w = 2 /\ allgather_scalar w = UB.
Proof. exists [(1, 0, 1)%Z; (2, 0, 1)%Z]. split; reflexivity. Qed.

(** [C80] allreduce with the same length everywhere: on every rank each entry is the reduction of the
    entries of the ranks, in the order of the ranks. *)
Lemma allreduce_entries_pf : forall (strict : bool) (T : Type) (op : T -> T -> T) (w : list (list T * list T)) (n : nat) (d : T),
  0 < n -> (Z.of_nat n < 2147483648)%Z ->
  (forall c, In c w -> length (fst c) = n /\ length (snd c) = n) ->
  exists outs, allreduce strict op w = Ok outs /\ length outs = length w /\
    forall out, In out outs -> length out = n /\ forall k, k < n -> nth k out d = reduced op (map fst w) d k.
Proof.
  intros strict T op w n d Hp Hn H. unfold allreduce. rewrite (mapM_all _ tt).
  2:{ intros c Hc. destruct (H c Hc) as (H1 & H2). unfold address, count_ok. rewrite H1, to_int_small by exact Hn.
      destruct (fst c); [cbn in H1; lia|]. destruct (snd c); [cbn in H2; lia|]. cbn [bind].
      destruct (Z.leb_spec 0 (Z.of_nat n)); [reflexivity|lia]. }
  cbn [bind]. destruct w as [|c0 w]; [exists []; split; [reflexivity|]; split; [reflexivity|intros ? []]|].
  replace (forallb _ _) with true.
  2:{ symmetry. apply forallb_forall. intros c Hc. destruct (H c Hc) as (H1 & H2). destruct (H c0 (or_introl eq_refl)) as (H3 & _).
      rewrite H1, H2, H3, Nat.eqb_refl, Nat.leb_refl. reflexivity. }
  assert (Hred : forall l a, length a = n -> (forall c, In c l -> length (@fst (list T) (list T) c) = n) ->
    let t := fold_left (fun acc c => map (fun p => op (fst p) (snd p)) (combine acc (fst c))) l a in
    length t = n /\ forall k, k < n -> nth k t d = fold_left op (map (fun c => nth k (fst c) d) l) (nth k a d)).
  { induction l as [|c l IH]; intros a Ha Hl; cbn [fold_left map]; [auto|].
    assert (Hc : length (fst c) = n) by (apply Hl; now left).
    assert (Hlen : length (map (fun p => op (fst p) (snd p)) (combine a (fst c))) = n) by (rewrite map_length, combine_length; lia).
    destruct (IH _ Hlen) as (A & B); [intros; apply Hl; now right|]. split; [exact A|]. intros k Hk. rewrite B by exact Hk. f_equal.
    rewrite (nth_indep _ d (op d d)) by lia.
    rewrite (map_nth (fun p => op (fst p) (snd p)) _ (d, d)). rewrite combine_nth by lia. reflexivity. }
  destruct (Hred w (fst c0)) as (A & B).
  { apply (H c0). now left. }
  { intros c Hc. apply (H c). now right. }
  set (t := fold_left _ w (fst c0)) in *.
  eexists. split; [reflexivity|]. split; [apply map_length|].
  intros out Ho. apply in_map_iff in Ho as (c & <- & Hc). destruct (H c Hc) as (_ & H2).
  unfold put_at. cbn [firstn app plus]. rewrite skipn_all2 by lia. rewrite app_nil_r. split; [exact A|].
  intros k Hk. rewrite B by exact Hk. unfold reduced. cbn [map]. rewrite map_map. reflexivity.
Qed.

(** [C80] Three ranks with different numbers of elements. *)
Lemma gather_example_expf :
  gather_all true 0%Z 6 [[5]; [7; 8]; [1; 2; 3]]%Z = Ok (repeat [5; 7; 8; 1; 2; 3]%Z 3) /\
  allreduce true Z.add [([1; 2], [0; 0]); ([10; 20], [0; 0])]%Z = Ok [[11; 22]; [11; 22]]%Z /\
  allgather true [ACall [1; 2] [0; 0; 0; 0] 2; ACall [3; 4] [0; 0; 0; 0] 2]%Z = Ok (repeat [1; 2; 3; 4]%Z 2).
Proof. repeat split. Qed.

(** [C80] Places that overlap, that lie outside of the buffer, or counts that do not fit are undefined. *)
Lemma gather_wrong_example_expf :
  allgatherv true [GCall [1; 2] [0; 0; 0] [2; 1] [0; 1]; GCall [3] [0; 0; 0] [2; 1] [0; 2]]%Z = UB /\
  allgatherv true [GCall [1; 2] [0; 0] [2; 1] [0; 2]; GCall [3] [0; 0; 0] [2; 1] [0; 2]]%Z = UB /\
  allgatherv true [GCall [1; 2] [0; 0; 0] [2; 2] [0; 2]; GCall [3] [0; 0; 0] [2; 1] [0; 2]]%Z = UB /\
  allgatherv true [GCall [1; 2] [0; 0; 9; 0] [2; 1] [0; 3]; GCall [3] [0; 0; 0] [2; 1] [1; 0]]%Z = Ok [[1; 2; 9; 3]; [3; 1; 2]]%Z.
Proof. repeat split. Qed.
