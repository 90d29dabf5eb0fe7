(** Properties of interpolation. *)
From Verif Require Import Base InterpModel InterpSpec.
From Verif Require Import InterpProofs.

(** [C51] For every sequence of calls on a linear interpolant, with one point or a vector of
    points each: every value is that of the piecewise linear function of the table at
    the time of the call, which is determined by table and point.  The table may change between
    calls if its length stays. *)
Lemma interpolation_history_free_pf : forall (xs0 : list Qc) (qs : list (list Qc * list Qc * list Qc)),
  Forall (fun q => table (fst (fst q)) (snd (fst q)) /\ length (fst (fst q)) = length xs0) qs ->
  exists vs o, calls (make_linear xs0) qs = Ok (vs, o) /\
  Forall2 (fun q v => Forall2 (piecewise_linear (fst (fst q)) (snd (fst q))) (snd q) v) qs vs /\
  (forall xs ys x v w, piecewise_linear xs ys x v -> piecewise_linear xs ys x w -> v = w).
Proof.
  intros xs0 qs H. destruct (calls_ok (length xs0) qs H (make_linear xs0) (make_linear_state xs0)) as (vs & o & E & P & _).
  exists vs, o. split; [exact E|]. split; [exact P|]. exact piecewise_fun.
Qed.

(** [C51] After every history on a table, the next query gives the same value as the first query on a
    new object. *)
Lemma interpolation_same_as_fresh_pf : forall (xs ys x : list Qc) (a : Qc) vs o,
  table xs ys -> evaluate_all (make_linear xs) xs ys x = Ok (vs, o) ->
  exists v o1 o2, evaluate o xs ys a = Ok (v, o1) /\ evaluate (make_linear xs) xs ys a = Ok (v, o2).
Proof.
  intros xs ys x a vs o T E. destruct (evaluate_all_ok xs ys x T _ (make_linear_state xs)) as (vs' & o' & E' & _ & S).
  rewrite E in E'. injection E' as <- <-.
  destruct (evaluate_ok o xs ys a S T) as (v & o1 & E1 & P1 & _).
  destruct (evaluate_ok _ xs ys a (make_linear_state xs) T) as (w & o2 & E2 & P2 & _).
  rewrite <- (piecewise_fun _ _ _ _ _ P1 P2) in E2. exists v, o1, o2. auto.
Qed.

(** [C51] After every history: table values at the points of the table, and exact values everywhere
    for linear data. *)
Lemma interpolation_exact_pf : forall (xs ys x : list Qc) vs o,
  table xs ys -> evaluate_all (make_linear xs) xs ys x = Ok (vs, o) ->
  (forall i, i < length xs -> exists o', evaluate o xs ys (at_ xs i) = Ok (at_ ys i, o')) /\
  (forall a b, (forall i, i < length xs -> at_ ys i = (a * at_ xs i + b)%Qc) ->
     forall p, exists o', evaluate o xs ys p = Ok ((a * p + b)%Qc, o')).
Proof.
  intros xs ys x vs o T E. destruct (evaluate_all_ok xs ys x T _ (make_linear_state xs)) as (vs' & o' & E' & _ & S).
  rewrite E in E'. injection E' as <- <-. split.
  - intros i Hi. destruct (evaluate_ok o xs ys (at_ xs i) S T) as (v & o1 & E1 & P & _).
    rewrite (piecewise_point xs ys i v T Hi P) in E1. exists o1. exact E1.
  - intros a b L p. destruct (evaluate_ok o xs ys p S T) as (v & o1 & E1 & P & _).
    rewrite (piecewise_exact xs ys p v a b L P) in E1. exists o1. exact E1.
Qed.

(** [C51] With fewer than two points every query throws, before and after others. *)
Lemma interpolation_short_table_pf : forall (xs ys : list Qc) (a : Qc), length xs < 2 ->
  evaluate (make_linear xs) xs ys a = Throw invalid_argument.
Proof.
  intros xs ys a H. unfold evaluate, locate_, size_error, make_linear, make_interp. cbn [i_cor i_n i_mm].
  destruct (Z.ltb_spec (Z.of_nat (length xs)) 2); [reflexivity|lia].
Qed.

(** [C51] A table that is not monotone: with two equal abscissae every query gives the first value. *)
Lemma interpolation_equal_points_pf : forall a y0 y1 p : Qc,
  exists o, evaluate (make_linear [a; a]) [a; a] [y0; y1] p = Ok (y0, o).
Proof.
  intros a y0 y1 p.
  assert (R : forall x, rawInterp [a; a] [y0; y1] 0 x = Ok y0).
  { intros x. unfold rawInterp. change (tab [a; a] 0) with (Ok a). change (tab [a; a] (0 + 1)) with (Ok a). rewrite !bind_Ok.
    destruct (Qc_eq_dec a a) as [_|N]; [reflexivity|congruence]. }
  unfold evaluate. cbn [i_cor make_linear make_interp].
  assert (L : exists o, locate_ (make_linear [a; a]) [a; a] p = Ok (0%Z, o)).
  { eexists. vm_compute. reflexivity. }
  destruct L as [o E]. rewrite E, bind_Ok, R, bind_Ok. exists o. reflexivity.
Qed.

Definition interp_xs : list Qc := map Qc_of_Z [0; 1; 3; 4; 7]%Z.
Definition interp_ds : list Qc := rev interp_xs.
Definition interp_ys : list Qc := map Qc_of_Z [5; 2; 8; 1; 0]%Z.
Lemma interp_ascending : ascending interp_xs.
Proof.
  intros i j Hij Hj. change (length interp_xs) with 5 in Hj.
  assert (D : j = 1 \/ j = 2 \/ j = 3 \/ j = 4) by lia.
  destruct D as [-> | [-> | [-> | ->] ] ];
  destruct i as [|[|[|[|i] ] ] ]; try lia; vm_compute; reflexivity.
Qed.
(** An ascending and a descending table; queries that use both searches, in and outside the table. *)
Lemma interpolation_case_expf : table interp_xs interp_ys /\ table interp_ds interp_ys /\
  (exists vs o, evaluate_all (make_linear interp_xs) interp_xs interp_ys (map Qc_of_Z [1; 6; 2; -1; 9; 3]%Z) = Ok (vs, o) /\
     map this vs = [2; 1 # 3; 5; 8; -2 # 3; 8]%Q).
Proof.
  split; [|split].
  - split; [cbn; lia|]. split; [reflexivity|]. left. exact interp_ascending.
  - split; [cbn; lia|]. split; [reflexivity|]. right. intros i j Hij Hj.
    change (length interp_ds) with 5 in Hj. unfold at_, interp_ds.
    rewrite !rev_nth by (change (length interp_xs) with 5; lia). change (length interp_xs) with 5.
    apply interp_ascending; [lia|change (length interp_xs) with 5; lia].
  - eexists _, _. split; [vm_compute; reflexivity|]. vm_compute. reflexivity.
Qed.
