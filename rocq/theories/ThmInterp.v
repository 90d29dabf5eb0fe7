(** Property theorems.  Proofs are in InterpProps.v; this file only restates the
    statements.  Written by tools/gen_thm.py. *)
From Verif Require Import Base InterpModel InterpSpec.
From Verif Require Import InterpProofs.
From Verif Require Import InterpProps.

(** [C51] For every sequence of calls on a linear interpolant, with one point or a vector of
    points each: every value is that of the piecewise linear function of the table at
    the time of the call, which is determined by table and point.  The table may change between
    calls if its length stays. *)
Theorem interpolation_history_free : forall (xs0 : list Qc) (qs : list (list Qc * list Qc * list Qc)),
  Forall (fun q => table (fst (fst q)) (snd (fst q)) /\ length (fst (fst q)) = length xs0) qs ->
  exists vs o, calls (make_linear xs0) qs = Ok (vs, o) /\
  Forall2 (fun q v => Forall2 (piecewise_linear (fst (fst q)) (snd (fst q))) (snd q) v) qs vs /\
  (forall xs ys x v w, piecewise_linear xs ys x v -> piecewise_linear xs ys x w -> v = w).
Proof. exact @interpolation_history_free_pf. Qed.
Print Assumptions interpolation_history_free.

(** [C51] After every history on a table, the next query gives the same value as the first query on a
    new object. *)
Theorem interpolation_same_as_fresh : forall (xs ys x : list Qc) (a : Qc) vs o,
  table xs ys -> evaluate_all (make_linear xs) xs ys x = Ok (vs, o) ->
  exists v o1 o2, evaluate o xs ys a = Ok (v, o1) /\ evaluate (make_linear xs) xs ys a = Ok (v, o2).
Proof. exact @interpolation_same_as_fresh_pf. Qed.
Print Assumptions interpolation_same_as_fresh.

(** [C51] After every history: table values at the points of the table, and exact values everywhere
    for linear data. *)
Theorem interpolation_exact : forall (xs ys x : list Qc) vs o,
  table xs ys -> evaluate_all (make_linear xs) xs ys x = Ok (vs, o) ->
  (forall i, i < length xs -> exists o', evaluate o xs ys (at_ xs i) = Ok (at_ ys i, o')) /\
  (forall a b, (forall i, i < length xs -> at_ ys i = (a * at_ xs i + b)%Qc) ->
     forall p, exists o', evaluate o xs ys p = Ok ((a * p + b)%Qc, o')).
Proof. exact @interpolation_exact_pf. Qed.
Print Assumptions interpolation_exact.

(** [C51] With fewer than two points every query throws, before and after others. *)
Theorem interpolation_short_table : forall (xs ys : list Qc) (a : Qc), length xs < 2 ->
  evaluate (make_linear xs) xs ys a = Throw invalid_argument.
Proof. exact @interpolation_short_table_pf. Qed.
Print Assumptions interpolation_short_table.

(** [C51] A table that is not monotone: with two equal abscissae every query gives the first value. *)
Theorem interpolation_equal_points : forall a y0 y1 p : Qc,
  exists o, evaluate (make_linear [a; a]) [a; a] [y0; y1] p = Ok (y0, o).
Proof. exact @interpolation_equal_points_pf. Qed.
Print Assumptions interpolation_equal_points.

(** An ascending and a descending table; queries that use both searches, in and outside the table. *)
Example interpolation_case : table interp_xs interp_ys /\ table interp_ds interp_ys /\
  (exists vs o, evaluate_all (make_linear interp_xs) interp_xs interp_ys (map Qc_of_Z [1; 6; 2; -1; 9; 3]%Z) = Ok (vs, o) /\
     map this vs = [2; 1 # 3; 5; 8; -2 # 3; 8]%Q).
Proof. exact @interpolation_case_expf. Qed.
