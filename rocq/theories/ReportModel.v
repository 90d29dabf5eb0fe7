(** The error reports of the examples elliptic-multiple and patch-solver. *)
From Verif Require Import Base VectorModel MatrixModel HPSModel FVModel.

(** elliptic-multiple/main.cpp:347-350: the running totals.  [rl2] is the sum of
    squares; the square root of line 372 is left out, it is not a rational operation. *)
Record report : Type := Report { rl1 : Qc; rl2 : Qc; rlI : Qc; rn : nat }.
Definition no_report : report := Report 0 0 0 0.

(** main.cpp:359-363: one cell. *)
Definition report_cell (V : Qc -> Qc -> Qc) (G : grid) (u : list Qc) (i j : nat) (r : report) : res report :=
  let x := gx G i in let y := gy G j in
  let index := j + i * gny G in
  v <- vget u index ;;
  let diff := (v - V x y)%Qc in
  Ok (Report (rl1 r + (gdx G * gdy G) * Qcabs diff) (rl2 r + (gdx G * gdy G) * (Qcabs diff * Qcabs diff))
             (Qcmax (rlI r) (Qcabs diff)) (rn r)).

(** main.cpp:351-369: one leaf. *)
Definition report_leaf (V : Qc -> Qc -> Qc) (r : report) (p : patch) : res report :=
  let G := pgrid p in
  r' <- foldM (fun r i => foldM (fun r j => report_cell V G (pu p) i j r) (seq 0 (gny G)) r) (seq 0 (gnx G)) r ;;
  Ok (Report (rl1 r') (rl2 r') (rlI r') (S (rn r'))).

(** main.cpp:351: the traversal; nodes that are not leaves change nothing. *)
Fixpoint report_tree (V : Qc -> Qc -> Qc) (r : report) (t : tree) : res report :=
  match t with
  | Leaf p => report_leaf V r p
  | Node _ a b c d =>
      ra <- report_tree V r a ;; rb <- report_tree V ra b ;; rc <- report_tree V rb c ;; report_tree V rc d
  end.

(** main.cpp:370-372. *)
Definition report_end (area : Qc) (r : report) : report := Report (rl1 r / area) (rl2 r / area) (rlI r) (rn r).
Definition error_report (V : Qc -> Qc -> Qc) (xl xu yl yu : Qc) (t : tree) : res report :=
  r <- report_tree V no_report t ;; Ok (report_end ((xu - xl) * (yu - yl)) r).

(** The same on one of several ranks, whose traversal visits the leaves the rank
    owns (Quadtree.hpp:293-314).  Nothing is reduced over the ranks. *)
Definition rank_report (V : Qc -> Qc -> Qc) (xl xu yl yu : Qc) (own : list patch) : res report :=
  r <- foldM (report_leaf V) own no_report ;; Ok (report_end ((xu - xl) * (yu - yl)) r).

(** main.cpp:373-374. *)
Definition resolution (max_level nx : nat) : nat := 2 ^ max_level * nx.
Definition nDOFs (r : report) (nx ny : nat) : nat := rn r * (nx * ny).

(** patch-solver/main.cpp:88-140: the error of the patch solver on one n by n patch. *)
Definition patch_error (solve : grid -> list Qc -> list Qc -> res (list Qc)) (uExact fRHS : Qc -> Qc -> Qc) (n : nat) : res Qc :=
  let xl := (- (1))%Qc in let xu := 1%Qc in let yl := (- (1))%Qc in let yu := 1%Qc in
  let nx := n in let ny := n in
  let G := Grid nx ny xl xu yl yu in
  we <- foldM (fun s j => w <- vset (fst s) j (uExact xl (gy G j)) ;; e <- vset (snd s) j (uExact xu (gy G j)) ;; Ok (w, e))
          (seq 0 ny) (repeat 0%Qc nx, repeat 0%Qc nx) ;;
  sn <- foldM (fun s i => a <- vset (fst s) i (uExact (gx G i) yl) ;; b <- vset (snd s) i (uExact (gx G i) yu) ;; Ok (a, b))
          (seq 0 nx) (repeat 0%Qc nx, repeat 0%Qc nx) ;;
  g <- concatenate 0%Qc [fst we; snd we; fst sn; snd sn] ;;
  fu <- foldM (fun s i => foldM (fun s j =>
          let I := j + i * ny in
          f <- vset (fst s) I (fRHS (gx G i) (gy G j)) ;; u <- vset (snd s) I (uExact (gx G i) (gy G j)) ;; Ok (f, u))
          (seq 0 ny) s) (seq 0 nx) (repeat 0%Qc (nx * ny), repeat 0%Qc (nx * ny)) ;;
  u <- solve G g (fst fu) ;;
  vectorInfNorm (snd fu) u.
