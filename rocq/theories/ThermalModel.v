(** The program examples/thermal/main.cpp: the heat equation by backward Euler.
    The mesh, the options and the output are left out; the functions the user may
    change are parameters. *)
From Verif Require Import Base VectorModel MatrixModel HPSModel FVModel.

(** HPSAlgorithm.hpp:178-216 upwardsStage with any callback that computes the load of
    a leaf from the leaf's own patch. *)
Definition up_leaf_cb (sv : solver) (cb : patch -> res (list Qc)) (st : unit) (p : patch) : res (unit * patch) :=
  f <- cb p ;;
  let p1 := set_f p f in
  h <- sv_h sv (pgrid p1) (pf p1) ;;
  Ok (tt, set_h p1 h).
Definition upwardsStage_cb (sv : solver) (gesv : gesv_t) (hom : bool) (cb : patch -> res (list Qc)) (t : tree) : res tree :=
  r <- tmerge (up_leaf_cb sv cb) (upwards4to1 gesv hom) tt t ;; Ok (snd r).

(** main.cpp:68-158, 215-225: the functions of position and time, and the time
    interval.  nt is a double in the program; here a natural number. *)
Record thermal : Type := Thermal {
  th_start : Qc;
  th_end : Qc;
  th_nt : nat;
  th_west : Qc -> Qc -> Qc -> Qc;      (** uWest *)
  th_east : Qc -> Qc -> Qc -> Qc;      (** uEast *)
  th_south : Qc -> Qc -> Qc -> Qc;     (** dudnSouth *)
  th_north : Qc -> Qc -> Qc -> Qc;     (** dudnNorth *)
  th_sources : Qc -> Qc -> Qc -> Qc;   (** sources *)
  th_beta : Qc -> Qc -> Qc             (** betaFunction *)
}.

(** main.cpp:224 dt; main.cpp:289 time. *)
Definition th_dt (P : thermal) : Qc := ((th_end P - th_start P) / Qc_of_nat (th_nt P))%Qc.
Definition th_time (P : thermal) (n : nat) : Qc := (th_start P + Qc_of_nat n * th_dt P)%Qc.

(** main.cpp:131-158 alphaFunction, betaFunction, lambdaFunction. *)
Definition th_coefs (P : thermal) : coefs :=
  Coefs (fun _ _ => 1%Qc) (th_beta P) (fun _ _ => (- (1) / th_dt P)%Qc).

(** main.cpp:294-321: the load callback of iteration [n]. *)
Definition thermal_load (P : thermal) (n : nat) (p : patch) : res (list Qc) :=
  let G := pgrid p in let nx := gnx G in let ny := gny G in
  foldM (fun f i => foldM (fun f j =>
    let index := j + i * ny in
    if n =? 0 then vset f index 0%Qc
    else
      let x := gx G i in let y := gy G j in
      u <- vget (pu p) index ;;
      vset f index (- (1 / th_dt P) * u - th_sources P x y (th_time P n))%Qc) (seq 0 ny) f)
    (seq 0 nx) (repeat 0%Qc (nx * ny)).

(** main.cpp:324-355: the boundary callback, as the functions a, b and r. *)
Definition thermal_a (side : nat) (_ _ : Qc) : Qc := match side with 0 | 1 => 1%Qc | _ => 0%Qc end.
Definition thermal_b (side : nat) (_ _ : Qc) : Qc := match side with 0 | 1 => 0%Qc | _ => 1%Qc end.
Definition thermal_r (P : thermal) (time : Qc) (side : nat) (x y : Qc) : Qc :=
  match side with
  | 0 => th_west P x y time
  | 1 => th_east P x y time
  | 2 => th_south P x y time
  | 3 => th_north P x y time
  | _ => 0%Qc
  end.

(** main.cpp:287-355: one iteration of the loop, and [k] iterations from n = 0. *)
Definition thermal_step (lu : lu_t) (gesv : gesv_t) (P : thermal) (t : tree) (n : nat) : res tree :=
  let sv := fv_solver lu (th_coefs P) in
  t2 <- upwardsStage_cb sv gesv false (thermal_load P n) t ;;
  solveStage_fn sv gesv false thermal_a thermal_b (thermal_r P (th_time P n)) t2.
Definition thermal_run (lu : lu_t) (gesv : gesv_t) (P : thermal) (st : option (matrix Qc)) (t : tree) (k : nat) : res tree :=
  r <- buildStage (fv_solver lu (th_coefs P)) gesv false st t ;;
  foldM (thermal_step lu gesv P) (seq 0 k) (snd r).
(** The whole loop, n = 0 .. nt. *)
Definition thermal_main (lu : lu_t) (gesv : gesv_t) (P : thermal) (st : option (matrix Qc)) (t : tree) : res tree :=
  thermal_run lu gesv P st t (S (th_nt P)).
