(** The program examples/thermal/main.cpp on several ranks: the stages of its time loop as
    stages on the path-keyed map, each with the number of collective calls that the
    five-point patch solver makes per leaf.  The barriers over all ranks inside the stages, the
    mesh, the options and the output are left out. *)
From Verif Require Import Base VectorModel MatrixModel HPSModel FVModel ThermalModel TreeModel ParModel WorldModel.

(** Callbacks on nodes that only look at the patches and return 1. *)
Definition patch_leaf {St} (leaf : patch -> res patch) : St -> qnode patch -> res (St * patch * bool) :=
  fun s n => r <- (q <- leaf (n_data n) ;; Ok (s, q)) ;; Ok (fst r, snd r, true).
Definition patch_family {St} (fam : patch -> four patch -> res (patch * four patch))
  : St -> qnode patch -> four (qnode patch) -> res (St * patch * four patch * bool) :=
  fun s n ch => r <- fam (n_data n) (fmap n_data ch) ;; Ok (s, fst r, snd r, true).

(** main.cpp:287-355: iteration [n] of the loop, upwards stage with the load callback
    (HPSAlgorithm.hpp:178-216), boundary data at the root (352-441) and split (301-319, 445). *)
Definition thermal_iteration (lu : lu_t) (gesv : gesv_t) (P : thermal) (n : nat)
  : list (nat * stage patch (option (matrix Qc))) :=
  let sv := fv_solver lu (th_coefs P) in
  [ (particular_calls,
     Merge (patch_leaf (fun p => r <- up_leaf_cb sv (thermal_load P n) tt p ;; Ok (snd r))) (patch_family (upwards4to1 gesv false)));
    (0, AtRoot (fun s p => g <- root_data gesv thermal_a thermal_b (thermal_r P (th_time P n)) p ;; Ok (s, set_g p g)));
    (solve_calls, Split (patch_leaf (leafSolve sv false)) (patch_family (split1to4 false))) ].

(** main.cpp:283-355: build stage, then [k] iterations from n = 0; [nside] cells per leaf side. *)
Definition thermal_stages (nside : nat) (lu : lu_t) (gesv : gesv_t) (P : thermal) (k : nat)
  : list (nat * stage patch (option (matrix Qc))) :=
  (buildD2N_calls nside,
   Merge (fun s n => r <- build_leaf (fv_solver lu (th_coefs P)) false s (n_data n) ;; Ok (fst r, snd r, true))
         (patch_family (merge4to1 gesv)))
  :: flat_map (thermal_iteration lu gesv P) (seq 0 k).

(** main.cpp:233-355, the program of one rank: construction of the quadtree over the root patch [rd], build
    stage, and [k] iterations of the loop in time.  [size] is the number of ranks. *)
Definition thermal_rank (size nside : nat) (lu : lu_t) (gesv : gesv_t) (P : thermal) (k : nat) (dflt rd : patch) (F : forest) (c0 : option (matrix Qc)) (r : nat) :=
  cseq (construct_prog fv_factory r rd (search_all r F root_quadrant) mempty)
       (fun m => run_stages_w size r dflt F (thermal_stages nside lu gesv P k) (c0, m) (fun x => Fin (Ok x))).
