(** Collective calls of the five-point patch solver.

    FiniteVolumeSolver.cpp:20-215 with solver type FivePointStencil creates two index
    sets per call with ISCreateGeneral(MPI_COMM_WORLD, ...) (199 and 200).
    Assumption about PETSc (not part of /repo): ISCreateGeneral is collective over the
    communicator it gets; it sets up the layout of the index set with MPI_Allgather
    and MPI_Allreduce, so it returns on no rank before all ranks have called it.
    All other objects of the solver are created on MPI_COMM_SELF (43, 50). *)
From Verif Require Import Base VectorModel MatrixModel HPSModel TreeModel ParModel.

(** MPI_COMM_WORLD of [size] ranks; the empty path is the path of no quadrant. *)
Definition world (size : nat) : comm := Comm [] 0 (size - 1).

(** [n] calls that are collective over MPI_COMM_WORLD and return nothing. *)
Fixpoint worlds {D A} (size n : nat) (k : cmd D A) : cmd D A :=
  match n with
  | 0 => k
  | S n' => Allreduce (world size) 0 (fun _ => worlds size n' k)
  end.

(** Index sets created by one call of solve with the five-point stencil
    (FiniteVolumeSolver.cpp:199-200), of mapD2N (308, one solve), of buildD2N (without
    DTN_OPTIMIZE, 450-456, 4 N calls of mapD2N) and of particularNeumannData (463-468,
    one call of mapD2N). *)
Definition solve_calls : nat := 2.
Definition mapD2N_calls : nat := solve_calls.
Definition buildD2N_calls (nside : nat) : nat := (4 * nside) * mapD2N_calls.
Definition particular_calls : nat := mapD2N_calls.

(** A callback whose work on a leaf makes [n] collective calls over
    MPI_COMM_WORLD.  The local results do not depend on the calls, so the order of calls and
    local work within one leaf is left open: the calls come first. *)
Definition leaf_calls {D S R} (size n : nat) (cb : @callback D S R) : @callback D S R :=
  fun st q local k => if local then worlds size n (cb st q local k) else cb st q local k.

Section stages.
Context {D S R : Type}.
(** [run_stage] of ParModel where every leaf makes [n] collective calls. *)
Definition run_stage_w (size n rank : nat) (dflt : D) (F : forest) (g : stage D S) (st : S * nmap D)
  (k : S * nmap D -> cmd D R) : cmd D R :=
  match g with
  | Merge fn fam =>
      search_reorder rank no_callback (leaf_calls size n (search_merge_split rank BROADCAST dflt fn fam)) F root_quadrant st k
  | Split fn fam =>
      search_reorder rank (leaf_calls size n (search_merge_split rank BROADCAST dflt fn fam)) no_callback F root_quadrant st k
  | AtRoot h => run_stage rank dflt F g st k
  end.

(** A sequence of stages, each with the number of collective calls per leaf. *)
Fixpoint run_stages_w (size rank : nat) (dflt : D) (F : forest) (l : list (nat * stage D S)) (st : S * nmap D)
  (k : S * nmap D -> cmd D R) : cmd D R :=
  match l with
  | [] => k st
  | (n, g) :: l' => run_stage_w size n rank dflt F g st (fun st' => run_stages_w size rank dflt F l' st' k)
  end.
End stages.

(** The direct solver with the five-point patch solver: build stage (buildD2N on every
    leaf, HPSAlgorithm.hpp:141), upwards stage (particularNeumannData, 196 or 252) and
    solve stage (solve, 593). *)
Definition five_point_stages (nside : nat) (sv : solver) (gesv : gesv_t) (hom : bool) (load : grid -> list Qc)
  (rg : patch -> res (list Qc)) : list (nat * stage patch (option (matrix Qc))) :=
  combine [buildD2N_calls nside; particular_calls; 0; solve_calls] (hps_stages sv gesv hom load rg).

(** ** Index sets that are never destroyed

    FiniteVolumeSolver.cpp:20-225: what one solve with the five-point stencil creates
    and destroys.  Assumption about PETSc: an object created is held until it is destroyed
    (MatLUFactor of a dense matrix keeps no reference to the index sets). *)
Inductive petsc_kind := PMat | PVec | PIS.
Inductive petsc_op := Create (o : petsc_kind) | Destroy (o : petsc_kind).
Definition solve_ops : list petsc_op :=
  [Create PMat; Create PVec; Create PVec; Create PIS; Create PIS; Destroy PMat; Destroy PVec; Destroy PVec].
