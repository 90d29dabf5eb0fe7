(** Property theorems.  Proofs are in LifeProps.v; this file only restates the
    statements.  Written by tools/gen_thm.py. *)
From Verif Require Import Base LifeModel LifeSpec.
From Verif Require Import LifeProps.

(** [C78] One application object made at the beginning of main and destroyed at its
    end, with or without PETSc, and any use of the library in between: nothing
    undefined happens, getInstance is that object, its options are the last ones set,
    and MPI is initialised and finalised exactly once; also if the program has
    initialised MPI itself. *)
Theorem app_in_main : forall up (user : bool) o body,
  Forall library_use body ->
  exists p,
    do_ops up ((if user then [UserInit] else []) ++ [NewApp (Some o)] ++ body ++ [Destroy 0]) started_process =
      Ok (p, (if user then [Done] else []) ++ [Created 0] ++ one_object 0 o body ++ [Done]) /\
    mpi p = After /\ inits p = 1 /\ finals p = 1 /\ petsc p = false.
Proof. exact @app_in_main_pf. Qed.
Print Assumptions app_in_main.

(** [C78] If reading the options throws, any number of times, the next object can still be made: MPI is not
    initialised again, and the rest is as for a single object. *)
Theorem failed_start_again : forall up n o body,
  Forall library_use body ->
  exists p,
    do_ops up (repeat (NewApp None) n ++ [NewApp (Some o)] ++ body ++ [Destroy 0]) started_process =
      Ok (p, repeat Failed n ++ [Created 0] ++ one_object 0 o body ++ [Done]) /\
    mpi p = After /\ inits p = 1 /\ finals p = 1 /\ petsc p = false.
Proof. exact @failed_start_again_pf. Qed.
Print Assumptions failed_start_again.

(** [C78] A program that ends because reading the options throws has initialised MPI and nobody finalises it. *)
Theorem failed_start_refuted : exists up p e,
  do_ops up [NewApp None] started_process = Ok (p, e) /\ mpi p = Running /\ inits p = 1 /\ finals p = 0 /\ objs p = [].
Proof. exact @failed_start_refuted_pf. Qed.
Print Assumptions failed_start_refuted.

(** [C78] A program that never makes an application object and runs MPI itself (the MPI
    tests): getInstance makes one object at its first use and returns it ever after;
    nobody destroys it, and the library does not touch MPI. *)
Theorem no_app : forall up body,
  Forall library_use body ->
  exists p,
    do_ops up ([UserInit] ++ body ++ [UserFinalize]) started_process = Ok (p, [Done] ++ one_object 0 0 body ++ [Done]) /\
    mpi p = After /\ inits p = 1 /\ finals p = 1 /\ length (objs p) <= 1 /\ (forall a, In a (objs p) -> alive a = true).
Proof. exact @no_app_pf. Qed.
Print Assumptions no_app.

(** [C78] No program of these calls gets further than one initialisation and one
    finalisation of MPI. *)
Theorem mpi_once : forall up l p e, do_ops up l started_process = Ok (p, e) ->
  finals p <= inits p <= 1 /\ (mpi p = Before <-> inits p = 0) /\ (mpi p = After <-> finals p = 1).
Proof. exact @mpi_once_pf. Qed.
Print Assumptions mpi_once.

(** [C78] The end is final: after the object that getInstance returns has been
    destroyed, a program that uses the library again or makes another application
    object has undefined behaviour. *)
Theorem app_is_last : forall up l p e i p1 e1 l2 p2 e2,
  do_ops up l started_process = Ok (p, e) -> ptr p = Some i -> do_op up (Destroy i) p = Ok (p1, e1) ->
  do_ops up l2 p1 = Ok (p2, e2) ->
  forall o, In o l2 -> ~ library_use o /\ (forall v, o <> NewApp (Some v)).
Proof. exact @app_is_last_pf. Qed.
Print Assumptions app_is_last.

(** [C78] So getInstance is not always a live object, and there cannot be one
    application object after another in a process. *)
Theorem app_restart_refuted : forall up, exists o,
  do_ops up [NewApp (Some o); Destroy 0; GetInstance] started_process = UB /\
  do_ops up [NewApp (Some o); Destroy 0; NewApp (Some o)] started_process = UB.
Proof. exact @app_restart_refuted_pf. Qed.
Print Assumptions app_restart_refuted.

(** [C78] The destructor finalises MPI even if the program has initialised it: the
    program's own MPI_Finalize is then erroneous. *)
Theorem caller_owns_mpi_refuted : forall up, exists o p e,
  do_ops up [UserInit; NewApp (Some o); Destroy 0] started_process = Ok (p, e) /\ mpi p = After /\
  do_op up UserFinalize p = UB.
Proof. exact @caller_owns_mpi_refuted_pf. Qed.
Print Assumptions caller_owns_mpi_refuted.

(** [C78] Two objects at a time: the inner one takes getInstance and MPI away from the
    outer one. *)
Theorem two_apps_refuted : forall up, exists o o' p e,
  do_ops up [NewApp (Some o); NewApp (Some o'); ReadOption; Destroy 1] started_process = Ok (p, e) /\
  nth 2 e Done = Value o' /\ o <> o' /\ nth_error (objs p) 0 = Some (AppObj o true) /\ do_op up Log p = UB.
Proof. exact @two_apps_refuted_pf. Qed.
Print Assumptions two_apps_refuted.

(** [C78] Options set through getInstance before the application object is made are
    lost, and the object that held them is never destroyed. *)
Theorem early_options_refuted : forall up, exists v o p e,
  do_ops up [UserInit; SetOption v; NewApp (Some o); ReadOption; Destroy 1] started_process = Ok (p, e) /\
  nth 3 e Done = Value o /\ v <> o /\ nth_error (objs p) 0 = Some (AppObj v true).
Proof. exact @early_options_refuted_pf. Qed.
Print Assumptions early_options_refuted.

(** [C78] A default-constructed object cannot be destroyed before MPI runs. *)
Theorem default_app_refuted : forall up, exists p e,
  do_ops up [NewDefault] started_process = Ok (p, e) /\ do_op up (Destroy 0) p = UB.
Proof. exact @default_app_refuted_pf. Qed.
Print Assumptions default_app_refuted.

(** The hypotheses of the theorems hold for programs that use everything. *)
Example app_in_main_example :
  Forall library_use [Log; SetOption 3; GetInstance; ReadOption] /\
  one_object 0 7 [ReadOption; Log; SetOption 3; GetInstance; ReadOption] = [Value 7; Done; Done; Instance 0; Value 3].
Proof. exact @app_in_main_example_expf. Qed.
