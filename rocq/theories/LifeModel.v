(** The application object: src/EllipticForestApp.cpp and src/GenericSingleton.hpp.

    Simplifications: one thread, so the mutex of getInstance is not modelled; the
    options of an object are one value; timers are in TimerModel.v; printing is
    left out; PETSc calls succeed. *)
From Verif Require Import Base.

(** The phases of MPI in a process.  Calling MPI_Init twice, MPI_Finalize outside of
    [Running] or MPI_Comm_rank outside of [Running] is erroneous (MPI standard
    section on startup) and [UB] here; MPI_Initialized and MPI_Finalized may be
    called at any time, and MPI_Initialized stays true after MPI_Finalize. *)
Inductive phase : Type := Before | Running | After.

(** An object: its options and whether it is alive. *)
Record app_obj : Type := AppObj { options_of : nat; alive : bool }.

(** The state of a process: MPI, how often it was initialised and finalised,
    whether PETSc is initialised, all application objects created so far in order
    of creation, and GenericSingleton.hpp:41 actualClassPointer_. *)
Record process : Type := Process {
  mpi : phase; inits : nat; finals : nat; petsc : bool; objs : list app_obj; ptr : option nat }.

(** GenericSingleton.hpp:53: the pointer is null at first. *)
Definition started_process : process := Process Before 0 0 false [] None.

Definition set_mpi (p : process) (m : phase) (i f : nat) : process := Process m i f (petsc p) (objs p) (ptr p).
Definition set_petsc (p : process) (b : bool) : process := Process (mpi p) (inits p) (finals p) b (objs p) (ptr p).
Definition set_objs (p : process) (l : list app_obj) : process := Process (mpi p) (inits p) (finals p) (petsc p) l (ptr p).
Definition set_ptr (p : process) (x : option nat) : process := Process (mpi p) (inits p) (finals p) (petsc p) (objs p) x.

(** MPI_Init. *)
Definition mpi_init (p : process) : res process :=
  match mpi p with Before => Ok (set_mpi p Running (S (inits p)) (finals p)) | _ => UB end.
(** MPI_Finalize. *)
Definition mpi_finalize (p : process) : res process :=
  match mpi p with Running => Ok (set_mpi p After (inits p) (S (finals p))) | _ => UB end.
(** MPI_Comm_rank and every other communication. *)
Definition mpi_use (p : process) : res unit := match mpi p with Running => Ok tt | _ => UB end.
(** PetscInitialize: nothing the second time; needs a running MPI here because the
    constructor has called MPI_Init before. *)
Definition petsc_init (p : process) : res process :=
  if petsc p then Ok p else match mpi p with Running => Ok (set_petsc p true) | _ => UB end.
(** PetscFinalize leaves MPI alone unless PETSc has initialised it. *)
Definition petsc_finalize (p : process) : res process := Ok (set_petsc p false).

(** What a program sees. *)
Inductive event : Type :=
| Created (i : nat)        (** a constructor has finished *)
| Failed                   (** a constructor has thrown *)
| Instance (i : nat)       (** getInstance has returned object number i *)
| Value (v : nat)          (** options read *)
| Done.

(** The calls of a program. *)
Inductive op : Type :=
| NewApp (args : option nat)   (** EllipticForestApp app(&argc, &argv); [None] if reading the options throws *)
| NewDefault                   (** EllipticForestApp app; *)
| Destroy (i : nat)            (** the destructor *)
| GetInstance
| SetOption (v : nat)          (** through getInstance() *)
| ReadOption                   (** through getInstance() *)
| Log                          (** getInstance().log *)
| UserInit | UserFinalize      (** the program calls MPI_Init, MPI_Finalize itself *).

Section WithPetsc.
(** USE_PETSC. *)
Variable use_petsc : bool.

(** EllipticForestApp.cpp:9-33, constructor with arguments.  If InputParser throws
    (lines 24-25) the object is not created; MPI and PETSc stay initialised. *)
Definition new_app (args : option nat) (p : process) : res (process * event) :=
  p1 <- match mpi p with Before => mpi_init p | _ => Ok p end ;;
  p2 <- (if use_petsc then petsc_init p1 else Ok p1) ;;
  match args with
  | None => Ok (p2, Failed)
  | Some o =>
      _ <- mpi_use p2 ;;
      Ok (set_ptr (set_objs p2 (objs p2 ++ [AppObj o true])) (Some (length (objs p2))), Created (length (objs p2)))
  end.

(** EllipticForestApp.cpp:5-7: nothing but null pointers; empty options. *)
Definition new_default (p : process) : process * event :=
  (set_objs p (objs p ++ [AppObj 0 true]), Created (length (objs p))).

(** EllipticForestApp.cpp:35-60; destroying a dead or missing object is undefined.
    actualClassPointer_ is left as it is. *)
Definition destroy (i : nat) (p : process) : res (process * event) :=
  match nth_error (objs p) i with
  | Some (AppObj o true) =>
      let p0 := set_objs p (upd (objs p) i (AppObj o false)) in
      match mpi p with
      | After => Ok (p0, Done)
      | _ =>
          _ <- mpi_use p0 ;;
          p1 <- (if use_petsc then petsc_finalize p0 else Ok p0) ;;
          p2 <- mpi_finalize p1 ;;
          Ok (p2, Done)
      end
  | _ => UB
  end.

(** GenericSingleton.hpp:19-25: a new default object on the heap if the pointer is
    null; otherwise the object it points to, dead or alive. *)
Definition get_instance (p : process) : process * nat :=
  match ptr p with
  | Some i => (p, i)
  | None => let '(p', _) := new_default p in (set_ptr p' (Some (length (objs p))), length (objs p))
  end.

(** Using the reference that getInstance returns; undefined for a dead object. *)
Definition deref (p : process) (i : nat) : res app_obj :=
  match nth_error (objs p) i with Some (AppObj o true) => Ok (AppObj o true) | _ => UB end.

Definition do_op (o : op) (p : process) : res (process * event) :=
  match o with
  | NewApp args => new_app args p
  | NewDefault => Ok (new_default p)
  | Destroy i => destroy i p
  | GetInstance => let '(p', i) := get_instance p in _ <- deref p' i ;; Ok (p', Instance i)
  | SetOption v =>
      let '(p', i) := get_instance p in
      _ <- deref p' i ;; Ok (set_objs p' (upd (objs p') i (AppObj v true)), Done)
  | ReadOption => let '(p', i) := get_instance p in a <- deref p' i ;; Ok (p', Value (options_of a))
  | Log =>
      (* Logger.hpp:31-38 *)
      let '(p', i) := get_instance p in _ <- deref p' i ;; _ <- mpi_use p' ;; Ok (p', Done)
  | UserInit => p' <- mpi_init p ;; Ok (p', Done)
  | UserFinalize => p' <- mpi_finalize p ;; Ok (p', Done)
  end.

Fixpoint do_ops (l : list op) (p : process) : res (process * list event) :=
  match l with
  | [] => Ok (p, [])
  | o :: l' => r <- do_op o p ;; s <- do_ops l' (fst r) ;; Ok (fst s, snd r :: snd s)
  end.
End WithPetsc.
