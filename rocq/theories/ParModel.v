(** Parallel execution: all ranks run their programs, collectives complete when
    every member of the communicator has called them.

    Assumptions about MPI (not part of /repo): a collective call returns after all
    members of the communicator have entered the same call (synchronising
    collectives: if programs complete under this assumption they complete on any
    MPI implementation, where collectives may return earlier); members that are
    in different calls, or in broadcasts with different roots, wait for ever.
    Communicators of different quadrants are different.  MPI_Comm_create_group is
    collective over the ranks of the group. *)
From Verif Require Import Base VectorModel MatrixModel HPSModel TreeModel.

Section par.
Context {D A : Type}.

(** The state of the parallel machine: the rest of the program of every rank. *)
Definition config := nat -> cmd D A.

Definition member (lo hi r : nat) : Prop := lo <= r <= hi.

(** MPI_MAX over the ranks of a range. *)
Definition max_over (lo hi : nat) (v : nat -> nat) : nat := list_max (map v (seq lo (S hi - lo))).

(** One collective operation completes. *)
Inductive pstep (s s' : config) : Prop :=
| step_allreduce (c : comm) (v : nat -> nat) (k : nat -> nat -> cmd D A) :
    c_lo c <= c_hi c ->
    (forall r, member (c_lo c) (c_hi c) r -> s r = Allreduce c (v r) (k r)) ->
    (forall r, member (c_lo c) (c_hi c) r -> s' r = k r (max_over (c_lo c) (c_hi c) v)) ->
    (forall r, ~ member (c_lo c) (c_hi c) r -> s' r = s r) -> pstep s s'
| step_bcast (c : comm) (root : nat) (x : nat -> qnode D) (k : nat -> qnode D -> cmd D A) :
    c_lo c + root <= c_hi c ->
    (forall r, member (c_lo c) (c_hi c) r -> s r = Bcast c root (x r) (k r)) ->
    (forall r, member (c_lo c) (c_hi c) r -> s' r = k r (x (c_lo c + root))) ->
    (forall r, ~ member (c_lo c) (c_hi c) r -> s' r = s r) -> pstep s s'
| step_group (lo hi : nat) (k : nat -> cmd D A) :
    lo <= hi ->
    (forall r, member lo hi r -> s r = Group lo hi (k r)) ->
    (forall r, member lo hi r -> s' r = k r) ->
    (forall r, ~ member lo hi r -> s' r = s r) -> pstep s s'.

(** [n] collective operations complete, in some order. *)
Inductive runs : nat -> config -> config -> Prop :=
| runs_0 s s' : (forall r, s' r = s r) -> runs 0 s s'
| runs_S n s1 s2 s3 : pstep s1 s2 -> runs n s2 s3 -> runs (S n) s1 s3.

End par.

(** ** Sequences of stages

    What HPSAlgorithm.hpp does with the quadtree: merge (build and upwards stage,
    HPSAlgorithm.hpp:120-161 and 178-272), split (solve stage, 301-319) and, before
    split, access to the data of the root (299, 352, 455; Quadtree.hpp:367-369), which is
    a null pointer on a rank outside the range of the root. *)
Inductive stage (D S : Type) : Type :=
| Merge (fn : @node_fn D S) (fam : @family_fn D S)
| Split (fn : @node_fn D S) (fam : @family_fn D S)
| AtRoot (h : @data_fn D S).
Arguments Merge {D S} _ _.
Arguments Split {D S} _ _.
Arguments AtRoot {D S} _.

Section stages.
Context {D S R : Type}.
Definition run_stage (rank : nat) (dflt : D) (F : forest) (g : stage D S) (st : S * nmap D)
  (k : S * nmap D -> cmd D R) : cmd D R :=
  match g with
  | Merge fn fam => merge rank BROADCAST dflt fn fam F st k
  | Split fn fam => split rank BROADCAST dflt fn fam F st k
  | AtRoot h =>
      match mget (snd st) [0] with
      | None => Fin UB
      | Some n => lift (h (fst st) (n_data n)) (fun r => k (fst r, mset (snd st) [0] (Some (set_ndata n (snd r)))))
      end
  end.

Fixpoint run_stages (rank : nat) (dflt : D) (F : forest) (l : list (stage D S)) (st : S * nmap D)
  (k : S * nmap D -> cmd D R) : cmd D R :=
  match l with
  | [] => k st
  | g :: l' => run_stage rank dflt F g st (fun st' => run_stages rank dflt F l' st' k)
  end.
End stages.

(** One program after another: a failing first program ends the rank. *)
Fixpoint cseq {D A B} (c : cmd D A) (K : A -> cmd D B) : cmd D B :=
  match c with
  | Fin (Ok a) => K a
  | Fin (Throw e) => Fin (Throw e)
  | Fin UB => Fin UB
  | Allreduce c v k => Allreduce c v (fun x => cseq (k x) K)
  | Bcast c root n k => Bcast c root n (fun x => cseq (k x) K)
  | Group lo hi k => Group lo hi (cseq k K)
  end.

(** The direct solver on one rank: HPSAlgorithm.hpp:120-161 (without
    cache-operators), 178-272 and 291-324 or 343-445; [rg] computes the boundary
    data of the root from its patch.  The barriers over all ranks (122, 180, 227, 345)
    are left out.  The state is matrixCache. *)
Definition hps_stages (sv : solver) (gesv : gesv_t) (hom : bool) (load : grid -> list Qc)
  (rg : patch -> res (list Qc)) : list (stage patch (option (matrix Qc))) :=
  [ Merge (fun s n => r <- build_leaf sv false s (n_data n) ;; Ok (fst r, snd r, true))
          (fun s n ch => r <- merge4to1 gesv (n_data n) (fmap n_data ch) ;; Ok (s, fst r, snd r, true));
    Merge (fun s n => r <- up_leaf sv load tt (n_data n) ;; Ok (s, snd r, true))
          (fun s n ch => r <- upwards4to1 gesv hom (n_data n) (fmap n_data ch) ;; Ok (s, fst r, snd r, true));
    AtRoot (fun s p => g <- rg p ;; Ok (s, set_g p g));
    Split (fun s n => p <- leafSolve sv hom (n_data n) ;; Ok (s, p, true))
          (fun s n ch => r <- split1to4 hom (n_data n) (fmap n_data ch) ;; Ok (s, fst r, snd r, true)) ].
