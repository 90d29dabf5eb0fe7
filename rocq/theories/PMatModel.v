(** Model of the ownership of PETSc matrices by ParallelMatrix objects, src/Matrix.hpp:1094-1350,
    and by ParallelIdentityMatrix objects, src/SpecialMatrices.hpp:29-68.

    Simplifications: sizes, values and communicators are left out; MatCreate and its relatives succeed and return
    a matrix that is different from all others; the calls of MatDestroy are recorded, and a second
    call on the same matrix, which is undefined in PETSc, is recorded as well.  A program names objects
    by numbers; using an object before its construction or after its destruction is undefined. *)
From Verif Require Import Base.

(** Fields mat and is_created (Matrix.hpp:1102 and 1106). *)
Record pobj : Type := PObj { p_mat : option nat; p_created : bool }.
(** Number of matrices made so far, calls of MatDestroy, objects. *)
Record pstate : Type := PState { p_next : nat; p_destroyed : list nat; p_objs : nat -> option pobj }.
Definition p_start : pstate := PState 0 [] (fun _ => None).
Definition p_put (st : pstate) (o : nat) (x : option pobj) : pstate :=
  PState (p_next st) (p_destroyed st) (fun o' => if o =? o' then x else p_objs st o').
Definition p_obj (st : pstate) (o : nat) : res pobj := match p_objs st o with Some x => Ok x | None => UB end.
(** A new matrix. *)
Definition p_fresh (st : pstate) : nat * pstate := (p_next st, PState (S (p_next st)) (p_destroyed st) (p_objs st)).
(** A matrix that can be used. *)
Definition p_usable (st : pstate) (x : pobj) : res unit :=
  match p_mat x with Some m => if in_dec Nat.eq_dec m (p_destroyed st) then UB else Ok tt | None => UB end.

Inductive pcall : Type :=
| PDefault (o : nat)           (** Matrix.hpp:1108-1114 *)
| PTake (o : nat)              (** Matrix.hpp:1116-1125, given a matrix made for this *)
| PMake (o : nat)              (** Matrix.hpp:1127-1187, the four constructors that call create *)
| PIdentity (o : nat)          (** SpecialMatrices.hpp:34-66, the three constructors *)
| PSubComm (o s : nat)         (** Matrix.hpp:1190-1229 *)
| PSubIndex (o s : nat)        (** Matrix.hpp:1231-1239 *)
| PCopy (o s : nat)            (** Matrix.hpp:1241-1249 *)
| PMove (o s : nat)            (** Matrix.hpp:1251-1269; there is no copy assignment *)
| PCreate (o : nat)            (** Matrix.hpp:1299-1302 *)
| PDestroy (o : nat).          (** Matrix.hpp:1271-1281 *)

(** Constructors work on storage without an object. *)
Definition p_new (st : pstate) (o : nat) (x : pobj) : res pstate :=
  match p_objs st o with None => Ok (p_put st o (Some x)) | Some _ => UB end.

Definition p_step (st : pstate) (c : pcall) : res pstate :=
  match c with
  | PDefault o => p_new st o (PObj None false)
  | PTake o => let '(m, st) := p_fresh st in p_new st o (PObj (Some m) true)
  | PMake o => let '(m, st) := p_fresh st in p_new st o (PObj (Some m) true)
  | PIdentity o =>
      (* the base constructor of lines 1112-1114, then MatCreateConstantDiagonal and is_created = true;
         MatSetFromOptions and MatSetType change the matrix in place *)
      st <- p_new st o (PObj None false) ;;
      let '(m, st) := p_fresh st in Ok (p_put st o (Some (PObj (Some m) true)))
  | PSubComm o s =>
      x <- p_obj st s ;; _ <- p_usable st x ;;
      (* MatCreateSubMatrices, MatCreateMPIMatConcatenateSeqMat; is_created stays false *)
      let '(_, st) := p_fresh st in let '(m, st) := p_fresh st in p_new st o (PObj (Some m) false)
  | PSubIndex o s =>
      x <- p_obj st s ;; _ <- p_usable st x ;;
      let '(m, st) := p_fresh st in p_new st o (PObj (Some m) true)
  | PCopy o s => x <- p_obj st s ;; p_new st o x
  | PMove o s =>
      x <- p_obj st s ;; _ <- p_obj st o ;;
      if o =? s then Ok st else Ok (p_put (p_put st o (Some x)) s (Some (PObj None false)))
  | PCreate o =>
      _ <- p_obj st o ;; let '(m, st) := p_fresh st in Ok (p_put st o (Some (PObj (Some m) true)))
  | PDestroy o =>
      x <- p_obj st o ;;
      let st := match p_created x, p_mat x with
                | true, Some m => PState (p_next st) (p_destroyed st ++ [m]) (p_objs st)
                | _, _ => st
                end in
      Ok (p_put st o None)
  end.
Definition p_run (cs : list pcall) : res pstate := foldM p_step cs p_start.
