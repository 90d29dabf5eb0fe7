(** Model of distributed vectors and matrices: ParallelVector (src/Vector.hpp:1012-1146) and the values of
    ParallelMatrix (src/Matrix.hpp:1149-1187, 1299-1350).

    PETSc: a vector of [n] rows on [p] ranks with PETSC_DECIDE gives rank r the rows
    r*(n/p) + min(r, n mod p) and the next n/p or n/p + 1; a matrix is divided by rows.  Entries are
    zero at first.  Insertion writes own entries at once and keeps the others until
    assembly, which sends one message to each owner; the messages of different ranks are worked
    off in the order of their arrival.  Negative indices are skipped; an index that is too large is
    undefined (an error in PETSc built for debugging).  Only INSERT_VALUES is modelled.  A row of a matrix is stored
    in full, so a matrix is a vector whose rows have [w] entries; a vector has [w = 1].  Ranks
    must agree on the global sizes.  Numbers of rows and columns fit an int. *)
From Verif Require Import Base VectorModel MatrixModel.

(** Rows of a rank. *)
Definition row_start (n p r : nat) : nat := r * (n / p) + Nat.min r (n mod p).
Definition row_count (n p r : nat) : nat := n / p + (if r <? n mod p then 1 else 0).

(** What a rank holds: its entries, and entries of other ranks until assembly. *)
Record vrank : Type := VRank { v_own : list Qc; v_stash : list (nat * Qc) }.
Definition fresh_rank (n p w r : nat) : vrank := VRank (repeat 0%Qc (row_count n p r * w)) [].
Definition owned (n p w r k : nat) : bool := (row_start n p r * w <=? k) && (k <? (row_start n p r + row_count n p r) * w).
Definition put_own (n p w r : nat) (own : list Qc) (e : nat * Qc) : list Qc :=
  if owned n p w r (fst e) then upd own (fst e - row_start n p r * w) (snd e) else own.

(** One value; [k] is the index row * w + column. *)
Definition set_entry (n p w r : nat) (x : vrank) (e : nat * Qc) : res vrank :=
  if n * w <=? fst e then UB
  else if owned n p w r (fst e) then Ok (VRank (put_own n p w r (v_own x) e) (v_stash x))
  else Ok (VRank (v_own x) (v_stash x ++ [e])).

(** Vector.hpp:1132-1135 setValues: N values are read. *)
Definition vec_set_values (n p r : nat) (x : vrank) (indices : list Z) (values : list Qc) : res vrank :=
  if length values <? length indices then UB
  else foldM (fun x e => if (fst e <? 0)%Z then Ok x else set_entry n p 1 r x (Z.to_nat (fst e), snd e))
             (combine indices values) x.
(** Matrix.hpp:1316-1324 setValues: value number i * n + j goes to row i and column j. *)
Definition mat_set_values (n p w r : nat) (x : vrank) (rows cols : list Z) (values : list Qc) : res vrank :=
  if length values <? length rows * length cols then UB
  else foldM (fun x i =>
         foldM (fun x j =>
           let ri := nth i rows 0%Z in let cj := nth j cols 0%Z in
           if (ri <? 0)%Z || (cj <? 0)%Z then Ok x
           else if (n <=? Z.to_nat ri) || (w <=? Z.to_nat cj) then UB
           else set_entry n p w r x (Z.to_nat ri * w + Z.to_nat cj, nth (i * length cols + j) values 0%Qc))
         (seq 0 (length cols)) x)
       (seq 0 (length rows)) x.

(** beginAssembly and endAssembly on all ranks (Vector.hpp:1137-1143, Matrix.hpp:1342-1348): rank r
    works off the messages of the ranks in [order r]. *)
Definition assemble (n p w : nat) (order : nat -> list nat) (ranks : list vrank) : list vrank :=
  map (fun r => VRank (fold_left (fun own s => fold_left (put_own n p w r) (v_stash (nth s ranks (VRank [] []))) own)
                                 (order r) (v_own (nth r ranks (VRank [] [])))) [])
      (seq 0 (length ranks)).
(** All entries, in the order of the ranks. *)
Definition global (ranks : list vrank) : list Qc := concat (map v_own ranks).

(** Vector.hpp:1058-1072 on all ranks: rank r has the serial vector number r. *)
Definition from_serial_vector (serials : list (list Qc)) : res (list vrank) :=
  let p := length serials in
  mapM (fun r =>
    let v := nth r serials [] in let n := length v in
    if forallb (fun v' => length v' =? n) serials then
      idx <- vectorRange 0 (Z.of_nat n - 1) ;; vec_set_values n p r (fresh_rank n p 1 r) idx v
    else UB) (seq 0 p).
(** Matrix.hpp:1155-1170 on all ranks. *)
Definition from_serial_matrix (serials : list (matrix Qc)) : res (list vrank) :=
  let p := length serials in
  mapM (fun r =>
    let m := nth r serials (Mat 0 0 []) in
    if forallb (fun m' => (nr m' =? nr m) && (nc m' =? nc m)) serials then
      rows <- vectorRange 0 (Z.of_nat (nr m) - 1) ;; cols <- vectorRange 0 (Z.of_nat (nc m) - 1) ;;
      mat_set_values (nr m) p (nc m) r (fresh_rank (nr m) p (nc m) r) rows cols (dat m)
    else UB) (seq 0 p).

(** ** Life of ParallelVector objects

    As in PMatModel for matrices.  There are no user-defined copy operations, so copies and assignments take
    over the handle and is_created. *)
Record vobj : Type := VObj { v_vec : option nat; v_created : bool }.
Record vstate : Type := VState { v_next : nat; v_destroyed : list nat; v_objs : nat -> option vobj }.
Definition v_start : vstate := VState 0 [] (fun _ => None).
Definition v_put (st : vstate) (o : nat) (x : option vobj) : vstate :=
  VState (v_next st) (v_destroyed st) (fun o' => if o =? o' then x else v_objs st o').
Definition v_obj (st : vstate) (o : nat) : res vobj := match v_objs st o with Some x => Ok x | None => UB end.

Inductive vcall : Type :=
| VDefault (o : nat)      (** Vector.hpp:1026-1032 *)
| VMake (o : nat)         (** Vector.hpp:1034-1088, the constructors that call create *)
| VCopy (o s : nat)       (** implicit copy constructor *)
| VAssign (o s : nat)     (** implicit assignment *)
| VCreate (o : nat)       (** Vector.hpp:1115-1118 *)
| VDestroy (o : nat).     (** Vector.hpp:1105-1113 *)

Definition v_new (st : vstate) (o : nat) (x : vobj) : res vstate :=
  match v_objs st o with None => Ok (v_put st o (Some x)) | Some _ => UB end.
Definition v_fresh (st : vstate) : nat * vstate := (v_next st, VState (S (v_next st)) (v_destroyed st) (v_objs st)).
Definition v_step (st : vstate) (c : vcall) : res vstate :=
  match c with
  | VDefault o => v_new st o (VObj None false)
  | VMake o => let '(m, st) := v_fresh st in v_new st o (VObj (Some m) true)
  | VCopy o s => x <- v_obj st s ;; v_new st o x
  | VAssign o s => x <- v_obj st s ;; _ <- v_obj st o ;; Ok (v_put st o (Some x))
  | VCreate o => _ <- v_obj st o ;; let '(m, st) := v_fresh st in Ok (v_put st o (Some (VObj (Some m) true)))
  | VDestroy o =>
      x <- v_obj st o ;;
      let st := match v_created x, v_vec x with
                | true, Some m => VState (v_next st) (v_destroyed st ++ [m]) (v_objs st)
                | _, _ => st
                end in
      Ok (v_put st o None)
  end.
Definition v_run (cs : list vcall) : res vstate := foldM v_step cs v_start.
