(** What the stored data of a matrix means, independently of the routines that
    access it. *)
From Verif Require Import Base VectorModel MatrixModel.

(** A matrix object is well formed when its storage has the announced size. *)
Definition well_formed {A} (m : matrix A) : Prop := length (dat m) = nr m * nc m.

(** Entry (i,j) of a matrix stored by rows; [None] outside the matrix. *)
Definition entry {A} (m : matrix A) (i j : nat) : option A :=
  if (i <? nr m) && (j <? nc m) then nth_error (dat m) (i * nc m + j) else None.

(** Numerical entry, 0 outside. *)
Definition val (m : matrix Qc) (i j : nat) : Qc :=
  match entry m i j with Some x => x | None => 0%Qc end.
Definition vval (v : list Qc) (i : nat) : Qc := nth i v 0%Qc.

(** Mathematical matrix-vector and matrix-matrix product. *)
Definition is_product_mv (a : matrix Qc) (x y : list Qc) : Prop :=
  length y = nr a /\
  forall i, i < nr a -> vval y i = sum (nc a) (fun j => val a i j * vval x j)%Qc.

Definition is_product_mm (a b c : matrix Qc) : Prop :=
  well_formed c /\ nr c = nr a /\ nc c = nc b /\
  forall i j, i < nr a -> j < nc b ->
    val c i j = sum (nc a) (fun k => val a i k * val b k j)%Qc.

(** A square matrix is nonsingular when only the zero vector is mapped to zero. *)
Definition nonsingular (a : matrix Qc) : Prop :=
  well_formed a /\ nr a = nc a /\
  forall z : nat -> Qc,
    (forall i, i < nr a -> sum (nr a) (fun j => val a i j * z j)%Qc = 0%Qc) ->
    forall j, j < nr a -> z j = 0%Qc.

(** Documented contract of DGESV in exact arithmetic.  [a] and [b] are
    column-major with leading dimension [n].  For a singular matrix the routine
    reports a positive INFO and does not compute a solution; [b] is left as it
    was. *)
Definition col_nonsingular (n : nat) (a : list Qc) : Prop :=
  forall z : nat -> Qc,
    (forall i, i < n -> sum n (fun j => vval a (i + j * n) * z j)%Qc = 0%Qc) ->
    forall j, j < n -> z j = 0%Qc.

Record gesv_contract (gesv : gesv_t) : Prop := {
  gesv_solves : forall n nrhs a b,
    n <> 0 -> length a = n * n -> length b = n * nrhs -> col_nonsingular n a ->
    let (x, info) := gesv n nrhs a b in
    info = 0%Z /\ length x = n * nrhs /\
    forall i k, i < n -> k < nrhs ->
      sum n (fun j => vval a (i + j * n) * vval x (j + k * n))%Qc = vval b (i + k * n);
  gesv_singular : forall n nrhs a b,
    n <> 0 -> length a = n * n -> length b = n * nrhs -> ~ col_nonsingular n a ->
    let (x, info) := gesv n nrhs a b in (0 < info)%Z /\ x = b
}.
