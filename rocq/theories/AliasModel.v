(** Vectors and matrices as objects: arguments that refer to the object itself, copies and
    constructors.  The entries have any type [A] with any operations, so the statements
    hold for double arithmetic, too. *)
From Coq Require Import Ascii String.
From Verif Require Import Base VectorModel MatrixModel XmlModel.

Section alias.
Context {A : Type}.

(** What a [const NumericalType&] argument is bound to: an object outside the vector, or an
    entry of the vector itself. *)
Inductive scalar : Type := Outside (a : A) | Entry (k : nat).

(** The value the reference has now. *)
Definition deref (v : list A) (s : scalar) : res A :=
  match s with Outside a => Ok a | Entry k => vdata v k end.

(** Vector.hpp:586-591 (-=), 628-633 ( *=), 663-668 (/=): the scalar is passed by reference and
    read again in each iteration. *)
Definition scalar_by_reference (op : A -> A -> A) (v : list A) (s : scalar) : res (list A) :=
  foldM (fun v i => a <- vdata v i ;; b <- deref v s ;; Ok (upd v i (op a b))) (seq 0 (length v)) v.

(** Vector.hpp:523-528 (+=); Vector.hpp:555-557, 618-620 (the binary + and -, which take the
    scalar by value and update a copy): the scalar is read once. *)
Definition scalar_by_value (op : A -> A -> A) (v : list A) (s : scalar) : res (list A) :=
  b <- deref v s ;;
  foldM (fun v i => a <- vdata v i ;; Ok (upd v i (op a b))) (seq 0 (length v)) v.

(** The right-hand side of Vector.hpp:502-515 (+=) and 565-578 (-=): another vector, or the
    vector itself. *)
Inductive operand : Type := Other (w : list A) | Same.
Definition rhs_size (v : list A) (o : operand) : nat := match o with Other w => length w | Same => length v end.
Definition rhs_get (v : list A) (o : operand) (i : nat) : res A := match o with Other w => vget w i | Same => vget v i end.
Definition vector_update (op : A -> A -> A) (v : list A) (o : operand) : res (list A) :=
  if negb (rhs_size v o =? length v) then Throw invalid_argument
  else foldM (fun v i => a <- vdata v i ;; b <- rhs_get v o i ;; Ok (upd v i (op a b))) (seq 0 (length v)) v.

(** A Vector object with the fields for VTK output: Vector.hpp:36-61. *)
Record vobj : Type := VObj { o_data : list A; o_name : text; o_components : text; o_type : text }.

(** Vector.hpp:69-98: constructors leave the three texts at their default values. *)
Definition new_vobj (d : list A) : vobj :=
  VObj d (txt "Vector") (txt "1") (txt "Float32").

(** Vector.hpp:105-110 and 117-120: the copy constructors. *)
Definition copy_vobj (v : vobj) : vobj := new_vobj (o_data v).

(** Vector.hpp:128-135: copy assignment; [same] says whether both are the same object. *)
Definition assign_vobj (same : bool) (this rhs : vobj) : vobj :=
  if same then this else VObj (o_data rhs) (o_name this) (o_components this) (o_type this).

(** Matrix.hpp:143-148 and 156-161: a matrix from a list of entries. *)
Definition matrix_from (r c : nat) (d : list A) : res (matrix A) := Ok (Mat r c d).
End alias.
Arguments scalar : clear implicits.
Arguments operand : clear implicits.
Arguments vobj : clear implicits.
