(** Model of src/Vector.hpp (class Vector and the free functions on it).

    A vector is the list of its entries; [size_] (Vector.hpp:43) is the length of
    the list, because every constructor (Vector.hpp:69-98) and every mutator sets
    both together.  The fields [name_], [vtkType_], [vtkComponents_]
    (Vector.hpp:49-61) are not part of this model; see VtkModel. *)
From Verif Require Import Base.

Section Poly.
Context {A : Type}.

(** Vector.hpp:146-155 getEntry, 166-195 operator[], 206-215 operator()(index):
    the check is [index > size_]; the access itself is an unchecked
    [std::vector] access. *)
Definition vget (v : list A) (i : nat) : res A :=
  if length v <? i then Throw out_of_range
  else match nth_error v i with Some a => Ok a | None => UB end.

(** Vector.hpp:166-175 operator[] used on the left of an assignment. *)
Definition vset (v : list A) (i : nat) (a : A) : res (list A) :=
  if length v <? i then Throw out_of_range
  else if i <? length v then Ok (upd v i a) else UB.

(** Direct unchecked access [data_[i]] used inside member functions. *)
Definition vdata (v : list A) (i : nat) : res A :=
  match nth_error v i with Some a => Ok a | None => UB end.

(** Vector.hpp:261-276 getRange and 287-302 operator()(a,b).  The values written
    are [a + i], converted from size_t to the element type by [of_nat].  When
    b + 1 < a the size [(b - a) + 1] wraps to a huge number and the allocation
    throws. *)
Definition getRange (of_nat : nat -> A) (v : list A) (a b : nat) : res (list A) :=
  if (length v <? a) || (length v <? b) then Throw out_of_range
  else if b + 1 <? a then Throw length_error
  else Ok (map (fun i => of_nat (a + i)) (seq 0 (b + 1 - a))).

(** Vector.hpp:311-328 getSegment.  Simplification: [startIndex + length] does
    not wrap; see [getSegment_sz] for the version with wrap-around. *)
Definition getSegment (v : list A) (start len : nat) : res (list A) :=
  if length v <? start + len then Throw out_of_range
  else mapM (fun ii => vdata v (start + ii)) (seq 0 len).

(** Vector.hpp:336-349 setSegment, same simplification. *)
Definition setSegment (v : list A) (start : nat) (w : list A) : res (list A) :=
  if length v <? start + length w then Throw out_of_range
  else foldM (fun v k => a <- vget w k ;;
                         if start + k <? length v then Ok (upd v (start + k) a) else UB)
             (seq 0 (length w)) v.

(** Vector.hpp:356-359 append. *)
Definition vappend (v w : list A) : list A := v ++ w.

End Poly.

(** Vector.hpp:369-391 getFromIndexSet and 401-423 operator()(Vector<int>).
    Indices are ints; in [I[i] > size_] the int is converted to size_t, so a
    negative index is a huge one and is rejected. *)
Definition vgetFromIndexSet {A} (v : list A) (I : list Z) : res (list A) :=
  if length v <? length I then Throw out_of_range
  else mapM (fun i => z <- vget I i ;;
                      if (Z.of_nat (length v) <? z)%Z || (z <? 0)%Z then Throw out_of_range
                      else vget v (Z.to_nat z))
            (seq 0 (length I)).

(** The loop shared by Vector.hpp:443-454 (SGlobal) and Matrix.hpp:451-468
    (IGlobal, JGlobal): for every block number I[i] in order, write the global
    indices of that block to consecutive positions of an array of length [n].
    Simplification: block numbers and block sizes are non-negative. *)
Definition blockIndexList (I S : list nat) (n : nat) : res (list Z) :=
  st <- foldM (fun st i =>
          I_i <- vget I i ;;
          s <- foldM (fun s ii => x <- vget S ii ;; Ok (s + x)) (seq 0 I_i) 0 ;;
          len <- vget S I_i ;;
          foldM (fun st iii =>
                   let '(cnt, g) := st in
                   g' <- vset g cnt (Z.of_nat iii) ;; Ok (Datatypes.S cnt, g'))
                (seq s len) st)
        (seq 0 (length I)) (0, repeat 0%Z n) ;;
  Ok (snd st).

Definition sum_sizes (S : list nat) : nat := fold_left Nat.add S 0.

(** Vector.hpp:432-458 blockPermute. *)
Definition vblockPermute {A} (v : list A) (I S : list nat) : res (list A) :=
  if negb (sum_sizes S =? length v) then Throw invalid_argument
  else g <- blockIndexList I S (length v) ;; vgetFromIndexSet v g.

(** Vector.hpp:846-857 concatenate; [zero] is the value-initialised element of
    the freshly allocated result. *)
Definition concatenate {A} (zero : A) (vs : list (list A)) : res (list A) :=
  st <- foldM (fun st v =>
          foldM (fun st i =>
                   let '(index, r) := st in
                   a <- vget v i ;; r' <- vset r index a ;; Ok (Datatypes.S index, r'))
                (seq 0 (length v)) st)
        vs (0, repeat zero (sum_sizes (map (@length A) vs))) ;;
  Ok (snd st).

(** Vector.hpp:764-771 vectorRange(start,end), both ends included.  A negative
    size is converted to a huge size_t and the allocation throws. *)
Definition vectorRange (start end_ : Z) : res (list Z) :=
  let n := (end_ - start + 1)%Z in
  if (n <? 0)%Z then Throw length_error
  else Ok (map (fun i => (start + Z.of_nat i)%Z) (seq 0 (Z.to_nat n))).

(** ** Arithmetic (Vector<double>) *)

(** The loop [data_[i] = data_[i] op rhs[i]] with the size check of
    Vector.hpp:502-515 (+=), 565-578 (-=). *)
Definition vzipeq (op : Qc -> Qc -> Qc) (v w : list Qc) : res (list Qc) :=
  if negb (length w =? length v) then Throw invalid_argument
  else mapM (fun i => a <- vdata v i ;; b <- vget w i ;; Ok (op a b)) (seq 0 (length v)).

(** Vector.hpp:502-515, 536-547 (binary form copies and applies +=). *)
Definition vaddeq := vzipeq Qcplus.
Definition vadd (v w : list Qc) : res (list Qc) :=
  if negb (length w =? length v) then Throw invalid_argument else vaddeq v w.

(** Vector.hpp:565-578, 599-610. *)
Definition vsubeq := vzipeq Qcminus.
Definition vsub (v w : list Qc) : res (list Qc) :=
  if negb (length w =? length v) then Throw invalid_argument else vsubeq v w.

(** The loop [data_[i] = data_[i] op c]: Vector.hpp:523-528 (+= scalar), 586-591
    (-= scalar), 628-633 ( *= scalar), 663-668 (/= scalar), and the binary forms
    555-557, 618-620. *)
Definition vscaleq (op : Qc -> Qc -> Qc) (v : list Qc) (c : Qc) : res (list Qc) :=
  mapM (fun i => a <- vdata v i ;; Ok (op a c)) (seq 0 (length v)).
Definition vadds := vscaleq Qcplus.
Definition vsubs := vscaleq Qcminus.
(** The products and quotients with a scalar are in InPlaceModel. *)

(** Vector.hpp:488-494 unary minus. *)
Definition vneg (v : list Qc) : res (list Qc) :=
  mapM (fun i => a <- vdata v i ;; Ok (- a)%Qc) (seq 0 (length v)).

(** Vector.hpp:641-655 member operator*: dot product. *)
Definition vdot (v w : list Qc) : res Qc :=
  if negb (length w =? length v) then Throw invalid_argument
  else foldM (fun s i => b <- vget w i ;; a <- vdata v i ;; Ok (s + b * a)%Qc)
             (seq 0 (length v)) 0%Qc.

(** Vector.hpp:782-788 scalar * vector. *)
Definition vscal (c : Qc) (v : list Qc) : res (list Qc) :=
  mapM (fun i => a <- vget v i ;; Ok (c * a)%Qc) (seq 0 (length v)).

(** Vector.hpp:799-812 and 823-836 entrywise product and quotient. *)
Definition ventrywise (op : Qc -> Qc -> Qc) (v w : list Qc) : res (list Qc) :=
  if negb (length v =? length w) then Throw invalid_argument
  else mapM (fun i => a <- vget v i ;; b <- vget w i ;; Ok (op a b)) (seq 0 (length v)).
Definition vhad := ventrywise Qcmult.
Definition vquot := ventrywise Qcdiv.

(** Vector.hpp:881-896 vectorInfNorm. *)
Definition Qcabs (x : Qc) : Qc := if Qclt_le_dec x 0 then (- x)%Qc else x.
Definition Qcmax (x y : Qc) : Qc := if Qclt_le_dec x y then y else x.
Definition vectorInfNorm (v w : list Qc) : res Qc :=
  if negb (length v =? length w) then Throw invalid_argument
  else foldM (fun m i => a <- vget v i ;; b <- vget w i ;; Ok (Qcmax m (Qcabs (a - b)%Qc)))
             (seq 0 (length v)) 0%Qc.

(** Vector.hpp:907-922 vectorL2Norm without the final square root (the square
    root is not a rational operation). *)
Definition vectorL2NormSquared (v w : list Qc) : res Qc :=
  if negb (length v =? length w) then Throw invalid_argument
  else foldM (fun m i => a <- vget v i ;; b <- vget w i ;;
                         Ok (m + (a - b) * (a - b))%Qc)
             (seq 0 (length v)) 0%Qc.

(** ** Versions with 64-bit [size_t] arithmetic *)
Definition w64 (x : N) : N := (x mod 2 ^ 64)%N.
(** [std::vector<double>::max_size()] is 2^60 - 1: larger requests throw
    std::length_error. *)
Definition too_long (n : N) : bool := (2 ^ 60 <=? n)%N.
Definition Nlen {A} (v : list A) : N := N.of_nat (length v).

(** Vector.hpp:311-328 getSegment with wrap-around: the loop
    [for (i = startIndex; i < startIndex + length; i++)] runs
    [w64 (start+len) - start] times (never, if the sum wrapped); entries that are
    not written keep the value [zero] they were allocated with. *)
Definition getSegment_sz {A} (zero : A) (v : list A) (start len : N) : res (list A) :=
  let e := w64 (start + len) in
  if (Nlen v <? e)%N then Throw out_of_range
  else if too_long len then Throw length_error
  else mapM (fun ii => if (N.of_nat ii <? e - start)%N
                       then vdata v (N.to_nat start + ii) else Ok zero)
            (seq 0 (N.to_nat len)).
