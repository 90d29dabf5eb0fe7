(** In-place (mutating) member functions of Vector and Matrix, modelled with the
    state of the object after the call, also when the call does not return
    normally.  Vector.hpp, Matrix.hpp. *)
From Verif Require Import Base VectorModel MatrixModel.

(** State of the object after one statement that may fail: a failing statement
    leaves the object as it was. *)
Definition act {S} (s : S) (r : res S) : S * res unit :=
  match r with
  | Ok s' => (s', Ok tt)
  | Throw e => (s, Throw e)
  | UB => (s, UB)
  end.

(** A loop over [l]; it stops at the first failing statement. *)
Fixpoint loopI {A S} (f : S -> A -> S * res unit) (l : list A) (s : S) : S * res unit :=
  match l with
  | [] => (s, Ok tt)
  | a :: l' =>
      let (s', r) := f s a in
      match r with
      | Ok _ => loopI f l' s'
      | _ => (s', r)
      end
  end.

(** Unchecked write [data_[p] = a]. *)
Definition vput {A} (v : list A) (p : nat) (a : A) : res (list A) :=
  if p <? length v then Ok (upd v p a) else UB.

(** Vector.hpp:336-349 setSegment with size_t arithmetic modulo 2^64.  The loop
    [for (i = startIndex; i < startIndex + vec.size(); i++)] runs
    [w64(start+len) - start] times, not at all when the sum wrapped. *)
Definition setSegment_st {A} (v : list A) (start : N) (w : list A) : list A * res unit :=
  let e := w64 (start + Nlen w) in
  if (Nlen v <? e)%N then (v, Throw out_of_range)
  else loopI (fun v k => act v (a <- vget w k ;; vput v (N.to_nat start + k) a))
             (seq 0 (N.to_nat (e - start))) v.

(** Matrix.hpp:519-542 setBlock with size_t arithmetic modulo 2^64. *)
Definition setBlock_st {A} (m : matrix A) (ri ci : N) (b : matrix A) : matrix A * res unit :=
  let re := w64 (ri + N.of_nat (nr b)) in
  let ce := w64 (ci + N.of_nat (nc b)) in
  if (N.of_nat (nr m) <? re)%N then (m, Throw out_of_range)
  else if (N.of_nat (nc m) <? ce)%N then (m, Throw out_of_range)
  else loopI (fun m i =>
         loopI (fun m j => act m (a <- mget b i j ;;
                                  mset m (N.to_nat ri + i) (N.to_nat ci + j) a))
               (seq 0 (N.to_nat (ce - ci))) m)
       (seq 0 (N.to_nat (re - ri))) m.

(** Matrix.hpp:371-391 setRow. *)
Definition setRow_st {A} (m : matrix A) (i : nat) (v : list A) : matrix A * res unit :=
  if nr m <? i then (m, Throw out_of_range)
  else if negb (length v =? nc m) then (m, Throw invalid_argument)
  else loopI (fun m j => act m (a <- vget v j ;; mset m i j a)) (seq 0 (nc m)) m.

(** Matrix.hpp:399-419 setColumn. *)
Definition setColumn_st {A} (m : matrix A) (j : nat) (v : list A) : matrix A * res unit :=
  if nc m <? j then (m, Throw out_of_range)
  else if negb (length v =? nr m) then (m, Throw invalid_argument)
  else loopI (fun m i => act m (a <- vget v i ;; mset m i j a)) (seq 0 (nr m)) m.

(** Vector.hpp:502-515 operator+=(Vector), 565-578 operator-=(Vector). *)
Definition vcompound (op : Qc -> Qc -> Qc) (v w : list Qc) : list Qc * res unit :=
  if negb (length w =? length v) then (v, Throw invalid_argument)
  else loopI (fun v i => act v (a <- vdata v i ;; b <- vget w i ;; vput v i (op a b)))
             (seq 0 (length v)) v.
Definition vaddeq_st := vcompound Qcplus.
Definition vsubeq_st := vcompound Qcminus.

(** Vector.hpp:523-528 (+= c), 586-591 (-= c), 628-633 ( *= c), 663-668 (/= c). *)
Definition vcompound_s (op : Qc -> Qc -> Qc) (v : list Qc) (c : Qc) : list Qc * res unit :=
  loopI (fun v i => act v (a <- vdata v i ;; vput v i (op a c))) (seq 0 (length v)) v.
Definition vaddseq_st := vcompound_s Qcplus.
Definition vsubseq_st := vcompound_s Qcminus.
Definition vmulseq_st := vcompound_s Qcmult.
Definition vdivseq_st := vcompound_s Qcdiv.

(** Matrix.hpp:603-625 operator+=(Matrix), 648-670 operator-=(Matrix). *)
Definition mcompound (op : Qc -> Qc -> Qc) (m b : matrix Qc) : matrix Qc * res unit :=
  if negb (nr b =? nr m) then (m, Throw invalid_argument)
  else if negb (nc b =? nc m) then (m, Throw invalid_argument)
  else loopI (fun m i =>
         loopI (fun m j => act m (x <- mget m i j ;; y <- mget b i j ;; mset m i j (op x y)))
               (seq 0 (nc m)) m)
       (seq 0 (nr m)) m.
Definition maddeq_st := mcompound Qcplus.
Definition msubeq_st := mcompound Qcminus.

(** Matrix.hpp:633-640 (+= c), 678-685 (-= c), 693-700 ( *= c; line 696 reads
    [data_[...] += rhs]). *)
Definition mcompound_s (op : Qc -> Qc -> Qc) (m : matrix Qc) (c : Qc) : matrix Qc * res unit :=
  loopI (fun m i =>
    loopI (fun m j => act m (x <- mget m i j ;; mset m i j (op x c))) (seq 0 (nc m)) m)
  (seq 0 (nr m)) m.
Definition maddseq_st := mcompound_s Qcplus.
Definition msubseq_st := mcompound_s Qcminus.
Definition mmulseq_st := mcompound_s Qcplus.
