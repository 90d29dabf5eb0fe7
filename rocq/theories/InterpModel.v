(** Model of src/Interpolation.cpp.

    Simplifications: doubles are rational numbers; int arithmetic does not overflow. *)
From Verif Require Import Base VectorModel.

(** InterpolantBase (Interpolation.hpp:54-93) without the references to the table, which is
    an argument of every call. *)
Record interp : Type := Interp { i_n : Z; i_mm : Z; i_jsav : Z; i_cor : bool; i_dj : Z }.

(** Interpolation.cpp:5-13 and 110-112.  The fourth root of n >= 1 is at least 1. *)
Definition make_interp (xs : list Qc) (m : Z) : interp :=
  let n := Z.of_nat (length xs) in Interp n m 0 false (Z.min 1 (if (n =? 0)%Z then 0 else 1)).
Definition make_linear (xs : list Qc) : interp := make_interp xs 2.

(** Vector::operator[] with an int: a negative index becomes a huge one. *)
Definition tab (v : list Qc) (i : Z) : res Qc := if (i <? 0)%Z then Throw out_of_range else vget v (Z.to_nat i).

Definition Qcge_b (a b : Qc) : bool := if Qclt_le_dec a b then false else true.
Definition Qclt_b' (a b : Qc) : bool := negb (Qcge_b a b).

(** Interpolation.cpp:37-45 and 96-104.  [fuel] bounds the iterations; without it the loop
    does not end. *)
Fixpoint bisect (fuel : nat) (xs : list Qc) (x : Qc) (ascend : bool) (jl ju : Z) : res Z :=
  if (1 <? ju - jl)%Z then
    match fuel with
    | O => UB
    | S fuel' =>
        let jm := Z.shiftr (ju + jl) 1 in
        a <- tab xs jm ;;
        if Bool.eqb (Qcge_b x a) ascend then bisect fuel' xs x ascend jm ju else bisect fuel' xs x ascend jl jm
    end
  else Ok jl.

(** Interpolation.cpp:63-76: the pair (jl, ju). *)
Fixpoint hunt_up (fuel : nat) (n : Z) (xs : list Qc) (x : Qc) (ascend : bool) (jl inc : Z) : res (Z * Z) :=
  match fuel with
  | O => UB
  | S fuel' =>
      let ju := (jl + inc)%Z in
      if (n - 1 <=? ju)%Z then Ok (jl, (n - 1)%Z)
      else a <- tab xs ju ;;
           if Bool.eqb (Qclt_b' x a) ascend then Ok (jl, ju) else hunt_up fuel' n xs x ascend ju (inc + inc)
  end.
(** Interpolation.cpp:79-93: the pair (jl, ju). *)
Fixpoint hunt_down (fuel : nat) (xs : list Qc) (x : Qc) (ascend : bool) (jl ju inc : Z) : res (Z * Z) :=
  match fuel with
  | O => UB
  | S fuel' =>
      let jl := (jl - inc)%Z in
      if (jl <=? 0)%Z then Ok (0%Z, ju)
      else a <- tab xs jl ;;
           if Bool.eqb (Qcge_b x a) ascend then Ok (jl, ju) else hunt_down fuel' xs x ascend jl jl (inc + inc)
  end.

Definition fuel_for (o : interp) : nat := S (Z.to_nat (i_n o)).
Definition size_error (o : interp) : bool := ((i_n o <? 2) || (i_mm o <? 2) || (i_n o <? i_mm o))%Z.
(** Interpolation.cpp:46-48 and 105-107. *)
Definition finish (o : interp) (jl : Z) : Z * interp :=
  (Z.max 0 (Z.min (i_n o - i_mm o) (jl - Z.shiftr (i_mm o - 2) 1)),
   Interp (i_n o) (i_mm o) 1 (negb (i_dj o <? Z.abs (jl - i_jsav o))%Z) (i_dj o)).

(** Interpolation.cpp:29-49. *)
Definition locate_ (o : interp) (xs : list Qc) (x : Qc) : res (Z * interp) :=
  if size_error o then Throw invalid_argument else
  hi <- tab xs (i_n o - 1) ;; lo <- tab xs 0 ;;
  jl <- bisect (fuel_for o) xs x (Qcge_b hi lo) 0 (i_n o - 1) ;;
  Ok (finish o jl).

(** Interpolation.cpp:51-108. *)
Definition hunt_ (o : interp) (xs : list Qc) (x : Qc) : res (Z * interp) :=
  if size_error o then Throw invalid_argument else
  hi <- tab xs (i_n o - 1) ;; lo <- tab xs 0 ;;
  let ascend := Qcge_b hi lo in
  let jl := i_jsav o in
  '(jl, ju) <- (if (jl <? 0)%Z || (i_n o - 1 <? jl)%Z then Ok (0%Z, (i_n o - 1)%Z)
                else a <- tab xs jl ;;
                     if Bool.eqb (Qcge_b x a) ascend then hunt_up (fuel_for o) (i_n o) xs x ascend jl 1
                     else hunt_down (fuel_for o) xs x ascend jl jl 1) ;;
  jl <- bisect (fuel_for o) xs x ascend jl ju ;;
  Ok (finish o jl).

(** Interpolation.cpp:114-121. *)
Definition rawInterp (xs ys : list Qc) (j : Z) (x : Qc) : res Qc :=
  a <- tab xs j ;; b <- tab xs (j + 1) ;;
  if Qc_eq_dec a b then tab ys j
  else c <- tab ys j ;; d <- tab ys (j + 1) ;; Ok (c + ((x - a) / (b - a)) * (d - c))%Qc.

(** Interpolation.cpp:15-18, for the linear interpolant: the value and the object afterwards. *)
Definition evaluate (o : interp) (xs ys : list Qc) (x : Qc) : res (Qc * interp) :=
  '(jlo, o) <- (if i_cor o then hunt_ o xs x else locate_ o xs x) ;;
  v <- rawInterp xs ys jlo x ;; Ok (v, o).
(** Interpolation.cpp:20-27. *)
Fixpoint evaluate_all (o : interp) (xs ys : list Qc) (x : list Qc) : res (list Qc * interp) :=
  match x with
  | [] => Ok ([], o)
  | a :: x' => '(v, o) <- evaluate o xs ys a ;; '(vs, o) <- evaluate_all o xs ys x' ;; Ok (v :: vs, o)
  end.

(** A sequence of calls on one object; each with the content of the table at that time and
    one point or a vector of points. *)
Definition call (o : interp) (q : list Qc * list Qc * list Qc) : res (list Qc * interp) :=
  let '(xs, ys, x) := q in evaluate_all o xs ys x.
Fixpoint calls (o : interp) (qs : list (list Qc * list Qc * list Qc)) : res (list (list Qc) * interp) :=
  match qs with
  | [] => Ok ([], o)
  | q :: qs' => '(v, o) <- call o q ;; '(vs, o) <- calls o qs' ;; Ok (v :: vs, o)
  end.
