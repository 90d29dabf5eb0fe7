(** The norms of differences (model in VectorModel.v and MatrixModel.v with rational
    numbers) in IEEE double arithmetic, with infinities and NaN. *)
From Coq Require Import Reals.
From Flocq Require Import Core Binary Bits.
From Verif Require Import Base VectorModel MatrixModel FloatModel.

Definition dnan (x : double) : bool := Binary.is_nan 53 1024 x.

(** fabs of the C library. *)
Definition dfabs : double -> double := b64_abs.

(** fmax of the C library: an argument that is not a number is ignored if the other is a
    number.  For two zeros the first is taken; the standard leaves the choice open. *)
Definition dfmax (x y : double) : double :=
  if dnan x then y else if dnan y then x
  else match b64_compare x y with Some Lt => y | _ => x end.

(** Vector.hpp:881-896 vectorInfNorm. *)
Definition dvectorInfNorm (v w : list double) : res double :=
  if negb (length v =? length w) then Throw invalid_argument
  else foldM (fun m i => a <- vget v i ;; b <- vget w i ;; Ok (dfmax m (dfabs (dsub a b))))
             (seq 0 (length v)) (dint 0).

(** Matrix.hpp:994-1018 matrixInfNorm. *)
Definition dmatrixInfNorm (a b : matrix double) : res double :=
  if negb (nr a =? nr b) then Throw invalid_argument
  else if negb (nc a =? nc b) then Throw invalid_argument
  else foldM (fun m i =>
         foldM (fun m j => x <- mget a i j ;; y <- mget b i j ;;
                           Ok (dfmax m (dfabs (dsub x y))))
               (seq 0 (nc b)) m)
       (seq 0 (nr a)) (dint 0).

(** Vector.hpp:907-924 vectorL2Norm; [pow2] is pow(x, 2) of the C library. *)
Definition dvectorL2Norm (pow2 : double -> double) (v w : list double) : res double :=
  if negb (length v =? length w) then Throw invalid_argument
  else s <- foldM (fun m i => a <- vget v i ;; b <- vget w i ;; Ok (dadd m (pow2 (dsub a b))))
                  (seq 0 (length v)) (dint 0) ;;
       Ok (b64_sqrt BinarySingleNaN.mode_NE s).
