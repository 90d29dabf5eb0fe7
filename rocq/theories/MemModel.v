(** The memory an example reports for a quadtree of patches. *)
From Verif Require Import Base VectorModel MatrixModel LinSpec HPSModel.

(** FiniteVolumePatch.cpp:71 BYTE_2_MEGABYTE. *)
Definition megabyte : Qc := Q2Qc (1048576 # 1).
(** FiniteVolumePatch.cpp:72 4*sizeof(int) + sizeof(bool), with an int of four
    bytes and a bool of one. *)
Definition patch_header : nat := 4 * 4 + 1.
(** FiniteVolumePatch.cpp:74-77 nRows() * nCols() * sizeof(double).  The product
    is a std::size_t; wrap-around at 2^64 is not modelled. *)
Definition matrix_bytes (A : matrix Qc) : nat := nr A * nc A * 8.
(** FiniteVolumePatch.cpp:79-84 size() * sizeof(double). *)
Definition vector_bytes (v : list Qc) : nat := length v * 8.

(** FiniteVolumePatch.cpp:70-87 dataSize.  Every term is a whole number of bytes
    divided by 2^20; in doubles the quotients and the sums are exact below 2^53
    bytes, here they are exact always.  v_serial (line 81) is never assigned in
    the library and is left out: it contributes zero. *)
Definition dataSize (p : patch) : Qc :=
  (Qc_of_nat patch_header / megabyte
   + Qc_of_nat (matrix_bytes (pT p)) / megabyte
   + Qc_of_nat (matrix_bytes (pH p)) / megabyte
   + Qc_of_nat (matrix_bytes (pS p)) / megabyte
   + Qc_of_nat (matrix_bytes (pX p)) / megabyte
   + Qc_of_nat (vector_bytes (pu p)) / megabyte
   + Qc_of_nat (vector_bytes (pg p)) / megabyte
   + Qc_of_nat (vector_bytes (pf p)) / megabyte
   + Qc_of_nat (vector_bytes (ph p)) / megabyte
   + Qc_of_nat (vector_bytes (pw p)) / megabyte)%Qc.

(** examples/elliptic-multiple/main.cpp:376-380 (and the examples of
    papers/p1-serial): traversePostOrder adds the size of every patch, the
    children before their parent (Quadtree.hpp:300-314). *)
Fixpoint size_MB (acc : Qc) (t : tree) : Qc :=
  match t with
  | Leaf p => (acc + dataSize p)%Qc
  | Node p a b c d => (size_MB (size_MB (size_MB (size_MB acc a) b) c) d + dataSize p)%Qc
  end.

(** Further right-hand sides and boundary data on a built tree, one after the other
    (examples/thermal/main.cpp:283-345): upwardsStage and solveStage for each. *)
Fixpoint solve_again (sv : solver) (gesv : gesv_t) (l : list ((grid -> list Qc) * list Qc)) (t : tree) : res tree :=
  match l with
  | [] => Ok t
  | (load, g) :: l' =>
      t' <- upwardsStage sv gesv false load t ;;
      t'' <- solveStage sv false g t' ;;
      solve_again sv gesv l' t''
  end.
