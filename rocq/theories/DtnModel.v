(** The shortened construction of the Dirichlet-to-Neumann operator, compiled when
    DTN_OPTIMIZE is set. *)
From Verif Require Import Base VectorModel MatrixModel HPSModel FVModel.

(** FiniteVolumeSolver.cpp:355-443 buildD2N with DTN_OPTIMIZE.  The loop of lines
    410-427 fills twelve blocks entry by entry; here one block is filled after the
    other, which reads and writes the same entries. *)
Definition fv_build_opt (map_ : grid -> list Qc -> list Qc -> res (list Qc)) (G : grid) : res (matrix Qc) :=
  let N := gnx G in let M := 4 * N in
  (* lines 367-372 *)
  st <- foldM (fun st j =>
          e1 <- vset (fst st) j 1%Qc ;;
          col <- map_ G e1 (repeat 0%Qc (N * N)) ;;
          T <- setColumn (snd st) j col ;;
          e2 <- vset e1 j 0%Qc ;;
          Ok (e2, T))
        (seq 0 N) (repeat 0%Qc M, mconst M M 0%Qc) ;;
  let T := snd st in
  (* lines 375-378 *)
  ww <- getBlock T (0 * N) (0 * N) N N ;;
  ew <- getBlock T (1 * N) (0 * N) N N ;;
  sw <- getBlock T (2 * N) (0 * N) N N ;;
  nw <- getBlock T (3 * N) (0 * N) N N ;;
  (* lines 411-426 *)
  let neg (b : matrix Qc) := mbuild N N (fun i j => a <- mget b i j ;; Ok (- a)%Qc) in
  let copy (b : matrix Qc) := mbuild N N (fun i j => mget b i j) in
  let negT (b : matrix Qc) := mbuild N N (fun i j => a <- mget b j i ;; Ok (- a)%Qc) in
  we <- neg ew ;; ee <- neg ww ;; se <- negT nw ;; ne <- mbuild N N (fun i j => mget nw (N - 1 - i) j) ;;
  ws <- copy sw ;; es <- copy nw ;; ss <- copy ww ;; ns <- copy ew ;;
  wn <- negT nw ;; en <- copy ne ;; sn <- neg ew ;; nn <- neg ww ;;
  (* lines 430-443 *)
  T <- setBlock T (0 * N) (1 * N) we ;; T <- setBlock T (1 * N) (1 * N) ee ;;
  T <- setBlock T (2 * N) (1 * N) se ;; T <- setBlock T (3 * N) (1 * N) ne ;;
  T <- setBlock T (0 * N) (2 * N) ws ;; T <- setBlock T (1 * N) (2 * N) es ;;
  T <- setBlock T (2 * N) (2 * N) ss ;; T <- setBlock T (3 * N) (2 * N) ns ;;
  T <- setBlock T (0 * N) (3 * N) wn ;; T <- setBlock T (1 * N) (3 * N) en ;;
  T <- setBlock T (2 * N) (3 * N) sn ;; setBlock T (3 * N) (3 * N) nn.
