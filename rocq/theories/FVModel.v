(** Model of src/Patches/FiniteVolume/FiniteVolumeSolver.cpp.

    Simplifications: [double] is an exact rational; [int] products do not
    overflow; the coefficient functions are total; PETSc objects are plain
    sequential arrays.  PETSc's debug checks are not modelled: a column index
    outside the matrix is undefined behaviour, a negative one is ignored, as
    documented for MatSetValues. *)
From Verif Require Import Base VectorModel MatrixModel HPSModel.

(** FiniteVolumeSolver.hpp:70-88: the coefficient functions. *)
Record coefs : Type := Coefs {
  c_alpha : Qc -> Qc -> Qc; c_beta : Qc -> Qc -> Qc; c_lambda : Qc -> Qc -> Qc }.

(** MatLUFactor followed by MatSolve (FiniteVolumeSolver.cpp:197-207): the matrix
    and the right hand side give the solution vector. *)
Definition lu_t : Type := matrix Qc -> list Qc -> list Qc.

(** FiniteVolumeSolver.cpp:17-19 gridIndex2MatrixIndex. *)
Definition gridIndex (i j ny : Z) : Z := (j + i * ny)%Z.

(** VecSetValue with INSERT_VALUES and ADD_VALUES. *)
Definition VecInsert (F : list Qc) (i : nat) (a : Qc) : res (list Qc) :=
  if i <? length F then Ok (upd F i a) else UB.
Definition VecAdd (F : list Qc) (i : nat) (a : Qc) : res (list Qc) :=
  match nth_error F i with Some x => Ok (upd F i (x + a)%Qc) | None => UB end.

(** MatSetValues for one row with INSERT_VALUES, one entry after the other. *)
Definition MatInsert (A : matrix Qc) (row : nat) (l : list (Z * Qc)) : res (matrix Qc) :=
  foldM (fun A e =>
    if (fst e <? 0)%Z then Ok A
    else let col := Z.to_nat (fst e) in
      if (row <? nr A) && (col <? nc A)
      then Ok (Mat (nr A) (nc A) (upd (dat A) (row * nc A + col) (snd e)))
      else UB) l A.

Definition two : Qc := Q2Qc (2 # 1).

(** FiniteVolumeSolver.cpp:74-85: the five coefficients of the cell (i,j). *)
Record stencil : Type := Stencil { sW : Qc; sE : Qc; sS : Qc; sN : Qc; sC : Qc }.
Definition cell_stencil (c : coefs) (G : grid) (i j : nat) : stencil :=
  let dx := gdx G in let dy := gdy G in
  let xi := gx G i in let yj := gy G j in
  let xip := (xi + dx / two)%Qc in let xim := (xi - dx / two)%Qc in
  let yjp := (yj + dy / two)%Qc in let yjm := (yj - dy / two)%Qc in
  let a := c_alpha c xi yj in
  let bE := c_beta c xip yj in let bW := c_beta c xim yj in
  let bN := c_beta c xi yjp in let bS := c_beta c xi yjm in
  Stencil (a * bW / (dx * dx))%Qc (a * bE / (dx * dx))%Qc
          (a * bS / (dy * dy))%Qc (a * bN / (dy * dy))%Qc
          (- a * ((bE + bW) / (dx * dx) + (bN + bS) / (dy * dy)) + c_lambda c xi yj)%Qc.

(** FiniteVolumeSolver.cpp:63-188: one cell of the loop. *)
Definition fv_cell (c : coefs) (G : grid) (gW gE gS gN f : list Qc)
  (st : matrix Qc * list Qc) (i j : nat) : res (matrix Qc * list Qc) :=
  let nx := gnx G in let ny := gny G in
  let s := cell_stencil c G i j in
  let ix a b := gridIndex (Z.of_nat i + a) (Z.of_nat j + b) (Z.of_nat ny) in
  let IC := j + i * ny in
  let JW := ix (-1)%Z 0%Z in let JE := ix 1%Z 0%Z in
  let JS := ix 0%Z (-1)%Z in let JN := ix 0%Z 1%Z in let JC := ix 0%Z 0%Z in
  r <- vget f IC ;;
  F1 <- VecInsert (snd st) IC r ;;
  let bnd (row : list (Z * Qc)) (add : Qc) :=
    F2 <- VecAdd F1 IC (- two * add)%Qc ;;
    A2 <- MatInsert (fst st) IC row ;;
    Ok (A2, F2) in
  if (i =? 0) && (j =? 0) then
    w <- vget gW j ;; s' <- vget gS i ;;
    bnd [(JE, sE s); (JN, sN s); (JC, sC s - sW s - sS s)%Qc] (sW s * w + sS s * s')%Qc
  else if (Z.of_nat i =? Z.of_nat nx - 1)%Z && (j =? 0) then
    e <- vget gE j ;; s' <- vget gS i ;;
    bnd [(JW, sW s); (JN, sN s); (JC, sC s - sE s - sS s)%Qc] (sE s * e + sS s * s')%Qc
  else if (i =? 0) && (Z.of_nat j =? Z.of_nat ny - 1)%Z then
    w <- vget gW j ;; n <- vget gN i ;;
    bnd [(JE, sE s); (JS, sS s); (JC, sC s - sW s - sN s)%Qc] (sW s * w + sN s * n)%Qc
  else if (Z.of_nat i =? Z.of_nat nx - 1)%Z && (Z.of_nat j =? Z.of_nat ny - 1)%Z then
    e <- vget gE j ;; n <- vget gN i ;;
    bnd [(JW, sW s); (JS, sS s); (JC, sC s - sE s - sN s)%Qc] (sE s * e + sN s * n)%Qc
  else if (i =? 0) then
    w <- vget gW j ;;
    bnd [(JE, sE s); (JN, sN s); (JS, sS s); (JC, sC s - sW s)%Qc] (sW s * w)%Qc
  else if (Z.of_nat i =? Z.of_nat nx - 1)%Z then
    e <- vget gE j ;;
    bnd [(JW, sW s); (JN, sN s); (JS, sS s); (JC, sC s - sE s)%Qc] (sE s * e)%Qc
  else if (j =? 0) then
    s' <- vget gS i ;;
    bnd [(JE, sE s); (JW, sW s); (JN, sN s); (JC, sC s - sS s)%Qc] (sS s * s')%Qc
  else if (Z.of_nat j =? Z.of_nat ny - 1)%Z then
    n <- vget gN i ;;
    bnd [(JE, sE s); (JW, sW s); (JS, sS s); (JC, sC s - sN s)%Qc] (sN s * n)%Qc
  else
    A2 <- MatInsert (fst st) IC [(JE, sE s); (JW, sW s); (JN, sN s); (JS, sS s); (JC, sC s)] ;;
    Ok (A2, F1).

(** FiniteVolumeSolver.cpp:29-34: the four sides of the boundary data, each of
    length nx. *)
Definition sides (ns : nat) (g : list Qc) : res (four (list Qc)) :=
  w <- getSegment g (0 * ns) ns ;;
  e <- getSegment g (1 * ns) ns ;;
  s <- getSegment g (2 * ns) ns ;;
  n <- getSegment g (3 * ns) ns ;;
  Ok (Four w e s n).

(** FiniteVolumeSolver.cpp:29-194: the assembled system.  A new MATDENSE matrix
    and the vector are zero. *)
Definition fv_system (c : coefs) (G : grid) (g f : list Qc) : res (matrix Qc * list Qc) :=
  b <- sides (gnx G) g ;;
  let N := gnx G * gny G in
  foldM (fun st j =>
    foldM (fun st i => fv_cell c G (fa b) (fb b) (fc b) (fd b) f st i j) (seq 0 (gnx G)) st)
    (seq 0 (gny G)) (mconst N N 0%Qc, repeat 0%Qc N).

(** FiniteVolumeSolver.cpp:27-223 solve, FivePointStencil. *)
Definition fv_solve (lu : lu_t) (c : coefs) (G : grid) (g f : list Qc) : res (list Qc) :=
  AF <- fv_system c G g f ;; Ok (lu (fst AF) (snd AF)).

(** FiniteVolumeSolver.hpp:44 hstcrt_: arguments A, B, M, BDA, BDB, C, D, N, BDC,
    BDD, ELMBDA, F; the result is the array F after the call.  MBDCND = NBDCND = 1
    and IDIMF = M always; PERTRB and IERROR only decide about log messages. *)
Definition hst_t : Type :=
  Qc -> Qc -> nat -> list Qc -> list Qc -> Qc -> Qc -> nat -> list Qc -> list Qc ->
  Qc -> list Qc -> list Qc.

(** FiniteVolumeSolver.cpp:224-290 solve, FISHPACK90. *)
Definition fish_solve (hst : hst_t) (c : coefs) (G : grid) (g f : list Qc) : res (list Qc) :=
  let ns := gnx G in
  b <- sides ns g ;;
  fT <- foldM (fun fT i => foldM (fun fT j => a <- vget f (j + i * ns) ;; vset fT (i + j * ns) a)
                (seq 0 (gny G)) fT) (seq 0 (gnx G)) (repeat 0%Qc (ns * ns)) ;;
  let F := hst (gxl G) (gxu G) (gnx G) (fa b) (fb b) (gyl G) (gyu G) (gny G) (fc b) (fd b)
               (c_lambda c 0%Qc 0%Qc) fT in
  foldM (fun u i => foldM (fun u j => a <- vdata F (i + j * ns) ;; vset u (j + i * ns) a)
                (seq 0 (gny G)) u) (seq 0 (gnx G)) (repeat 0%Qc (gnx G * gny G)).

(** FiniteVolumeSolver.cpp:296-353 mapD2N, for either way of solving. *)
Definition fv_map (solve : grid -> list Qc -> list Qc -> res (list Qc))
  (G : grid) (g f : list Qc) : res (list Qc) :=
  let ns := gnx G in
  b <- sides ns g ;;
  u <- solve G g f ;;
  (* lines 312-329 *)
  we <- foldM (fun we j =>
          a <- vget u j ;; w <- vset (fst we) j a ;;
          a' <- vget u ((ns - 1) * ns + j) ;; e <- vset (snd we) j a' ;; Ok (w, e))
        (seq 0 ns) (repeat 0%Qc ns, repeat 0%Qc ns) ;;
  sn <- foldM (fun sn i =>
          a <- vget u (i * ns) ;; s <- vset (fst sn) i a ;;
          a' <- vget u ((i + 1) * ns - 1) ;; n <- vset (snd sn) i a' ;; Ok (s, n))
        (seq 0 ns) (repeat 0%Qc ns, repeat 0%Qc ns) ;;
  (* lines 332-343 *)
  let dtn_x := (two / gdx G)%Qc in let dtn_y := (two / gdy G)%Qc in
  h <- foldM (fun h i =>
          uw <- vget (fst we) i ;; gw <- vget (fa b) i ;; hw <- vset (fa h) i (dtn_x * (uw - gw))%Qc ;;
          ue <- vget (snd we) i ;; ge <- vget (fb b) i ;; he <- vset (fb h) i (- dtn_x * (ue - ge))%Qc ;;
          us <- vget (fst sn) i ;; gs <- vget (fc b) i ;; hs <- vset (fc h) i (dtn_y * (us - gs))%Qc ;;
          un <- vget (snd sn) i ;; gn <- vget (fd b) i ;; hn <- vset (fd h) i (- dtn_y * (un - gn))%Qc ;;
          Ok (Four hw he hs hn))
        (seq 0 ns)
        (Four (repeat 0%Qc ns) (repeat 0%Qc ns) (repeat 0%Qc ns) (repeat 0%Qc ns)) ;;
  (* lines 346-351 *)
  v0 <- setSegment (repeat 0%Qc (4 * ns)) (0 * ns) (fa h) ;;
  v1 <- setSegment v0 (1 * ns) (fb h) ;;
  v2 <- setSegment v1 (2 * ns) (fc h) ;;
  setSegment v2 (3 * ns) (fd h).

(** FiniteVolumeSolver.cpp:355-362, 444-455 buildD2N.  DTN_OPTIMIZE is not defined
    anywhere in the project, so the other branch is not compiled; it is [fv_build_opt]
    of DtnModel.v. *)
Definition fv_build (map_ : grid -> list Qc -> list Qc -> res (list Qc)) (G : grid) : res (matrix Qc) :=
  let N := gnx G in let M := 4 * N in
  st <- foldM (fun st j =>
          e1 <- vset (fst st) j 1%Qc ;;
          col <- map_ G e1 (repeat 0%Qc (N * N)) ;;
          T <- setColumn (snd st) j col ;;
          e2 <- vset e1 j 0%Qc ;;
          Ok (e2, T))
        (seq 0 M) (repeat 0%Qc M, mconst M M 0%Qc) ;;
  Ok (snd st).

(** FiniteVolumeSolver.cpp:457-462 particularNeumannData. *)
Definition fv_h (map_ : grid -> list Qc -> list Qc -> res (list Qc)) (G : grid) (f : list Qc)
  : res (list Qc) :=
  map_ G (repeat 0%Qc (2 * gnx G + 2 * gny G)) f.

(** The patch solver with the five-point stencil, and the one with FISHPACK. *)
Definition solver_of (solve : grid -> list Qc -> list Qc -> res (list Qc)) : solver :=
  Solver solve (fv_map solve) (fv_build (fv_map solve)) (fv_h (fv_map solve)).
Definition fv_solver (lu : lu_t) (c : coefs) : solver := solver_of (fv_solve lu c).
Definition fish_solver (hst : hst_t) (c : coefs) : solver := solver_of (fish_solve hst c).
