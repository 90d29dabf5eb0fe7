(** Model of the functions send, receive and broadcast: src/MPI.hpp, src/MPI.cpp, and the
    MPI namespaces in src/Vector.hpp, src/Matrix.hpp, src/QuadNode.hpp,
    src/Patches/FiniteVolume/FiniteVolumeGrid.cpp and FiniteVolumePatch.cpp.

    MPI: messages between two ranks with the same tag arrive in the order sent.  A receive
    takes the first message with its tag; a message longer than the buffer, an
    element of another type, and a broadcast with different counts are
    undefined.  All ranks call broadcasts in the same order; what the root contributes to
    one broadcast is one message, which every other rank reads.

    [strict] tells what an access outside of a container does.  With [strict = true] it is undefined, as
    in the C++ standard: front() and [0] of an empty vector, reading characters after
    the terminator of a string.  With [strict = false] it gives an unspecified address or
    character and nothing else happens. *)
From Coq Require Import Ascii String.
From Verif Require Import Base MatrixModel XmlModel.

(** ** Messages *)
Inductive cell : Type := CInt (z : Z) | CDbl (q : Qc) | CChar (c : ascii) | CBool (b : bool).
Definition msg := list cell.
Definition mailbox := list (Z * msg).

(** Element types: the cell of a value and back; a value-initialised element. *)
Record elem (T : Type) : Type := Elem { enc : T -> cell; dec : cell -> option T; init : T }.
Arguments enc {T} _ _.
Arguments dec {T} _ _.
Arguments init {T} _.
Definition int_e : elem Z := Elem Z CInt (fun c => match c with CInt z => Some z | _ => None end) 0%Z.
Definition dbl_e : elem Qc := Elem Qc CDbl (fun c => match c with CDbl q => Some q | _ => None end) 0%Qc.
Definition char_e : elem ascii := Elem ascii CChar (fun c => match c with CChar x => Some x | _ => None end) "000"%char.
Definition bool_e : elem bool := Elem bool CBool (fun c => match c with CBool b => Some b | _ => None end) false.

(** Conversion of size_t to int. *)
Definition to_int (n : nat) : Z := ((Z.of_nat n + 2147483648) mod 4294967296 - 2147483648)%Z.

Section Elem.
Context (strict : bool).

(** The first message with the tag; none means that the call does not return. *)
Fixpoint take (tag : Z) (q : mailbox) : res (msg * mailbox) :=
  match q with
  | [] => UB
  | (t, m) :: q' => if (t =? tag)%Z then Ok (m, q') else '(m', r) <- take tag q' ;; Ok (m', (t, m) :: r)
  end.

Section OneType.
Context {T : Type} (e : elem T).
(** Elements of a message. *)
Definition decode (m : msg) : res (list T) :=
  mapM (fun c => match dec e c with Some x => Ok x | None => UB end) m.
(** MPI_Recv into a buffer. *)
Definition fill (buf : list T) (m : msg) : res (list T) :=
  if List.length buf <? List.length m then UB
  else x <- decode m ;; Ok (x ++ skipn (List.length m) buf).
(** MPI_Bcast on a rank that is not the root. *)
Definition bfill (buf : list T) (m : msg) : res (list T) :=
  if List.length buf =? List.length m then decode m else UB.
(** An MPI call with the count; counts are ints. *)
Definition count_ok (v : list T) : res unit := if (0 <=? to_int (List.length v))%Z then Ok tt else UB.

(** MPI.hpp:219-222 and 235-238: one element. *)
Definition send1 (tag : Z) (x : T) (q : mailbox) : mailbox := q ++ [(tag, [enc e x])].
Definition recv1 (tag : Z) (x : T) (q : mailbox) : res (T * mailbox) :=
  '(m, q) <- take tag q ;; v <- fill [x] m ;; match v with [y] => Ok (y, q) | _ => UB end.
(** MPI.hpp:249-252: the message of the root; the other ranks. *)
Definition bsend1 (x : T) : list msg := [[enc e x]].
Definition brecv1 (x : T) (b : list msg) : res (T * list msg) :=
  match b with m :: b' => v <- bfill [x] m ;; match v with [y] => Ok (y, b') | _ => UB end | [] => UB end.

(** MPI.hpp:315 and 331: getType uses vec[0], getAddress uses vec.front(). *)
Definition address (v : list T) : res unit := match v with [] => if strict then UB else Ok tt | _ => Ok tt end.
End OneType.

(** std::vector::resize with an int argument: a negative one becomes a huge one. *)
Definition resize {T} (e : elem T) (v : list T) (n : Z) : res (list T) :=
  if (n <? 0)%Z then Throw length_error
  else Ok (firstn (Z.to_nat n) v ++ repeat (init e) (Z.to_nat n - List.length v)).

(** MPI.hpp:345-350. *)
Definition vec_send {T} (e : elem T) (tag : Z) (v : list T) (q : mailbox) : res mailbox :=
  let q := send1 int_e tag (to_int (List.length v)) q in
  _ <- address v ;; _ <- count_ok v ;; Ok (q ++ [(tag, map (enc e) v)]).
(** MPI.hpp:363-369; the int [size] is not initialised, any value serves. *)
Definition vec_recv {T} (e : elem T) (tag : Z) (v : list T) (q : mailbox) : res (list T * mailbox) :=
  '(size, q) <- recv1 int_e tag 0%Z q ;;
  v <- resize e v size ;; _ <- address v ;; _ <- count_ok v ;;
  '(m, q) <- take tag q ;; v <- fill e v m ;; Ok (v, q).
(** MPI.hpp:380-387. *)
Definition vec_bsend {T} (e : elem T) (v : list T) : res (list msg) :=
  _ <- address v ;; _ <- count_ok v ;; Ok (bsend1 int_e (to_int (List.length v)) ++ [map (enc e) v]).
Definition vec_brecv {T} (e : elem T) (v : list T) (b : list msg) : res (list T * list msg) :=
  '(size, b) <- brecv1 int_e (to_int (List.length v)) b ;;
  v <- resize e v size ;; _ <- address v ;; _ <- count_ok v ;;
  match b with m :: b' => v <- bfill e v m ;; Ok (v, b') | [] => UB end.

(** MPI.cpp:51-56.  The address of the characters of an empty string is valid. *)
Definition str_send (tag : Z) (s : text) (q : mailbox) : res mailbox :=
  let q := send1 int_e tag (to_int (List.length s)) q in
  _ <- count_ok s ;; Ok (q ++ [(tag, map (enc char_e) s)]).
(** MPI.cpp:58-64. *)
Definition str_recv (tag : Z) (s : text) (q : mailbox) : res (text * mailbox) :=
  '(size, q) <- recv1 int_e tag 0%Z q ;;
  s <- resize char_e s size ;; _ <- count_ok s ;;
  '(m, q) <- take tag q ;; s <- fill char_e s m ;; Ok (s, q).
(** MPI.cpp:66-73 on the root. *)
Definition str_bsend (s : text) : res (list msg) :=
  _ <- count_ok s ;; Ok (bsend1 int_e (to_int (List.length s)) ++ [map (enc char_e) s]).
(** MPI.cpp:71: std::string(address of str, size) reads [size] characters from the old
    string, which has a terminator after its last character. *)
Definition read_own (s : text) (size : Z) : res text :=
  if (size <? 0)%Z then Throw length_error
  else let n := Z.to_nat size in
       if n <=? List.length s + 1 then Ok (firstn n (s ++ ["000"%char]))
       else if strict then UB else Ok (firstn n (s ++ ["000"%char]) ++ repeat "000"%char (n - (List.length s + 1))).
(** MPI.cpp:66-73 on the other ranks. *)
Definition str_brecv (s : text) (b : list msg) : res (text * list msg) :=
  '(size, b) <- brecv1 int_e (to_int (List.length s)) b ;;
  s <- read_own s size ;; _ <- count_ok s ;;
  match b with m :: b' => s <- bfill char_e s m ;; Ok (s, b') | [] => UB end.

(** Vector.hpp:936-977: a Vector is its std::vector. *)
Definition vector_send {T} (e : elem T) (tag : Z) (v : list T) (q : mailbox) : res mailbox := vec_send e tag v q.
Definition vector_recv {T} (e : elem T) (tag : Z) (v : list T) (q : mailbox) : res (list T * mailbox) :=
  vec_recv e tag [] q.
Definition vector_bsend {T} (e : elem T) (v : list T) : res (list msg) := vec_bsend e v.
Definition vector_brecv {T} (e : elem T) (v : list T) (b : list msg) : res (list T * list msg) := vec_brecv e [] b.

(** The constructor Matrix(size_t, size_t, vector) with int arguments. *)
Definition from_int (z : Z) : nat := Z.to_nat (z mod 18446744073709551616).
(** Matrix.hpp:1032-1041. *)
Definition matrix_send {T} (e : elem T) (tag : Z) (m : matrix T) (q : mailbox) : res mailbox :=
  let q := send1 int_e (tag + 1) (to_int (nr m)) q in
  let q := send1 int_e (tag + 2) (to_int (nc m)) q in
  vec_send e tag (dat m) q.
(** Matrix.hpp:1054-1063. *)
Definition matrix_recv {T} (e : elem T) (tag : Z) (m : matrix T) (q : mailbox) : res (matrix T * mailbox) :=
  '(rows, q) <- recv1 int_e (tag + 1) 0%Z q ;;
  '(cols, q) <- recv1 int_e (tag + 2) 0%Z q ;;
  '(v, q) <- vec_recv e tag [] q ;;
  Ok (Mat (from_int rows) (from_int cols) v, q).
(** Matrix.hpp:1074-1090. *)
Definition matrix_bsend {T} (e : elem T) (m : matrix T) : res (list msg) :=
  v <- vec_bsend e (dat m) ;;
  Ok (bsend1 int_e (to_int (nr m)) ++ bsend1 int_e (to_int (nc m)) ++ v).
Definition matrix_brecv {T} (e : elem T) (m : matrix T) (b : list msg) : res (matrix T * list msg) :=
  '(rows, b) <- brecv1 int_e 0%Z b ;;
  '(cols, b) <- brecv1 int_e 0%Z b ;;
  '(v, b) <- vec_brecv e [] b ;;
  Ok (Mat (from_int rows) (from_int cols) v, b).

(** ** Grids, patches, nodes *)

(** FiniteVolumeGrid.hpp:29-71; nx and ny are ints, a spacing that is no finite number is [None]. *)
Record wgrid : Type := WGrid { w_nx : Z; w_xl : Qc; w_xu : Qc; w_dx : option Qc; w_ny : Z; w_yl : Qc; w_yu : Qc; w_dy : option Qc }.
Definition spacing (l u : Qc) (n : Z) : option Qc := if (n =? 0)%Z then None else Some ((u - l) / Qc_of_Z n)%Qc.
(** FiniteVolumeGrid.cpp:5-7. *)
Definition grid_default : wgrid := WGrid 0 0 0 (Some 0%Qc) 0 0 0 (Some 0%Qc).
(** FiniteVolumeGrid.cpp:9-19, without the communicator. *)
Definition grid_make (nx : Z) (xl xu : Qc) (ny : Z) (yl yu : Qc) : wgrid :=
  WGrid nx xl xu (spacing xl xu nx) ny yl yu (spacing yl yu ny).
(** FiniteVolumeGrid.cpp:80-97: the root also rebuilds its grid.  nx() returns a size_t, which is converted to
    int again. *)
Definition grid_bsend (g : wgrid) : res (list msg * wgrid) :=
  Ok (bsend1 int_e (w_nx g) ++ bsend1 int_e (w_ny g) ++ bsend1 dbl_e (w_xl g) ++ bsend1 dbl_e (w_xu g) ++
      bsend1 dbl_e (w_yl g) ++ bsend1 dbl_e (w_yu g),
      grid_make (w_nx g) (w_xl g) (w_xu g) (w_ny g) (w_yl g) (w_yu g)).
Definition grid_brecv (g : wgrid) (b : list msg) : res (wgrid * list msg) :=
  '(nx, b) <- brecv1 int_e (w_nx g) b ;; '(ny, b) <- brecv1 int_e (w_ny g) b ;;
  '(xl, b) <- brecv1 dbl_e (w_xl g) b ;; '(xu, b) <- brecv1 dbl_e (w_xu g) b ;;
  '(yl, b) <- brecv1 dbl_e (w_yl g) b ;; '(yu, b) <- brecv1 dbl_e (w_yu g) b ;;
  Ok (grid_make nx xl xu ny yl yu, b).

(** Patch.hpp:83 and FiniteVolumePatch.hpp: the fields of a patch that are used in serial. *)
Record wpatch : Type := WPatch {
  p_coarsens : Z; p_grid : wgrid;
  p_X : matrix Qc; p_H : matrix Qc; p_S : matrix Qc; p_T : matrix Qc;
  p_u : list Qc; p_g : list Qc; p_v : list Qc; p_f : list Qc; p_h : list Qc; p_w : list Qc }.
(** FiniteVolumePatch.cpp:118-134: messages of the root, and its patch afterwards. *)
Definition patch_bsend (p : wpatch) : res (list msg * wpatch) :=
  '(g, gr) <- grid_bsend (p_grid p) ;;
  x <- matrix_bsend dbl_e (p_X p) ;; h <- matrix_bsend dbl_e (p_H p) ;;
  s <- matrix_bsend dbl_e (p_S p) ;; t <- matrix_bsend dbl_e (p_T p) ;;
  u <- vector_bsend dbl_e (p_u p) ;; vg <- vector_bsend dbl_e (p_g p) ;; v <- vector_bsend dbl_e (p_v p) ;;
  f <- vector_bsend dbl_e (p_f p) ;; vh <- vector_bsend dbl_e (p_h p) ;; w <- vector_bsend dbl_e (p_w p) ;;
  Ok (bsend1 int_e (p_coarsens p) ++ g ++ x ++ h ++ s ++ t ++ u ++ vg ++ v ++ f ++ vh ++ w,
      WPatch (p_coarsens p) gr (p_X p) (p_H p) (p_S p) (p_T p) (p_u p) (p_g p) (p_v p) (p_f p) (p_h p) (p_w p)).
Definition patch_brecv (p : wpatch) (b : list msg) : res (wpatch * list msg) :=
  '(n, b) <- brecv1 int_e (p_coarsens p) b ;; '(g, b) <- grid_brecv (p_grid p) b ;;
  '(x, b) <- matrix_brecv dbl_e (p_X p) b ;; '(h, b) <- matrix_brecv dbl_e (p_H p) b ;;
  '(s, b) <- matrix_brecv dbl_e (p_S p) b ;; '(t, b) <- matrix_brecv dbl_e (p_T p) b ;;
  '(u, b) <- vector_brecv dbl_e (p_u p) b ;; '(vg, b) <- vector_brecv dbl_e (p_g p) b ;;
  '(v, b) <- vector_brecv dbl_e (p_v p) b ;; '(f, b) <- vector_brecv dbl_e (p_f p) b ;;
  '(vh, b) <- vector_brecv dbl_e (p_h p) b ;; '(w, b) <- vector_brecv dbl_e (p_w p) b ;;
  Ok (WPatch n g x h s t u vg v f vh w, b).

(** QuadNode.hpp:29-66 without communicators. *)
Record wnode (D : Type) : Type := WNode { n_data : D; n_path : text; n_level : Z; n_pfirst : Z; n_plast : Z; n_leaf : bool }.
Arguments WNode {D} _ _ _ _ _ _.
Arguments n_data {D} _.
Arguments n_path {D} _.
Arguments n_level {D} _.
Arguments n_pfirst {D} _.
Arguments n_plast {D} _.
Arguments n_leaf {D} _.

(** QuadNode.hpp:168-188, for data with functions send and receive. *)
Definition node_send {D} (dsend : Z -> D -> mailbox -> res mailbox) (tag : Z) (n : wnode D) (q : mailbox) : res mailbox :=
  q <- dsend tag (n_data n) q ;; q <- str_send tag (n_path n) q ;;
  let q := send1 int_e tag (n_level n) q in let q := send1 int_e tag (n_pfirst n) q in
  let q := send1 int_e tag (n_plast n) q in Ok (send1 bool_e tag (n_leaf n) q).
Definition node_recv {D} (drecv : Z -> D -> mailbox -> res (D * mailbox)) (tag : Z) (n : wnode D) (q : mailbox) : res (wnode D * mailbox) :=
  '(d, q) <- drecv tag (n_data n) q ;; '(p, q) <- str_recv tag (n_path n) q ;;
  '(l, q) <- recv1 int_e tag (n_level n) q ;; '(pf, q) <- recv1 int_e tag (n_pfirst n) q ;;
  '(pl, q) <- recv1 int_e tag (n_plast n) q ;; '(lf, q) <- recv1 bool_e tag (n_leaf n) q ;;
  Ok (WNode d p l pf pl lf, q).
(** QuadNode.hpp:190-199, for data with a function broadcast. *)
Definition node_bsend {D} (dbsend : D -> res (list msg * D)) (n : wnode D) : res (list msg * wnode D) :=
  '(d, x) <- dbsend (n_data n) ;; p <- str_bsend (n_path n) ;;
  Ok (d ++ p ++ bsend1 int_e (n_level n) ++ bsend1 int_e (n_pfirst n) ++ bsend1 int_e (n_plast n) ++ bsend1 bool_e (n_leaf n),
      WNode x (n_path n) (n_level n) (n_pfirst n) (n_plast n) (n_leaf n)).
Definition node_brecv {D} (dbrecv : D -> list msg -> res (D * list msg)) (n : wnode D) (b : list msg) : res (wnode D * list msg) :=
  '(d, b) <- dbrecv (n_data n) b ;; '(p, b) <- str_brecv (n_path n) b ;;
  '(l, b) <- brecv1 int_e (n_level n) b ;; '(pf, b) <- brecv1 int_e (n_pfirst n) b ;;
  '(pl, b) <- brecv1 int_e (n_plast n) b ;; '(lf, b) <- brecv1 bool_e (n_leaf n) b ;;
  Ok (WNode d p l pf pl lf, b).
End Elem.
Arguments WNode {D} _ _ _ _ _ _.
Arguments n_data {D} _.
Arguments n_path {D} _.
Arguments n_level {D} _.
Arguments n_pfirst {D} _.
Arguments n_plast {D} _.
Arguments n_leaf {D} _.
