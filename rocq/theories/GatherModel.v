(** Model of the gathering and reducing functions: src/MPI.hpp:262-307 and 389-419, the overloads in
    src/Vector.hpp:979-1008, and the program test/mpi/mpi_allgatherv.cpp.

    MPI: the calls of all ranks are one collective operation.  The number of elements a rank
    sends must be the number every rank expects from it, a block must lie inside of the receive
    buffer, and no element of the receive buffer may be written twice; everything else is undefined.  Counts are
    ints.  Send and receive buffers are different objects.  [strict] as in WireModel.
    The assertion in allreduce is left out, as in a release build.  The function template for
    allgatherv at MPI.hpp:304-307 has its last arguments exchanged and is not modelled: it does not compile
    for any type; the overload for vectors is used. *)
From Verif Require Import Base MatrixModel WireModel.

Section Gather.
Context (strict : bool) {T : Type}.

(** Elements written from a position on. *)
Definition put_at (buf : list T) (d : nat) (x : list T) : list T := firstn d buf ++ x ++ skipn (d + List.length x) buf.

(** The block of one sender: count, displacement; [done] are the positions written before. *)
Definition put_block (st : list T * list nat) (b : list T * (Z * Z)) : res (list T * list nat) :=
  let '(buf, done) := st in let '(x, (c, d)) := b in
  if negb (c =? Z.of_nat (List.length x))%Z then UB
  else if (List.length x =? 0) then Ok st
  else if (d <? 0)%Z then UB
  else if List.length buf <? Z.to_nat d + List.length x then UB
  else if existsb (fun p => existsb (Nat.eqb p) done) (seq (Z.to_nat d) (List.length x)) then UB
  else Ok (put_at buf (Z.to_nat d) x, seq (Z.to_nat d) (List.length x) ++ done).

(** MPI_Allgatherv on one rank; the arrays have an entry for every rank. *)
Definition mpi_allgatherv (sends : list (list T)) (recv : list T) (counts displs : list Z) : res (list T) :=
  if (List.length counts <? List.length sends) || (List.length displs <? List.length sends) then UB
  else '(buf, _) <- foldM put_block (combine sends (combine counts displs)) (recv, []) ;; Ok buf.

(** MPI_Allgather on one rank: block i goes to i * recv_count. *)
Definition mpi_allgather (sends : list (list T)) (recv : list T) (recv_count : Z) : res (list T) :=
  mpi_allgatherv sends recv (repeat recv_count (List.length sends))
    (map (fun i => (Z.of_nat i * recv_count)%Z) (seq 0 (List.length sends))).

(** What one rank passes to allgatherv: send_data, recv_data, recv_counts, displacements. *)
Record gcall : Type := GCall { g_send : list T; g_recv : list T; g_counts : list Z; g_displs : list Z }.
(** MPI.hpp:416-419, Vector.hpp:1006-1008: all ranks together. *)
Definition allgatherv (w : list gcall) : res (list (list T)) :=
  _ <- mapM (fun c => _ <- address strict (g_send c) ;; _ <- address strict (g_recv c) ;; count_ok (g_send c)) w ;;
  mapM (fun c => mpi_allgatherv (map g_send w) (g_recv c) (g_counts c) (g_displs c)) w.

(** send_data, recv_data and recv_count of one rank. *)
Record acall : Type := ACall { a_send : list T; a_recv : list T; a_count : Z }.
(** MPI.hpp:399-402, Vector.hpp:990-992. *)
Definition allgather (w : list acall) : res (list (list T)) :=
  _ <- mapM (fun c => _ <- address strict (a_send c) ;; _ <- address strict (a_recv c) ;; count_ok (a_send c)) w ;;
  mapM (fun c => mpi_allgather (map a_send w) (a_recv c) (a_count c)) w.
(** MPI.hpp:288-291 for a scalar type: one element to send, one element for the result. *)
Definition allgather_scalar (w : list (T * T * Z)) : res (list T) :=
  r <- mapM (fun c => mpi_allgather (map (fun c => [fst (fst c)]) w) [snd (fst c)] (snd c)) w ;;
  mapM (fun v => match v with [x] => Ok x | _ => UB end) r.

(** MPI.hpp:271-274: send and recv of every rank, operation [op]. *)
Definition allreduce (op : T -> T -> T) (w : list (list T * list T)) : res (list (list T)) :=
  _ <- mapM (fun c => _ <- address strict (fst c) ;; _ <- address strict (snd c) ;; count_ok (fst c)) w ;;
  match w with
  | [] => Ok []
  | c0 :: w' =>
      if forallb (fun c => (List.length (fst c) =? List.length (fst c0)) && (List.length (fst c) <=? List.length (snd c))) w then
        let total := fold_left (fun acc c => map (fun p => op (fst p) (snd p)) (combine acc (fst c))) w' (fst c0) in
        Ok (map (fun c => put_at (snd c) 0 total) w)
      else UB
  end.
End Gather.
Arguments GCall {T} _ _ _ _.
Arguments ACall {T} _ _ _.

(** mpi_allgatherv.cpp:24-31: the displacements, with [size] entries. *)
Definition displacements (size : nat) (counts : list Z) : list Z :=
  map (fun i => fold_left (fun d j => (d + nth j counts 0)%Z) (seq 0 i) 0%Z) (seq 0 size).
(** mpi_allgatherv.cpp:16-41 with any local vectors: the counts are gathered first, then the data go into
    a vector of [gathered] elements that hold [x0]. *)
Definition gather_all (strict : bool) {T : Type} (x0 : T) (gathered : nat) (locals : list (list T)) : res (list (list T)) :=
  let size := List.length locals in
  counts <- allgather strict (map (fun l => ACall [to_int (List.length l)] (repeat 0%Z size) 1%Z) locals) ;;
  allgatherv strict (map (fun p => GCall (fst p) (repeat x0 gathered) (snd p) (displacements size (snd p)))
                         (combine locals counts)).
(** mpi_allgatherv.cpp:8-46: rank r sends r times r; the receive vector has 0 + 1 + ... + (size-1) elements. *)
Definition allgatherv_test (strict : bool) (size : nat) : res (list (list Z)) :=
  gather_all strict 0%Z (fold_left Nat.add (seq 0 size) 0) (map (fun r => repeat (Z.of_nat r) r) (seq 0 size)).
