(** Specification of messages. *)
From Verif Require Import Base MatrixModel XmlModel WireModel.

(** Sending [x] adds messages to those on the way, whatever they are; receiving, when these
    messages are the next ones, gives [x] whatever the receiving object was, and leaves the other messages. *)
Definition transmitted {A} (send : A -> mailbox -> res mailbox) (recv : A -> mailbox -> res (A * mailbox)) (x : A) : Prop :=
  exists ms, (forall q, send x q = Ok (q ++ ms)) /\ forall old rest, recv old (ms ++ rest) = Ok (x, rest).

(** A broadcast of [x]: the root keeps [x], and each other rank, whose object [old] may be
    restricted, gets [x] and has taken part in the same number of collective calls. *)
Definition broadcasted {A} (fits : A -> Prop) (bsend : A -> res (list msg * A)) (brecv : A -> list msg -> res (A * list msg)) (x : A) : Prop :=
  exists ms, bsend x = Ok (ms, x) /\ forall old rest, fits old -> brecv old (ms ++ rest) = Ok (x, rest).

(** Broadcasts that leave the object of the root alone. *)
Definition same {A} (bsend : A -> res (list msg)) (x : A) : res (list msg * A) := ms <- bsend x ;; Ok (ms, x).

(** Sizes fit in an int. *)
Definition small (n : nat) : Prop := (Z.of_nat n < 2147483648)%Z.
(** If accesses outside of containers are undefined, containers must have entries. *)
Definition nonempty_if {T} (strict : bool) (v : list T) : Prop := strict = true -> v <> [].

Definition vec_fine {T} (strict : bool) (v : list T) : Prop := small (length v) /\ nonempty_if strict v.
Definition mat_fine {T} (strict : bool) (m : matrix T) : Prop := small (nr m) /\ small (nc m) /\ vec_fine strict (dat m).
(** A grid with the spacings that follow from its bounds and numbers of cells. *)
Definition grid_fine (g : wgrid) : Prop := w_dx g = spacing (w_xl g) (w_xu g) (w_nx g) /\ w_dy g = spacing (w_yl g) (w_yu g) (w_ny g).
Definition patch_fine (strict : bool) (p : wpatch) : Prop :=
  grid_fine (p_grid p) /\
  mat_fine strict (p_X p) /\ mat_fine strict (p_H p) /\ mat_fine strict (p_S p) /\ mat_fine strict (p_T p) /\
  vec_fine strict (p_u p) /\ vec_fine strict (p_g p) /\ vec_fine strict (p_v p) /\ vec_fine strict (p_f p) /\
  vec_fine strict (p_h p) /\ vec_fine strict (p_w p).
(** The characters read from the old string are there. *)
Definition string_fits (strict : bool) (s old : text) : Prop := strict = true -> length s <= length old + 1.
