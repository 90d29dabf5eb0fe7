(** Specification of gathering: which element is where. *)
From Verif Require Import Base.

Section Spec.
Context {T : Type}.
(** Element [k] of sender [i] belongs to position [p]. *)
Definition lands (sends : list (list T)) (displs : list Z) (i k p : nat) : Prop :=
  i < List.length sends /\ k < List.length (nth i sends []) /\ Z.of_nat p = (nth i displs 0 + Z.of_nat k)%Z.
(** The arrays describe the senders, every element has its own place in a buffer of [n] elements. *)
Definition good_layout (sends : list (list T)) (n : nat) (counts displs : list Z) : Prop :=
  List.length sends <= List.length counts /\ List.length sends <= List.length displs /\
  (forall i, i < List.length sends -> nth i counts 0%Z = Z.of_nat (List.length (nth i sends []))) /\
  (forall i k, i < List.length sends -> k < List.length (nth i sends []) -> exists p, p < n /\ lands sends displs i k p) /\
  (forall i k j l p, lands sends displs i k p -> lands sends displs j l p -> i = j /\ k = l).
(** The result: the elements sent are in their places, everything else is as before. *)
Definition gathered (sends : list (list T)) (displs : list Z) (before after : list T) : Prop :=
  List.length after = List.length before /\
  (forall i k p, lands sends displs i k p -> nth_error after p = nth_error (nth i sends []) k) /\
  (forall p, (forall i k, ~ lands sends displs i k p) -> nth_error after p = nth_error before p).
(** Entry [k] of a reduction over the ranks. *)
Definition reduced (op : T -> T -> T) (sends : list (list T)) (d : T) (k : nat) : T :=
  match map (fun s => nth k s d) sends with [] => d | x :: xs => fold_left op xs x end.
End Spec.
