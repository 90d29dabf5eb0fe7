(** What one expects of a singleton that is made first and destroyed last. *)
From Verif Require Import Base LifeModel.

(** What a program does with the library between construction and destruction. *)
Definition library_use (o : op) : Prop :=
  match o with GetInstance | SetOption _ | ReadOption | Log => True | _ => False end.

(** What it sees if there is one object, number [i], with options [v] at first. *)
Fixpoint one_object (i v : nat) (l : list op) : list event :=
  match l with
  | [] => []
  | GetInstance :: l' => Instance i :: one_object i v l'
  | SetOption w :: l' => Done :: one_object i w l'
  | ReadOption :: l' => Value v :: one_object i v l'
  | _ :: l' => Done :: one_object i v l'
  end.
