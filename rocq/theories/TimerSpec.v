(** Specification of timers. *)
From Coq Require Import Sorted.
From Verif Require Import Base XmlModel TimerModel.

(** The name that a call concerns. *)
Definition call_name (c : call) : text := match c with AddTimer n | Start n _ | Stop n _ | Restart n => n end.
(** The calls of a history that concern the name. *)
Definition concerning (n : text) (cs : list call) : list call := filter (fun c => if list_eq_dec Ascii.ascii_dec (call_name c) n then true else false) cs.

(** Calls that make up start/stop intervals.  Starts may be repeated; an interval
    begins at the last start before its stop. *)
Inductive intervals (n : text) : list call -> list (Qc * Qc) -> Prop :=
| iv_none : intervals n [] []
| iv_open t cs l : intervals n cs l -> intervals n (cs ++ [Start n t]) l
| iv_close cs l s e : intervals n cs l -> intervals n (cs ++ [Start n s; Stop n e]) (l ++ [(s, e)]).

(** Total length. *)
Fixpoint total (l : list (Qc * Qc)) : Qc := match l with [] => 0%Qc | (s, e) :: l' => ((e - s) + total l')%Qc end.

(** Since its creation or last restart, the timer went through these intervals. *)
Definition timed (n : text) (history : list call) (l : list (Qc * Qc)) : Prop :=
  exists before c after, concerning n history = before ++ [c] ++ after /\ (c = AddTimer n \/ c = Restart n) /\ intervals n after l.

(** The values of the clock in the order of the calls. *)
Definition readings (cs : list call) : list Qc := flat_map (fun c => match c with Start _ t | Stop _ t => [t] | _ => [] end) cs.
(** The clock does not run backwards. *)
Definition chronological (cs : list call) : Prop := StronglySorted Qcle (readings cs).
