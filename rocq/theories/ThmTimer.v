(** Property theorems.  Proofs are in TimerProps.v; this file only restates the
    statements.  Written by tools/gen_thm.py. *)
From Coq Require Import Ascii String Sorted.
From Verif Require Import Base XmlModel TimerModel TimerSpec.
From Verif Require Import TimerProps.

(** [C53] After every history, with calls on any timers: a timer reports the total of its start/stop
    intervals since it was created or restarted.  Missing: a stage makes its timer anew. *)
Theorem timer_total_partial : forall (n : text) (m : timers) (history : list call) (l : list (Qc * Qc)),
  timed n history l -> reported (do_calls m history) n = total l.
Proof. exact @timer_total_partial_pf. Qed.
Print Assumptions timer_total_partial.

(** [C53] After every history, running a stage, whose body may use other timers, makes its timer report the
    length of this run; the earlier runs are lost. *)
Theorem stage_timer_partial : forall (n : text) (m : timers) (history body : list call) (begin fin : Qc),
  Forall (fun c => call_name c <> n) body ->
  reported (do_calls m (history ++ stage n begin body fin)) n = (fin - begin)%Qc.
Proof. exact @stage_timer_partial_pf. Qed.
Print Assumptions stage_timer_partial.

(** [C53] Two runs of the build stage: the timer reports the second one only. *)
Theorem stage_timer_refuted : exists (n : text) (b1 f1 b2 f2 : Qc), (b1 < f1 /\ f1 < b2 /\ b2 < f2)%Qc /\
  reported (do_calls no_timers (stage n b1 [] f1 ++ stage n b2 [] f2)) n <> ((f1 - b1) + (f2 - b2))%Qc.
Proof. exact @stage_timer_refuted_pf. Qed.
Print Assumptions stage_timer_refuted.

(** [C53] The condition on histories is needed: a second stop counts the time since the last
    start again, and a stop without a start counts the time since the epoch of the clock. *)
Theorem timer_unpaired_stop : forall (n : text) (s e1 e2 : Qc),
  reported (do_calls no_timers [AddTimer n; Start n s; Stop n e1; Stop n e2]) n = ((e1 - s) + (e2 - s))%Qc /\
  reported (do_calls no_timers [AddTimer n; Stop n e1]) n = e1.
Proof. exact @timer_unpaired_stop_pf. Qed.
Print Assumptions timer_unpaired_stop.

(** [C53] A restart while the timer runs does not begin a new interval: at the stop the whole time since the start
    counts, also the part before the restart. *)
Theorem timer_restart_running : forall (n : text) (m : timers) (history between : list call) (s e : Qc),
  Forall (fun c => call_name c <> n) between ->
  reported (do_calls m (history ++ [Start n s; Restart n] ++ between ++ [Stop n e])) n = (e - s)%Qc.
Proof. exact @timer_restart_running_pf. Qed.
Print Assumptions timer_restart_running.

(** [C53] If the clock does not run backwards, the timer of a stage covers its body: what any timer counts in the body is
    at most what the stage reports. *)
Theorem stage_covers_body : forall (n n' : text) (m : timers) (history body : list call) (begin fin : Qc) (l : list (Qc * Qc)),
  Forall (fun c => call_name c <> n) body -> chronological (stage n begin body fin) ->
  intervals n' (concerning n' body) l ->
  (total l <= reported (do_calls m (history ++ stage n begin body fin)) n)%Qc.
Proof. exact @stage_covers_body_pf. Qed.
Print Assumptions stage_covers_body.

(** A stage from 1 to 5 whose body times 2 to 3 and 3 to 4. *)
Example stage_covers_body_example : exists body : list call, body = [Start (txt "a") q2; Stop (txt "a") (q2 + 1)%Qc; Start (txt "a") (q2 + 1)%Qc; Stop (txt "a") (q2 + q2)%Qc] /\
  chronological (stage (txt "s") 1 body (q2 + q2 + 1)%Qc) /\
  intervals (txt "a") (concerning (txt "a") body) [(q2, q2 + 1); (q2 + 1, q2 + q2)]%Qc.
Proof. exact @stage_covers_body_example_expf. Qed.

(** A history with two timers, an interval before and two after a restart. *)
Example timed_example : exists history, history =
    [AddTimer (txt "a"); Start (txt "a") 1; AddTimer (txt "b"); Stop (txt "a") q2; Restart (txt "a"); Start (txt "a") q2;
     Start (txt "b") q2; Stop (txt "a") (q2 + 1)%Qc; Start (txt "a") (q2 + 1)%Qc; Stop (txt "a") (q2 + q2)%Qc] /\
  timed (txt "a") history [(q2, q2 + 1); (q2 + 1, q2 + q2)]%Qc.
Proof. exact @timed_example_expf. Qed.
