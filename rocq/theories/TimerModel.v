(** Model of src/Timer.cpp and of the timers in src/EllipticForestApp.cpp and
    src/HPSAlgorithm.hpp.

    Simplifications: times are rational numbers, so sums are not rounded; the clock is the
    sequence of values that the calls of Clock::now return. *)
From Verif Require Import Base XmlModel.

(** Timer.hpp; endTime_ is written only. *)
Record timer : Type := Timer { accumulated : Qc; started : Qc }.
(** Timer.cpp:5-6: the time points are the epoch. *)
Definition new_timer : timer := Timer 0 0.
(** Timer.cpp:8-10; [now] is the value of the clock. *)
Definition t_start (now : Qc) (t : timer) : timer := Timer (accumulated t) now.
(** Timer.cpp:12-17. *)
Definition t_stop (now : Qc) (t : timer) : timer := Timer (accumulated t + (now - started t))%Qc (started t).
(** Timer.cpp:19. *)
Definition t_time (t : timer) : Qc := accumulated t.
(** Timer.cpp:21-23. *)
Definition t_restart (t : timer) : timer := Timer 0 (started t).

(** EllipticForestApp.hpp: std::map<std::string, Timer> timers; [timers[name]] inserts a
    new timer if there is none. *)
Definition timers := text -> timer.
Definition t_set (m : timers) (n : text) (t : timer) : timers := fun n' => if list_eq_dec Ascii.ascii_dec n n' then t else m n'.

(** Calls on timers; EllipticForestApp.cpp:62-64 is [AddTimer]. *)
Inductive call : Type := AddTimer (n : text) | Start (n : text) (now : Qc) | Stop (n : text) (now : Qc) | Restart (n : text).
Definition do_call (m : timers) (c : call) : timers :=
  match c with
  | AddTimer n => t_set m n new_timer
  | Start n now => t_set m n (t_start now (m n))
  | Stop n now => t_set m n (t_stop now (m n))
  | Restart n => t_set m n (t_restart (m n))
  end.
Definition do_calls (m : timers) (cs : list call) : timers := fold_left do_call cs m.
(** The map is empty at first. *)
Definition no_timers : timers := fun _ => new_timer.
Definition reported (m : timers) (n : text) : Qc := t_time (m n).

(** A stage of the solver with the calls made in its body: HPSAlgorithm.hpp:98-103 (setup), 125-158 (build),
    183-213 and 230-269 (upwards), 295-321, 348-442 and 452-482 (solve). *)
Definition stage (n : text) (begin : Qc) (body : list call) (fin : Qc) : list call :=
  [AddTimer n; Start n begin] ++ body ++ [Stop n fin].
