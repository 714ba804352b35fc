(** * Model: timers of the sections of a run

    source/scope.h:23-54, source/time_loop.template.h:298, 393 and 413.  The program is a
    sequence of pieces of work with known durations, some of them in scopes, possibly left
    by an exception.  dealii::Timer is simplified to one clock (wall or CPU time of the
    rank): start() begins a lap, stop() adds the lap and does nothing if the timer does not
    run. *)
From Coq Require Import Reals String List Bool.
Import ListNotations.
Local Open Scope R_scope.

(** A timer: the time so far and the beginning of the current lap; dealii::Timer in
    source/scope.h:52. *)
Record timer := { t_total : R; t_lap : option R }.
(** computing_timer_[...]: a timer that does not exist yet is created,
    source/time_loop.h:191. *)
Definition fresh : timer := {| t_total := 0; t_lap := None |}.
(** computing_timer_: the timers by name, source/time_loop.h:191. *)
Definition timers := string -> timer.
(** source/scope.h:34: start() *)
Definition start (now : R) (t : timer) : timer := {| t_total := t_total t; t_lap := Some now |}.
(** source/scope.h:48: stop() *)
Definition stop (now : R) (t : timer) : timer :=
  match t_lap t with
  | Some s => {| t_total := t_total t + (now - s); t_lap := None |}
  | None => t
  end.
(** wall_time() and cpu_time(), source/time_loop.template.h:393 and 1041, 1063, 1070. *)
Definition reading (now : R) (t : timer) : R :=
  match t_lap t with Some s => t_total t + (now - s) | None => t_total t end.
(** The access by name, source/scope.h:34 and 48. *)
Definition update (T : timers) (n : string) (t : timer) : timers :=
  fun m => if String.eqb m n then t else T m.

(** What the program does: work, one thing after the other, a block with
    "Scope scope(computing_timer_, n)", an exception; source/time_loop.template.h:259-286,
    308-312, 362-378. *)
Inductive code :=
| Work (d : R)
| Seq (a b : code)
| Scoped (n : string) (a : code)
| Throw.

(** Execution from a point in time; the flag is true if an exception is on its way.
    Destructors run in either case, source/scope.h:43-49. *)
Fixpoint exec (c : code) (now : R) (T : timers) : R * timers * bool :=
  match c with
  | Work d => (now + d, T, false)
  | Seq a b =>
    match exec a now T with
    | (now1, T1, false) => exec b now1 T1
    | r => r
    end
  | Scoped n a =>
    match exec a now (update T n (start now (T n))) with
    | (now1, T1, e) => (now1, update T1 n (stop now1 (T1 n)), e)
    end
  | Throw => (now, T, true)
  end.
