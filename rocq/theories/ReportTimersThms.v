(** * Property theorems: the timers of sections (C155) *)
From Coq Require Import Reals String List Bool.
From Verif Require Import ReportTimers ReportTimersSpec ReportTimersProofs.
Import ListNotations.
Local Open Scope R_scope.

(** ** The timers of sections (C155) *)

(** The timer of a section shows the time spent in it, also if it is left by an exception, provided no section contains itself. *)
Theorem C155_timers : forall c now m,
  not_reentrant c ->
  let '(now', T, _) := exec c now (fun _ => fresh) in
  now' = now + duration c /\ forall later, reading later (T m) = spent m c.
Proof. exact C155_timers_proof. Qed.
Print Assumptions C155_timers.

(** Two steps, the second one ending with an exception. *)
Example C155_timers_ex :
  not_reentrant two_steps /\ separate ["step"; "output"]%string two_steps /\ forward two_steps /\
  NoDup ["step"; "output"]%string /\ spent "time loop" two_steps = 7 /\ spent "step" two_steps = 4 /\ spent "output" two_steps = 2.
Proof. exact timers_case. Qed.

(** Why sections must not contain themselves. *)
Example C155_timers_needed :
  let c := Scoped "a" (Seq (Work 1) (Seq (Scoped "a" (Work 1)) (Work 1))) in
  duration c = 3 /\ let '(now, T, _) := exec c 0 (fun _ => fresh) in reading now (T "a"%string) = 1.
Proof. exact reentrant_case. Qed.

(** A timer that is read while its section is running shows the time since its beginning. *)
Theorem C155_running : forall c now n T,
  not_reentrant (Scoped n c) -> t_lap (T n) = None ->
  let '(now', T', _) := exec c now (update T n (start now (T n))) in
  reading now' (T' n) = t_total (T n) + duration c.
Proof. exact C155_running_proof. Qed.
Print Assumptions C155_running.

(** The times of sections that do not contain each other add up to at most the time elapsed. *)
Theorem C155_timers_sum : forall c now l,
  not_reentrant c -> NoDup l -> separate l c -> forward c ->
  let '(now', T, _) := exec c now (fun _ => fresh) in
  fold_right Rplus 0 (map (fun m => reading now' (T m)) l) <= now' - now.
Proof. exact C155_timers_sum_proof. Qed.
Print Assumptions C155_timers_sum.
