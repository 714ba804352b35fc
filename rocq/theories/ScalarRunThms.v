(** * Property theorems: complete runs of scalar conservation equations (C133) *)
From Coq Require Import Reals List Arith Bool Lia Lra.
From Verif Require Import RVec EulerSystem SchemeSpec SchemeExamples Scalar ScalarSpec ScalarFlux ScalarScheme ScalarSchemeSpec
  TimeInt TimeIntSpec EulerRun EulerRunSpec SWRunExamples ScalarRun ScalarRunSpec ScalarRunProofs ScalarRunExamples.
From Verif Require Import Scheme.
Import ListNotations.
Local Open Scope R_scope.

(** A step all of whose substeps are suitable completes in the first attempt, without restart or
    warning, with the proposed step size, and keeps the values in the interval. *)
Theorem C133_step :
  forall p dim M num_min a b entries data order n tmp sch rec cfl_min cfl_max t t_final s,
  interval_setting p M num_min a b entries data order n ->
  explicit_scheme sch = true -> 0 < cfl_max <= 1 ->
  (rec = bang_bang_control \/ st_cfl _ s = cfl_max) -> t < t_final ->
  values_in M a b (fst (st_vector _ s)) ->
  let h := sc_step_size p dim M num_min entries data tmp sch cfl_max t t_final (st_vector _ s) in
  sc_cautious p dim M num_min entries data order n tmp sch t (st_vector _ s) h ->
  exists s', sc_step p dim M num_min entries data order n tmp sch rec cfl_min cfl_max t t_final s = (Ok h, s') /\
    0 < h /\ counters_eq s s' /\ values_in M a b (fst (st_vector _ s')).
Proof. exact C133_step_proof. Qed.
Print Assumptions C133_step.

(** Any number of such steps. *)
Theorem C133_run :
  forall p dim M num_min a b entries data order n tmp sch rec cfl_min cfl_max t_final t s t' s',
  interval_setting p M num_min a b entries data order n ->
  explicit_scheme sch = true -> 0 < cfl_max <= 1 ->
  (rec = bang_bang_control \/ st_cfl _ s = cfl_max) ->
  values_in M a b (fst (st_vector _ s)) ->
  steps (fun t => sc_step p dim M num_min entries data order n tmp sch rec cfl_min cfl_max t t_final)
    (fun t s => sc_cautious p dim M num_min entries data order n tmp sch t (st_vector _ s)
                  (sc_step_size p dim M num_min entries data tmp sch cfl_max t t_final (st_vector _ s))) t s t' s' ->
  values_in M a b (fst (st_vector _ s')) /\ counters_eq s s'.
Proof. exact C133_run_proof. Qed.
Print Assumptions C133_run.

(** Burgers' equation with forward Euler. *)
Example C133_run_ex :
  forall n rec cfl_min t t_final (s : mstate sc_vector),
  (n <= 2)%nat -> (rec = bang_bang_control \/ st_cfl _ s = 9 / 10) -> t < t_final ->
  fst (st_vector _ s) = (fun i _ => if (i =? 0)%nat then 2 else 1) -> snd (st_vector _ s) = (fun _ _ => 0) ->
  exists h s', sc_step traffic 1 ring3 (1 / 10000) [] pulses [2; 0; 1]%nat n no_draws erk_11 rec cfl_min (9 / 10) t t_final s = (Ok h, s') /\
    0 < h /\ counters_eq s s' /\ forall i, (i < 3)%nat -> 1 <= fst (st_vector _ s') i tt <= 2.
Proof. exact C133_run_ex_proof. Qed.

(** Linear transport: the speed estimate is the velocity along the direction, whatever the states
    and the random numbers. *)
Theorem C133_speed :
  forall F dim w greedy averaged draws u v n, transport F dim w ->
  sc_wavespeed F greedy averaged draws dim u v n = Rabs (RVec.dot dim w n).
Proof. exact C133_speed_proof. Qed.
Print Assumptions C133_speed.

(** Linear transport: a run of any explicit scheme reaches every final time without restarts or
    warnings, and all values of all steps stay in the interval of the initial values and of the
    Dirichlet data. *)
Theorem C133_transport :
  forall p dim M num_min a b entries data order n w tmp sch rec cfl_min cfl_max t_final t s,
  interval_setting p M num_min a b entries data order n ->
  transport (sp_flux p) dim w -> sp_greedy p = false -> moving dim M num_min w ->
  explicit_scheme sch = true -> 0 < cfl_max <= 1 ->
  (rec = bang_bang_control \/ st_cfl _ s = cfl_max) ->
  values_in M a b (fst (st_vector _ s)) ->
  (t <= t_final -> exists s',
     steps (fun t => sc_step p dim M num_min entries data order n tmp sch rec cfl_min cfl_max t t_final) (fun _ _ => True) t s t_final s') /\
  forall t' s',
    steps (fun t => sc_step p dim M num_min entries data order n tmp sch rec cfl_min cfl_max t t_final) (fun _ _ => True) t s t' s' ->
    counters_eq s s' /\ values_in M a b (fst (st_vector _ s')).
Proof. exact C133_transport_proof. Qed.
Print Assumptions C133_transport.

(** Pulses flowing into a channel, any random numbers. *)
Example C133_transport_ex :
  forall tmp n sch rec cfl_min t_final (s : mstate sc_vector),
  (n <= 2)%nat -> explicit_scheme sch = true -> (rec = bang_bang_control \/ st_cfl _ s = 9 / 10) -> 0 <= t_final ->
  (forall i, fst (st_vector _ s) i tt = if (i =? 1)%nat then 1 else 0) ->
  exists s', steps (fun t => sc_step drift 1 channel3 (1 / 10000) inflow pulses [2; 0; 1]%nat n tmp sch rec cfl_min (9 / 10) t t_final)
      (fun _ _ => True) 0 s t_final s' /\
    counters_eq s s' /\ forall i, (i < 3)%nat -> 0 <= fst (st_vector _ s') i tt <= 1.
Proof. exact C133_transport_ex_proof. Qed.

(** Without outflow every completed run on one rank keeps the integral of the state, whatever the
    flux, the states and the random numbers, whether or not steps were restarted or warned about. *)
Theorem C133_total :
  forall p dim M num_min entries data order n tmp sch rec cfl_min cfl_max t_final t s t' s',
  symmetric_pattern M -> positive_masses M -> valid_numbering M -> symmetric_matrices M ->
  (forall i j, active M i -> In j (columns M i) -> skew_at M i j) ->
  (forall i j, (i < n_rows M)%nat -> (j < n_rows M)%nat -> owner M i = owner M j) ->
  Forall (fun e => be_id e <> dirichlet) entries ->
  explicit_scheme sch = true ->
  steps (fun t => sc_step p dim M num_min entries data order n tmp sch rec cfl_min cfl_max t t_final) (fun _ _ => True) t s t' s' ->
  total M (active_rows M) (fst (st_vector _ s')) tt = total M (active_rows M) (fst (st_vector _ s)) tt.
Proof. exact C133_total_proof. Qed.
Print Assumptions C133_total.

(** Burgers' equation on a ring, any random numbers and contents of temporaries. *)
Example C133_total_ex :
  forall tmp n sch (s : mstate sc_vector),
  explicit_scheme sch = true -> fst (st_vector _ s) = (fun i _ => if (i =? 0)%nat then 2 else 1) ->
  exists h s', sc_step traffic 1 ring3' (1 / 10000) [] pulses [2; 0; 1]%nat n tmp sch bang_bang_control (1 / 10) (9 / 10) 0 1 s = (Ok h, s') /\
    0 < h /\ total ring3' (active_rows ring3') (fst (st_vector _ s')) tt = 4.
Proof. exact C133_total_ex_proof. Qed.

(** Whatever the state, with bang-bang control a step completes with a positive step size. *)
Theorem C133_completes :
  forall p dim M num_min entries data order n tmp sch cfl_min cfl_max t t_final s,
  symmetric_pattern M -> positive_masses M -> (exists i, active M i) -> 0 < num_min ->
  explicit_scheme sch = true -> 0 < cfl_min -> 0 < cfl_max -> t < t_final ->
  exists h s', sc_step p dim M num_min entries data order n tmp sch bang_bang_control cfl_min cfl_max t t_final s = (Ok h, s') /\
    0 < h <= t_final - t.
Proof. exact C133_completes_proof. Qed.
Print Assumptions C133_completes.
