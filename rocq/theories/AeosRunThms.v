(** * Property theorems: complete runs with an arbitrary equation of state (C135) *)
From Coq Require Import Reals List Arith Bool Lia Lra.
From Verif Require Import RVec EulerSystem AeosSystem AeosPrecompute AeosScheme AeosSchemeSpec AeosSchemeExamples SchemeSpec SchemeExamples
  TimeInt TimeIntSpec EulerRun EulerRunSpec EulerRunExamples AeosRun AeosRunSpec AeosRunProofs AeosRunExamples.
From Verif Require Import Scheme.
Import ListNotations.
Local Open Scope R_scope.

(** A step all of whose substeps are suitable completes in the first attempt, without restart or
    warning, with the proposed step size; density, excess energy and pressure stay positive and the
    density stays below 1 / b. *)
Theorem C135_step :
  forall p dim M num_min entries data order n tmp sch rec cfl_min cfl_max t t_final s,
  aeos_setting p dim M num_min entries data order n ->
  explicit_scheme sch = true -> 0 < cfl_max ->
  (rec = bang_bang_control \/ st_cfl _ s = cfl_max) -> t < t_final ->
  all_gas (a_eos (ap_system p)) dim M (fst (st_vector _ s)) ->
  let h := aeos_step_size p dim M num_min entries data tmp sch cfl_max t t_final (st_vector _ s) in
  aeos_cautious p dim M num_min entries data order n tmp sch t (st_vector _ s) h ->
  exists s', aeos_step p dim M num_min entries data order n tmp sch rec cfl_min cfl_max t t_final s = (Ok h, s') /\
    0 < h /\ counters_eq s s' /\ all_gas (a_eos (ap_system p)) dim M (fst (st_vector _ s')).
Proof. exact C135_step_proof. Qed.
Print Assumptions C135_step.

(** Any number of such steps. *)
Theorem C135_run :
  forall p dim M num_min entries data order n tmp sch rec cfl_min cfl_max t_final t s t' s',
  aeos_setting p dim M num_min entries data order n ->
  explicit_scheme sch = true -> 0 < cfl_max ->
  (rec = bang_bang_control \/ st_cfl _ s = cfl_max) ->
  all_gas (a_eos (ap_system p)) dim M (fst (st_vector _ s)) ->
  steps (fun t => aeos_step p dim M num_min entries data order n tmp sch rec cfl_min cfl_max t t_final)
    (fun t s => aeos_cautious p dim M num_min entries data order n tmp sch t (st_vector _ s)
                  (aeos_step_size p dim M num_min entries data tmp sch cfl_max t t_final (st_vector _ s))) t s t' s' ->
  all_gas (a_eos (ap_system p)) dim M (fst (st_vector _ s')) /\ counters_eq s s' /\ t <= t'.
Proof. exact C135_run_proof. Qed.
Print Assumptions C135_run.

(** Forward Euler steps with CFL numbers up to 1 are suitable as soon as the viscosities are above
    the cut off. *)
Theorem C135_forward_euler :
  forall p dim M num_min entries data order n tmp cfl t t_final v,
  0 < cfl <= 1 -> aeos_setting p dim M num_min entries data order n ->
  (forall i, active M i -> a_fast p dim M num_min (aeos_prepare p dim M entries data t v) (at_d (tmp (aeos_prepare p dim M entries data t v))) i) ->
  aeos_cautious p dim M num_min entries data order n tmp erk_11 t v
    (aeos_step_size p dim M num_min entries data tmp erk_11 cfl t t_final v).
Proof. exact C135_forward_euler_proof. Qed.
Print Assumptions C135_forward_euler.

(** A Noble-Abel gas with a slip wall, a no slip wall and prescribed values. *)
Example C135_ex :
  exists num_min, 0 < num_min /\
  forall n rec cfl_min t t_final (s : mstate aeos_vector),
  (n <= 2)%nat -> (rec = bang_bang_control \/ st_cfl _ s = 9 / 10) -> t < t_final -> st_vector _ s = (noble_U, noble_pc0) ->
  exists h s', aeos_step noble_params 1 ring3 num_min walls noble_data [2; 0; 1]%nat n noble_tmp erk_11 rec cfl_min (9 / 10) t t_final s = (Ok h, s') /\
    0 < h /\ counters_eq s s' /\ forall i, (i < 3)%nat -> aeos_gas gas_eos 1 (fst (st_vector _ s') i).
Proof. exact C135_ex_proof. Qed.

(** Without boundary every completed run on one rank conserves density, momentum and energy, for
    any equation of state and any states, whether or not steps were restarted or warned about. *)
Theorem C135_total :
  forall p dim M num_min data order n tmp sch rec cfl_min cfl_max t_final t s t' s',
  symmetric_pattern M -> positive_masses M -> valid_numbering M -> symmetric_matrices M ->
  (forall i j, active M i -> In j (columns M i) -> skew_at M i j) ->
  (forall i j, (i < n_rows M)%nat -> (j < n_rows M)%nat -> owner M i = owner M j) ->
  explicit_scheme sch = true ->
  steps (fun t => aeos_step p dim M num_min [] data order n tmp sch rec cfl_min cfl_max t t_final) (fun _ _ => True) t s t' s' ->
  forall k, total M (active_rows M) (fst (st_vector _ s')) k = total M (active_rows M) (fst (st_vector _ s)) k.
Proof. exact C135_total_proof. Qed.
Print Assumptions C135_total.

(** The Noble-Abel gas on a ring. *)
Example C135_total_ex :
  forall n tmp sch rec cfl_min t_final t s t' s', explicit_scheme sch = true ->
  steps (fun t => aeos_step noble_params 1 ring3' (1 / 10000) [] noble_data [2; 0; 1]%nat n tmp sch rec cfl_min (9 / 10) t t_final) (fun _ _ => True) t s t' s' ->
  fst (st_vector _ s) = noble_U ->
  fst (st_vector _ s') 0%nat 0%nat + fst (st_vector _ s') 1%nat 0%nat + fst (st_vector _ s') 2%nat 0%nat = 4.
Proof. exact C135_total_ex_proof. Qed.

(** Whatever the state, with bang-bang control a step completes with a positive step size. *)
Theorem C135_completes :
  forall p dim M num_min entries data order n tmp sch cfl_min cfl_max t t_final s,
  symmetric_pattern M -> positive_masses M -> (exists i, active M i) -> 0 < num_min ->
  explicit_scheme sch = true -> 0 < cfl_min -> 0 < cfl_max -> t < t_final ->
  exists h s', aeos_step p dim M num_min entries data order n tmp sch bang_bang_control cfl_min cfl_max t t_final s = (Ok h, s') /\
    0 < h <= t_final - t.
Proof. exact C135_completes_proof. Qed.
Print Assumptions C135_completes.
