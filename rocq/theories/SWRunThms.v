(** * Property theorems: complete runs of the shallow water equations (C132) *)
From Coq Require Import Reals List Arith Bool Lia Lra.
From Verif Require Import RVec EulerSystem SWSystem SWLimiter PhysSpec SWScheme SWSchemeSpec SchemeSpec SchemeExamples SWSchemeExamples
  TimeInt TimeIntSpec EulerRun EulerRunSpec EulerRunExamples SWRun SWRunSpec SWRunProofs SWRunExamples.
From Verif Require Import Scheme.
Import ListNotations.
Local Open Scope R_scope.

(** A lake at rest completes a step of every explicit scheme in the first attempt, without restart
    or warning, and is still a lake at rest with the same level. *)
Theorem C132_step :
  forall p dim Z M num_min level entries data order n tmp sch rec cfl_min cfl_max t t_final s,
  lake_setting p dim Z M num_min level entries data order ->
  explicit_scheme sch = true -> 0 < cfl_max <= 1 ->
  (rec = bang_bang_control \/ st_cfl _ s = cfl_max) -> t < t_final ->
  lake_at_rest (wp_system p) (wp_eps p) dim M Z level (fst (st_vector _ s)) ->
  exists h s', sw_step p dim Z M num_min entries data order n tmp sch rec cfl_min cfl_max t t_final s = (Ok h, s') /\
    0 < h /\ counters_eq s s' /\ lake_at_rest (wp_system p) (wp_eps p) dim M Z level (fst (st_vector _ s')).
Proof. exact C132_step_proof. Qed.
Print Assumptions C132_step.

(** The run reaches every final time, and after any number of steps the lake is at rest. *)
Theorem C132_run :
  forall p dim Z M num_min level entries data order n tmp sch rec cfl_min cfl_max t_final t s,
  lake_setting p dim Z M num_min level entries data order ->
  explicit_scheme sch = true -> 0 < cfl_max <= 1 ->
  (rec = bang_bang_control \/ st_cfl _ s = cfl_max) ->
  lake_at_rest (wp_system p) (wp_eps p) dim M Z level (fst (st_vector _ s)) ->
  (t <= t_final -> exists s',
     steps (fun t => sw_step p dim Z M num_min entries data order n tmp sch rec cfl_min cfl_max t t_final) (fun _ _ => True) t s t_final s') /\
  forall t' s',
    steps (fun t => sw_step p dim Z M num_min entries data order n tmp sch rec cfl_min cfl_max t t_final) (fun _ _ => True) t s t' s' ->
    counters_eq s s' /\ lake_at_rest (wp_system p) (wp_eps p) dim M Z level (fst (st_vector _ s')).
Proof. exact C132_run_proof. Qed.
Print Assumptions C132_run.

(** A pond with an island, characteristic data, a wall and Dirichlet data. *)
Example C132_run_ex :
  forall n sch rec cfl_min t_final (s : mstate sw_vector),
  explicit_scheme sch = true -> (rec = bang_bang_control \/ st_cfl _ s = 9 / 10) -> 0 <= t_final ->
  fst (st_vector _ s) = pond_U ->
  exists s', steps (fun t => sw_step pondp 1 pond_Z ring3 (1 / 10000) shore shore_data [2; 0; 1]%nat n no_contents sch rec cfl_min (9 / 10) t t_final)
      (fun _ _ => True) 0 s t_final s' /\
    counters_eq s s' /\ forall i k, (i < 3)%nat -> (k <= 1)%nat -> fst (st_vector _ s') i k = pond_U i k.
Proof. exact C132_run_ex_proof. Qed.

(** Between walls, or without boundary, every completed run keeps the volume of water, whatever
    the states and whether or not steps were restarted or warned about. *)
Theorem C132_volume :
  forall p dim Z M num_min entries data order n tmp sch rec cfl_min cfl_max t_final t s t' s',
  symmetric_pattern M -> positive_masses M -> valid_numbering M -> symmetric_matrices M ->
  (forall i j, active M i -> In j (columns M i) -> i <> j -> skew_at M i j) ->
  Forall depth_kept entries -> (forall i, active M i -> closed_row dim M entries i) ->
  explicit_scheme sch = true ->
  steps (fun t => sw_step p dim Z M num_min entries data order n tmp sch rec cfl_min cfl_max t t_final) (fun _ _ => True) t s t' s' ->
  total M (active_rows M) (fst (st_vector _ s')) 0%nat = total M (active_rows M) (fst (st_vector _ s)) 0%nat.
Proof. exact C132_volume_proof. Qed.
Print Assumptions C132_volume.

(** A wave in a channel between two walls. *)
Example C132_volume_ex :
  forall data order n tmp sch (s : mstate sw_vector),
  explicit_scheme sch = true -> fst (st_vector _ s) = wave_U ->
  exists h s',
    sw_step pondp 1 (fun _ => 0) channel3 (1 / 10000) channel_walls data order n tmp sch bang_bang_control (1 / 10) (9 / 10) 0 1 s = (Ok h, s') /\
    0 < h /\ total channel3 (active_rows channel3) (fst (st_vector _ s')) 0%nat = 5 / 2.
Proof. exact C132_volume_ex_proof. Qed.

(** Whatever the state, with bang-bang control a step completes with a positive step size. *)
Theorem C132_completes :
  forall p dim Z M num_min entries data order n tmp sch cfl_min cfl_max t t_final s,
  proper_mesh M dim -> 0 < num_min -> explicit_scheme sch = true -> 0 < cfl_min -> 0 < cfl_max -> t < t_final ->
  exists h s', sw_step p dim Z M num_min entries data order n tmp sch bang_bang_control cfl_min cfl_max t t_final s = (Ok h, s') /\
    0 < h <= t_final - t.
Proof. exact C132_completes_proof. Qed.
Print Assumptions C132_completes.
