(** * Property theorems: complete runs of the Euler equations (C131) *)
From Coq Require Import Reals List Arith Bool Lia Lra.
From Verif Require Import RVec EulerSystem EulerScheme EulerSchemeSpec EulerRiemannFinal SchemeSpec SchemeExamples EulerSchemeExamples EulerMinEntropySpec
  TimeInt TimeIntSpec EulerRun EulerRunSpec EulerRunFinal EulerRunExamples EulerRunMore.
From Verif Require Import Scheme.
Import ListNotations.
Local Open Scope R_scope.

(** An explicit scheme whose substeps are all accepted performs exactly the substeps of [trace],
    returns its step size and changes neither configuration nor counters (any system). *)
Theorem C131_trace :
  forall (SV : Type) (prep : R -> SV -> SV) rows hyp para sadd sch t tau_max s,
  explicit_scheme sch = true ->
  let tau := fold_right Rmin (tau_max / efficiency sch) (rows (st_cfl _ s) (prep t (st_vector _ s))) in
  let tr := trace prep (fun o st => fst (hyp o st tau)) sadd sch t tau (st_vector _ s) in
  0 < tau ->
  (forall o st, In (o, st) (fst tr) ->
     rows (st_cfl _ s) o <> [] /\ Forall (fun x => 0 < x) (rows (st_cfl _ s) o) /\ snd (hyp o st tau) = false) ->
  exists s', single_step SV prep rows hyp para sadd sch t tau_max s = (Ok (efficiency sch * tau), s') /\
    st_vector _ s' = snd tr /\ same_config s s' /\ counters_eq s s'.
Proof. exact C131_trace_proof. Qed.
Print Assumptions C131_trace.

(** A step whose substeps are suitable completes in the first attempt with the proposed step
    size, without restart or warning; density and internal energy stay positive everywhere and the
    entropy does not drop below s0. *)
Theorem C131_step :
  forall p dim M num_min s0 entries data order n tmp sch rec cfl_min cfl_max t t_final s,
  regular_run p dim M num_min s0 entries data order n ->
  explicit_scheme sch = true -> 0 < cfl_max ->
  (rec = bang_bang_control \/ st_cfl _ s = cfl_max) -> t < t_final ->
  gas_above (ep_system p) dim M s0 (fst (st_vector _ s)) ->
  let h := step_size p dim M num_min entries data tmp sch cfl_max t t_final (st_vector _ s) in
  cautious p dim M num_min entries data order n tmp sch t (st_vector _ s) h ->
  exists s', euler_step p dim M num_min entries data order n tmp sch rec cfl_min cfl_max t t_final s = (Ok h, s') /\
    0 < h /\ counters_eq s s' /\ gas_above (ep_system p) dim M s0 (fst (st_vector _ s')).
Proof. exact C131_step_proof. Qed.
Print Assumptions C131_step.

(** A shock tube with a slip wall, a no slip wall and prescribed values, forward Euler. *)
Example C131_ex :
  forall t t_final,
  regular_run (gas_params 0) 1 ring3 (1 / 10000) 0 walls tube_data [0; 1; 2]%nat 2 /\
  gas_above ex_air 1 ring3 0 tube_U /\ tube_U 0%nat <> tube_U 1%nat /\
  cautious (gas_params 0) 1 ring3 (1 / 10000) walls tube_data [0; 1; 2]%nat 2 no_contents erk_11 t (tube_old 0)
    (step_size (gas_params 0) 1 ring3 (1 / 10000) walls tube_data no_contents erk_11 (9 / 10) t t_final (tube_old 0)).
Proof. exact tube_case. Qed.

(** The same over any number of steps. *)
Theorem C131_run :
  forall p dim M num_min s0 entries data order n tmp sch rec cfl_min cfl_max t_final t s t' s',
  regular_run p dim M num_min s0 entries data order n ->
  explicit_scheme sch = true -> 0 < cfl_max ->
  (rec = bang_bang_control \/ st_cfl _ s = cfl_max) ->
  gas_above (ep_system p) dim M s0 (fst (st_vector _ s)) ->
  steps (fun t => euler_step p dim M num_min entries data order n tmp sch rec cfl_min cfl_max t t_final)
    (fun t s => cautious p dim M num_min entries data order n tmp sch t (st_vector _ s)
                  (step_size p dim M num_min entries data tmp sch cfl_max t t_final (st_vector _ s))) t s t' s' ->
  gas_above (ep_system p) dim M s0 (fst (st_vector _ s')) /\ counters_eq s s' /\ t <= t'.
Proof. exact C131_run_proof. Qed.
Print Assumptions C131_run.

(** For a uniform stream and every explicit scheme such a run reaches every final time. *)
Example C131_run_ex :
  forall data sch rec cfl_min cfl t_final (x : mstate euler_vector),
  explicit_scheme sch = true -> 0 < cfl <= 1 -> (rec = bang_bang_control \/ st_cfl _ x = cfl) -> 0 <= t_final ->
  (forall i, (i < 3)%nat -> fst (st_vector _ x) i = stream_u) ->
  regular_run stream_params 1 ring3 (1 / 10000) stream_entropy [] data [0; 1; 2]%nat 2 /\
  gas_above ex_air 1 ring3 stream_entropy (fst (st_vector _ x)) /\
  exists x', steps (fun t => euler_step stream_params 1 ring3 (1 / 10000) [] data [0; 1; 2]%nat 2 no_contents sch rec cfl_min cfl t t_final)
    (fun t s => cautious stream_params 1 ring3 (1 / 10000) [] data [0; 1; 2]%nat 2 no_contents sch t (st_vector _ s)
       (step_size stream_params 1 ring3 (1 / 10000) [] data no_contents sch cfl t t_final (st_vector _ s))) 0 x t_final x'.
Proof. exact stream_run. Qed.

(** For the forward Euler scheme the step size is always suitable. *)
Theorem C131_forward_euler :
  forall p dim M num_min entries data order n tmp cfl t t_final v,
  0 < cfl <= 1 -> proper_mesh M dim -> 0 < num_min ->
  (forall i, active M i -> e_fast p dim M num_min (euler_prepare p dim M entries data t v) (tmp_d (tmp (euler_prepare p dim M entries data t v))) i) ->
  cautious p dim M num_min entries data order n tmp erk_11 t v
    (step_size p dim M num_min entries data tmp erk_11 cfl t t_final v).
Proof. exact C131_forward_euler_proof. Qed.
Print Assumptions C131_forward_euler.

(** Without boundary mass, momentum and energy are the same at the end of such a run. *)
Theorem C131_conservation :
  forall p dim M num_min s0 data order n tmp sch rec cfl_min cfl_max t_final t s t' s',
  regular_run p dim M num_min s0 [] data order n ->
  symmetric_matrices M -> (forall i j, active M i -> In j (columns M i) -> skew_at M i j) ->
  explicit_scheme sch = true -> 0 < cfl_max ->
  (rec = bang_bang_control \/ st_cfl _ s = cfl_max) ->
  gas_above (ep_system p) dim M s0 (fst (st_vector _ s)) ->
  steps (fun t => euler_step p dim M num_min [] data order n tmp sch rec cfl_min cfl_max t t_final)
    (fun t s => cautious p dim M num_min [] data order n tmp sch t (st_vector _ s)
                  (step_size p dim M num_min [] data tmp sch cfl_max t t_final (st_vector _ s))) t s t' s' ->
  forall k, total M (active_rows M) (fst (st_vector _ s')) k = total M (active_rows M) (fst (st_vector _ s)) k.
Proof. exact C131_conservation_proof. Qed.
Print Assumptions C131_conservation.

(** Whatever the state, with bang-bang control a step completes with a positive step size; it
    neither fails nor throws. *)
Theorem C131_completes :
  forall p dim M num_min entries data order n tmp sch cfl_min cfl_max t t_final s,
  proper_mesh M dim -> 0 < num_min -> explicit_scheme sch = true -> 0 < cfl_min -> 0 < cfl_max -> t < t_final ->
  exists h s', euler_step p dim M num_min entries data order n tmp sch bang_bang_control cfl_min cfl_max t t_final s = (Ok h, s') /\
    0 < h <= t_final - t.
Proof. exact C131_completes_proof. Qed.
Print Assumptions C131_completes.

(** A vacuum next to the states of the shock tube is no obstacle. *)
Example C131_completes_ex :
  forall (s : mstate euler_vector), fst (st_vector _ s) = (fun i => if (i =? 0)%nat then (fun _ => 0) else tube_U i) ->
  exists h s', euler_step (gas_params 0) 1 ring3 (1 / 10000) walls tube_data [] 2 no_contents erk_33 bang_bang_control (1 / 2) (9 / 10) 0 1 s = (Ok h, s') /\ 0 < h <= 1 - 0.
Proof. exact C131_completes_ex_proof. Qed.
