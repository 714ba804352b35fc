(** * TimeLoop::run: output ticks, checkpoints, mesh adaptation

    source/time_loop.template.h, source/mesh_adaptor.template.h.  The numerical
    components are functions of an environment; a state [St] consists of mesh and
    state vector.  Not modelled: log file and terminal output, wall clock, the
    final call of compute_error, and overflow of the unsigned tick counter. *)
From Coq Require Import Reals String List Bool Arith.
From Verif Require Import Quantities.
Import ListNotations.
Local Open Scope R_scope.

Section Loop.
Variable St : Type.
Variable B : Type.

(** The components called by run(), source/time_loop.template.h:217-435. *)
Record environment := {
  prepare_state : St -> R -> St;    (* HyperbolicModule::prepare_state_vector, hyperbolic_module.template.h:96-190 *)
  integrate : St -> R -> R -> St * R; (* TimeIntegrator::step(state, t, t_final), time_integrator.template.h:205-275 *)
  analytic : St -> R -> St;         (* InitialValues::interpolate_hyperbolic_vector(t) on the current mesh *)
  adapt : St -> St;                 (* adapt_mesh_and_transfer_state_vector, time_loop.template.h:614-690 *)
  schlieren_bounds : St -> B;       (* Postprocessor::compute, step 2, postprocessor.template.h:215-240 *)
  reload : St -> St;                (* state after write_checkpoint and read_checkpoint *)
  sample : St -> manifold -> list R (* primitive states at the points of a manifold *)
}.

(** Run time parameters: source/time_loop.template.h:80-213;
    mesh_adaptor.template.h:69-77; [recompute_bounds]: postprocessor.template.h:20-58;
    [clear_on_writeout]: quantities.template.h:81-87.  [big]: numeric_limits::max. *)
Record config := {
  t_final : R; enforce_t_final : bool; granularity : R;
  enable_checkpointing : bool; enable_output_full : bool; enable_output_levelsets : bool;
  enable_compute_error : bool; enable_compute_quantities : bool; enable_mesh_adaptivity : bool;
  checkpoint_multiplier : nat; output_full_multiplier : nat; output_levelsets_multiplier : nat;
  quantities_multiplier : nat;
  adaptation_points : list R;
  recompute_bounds : bool;
  clear_on_writeout : bool;
  manifolds : list manifold;
  eps : R; big : R }.

(** What is written: the solution or the analytic solution, source/time_loop.template.h:311-345. *)
Inductive field := Solution | Analytic.

(** What a user observes.  source/time_loop.template.h:300-408. *)
Inductive event :=
| Level : R -> event                                  (* an iteration of the main loop begins at time t *)
| Output : field -> nat -> R -> bool -> bool -> St -> B -> event
    (* vtu files number n at time t: full, levelsets; normalised with bounds *)
| Checkpoint : nat -> R -> St -> event                (* files base_name-checkpoint.* *)
| QFiles : list qfile -> event
| Adapt : R -> event
| Step : R -> R -> event.                             (* from t by tau *)

(** Variables of run() and state of the components.  source/time_loop.template.h:217-300. *)
Record loop_state := {
  l_t : R; l_cycle : nat; l_state : St;
  l_points : list R;       (* adaptation_time_points_ *)
  l_bounds : option B;     (* bounds_ of the postprocessor, None: empty *)
  l_q : qstate }.

Variable E : environment.
Variable C : config.

(** MeshAdaptor::prepare, source/mesh_adaptor.template.h:91-115. *)
Definition adaptor_prepare (t : R) (points : list R) : list R :=
  filter (fun p => negb (if Rgt_dec t p then true else false)) points.

(** MeshAdaptor::analyze, source/mesh_adaptor.template.h:118-148: remaining time
    points, need_mesh_adaptation_. *)
Definition adaptor_analyze (t : R) (points : list R) : list R * bool :=
  (filter (fun p => if Rlt_dec t p then true else false) points,
   existsb (fun p => negb (if Rlt_dec t p then true else false)) points).

(** cycle % multiplier == 0; the modulo by zero is undefined.
    source/time_loop.template.h:337, 847-852. *)
Definition divides (multiplier cycle : nat) : option bool :=
  match multiplier with
  | O => None
  | _ => Some (Nat.eqb (cycle mod multiplier) 0)
  end.

(** Sequencing of the statements of source/time_loop.template.h:300-408; [None] as above. *)
Definition obind {A A'} (o : option A) (f : A -> option A') : option A' :=
  match o with Some a => f a | None => None end.

(** TimeLoop::output, source/time_loop.template.h:836-884; Postprocessor::compute
    and reset_bounds (postprocessor.template.h:105-275, postprocessor.h) as far as
    the bounds are concerned.  Result: events, state (prepared in place), bounds. *)
Definition output (s : St) (f : field) (t : R) (cycle : nat) (bounds : option B)
  : option (list event * St * option B) :=
  obind (divides (output_full_multiplier C) cycle) (fun df =>
  obind (divides (output_levelsets_multiplier C) cycle) (fun dl =>
  obind (divides (checkpoint_multiplier C) cycle) (fun dc =>
    let do_full := df && enable_output_full C in
    let do_levelsets := dl && enable_output_levelsets C in
    let do_checkpoint := dc && enable_checkpointing C in
    if negb (do_full || do_levelsets || do_checkpoint) then Some ([], s, bounds)
    else
      let s1 := prepare_state E s t in
      let '(ev1, bounds1) :=
        if do_full || do_levelsets then
          let b := match (if recompute_bounds C then None else bounds) with
                   | Some b => b
                   | None => schlieren_bounds E s1
                   end in
          ([Output f cycle t do_full do_levelsets s1 b], if Nat.eqb cycle 0 then None else Some b)
        else ([], bounds) in
      let ev2 := if do_checkpoint then [Checkpoint cycle t s1] else [] in
      Some (ev1 ++ ev2, s1, bounds1)))).

(** The tasks of a timer tick, source/time_loop.template.h:316-344. *)
Definition tick (L : loop_state) : option (list event * loop_state) :=
  let t := l_t L in
  let cycle := l_cycle L in
  obind (output (l_state L) Solution t cycle (l_bounds L)) (fun '(ev1, s1, b1) =>
  obind (if enable_compute_error C
         then obind (output (analytic E s1 t) Analytic t cycle b1) (fun '(ev, _, b) => Some (ev, b))
         else Some ([], b1)) (fun '(ev2, b2) =>
  obind (if enable_compute_quantities C
         then obind (divides (quantities_multiplier C) cycle) (fun d =>
                if d then obind (q_write_out (clear_on_writeout C) (manifolds C) (sample E s1) t cycle (l_q L))
                            (fun '(files, q) => Some ([QFiles files], q))
                else Some ([], l_q L))
         else Some ([], l_q L)) (fun '(ev3, q) =>
    Some (ev1 ++ ev2 ++ ev3,
          {| l_t := t; l_cycle := S cycle; l_state := s1; l_points := l_points L; l_bounds := b2; l_q := q |})))).

(** Mesh adaptation, source/time_loop.template.h:360-378, with the calls of
    prepare_compute_kernels (lines 245-257). *)
Definition adaptation (L : loop_state) : list event * loop_state :=
  if enable_mesh_adaptivity C then
    let '(points, need) := adaptor_analyze (l_t L) (l_points L) in
    if need then
      ([Adapt (l_t L)],
       {| l_t := l_t L; l_cycle := l_cycle L;
          l_state := adapt E (prepare_state E (l_state L) (l_t L));
          l_points := adaptor_prepare (l_t L) points;
          l_bounds := None; l_q := q_prepare (manifolds C) |})
    else
      ([], {| l_t := l_t L; l_cycle := l_cycle L; l_state := l_state L; l_points := points;
              l_bounds := l_bounds L; l_q := l_q L |})
  else ([], L).

(** source/time_loop.template.h:352-355 *)
Definition relax : R := if enforce_t_final C then 1 - 10 * eps C else 1.

(** One iteration of the main loop, source/time_loop.template.h:300-408.  The flag
    tells whether the loop is left. *)
Definition iteration (L : loop_state) : option (list event * loop_state * bool) :=
  let L1 :=
    if enable_compute_quantities C then
      {| l_t := l_t L; l_cycle := l_cycle L; l_state := l_state L; l_points := l_points L; l_bounds := l_bounds L;
         l_q := q_accumulate (manifolds C) (sample E (l_state L)) (l_t L) (l_q L) |}
    else L in
  obind (if Rge_dec (l_t L1) (INR (l_cycle L1) * granularity C) then tick L1 else Some ([], L1)) (fun '(ev1, L2) =>
    if Rge_dec (l_t L2) (relax * t_final C) then Some (Level (l_t L) :: ev1, L2, true)
    else
      let '(ev2, L3) := adaptation L2 in
      let '(s, tau) := integrate E (l_state L3) (l_t L3) (if enforce_t_final C then t_final C else big C) in
      Some (Level (l_t L) :: ev1 ++ ev2 ++ [Step (l_t L3) tau],
            {| l_t := l_t L3 + tau; l_cycle := l_cycle L3; l_state := s; l_points := l_points L3;
               l_bounds := l_bounds L3; l_q := l_q L3 |}, false)).

(** Main loop.  [None]: undefined behaviour or exception; the flag of the result
    tells whether the loop has been left (otherwise the fuel is used up).
    source/time_loop.template.h:300-408. *)
Fixpoint main_loop (fuel : nat) (L : loop_state) : option (list event * loop_state * bool) :=
  match fuel with
  | O => Some ([], L, false)
  | S fuel' =>
      obind (iteration L) (fun '(ev, L', stop) =>
        if stop then Some (ev, L', true)
        else obind (main_loop fuel' L') (fun '(ev', L'', r) => Some (ev ++ ev', L'', r)))
  end.

(** A new computation, source/time_loop.template.h:238-240, 275-285: initial state on the
    initial mesh. *)
Definition start (s0 : St) : loop_state :=
  {| l_t := 0; l_cycle := 0; l_state := s0;
     l_points := adaptor_prepare 0 (adaptation_points C);
     l_bounds := None; l_q := q_prepare (manifolds C) |}.

(** A resumed computation, source/time_loop.template.h:263-273, 438-533.  The
    kernels are prepared (line 470) before the time is read (lines 478-494). *)
Definition resume (s : St) (t : R) (cycle : nat) (at_time_zero : bool) : loop_state :=
  {| l_t := if at_time_zero then 0 else t; l_cycle := if at_time_zero then 0%nat else cycle;
     l_state := reload E s;
     l_points := adaptor_prepare 0 (adaptation_points C);
     l_bounds := None; l_q := q_prepare (manifolds C) |}.

End Loop.
