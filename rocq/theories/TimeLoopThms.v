(** * The time loop: C47, C48, C50 *)
From Coq Require Import Reals List Bool Arith Lia Lra Sorted String.
From Verif Require Import Quantities TimeLoop TimeLoopSpec TimeLoopProofs TimeLoopFinal TimeLoopExamples.
Import ListNotations.
Local Open Scope R_scope.

(** C47.  Files of a kind are written only if enabled, numbered in strictly
    increasing order by multiples of the multiplier, never ahead of time, and at
    time levels of the run. *)
Theorem C47_once : forall (St B : Type) (E : environment St B) C fuel s0 evs L' r k,
  main_loop St B E C fuel (start St B C s0) = Some (evs, L', r) ->
  (k = Check -> enable_compute_error C = false) ->
  StronglySorted (fun a b => (fst a < fst b)%nat) (records k evs) /\
  forall n t, In (n, t) (records k evs) ->
    enabled C k = true /\ (n mod multiplier C k = 0)%nat /\ INR n * granularity C <= t /\ In t (levels evs).
Proof. intros St B. exact C47_once_proof. Qed.
Print Assumptions C47_once.

(** C47.  If no step exceeds the granularity, file number n is written at the first
    time level not below n times the granularity. *)
Theorem C47_first_level : forall (St B : Type) (E : environment St B) C fuel s0 evs L' r k,
  main_loop St B E C fuel (start St B C s0) = Some (evs, L', r) ->
  (k = Check -> enable_compute_error C = false) -> enabled C k = true -> 0 < granularity C ->
  (forall t tau, In (t, tau) (steps evs) -> 0 <= tau <= granularity C) ->
  forall n x, (n mod multiplier C k = 0)%nat -> In x (levels evs) -> INR n * granularity C <= x ->
  exists t, In (n, t) (records k evs) /\ first_reaching (levels evs) (INR n * granularity C) t.
Proof. intros St B. exact C47_first_level_proof. Qed.
Print Assumptions C47_first_level.

Example C47_first_level_applies : exists evs L',
  main_loop R R (counter 1) (setup 2 true true false false false [] true true []) 3
    (start R R (setup 2 true true false false false [] true true []) 0) = Some (evs, L', true) /\
  steps evs = [(0, 1); (0 + 1, 1)] /\ records Check evs = [(0%nat, 0); (1%nat, 0 + 1); (2%nat, 0 + 1 + 1)] /\ levels evs = [0; 0 + 1; 0 + 1 + 1].
Proof. eexists. eexists. split; [dec; reflexivity|]. split; [reflexivity|]. split; reflexivity. Qed.

(** C47.  The run ends: if every step is at least delta or reaches the end point,
    the loop is left after finitely many steps, no earlier than the (relaxed) final
    time and no later than the end point handed to the integrator. *)
Theorem C47_terminates : forall (St B : Type) (E : environment St B) C delta s0,
  valid_multipliers C -> 0 < delta -> 0 <= eps C -> 0 <= t_final C <= big C ->
  (forall s t, t < end_point C ->
     Rmin delta (end_point C - t) <= snd (integrate _ _ E s t (end_point C)) <= end_point C - t) ->
  exists fuel evs L', main_loop St B E C fuel (start St B C s0) = Some (evs, L', true) /\
    (if enforce_t_final C then 1 - 10 * eps C else 1) * t_final C <= l_t _ _ L' /\ l_t _ _ L' <= end_point C.
Proof. intros St B. exact C47_terminates_proof. Qed.
Print Assumptions C47_terminates.

Example C47_terminates_applies :
  valid_multipliers (setup 2 true true true true true [] false false [probe]) /\
  forall s t, t < 1000 -> Rmin (1/3) (1000 - t) <= snd (integrate _ _ (counter (1/3)) s t 1000) <= 1000 - t.
Proof. split; [repeat split; cbn; lia|]. intros s t Ht. cbn. split; [lra|apply Rmin_r]. Qed.

(** C47 fails for large steps: only one tick is handled per step, so that files may
    be missing at the end. *)
Theorem C47_late_refuted :
  exists (E : environment R R) C s0 fuel evs L' n,
    main_loop R R E C fuel (start R R C s0) = Some (evs, L', true) /\ valid_multipliers C /\ enable_output_full C = true /\
    (n mod output_full_multiplier C = 0)%nat /\ INR n * granularity C <= l_t _ _ L' /\ forall t, ~ In (n, t) (records Full evs).
Proof. exact C47_late_refuted_proof. Qed.
Print Assumptions C47_late_refuted.

(** A multiplier zero is undefined behaviour even if everything is disabled. *)
Theorem C47_zero_multiplier_refuted :
  exists C, enable_output_full C = false /\ enable_output_levelsets C = false /\ enable_checkpointing C = false /\
    enable_compute_error C = false /\ enable_compute_quantities C = false /\
    forall (E : environment R R) s0 fuel, main_loop R R E C (S fuel) (start R R C s0) = None.
Proof. exact C47_zero_multiplier_refuted_proof. Qed.
Print Assumptions C47_zero_multiplier_refuted.

(** C48.  A run resumed from a checkpoint produces the events of the uninterrupted
    run from that point on. *)
Theorem C48_resume : forall (St B : Type) (E : environment St B) C,
  no_history C ->
  forall k s0 evs1 Lk ev L1 stop fuel evs2 Lend r n t s,
  main_loop St B E C k (start St B C s0) = Some (evs1, Lk, false) ->
  iteration St B E C Lk = Some (ev, L1, stop) -> In (Checkpoint St B n t s) ev ->
  main_loop St B E C fuel Lk = Some (evs2, Lend, r) ->
  (forall x u, prepare_state _ _ E (reload _ _ E (prepare_state _ _ E x u)) u = prepare_state _ _ E x u) ->
  (forall t tau, In (t, tau) (steps evs1) -> 0 <= tau) ->
  (enable_mesh_adaptivity C = true -> forall p, In p (adaptation_points C) -> t < p) ->
  exists Lend', main_loop St B E C fuel (resume St B E C s t n false) = Some (evs2, Lend', r) /\
    (fuel <> 0%nat -> l_t _ _ Lend' = l_t _ _ Lend /\ l_cycle _ _ Lend' = l_cycle _ _ Lend /\ l_state _ _ Lend' = l_state _ _ Lend).
Proof. intros St B. exact C48_resume_proof. Qed.
Print Assumptions C48_resume.

Example C48_resume_applies :
  let C := setup 3 true true false false true [0 + 1 + 1] true true [] in
  no_history C /\ exists evs1 Lk ev L1 evs2 Lend,
  main_loop R R (counter 1) C 1 (start R R C 0) = Some (evs1, Lk, false) /\
  iteration R R (counter 1) C Lk = Some (ev, L1, false) /\ In (Checkpoint R R 1 (0 + 1) (0 + 1)) ev /\
  main_loop R R (counter 1) C 3 Lk = Some (evs2, Lend, true) /\ steps evs1 = [(0, 1)] /\ adaptations evs2 = [0 + 1 + 1].
Proof.
  split; [repeat split; left; reflexivity|]. do 6 eexists. split; [dec; reflexivity|]. split; [dec; reflexivity|].
  split; [right; right; left; reflexivity|]. split; [dec; reflexivity|]. split; reflexivity.
Qed.

(** C48.  A run resumed "at time zero" is a new run that starts with the state of the
    checkpoint: time and file numbers begin with zero. *)
Theorem C48_time_zero : forall (St B : Type) (E : environment St B) C s t n fuel,
  main_loop St B E C fuel (resume St B E C s t n true) = main_loop St B E C fuel (start St B C (reload _ _ E s)).
Proof. intros St B. exact C48_time_zero_proof. Qed.
Print Assumptions C48_time_zero.

Example C48_time_zero_case :
  l_t _ _ (resume R R (counter 1) (setup 3 true true false false false [] true true []) 5 7 4 true) = 0 /\
  l_cycle _ _ (resume R R (counter 1) (setup 3 true true false false false [] true true []) 5 7 4 true) = 0%nat.
Proof. split; reflexivity. Qed.

(** C48 fails if errors are computed: the analytic solution is written over the
    checkpoint of the solution. *)
Theorem C48_analytic_refuted :
  exists (E : environment R R) C s0 ev L1 n t s s' b,
    iteration R R E C (start R R C s0) = Some (ev, L1, false) /\
    In (Output R R Solution n t true false s b) ev /\ In (Checkpoint R R n t s) ev /\
    (exists pre, ev = pre ++ [Checkpoint R R n t s'; Step R R 0 1]) /\ s' <> s /\
    forall t' n', l_state _ _ (resume R R E C s' t' n' false) <> s.
Proof. exact C48_analytic_refuted_proof. Qed.
Print Assumptions C48_analytic_refuted.

(** C48 fails if an adaptation time lies before the checkpoint: the resumed run
    adapts the mesh once more. *)
Theorem C48_adaptation_refuted :
  exists (E : environment R R) C s0 k evs1 Lk ev L1 stop n t s fuel evs2 Lend r,
    main_loop R R E C k (start R R C s0) = Some (evs1, Lk, false) /\
    iteration R R E C Lk = Some (ev, L1, stop) /\ In (Checkpoint R R n t s) ev /\
    main_loop R R E C fuel Lk = Some (evs2, Lend, true) /\ adaptations evs2 = [] /\
    exists evs3 Lend3, main_loop R R E C fuel (resume R R E C s t n false) = Some (evs3, Lend3, r) /\ adaptations evs3 = [t].
Proof. exact C48_adaptation_refuted_proof. Qed.
Print Assumptions C48_adaptation_refuted.

(** C48 fails for schlieren fields unless the bounds are recomputed. *)
Theorem C48_bounds_refuted :
  exists (E : environment R R) C s0 k evs1 Lk ev L1 stop n t s fuel evs2 Lend,
    main_loop R R E C k (start R R C s0) = Some (evs1, Lk, false) /\
    iteration R R E C Lk = Some (ev, L1, stop) /\ In (Checkpoint R R n t s) ev /\
    main_loop R R E C fuel Lk = Some (evs2, Lend, true) /\
    exists evs3 Lend3 b b', main_loop R R E C fuel (resume R R E C s t n false) = Some (evs3, Lend3, true) /\
      In (Output R R Solution n t true false s b) evs2 /\ In (Output R R Solution n t true false s b') evs3 /\ b <> b'.
Proof. exact C48_bounds_refuted_proof. Qed.
Print Assumptions C48_bounds_refuted.

(** C48 fails for time averages. *)
Theorem C48_statistics_refuted :
  exists (E : environment R R) C s0 k evs1 Lk ev L1 stop n t s fuel evs2 Lend,
    main_loop R R E C k (start R R C s0) = Some (evs1, Lk, false) /\
    iteration R R E C Lk = Some (ev, L1, stop) /\ In (Checkpoint R R n t s) ev /\
    main_loop R R E C fuel Lk = Some (evs2, Lend, true) /\
    exists evs3 Lend3 fs fs' t0 t0' t1 v v' x, main_loop R R E C fuel (resume R R E C s t n false) = Some (evs3, Lend3, true) /\
      In (QFiles R R fs) evs2 /\ In (QFiles R R fs') evs3 /\
      In (QAverage x 2 t0 t1 v) fs /\ In (QAverage x 2 t0' t1 v') fs' /\ t0 < t0'.
Proof. exact C48_statistics_refuted_proof. Qed.
Print Assumptions C48_statistics_refuted.

(** C50.  The mesh is adapted at a level exactly if it is the first one to reach some
    prescribed time (and not the last level), once per level, in increasing order. *)
Theorem C50_exactly_once : forall (St B : Type) (E : environment St B) C fuel s0 evs L',
  main_loop St B E C fuel (start St B C s0) = Some (evs, L', true) -> enable_mesh_adaptivity C = true ->
  (forall t tau, In (t, tau) (steps evs) -> 0 < tau) ->
  StronglySorted Rlt (adaptations evs) /\
  forall t, In t (adaptations evs) <->
    (t <> l_t _ _ L' /\ exists p, In p (adaptation_points C) /\ 0 <= p /\ first_reaching (levels evs) p t).
Proof. intros St B. exact C50_exactly_once_proof. Qed.
Print Assumptions C50_exactly_once.

Example C50_exactly_once_applies : exists evs L',
  main_loop R R (counter 1) (setup 3 false false false false true [1/2; 3/4; 0 + 1 + 1] true true []) 4
    (start R R (setup 3 false false false false true [1/2; 3/4; 0 + 1 + 1] true true []) 0) = Some (evs, L', true) /\
  adaptations evs = [0 + 1; 0 + 1 + 1] /\ levels evs = [0; 0 + 1; 0 + 1 + 1; 0 + 1 + 1 + 1].
Proof. exact adapt_run. Qed.

(** C50.  At a level with an adaptation the step proceeds from the adapted mesh and
    transferred state, at all other levels from the current one. *)
Theorem C50_adapted : forall (St B : Type) (E : environment St B) C L ev L',
  iteration St B E C L = Some (ev, L', false) ->
  let t := l_t _ _ L in
  exists s, (s = l_state _ _ L \/ s = prepare_state _ _ E (l_state _ _ L) t) /\
    l_state _ _ L' = fst (integrate _ _ E (if adaptations ev then s else adapt _ _ E (prepare_state _ _ E s t)) t (end_point C)).
Proof. intros St B. exact C50_adapted_proof. Qed.
Print Assumptions C50_adapted.

Example C50_adapted_case : exists ev L',
  iteration R R (counter 1) (setup 3 false false false false true [0] true true [])
    (start R R (setup 3 false false false false true [0] true true []) 5) = Some (ev, L', false) /\
  adaptations ev = [0] /\ l_state _ _ L' = 5 + 1.
Proof. eexists. eexists. split; [dec; reflexivity|]. split; reflexivity. Qed.

(** C50 fails for times first reached at the last level. *)
Theorem C50_last_interval_refuted :
  exists (E : environment R R) C s0 fuel evs L' p t,
    main_loop R R E C fuel (start R R C s0) = Some (evs, L', true) /\ enable_mesh_adaptivity C = true /\
    In p (adaptation_points C) /\ 0 <= p <= t_final C /\ first_reaching (levels evs) p t /\ adaptations evs = [].
Proof. exact C50_last_interval_refuted_proof. Qed.
Print Assumptions C50_last_interval_refuted.
