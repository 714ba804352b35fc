(** * Concrete runs of the time loop *)
From Coq Require Import Reals List Bool Arith Lia Lra Sorted String.
From Verif Require Import Quantities TimeLoop TimeLoopSpec TimeLoopProofs TimeLoopFinal.
Import ListNotations.
Local Open Scope R_scope.

(** A scalar unknown that grows by one per step of size [h]; the analytic
    solution is the constant 100. *)
Definition counter (h : R) : environment R R :=
  {| prepare_state := fun s _ => s;
     integrate := fun s t t_end => (s + 1, Rmin h (t_end - t));
     analytic := fun _ _ => 100;
     adapt := fun s => s;
     schlieren_bounds := fun s => s;
     reload := fun s => s;
     sample := fun s _ => [s] |}.

(** Granularity one, all multipliers one. *)
Definition setup (T : R) (check full error quant mesh : bool) (points : list R) (recompute clear : bool) (ms : list manifold) : config :=
  {| t_final := T; enforce_t_final := false; granularity := 1;
     enable_checkpointing := check; enable_output_full := full; enable_output_levelsets := false;
     enable_compute_error := error; enable_compute_quantities := quant; enable_mesh_adaptivity := mesh;
     checkpoint_multiplier := 1; output_full_multiplier := 1; output_levelsets_multiplier := 1; quantities_multiplier := 1;
     adaptation_points := points; recompute_bounds := recompute; clear_on_writeout := clear;
     manifolds := ms; eps := 1 / 1000; big := 1000 |}.

Ltac dec := repeat (
  lazy -[Rge_dec Rlt_dec Rgt_dec Req_EM_T Rmin Rplus Rmult Rminus Ropp Rdiv Rinv IZR levels records adaptations first_reaching Rle Rlt not In];
  match goal with
  | |- context [Rmin ?a ?b] => first [rewrite (Rmin_left a b) by lra | rewrite (Rmin_right a b) by lra]
  | |- context [Rge_dec ?a ?b] => lazymatch a with context [match _ with _ => _ end] => fail | _ => idtac end; destruct (Rge_dec a b); [try (exfalso; lra)|try (exfalso; lra)]
  | |- context [Rlt_dec ?a ?b] => lazymatch a with context [match _ with _ => _ end] => fail | _ => idtac end; destruct (Rlt_dec a b); [try (exfalso; lra)|try (exfalso; lra)]
  | |- context [Rgt_dec ?a ?b] => lazymatch a with context [match _ with _ => _ end] => fail | _ => idtac end; destruct (Rgt_dec a b); [try (exfalso; lra)|try (exfalso; lra)]
  | |- context [Req_EM_T ?a ?b] => lazymatch a with context [match _ with _ => _ end] => fail | _ => idtac end; destruct (Req_EM_T a b); [try (exfalso; lra)|try (exfalso; lra)]
  end).

(** Steps of size two, granularity one: the levels are 0, 2 and 4; the ticks three
    and four are never written. *)
Lemma late_run : exists evs L', main_loop R R (counter 2) (setup 4 false true false false false [] true true []) 3
    (start R R (setup 4 false true false false false [] true true []) 0) = Some (evs, L', true) /\
  l_t _ _ L' = 0 + 2 + 2 /\ records Full evs = [(0%nat, 0); (1%nat, 0 + 2); (2%nat, 0 + 2 + 2)].
Proof. eexists. eexists. dec. split; [reflexivity|]. split; reflexivity. Qed.

Lemma C47_late_refuted_proof :
  exists (E : environment R R) C s0 fuel evs L' n,
    main_loop R R E C fuel (start R R C s0) = Some (evs, L', true) /\ valid_multipliers C /\ enable_output_full C = true /\
    (n mod output_full_multiplier C = 0)%nat /\ INR n * granularity C <= l_t _ _ L' /\ forall t, ~ In (n, t) (records Full evs).
Proof.
  destruct late_run as (evs & L' & H1 & H2 & H3).
  exists (counter 2), (setup 4 false true false false false [] true true []), 0, 3%nat, evs, L', 4%nat.
  split; [exact H1|]. split; [repeat split; cbn; lia|]. split; [reflexivity|]. split; [reflexivity|].
  split; [rewrite H2; cbn; lra|]. intros t. rewrite H3. intros [H|[H|[H|[]]]]; discriminate.
Qed.

Lemma C47_zero_multiplier_refuted_proof :
  exists C, enable_output_full C = false /\ enable_output_levelsets C = false /\ enable_checkpointing C = false /\
    enable_compute_error C = false /\ enable_compute_quantities C = false /\
    forall (E : environment R R) s0 fuel, main_loop R R E C (S fuel) (start R R C s0) = None.
Proof.
  exists {| t_final := 1; enforce_t_final := true; granularity := 1;
     enable_checkpointing := false; enable_output_full := false; enable_output_levelsets := false;
     enable_compute_error := false; enable_compute_quantities := false; enable_mesh_adaptivity := false;
     checkpoint_multiplier := 1; output_full_multiplier := 0; output_levelsets_multiplier := 1; quantities_multiplier := 1;
     adaptation_points := []; recompute_bounds := true; clear_on_writeout := true;
     manifolds := []; eps := 1 / 1000; big := 1000 |}.
  do 5 (split; [reflexivity|]). intros E s0 fuel. cbn [main_loop]. unfold iteration. cbn -[Rge_dec Rmult tick]. destruct (Rge_dec 0 (0 * 1)) as [|n]; [reflexivity|exfalso; lra].
Qed.

(** An adaptation time in the last interval is skipped. *)
Lemma C50_last_interval_refuted_proof :
  exists (E : environment R R) C s0 fuel evs L' p t,
    main_loop R R E C fuel (start R R C s0) = Some (evs, L', true) /\ enable_mesh_adaptivity C = true /\
    In p (adaptation_points C) /\ 0 <= p <= t_final C /\ first_reaching (levels evs) p t /\ adaptations evs = [].
Proof.
  exists (counter 1), (setup 2 false false false false true [3/2] true true []), 0, 3%nat.
  eexists. eexists. exists (3/2), (0 + 1 + 1). dec. split; [reflexivity|]. split; [reflexivity|]. split; [left; reflexivity|].
  split; [lra|]. split; [|reflexivity]. exists [0; 0 + 1], []. split; [reflexivity|]. split; [lra|]. intros s [<-|[<-|[]]]; lra.
Qed.

(** Mesh adaptation once at a time between the levels. *)
Lemma adapt_run : exists evs L', main_loop R R (counter 1) (setup 3 false false false false true [1/2; 3/4; 0 + 1 + 1] true true []) 4
    (start R R (setup 3 false false false false true [1/2; 3/4; 0 + 1 + 1] true true []) 0) = Some (evs, L', true) /\
  adaptations evs = [0 + 1; 0 + 1 + 1] /\ levels evs = [0; 0 + 1; 0 + 1 + 1; 0 + 1 + 1 + 1].
Proof. eexists. eexists. dec. split; [reflexivity|]. split; reflexivity. Qed.

(** ** Resumed runs *)

(** With the error computation the checkpoint holds the analytic solution. *)
Lemma C48_analytic_refuted_proof :
  exists (E : environment R R) C s0 ev L1 n t s s' b,
    iteration R R E C (start R R C s0) = Some (ev, L1, false) /\
    In (Output R R Solution n t true false s b) ev /\ In (Checkpoint R R n t s) ev /\
    (exists pre, ev = pre ++ [Checkpoint R R n t s'; Step R R 0 1]) /\ s' <> s /\
    forall t' n', l_state _ _ (resume R R E C s' t' n' false) <> s.
Proof.
  exists (counter 1), (setup 2 true true true false false [] true true []), 0. eexists. eexists. exists 0%nat, 0, 0, 100, 0.
  dec. split; [reflexivity|]. split; [right; left; reflexivity|]. split; [right; right; left; reflexivity|].
  split; [|split; [lra|intros _ _; lra]]. eexists [_; _; _; _]. reflexivity.
Qed.

(** An adaptation time that lies in the past triggers a second adaptation. *)
Lemma C48_adaptation_refuted_proof :
  exists (E : environment R R) C s0 k evs1 Lk ev L1 stop n t s fuel evs2 Lend r,
    main_loop R R E C k (start R R C s0) = Some (evs1, Lk, false) /\
    iteration R R E C Lk = Some (ev, L1, stop) /\ In (Checkpoint R R n t s) ev /\
    main_loop R R E C fuel Lk = Some (evs2, Lend, true) /\ adaptations evs2 = [] /\
    exists evs3 Lend3, main_loop R R E C fuel (resume R R E C s t n false) = Some (evs3, Lend3, r) /\ adaptations evs3 = [t].
Proof.
  exists (counter 1), (setup 2 true false false false true [0] true true []), 0, 1%nat.
  eexists. eexists. eexists. eexists. eexists. exists 1%nat, (0 + 1), (0 + 1), 2%nat. eexists. eexists. eexists.
  split; [dec; reflexivity|]. split; [dec; reflexivity|]. split; [right; left; reflexivity|].
  split; [dec; reflexivity|]. split; [reflexivity|]. eexists. eexists. split; [dec; reflexivity|reflexivity].
Qed.

(** Schlieren bounds of the first output are lost. *)
Lemma C48_bounds_refuted_proof :
  exists (E : environment R R) C s0 k evs1 Lk ev L1 stop n t s fuel evs2 Lend,
    main_loop R R E C k (start R R C s0) = Some (evs1, Lk, false) /\ iteration R R E C Lk = Some (ev, L1, stop) /\ In (Checkpoint R R n t s) ev /\ main_loop R R E C fuel Lk = Some (evs2, Lend, true) /\ exists evs3 Lend3 b b', main_loop R R E C fuel (resume R R E C s t n false) = Some (evs3, Lend3, true) /\ In (Output R R Solution n t true false s b) evs2 /\ In (Output R R Solution n t true false s b') evs3 /\ b <> b'.
Proof.
  exists (counter 1), (setup 2 true true false false false [] false true []), 0, 2%nat.
  eexists. eexists. eexists. eexists. eexists. exists 2%nat, (0 + 1 + 1), (0 + 1 + 1), 1%nat. eexists. eexists.
  split; [dec; reflexivity|]. split; [dec; reflexivity|]. split; [right; right; left; reflexivity|].
  split; [dec; reflexivity|]. eexists. eexists. exists (0 + 1), (0 + 1 + 1). split; [dec; reflexivity|].
  split; [right; left; reflexivity|]. split; [right; left; reflexivity|]. lra.
Qed.

(** The time average of a resumed run starts anew. *)
Definition probe : manifold := {| m_name := "probe"; m_time := true; m_space := false; m_inst := false; m_masses := [1] |}.

Lemma C48_statistics_refuted_proof :
  exists (E : environment R R) C s0 k evs1 Lk ev L1 stop n t s fuel evs2 Lend,
    main_loop R R E C k (start R R C s0) = Some (evs1, Lk, false) /\ iteration R R E C Lk = Some (ev, L1, stop) /\ In (Checkpoint R R n t s) ev /\ main_loop R R E C fuel Lk = Some (evs2, Lend, true) /\ exists evs3 Lend3 fs fs' t0 t0' t1 v v' x, main_loop R R E C fuel (resume R R E C s t n false) = Some (evs3, Lend3, true) /\ In (QFiles R R fs) evs2 /\ In (QFiles R R fs') evs3 /\ In (QAverage x 2 t0 t1 v) fs /\ In (QAverage x 2 t0' t1 v') fs' /\ t0 < t0'.
Proof.
  exists (counter 1), (setup 2 true false false true false [] true false [probe]), 0, 1%nat.
  eexists. eexists. eexists. eexists. eexists. exists 1%nat, (0 + 1), (0 + 1), 2%nat. eexists. eexists.
  split; [dec; reflexivity|]. split; [dec; reflexivity|]. split; [right; left; reflexivity|].
  split; [dec; reflexivity|].
  eexists. eexists. eexists. eexists. eexists. eexists. eexists. eexists. eexists. exists "probe"%string. split; [dec; reflexivity|].
  split; [do 6 right; left; reflexivity|]. split; [do 6 right; left; reflexivity|].
  split; [left; reflexivity|]. split; [left; reflexivity|]. lra.
Qed.
