(** * Property theorems: complete runs of the Navier-Stokes equations (C136) *)
From Coq Require Import Reals List Arith Bool Lia Lra.
From Verif Require Import RVec BoundaryMap EulerSystem EulerScheme EulerSchemeSpec SchemeSpec EulerSchemeExamples
  TimeInt TimeIntSpec EulerRun EulerRunSpec EulerRunExamples.
From Verif Require Import Scheme.
From Verif Require Import Assembly AssemblySpec Parabolic ParabolicSpec ParabolicExamples NSRun NSRunSpec NSRunProofs NSRunFinal NSRunExamples.
Import ListNotations.
Local Open Scope R_scope.

(** Without boundary, on one rank, every completed run of the first order scheme and of the Strang
    schemes conserves mass, whatever the linear solvers return; with exact solvers also momentum and
    total energy.  No assumption on the states; steps may have been restarted or warned about. *)
Theorem C136_conservation :
  forall p G par num_min data order n tmp sv se sch rec cfl_min cfl_max t_final t s t' s',
  discretized p G -> no_boundary G -> one_rank G -> viscous_scheme sch ->
  steps (fun t => ns_step p G par num_min [] data order n tmp sv se sch rec cfl_min cfl_max t t_final) (fun _ _ => True) t s t' s' ->
  let U := fst (st_vector _ s) in let U' := fst (st_vector _ s') in
  ParabolicSpec.total G U' 0 = ParabolicSpec.total G U 0 /\
  (accurate_block (g_n_dofs G) (g_dim G) 0 sv ->
     (forall a, (a < g_dim G)%nat -> ParabolicSpec.total G U' (Datatypes.S a) = ParabolicSpec.total G U (Datatypes.S a)) /\
     (accurate (g_n_dofs G) 0 se -> ParabolicSpec.total G U' (Datatypes.S (g_dim G)) = ParabolicSpec.total G U (Datatypes.S (g_dim G)))).
Proof. exact C136_conservation_proof. Qed.
Print Assumptions C136_conservation.

(** Uniform flow without boundary conditions stays uniform over every completed run. *)
Theorem C136_uniform :
  forall p G par num_min data order n tmp sv se sch rec cfl_min cfl_max t_final t s t' s' u,
  discretized p G -> viscous_scheme sch -> physical par (g_dim G) -> positive_weights G ->
  accurate_block (g_n_dofs G) (g_dim G) 0 sv -> accurate (g_n_dofs G) 0 se ->
  0 < u 0%nat -> (forall I, free G I -> fst (st_vector _ s) I = u) ->
  steps (fun t => ns_step p G par num_min [] data order n tmp sv se sch rec cfl_min cfl_max t t_final) (fun _ _ => True) t s t' s' ->
  forall I, free G I -> fst (st_vector _ s') I = u.
Proof. exact C136_uniform_proof. Qed.
Print Assumptions C136_uniform.

(** First order scheme, walls and prescribed boundary values allowed: density and internal energy
    stay positive over every completed run if the energy equation is solved exactly and the Laplace
    matrix has no positive entries off the diagonal. *)
Theorem C136_positivity :
  forall p G par num_min bm data order n tmp sv se rec cfl_min cfl_max t_final t s t' s',
  discretized p G -> regular_run p (g_dim G) (ns_mesh p G) num_min 0 (ns_entries bm) data order n ->
  monotone_elements G -> physical par (g_dim G) -> accurate (g_n_dofs G) 0 se ->
  0 < cfl_min <= 1 -> 0 < cfl_max <= 1 -> 0 < st_cfl _ s <= 1 ->
  all_gas G (fst (st_vector _ s)) ->
  steps (fun t => ns_step p G par num_min bm data order n tmp sv se imex_11 rec cfl_min cfl_max t t_final)
    (fast_start p G num_min bm data tmp) t s t' s' ->
  all_gas G (fst (st_vector _ s')) /\ t <= t'.
Proof. exact C136_positivity_proof. Qed.
Print Assumptions C136_positivity.

(** Along such runs without boundary all conserved quantities are conserved on any number of ranks. *)
Theorem C136_ranks :
  forall p G par num_min data order n tmp sv se rec cfl_min cfl_max t_final t s t' s',
  discretized p G -> no_boundary G -> regular_run p (g_dim G) (ns_mesh p G) num_min 0 [] data order n ->
  monotone_elements G -> physical par (g_dim G) ->
  accurate_block (g_n_dofs G) (g_dim G) 0 sv -> accurate (g_n_dofs G) 0 se ->
  0 < cfl_min <= 1 -> 0 < cfl_max <= 1 -> 0 < st_cfl _ s <= 1 ->
  all_gas G (fst (st_vector _ s)) ->
  steps (fun t => ns_step p G par num_min [] data order n tmp sv se imex_11 rec cfl_min cfl_max t t_final)
    (fast_start p G num_min [] data tmp) t s t' s' ->
  forall k, (k < g_dim G + 2)%nat -> ParabolicSpec.total G (fst (st_vector _ s')) k = ParabolicSpec.total G (fst (st_vector _ s)) k.
Proof. exact C136_ranks_proof. Qed.
Print Assumptions C136_ranks.

(** A viscous stream on a circle, on two ranks and on one rank: the step completes. *)
Example C136_ex :
  forall G data c0 c1 t t_final, G = ring \/ G = lone_ring -> t < t_final ->
  discretized stream_params G /\ no_boundary G /\ monotone_elements G /\ physical sticky (g_dim G) /\
  regular_run stream_params (g_dim G) (ns_mesh stream_params G) (1 / 10000) 0 [] data [0; 1; 2]%nat 2 /\
  all_gas G (fst (st_vector _ stream_start)) /\ fst (st_vector _ stream_start) 0%nat 1%nat <> 0 /\
  exists sv se h s', accurate_block (g_n_dofs G) (g_dim G) 0 sv /\ accurate (g_n_dofs G) 0 se /\ 0 < h /\
    fast_start stream_params G (1 / 10000) [] data no_contents t stream_start /\
    ns_step stream_params G sticky (1 / 10000) [] data [0; 1; 2]%nat 2 no_contents sv se imex_11 recovery_none c0 c1 t t_final stream_start = (Ok h, s').
Proof. exact viscous_stream. Qed.

(** Without constrained degrees of freedom, with the exception strategy of the parabolic module and
    without second attempts, density and internal energy stay positive over every completed run,
    whatever the linear solvers return. *)
Theorem C136_checked :
  forall p G par num_min bm data order n tmp sv se cfl_min cfl_max t_final t s t' s',
  discretized p G -> regular_run p (g_dim G) (ns_mesh p G) num_min 0 (ns_entries bm) data order n ->
  (forall I, (I < g_n_dofs G)%nat -> free G I) ->
  0 < st_cfl _ s <= 1 -> st_para _ s = raise_exception ->
  all_gas G (fst (st_vector _ s)) ->
  steps (fun t => ns_step p G par num_min bm data order n tmp sv se imex_11 recovery_none cfl_min cfl_max t t_final)
    (fast_start p G num_min bm data tmp) t s t' s' ->
  all_gas G (fst (st_vector _ s')) /\ t <= t'.
Proof. exact C136_checked_proof. Qed.
Print Assumptions C136_checked.

(** The stream on an interval. *)
Example C136_checked_ex :
  forall data c0 c1 t t_final, t < t_final ->
  discretized stream_params interval /\ (forall I, (I < g_n_dofs interval)%nat -> free interval I) /\
  regular_run stream_params (g_dim interval) (ns_mesh stream_params interval) (1 / 10000) 0 [] data [0; 1; 2]%nat 2 /\
  st_para _ stream_start = raise_exception /\ 0 < st_cfl _ stream_start <= 1 /\
  all_gas interval (fst (st_vector _ stream_start)) /\
  exists sv se h s', 0 < h /\
    fast_start stream_params interval (1 / 10000) [] data no_contents t stream_start /\
    ns_step stream_params interval sticky (1 / 10000) [] data [0; 1; 2]%nat 2 no_contents sv se imex_11 recovery_none c0 c1 t t_final stream_start = (Ok h, s').
Proof. exact checked_stream. Qed.

(** Boundary values before every step.  The last entry of the boundary map for a degree of freedom
    decides: no momentum through a slip wall, no momentum at all at a no-slip wall, the prescribed
    state at a Dirichlet boundary. *)
Theorem C136_walls :
  forall p G pre e post data t v,
  (forall e', In e' post -> d_index e' <> d_index e) ->
  let V := fst (ns_prepare p G (pre ++ e :: post) data t v) (d_index e) in
  (d_id e = 2%nat -> RVec.dot (g_dim G) (d_normal e) (d_normal e) = 1 ->
     RVec.dot (g_dim G) (fun a => V (Datatypes.S a)) (d_normal e) = 0) /\
  (d_id e = 3%nat -> forall a, (a < g_dim G)%nat -> V (Datatypes.S a) = 0) /\
  (d_id e = 4%nat -> V = data (d_position e) t).
Proof. exact C136_walls_proof. Qed.
Print Assumptions C136_walls.

(** A degree of freedom with do-nothing, periodic or momentum-only entries (or none) keeps its state. *)
Theorem C136_untouched :
  forall p G bm data t v i,
  (forall e, In e bm -> d_index e = i -> d_id e = 0%nat \/ d_id e = 1%nat \/ d_id e = 6%nat) ->
  fst (ns_prepare p G bm data t v) i = fst v i.
Proof. exact C136_untouched_proof. Qed.
Print Assumptions C136_untouched.

(** A corner of two walls, an inflow and an outflow. *)
Example C136_walls_ex :
  let slip_entry := Description 3 (fun a => if Nat.eqb a 0 then 1 else 0) 1 1 2 (fun _ => 0) in
  let no_slip_entry := Description 3 (fun a => if Nat.eqb a 0 then 0 else 1) 1 1 3 (fun _ => 0) in
  let inflow := Description 4 (fun a => if Nat.eqb a 0 then 1 else 0) 1 1 4 (fun _ => 0) in
  let outflow := Description 5 (fun a => if Nat.eqb a 0 then 1 else 0) 1 1 0 (fun _ => 0) in
  (forall e', In e' [inflow; outflow] -> d_index e' <> d_index no_slip_entry) /\
  (forall e', In e' [no_slip_entry] -> d_index e' <> d_index inflow) /\
  RVec.dot 2 (d_normal slip_entry) (d_normal slip_entry) = 1 /\
  (forall e, In e [slip_entry; no_slip_entry; inflow; outflow] -> d_index e = 5%nat -> d_id e = 0%nat \/ d_id e = 1%nat \/ d_id e = 6%nat).
Proof. exact walls_case. Qed.
