(** * Complete time steps for the compressible Navier-Stokes equations

    The time integrator of TimeInt.v with the hyperbolic module of the Euler
    equations (source/navier_stokes/description.h:30-50: the hyperbolic part is
    that of the Euler equations) on the matrices of Assembly.v, and the parabolic
    solver of Parabolic.v. *)
From Coq Require Import Reals List Bool Arith.
From Verif Require Import RVec BoundaryMap EulerSystem EulerScheme TimeInt EulerRun.
From Verif Require Import Scheme.
From Verif Require Import Assembly Parabolic.
Import ListNotations.
Local Open Scope R_scope.

(** The boundary ids, source/discretization.h:48-123. *)
Definition boundary_kind (id : nat) : boundary :=
  match id with
  | 1 => periodic | 2 => slip | 3 => no_slip | 4 => dirichlet | 5 => dynamic | 6 => dirichlet_momentum
  | _ => do_nothing
  end%nat.

(** The entry of the boundary map as prepare_state_vector reads it,
    source/hyperbolic_module.template.h:121-142. *)
Definition hyperbolic_entry (e : description) : bentry :=
  {| be_row := d_index e; be_normal := d_normal e; be_id := boundary_kind (d_id e); be_position := d_position e |}.

Section Run.
Variable p : eparameters.
Variable G : geometry.
Variable par : viscosity.
Variable num_min : R.
Variable boundary_map : list description.
Variable initial_state : RVec.vec -> R -> state nat.
Variable order : list nat.
Variable n_iterations : nat.
Variable tmp : euler_vector -> temporaries.
Variable solve_velocity : solver field.
Variable solve_energy : solver (nat -> R).

(** The matrices, source/offline_data.template.h:426-990. *)
Definition ns_mesh : mesh := assembled_mesh G (ep_eps p).
(** The boundary map as the hyperbolic module reads it, source/hyperbolic_module.template.h:122-145. *)
Definition ns_entries : list bentry := map hyperbolic_entry boundary_map.

(** A vanishing density: the velocity of source/navier_stokes/parabolic_solver.template.h:269-283
    is not a number and the linear solver does not converge
    (dealii::SolverControl::check fails for a residual that is not a number). *)
Definition vanishing_density (U : field) : bool :=
  existsb (fun i => negb (is_constrained G i) && (if Req_EM_T (U i 0%nat) 0 then true else false)) (seq 0 (g_n_dofs G)).

(** The parabolic step, source/parabolic_module.template.h:52-86 and
    source/navier_stokes/parabolic_solver.template.h:211-848.  [None]: the exception of the
    linear solver leaves the function.  Precomputed values of the new vector are left as they
    were. *)
Definition ns_parabolic (old : euler_vector) (t tau : R) : option (euler_vector * bool) :=
  if vanishing_density (fst old) then None
  else match backward_euler_step G par boundary_map initial_state (ep_eps p) solve_velocity solve_energy (fst old) t tau with
       | None => None
       | Some (U, restart_needed) => Some ((U, tmp_pc (tmp old)), restart_needed)
       end.

(** prepare_state_vector, source/hyperbolic_module.template.h:96-190. *)
Definition ns_prepare := euler_prepare p (g_dim G) ns_mesh ns_entries initial_state.
(** The candidates of the rows for tau_max, source/hyperbolic_module.template.h:502-549. *)
Definition ns_rows := euler_rows p (g_dim G) ns_mesh num_min tmp.
(** Steps 4 to 7, source/hyperbolic_module.template.h:579-1182. *)
Definition ns_update := euler_update p (g_dim G) ns_mesh num_min order n_iterations tmp.

(** TimeIntegrator::step, source/time_integrator.template.h:206-275. *)
Definition ns_step (sch : scheme) (rec : recovery) (cfl_min cfl_max t t_final : R)
  : TimeInt.mstate euler_vector -> outcome R * TimeInt.mstate euler_vector :=
  TimeInt.step euler_vector ns_prepare ns_rows ns_update ns_parabolic euler_sadd sch rec cfl_min cfl_max t t_final.
End Run.
