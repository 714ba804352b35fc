(** * The parabolic step of the Navier-Stokes equations:
    NavierStokes::ParabolicSolver::backward_euler_step

    source/navier_stokes/parabolic_solver.template.h:211-848 and the operators of
    source/navier_stokes/parabolic_solver_gmg_operators.h, for continuous Q1
    elements (other ansatz spaces are rejected, parabolic_solver.template.h:131-134).
    The finite element data are those of Assembly.v; dealii::MatrixFree and
    FEEvaluation are written as the loops over cells and quadrature points they
    stand for.  All degrees of freedom are on one rank (the loops over owned
    indices on all ranks, update_ghost_values and the MPI minimum).  Omitted:
    geometric multigrid (it only provides another preconditioner), timers,
    iteration statistics. *)
From Coq Require Import Reals List Bool Arith.
From Verif Require Import RVec BoundaryMap EulerSystem Assembly.
Import ListNotations.
Local Open Scope R_scope.

(** Run time parameters, source/navier_stokes/parabolic_system.h:44-60,72-85. *)
Record viscosity := { mu : R; lambda : R; cv_inverse_kappa : R }.

(** source/discretization.h:97 *)
Definition id_dirichlet := 4%nat.

(** A block vector: the tensor of a degree of freedom.
    velocity_ and velocity_rhs_, source/navier_stokes/parabolic_solver.h. *)
Definition field := nat -> vec.

Section Parabolic.
Variable G : geometry.
Variable par : viscosity.
Variable boundary_map : list description.      (** offline_data_->boundary_map() *)
Variable initial_state : vec -> R -> vec.      (** initial_values_->initial_state(position, t) *)
Let dim := g_dim G.
Let n_owned := g_n_dofs G.

(** offline_data_->lumped_mass_matrix().
    source/navier_stokes/parabolic_solver.template.h:231. *)
Definition m_ (i : nat) : R := lumped G (mass_entry G) i.

(** AffineConstraints::set_zero.
    Called in source/navier_stokes/parabolic_solver.template.h:359-363, 642. *)
Definition set_zero (x : nat -> R) : nat -> R := fun i => if is_constrained G i then 0 else x i.
(** set_zero for every block, source/navier_stokes/parabolic_solver.template.h:361-364. *)
Definition set_zero_block (x : field) : field := fun i d => if is_constrained G i then 0 else x i d.

(** Assignment to one entry of a (block) vector.
    write_entry and local_element, e.g. source/navier_stokes/parabolic_solver.template.h:261-288. *)
Definition upd {A} (x : nat -> A) (i : nat) (v : A) : nat -> A := fun k => if Nat.eqb k i then v else x k.

(** ** Step 1: right hand side and initial guess *)

(** Removing the normal component,
    source/navier_stokes/parabolic_solver.template.h:319-320 *)
Definition remove_normal (normal v : vec) : vec := vsub v (vscal (1 * dot dim v normal) normal).

(** The loop over the rows, source/navier_stokes/parabolic_solver.template.h:261-288 *)
Definition density_0 (U : field) : nat -> R := fun i => density (U i).
(** See the comment above, source/navier_stokes/parabolic_solver.template.h:261-288. *)
Definition velocity_0 (U : field) : field := fun i d => momentum (U i) d / density (U i).
(** See the comment above, source/navier_stokes/parabolic_solver.template.h:261-288. *)
Definition velocity_rhs_0 (U : field) : field := fun i d => m_ i * momentum (U i) d.
(** See the comment above, source/navier_stokes/parabolic_solver.template.h:261-288. *)
Definition internal_energy_0 (U : field) : nat -> R := fun i => internal_energy dim (U i) / density (U i).

(** What is prescribed on Dirichlet boundaries,
    source/navier_stokes/parabolic_solver.template.h:337-341,627-631 *)
Definition dirichlet_velocity (position : vec) (t : R) : vec :=
  let U_i := initial_state position t in fun d => momentum U_i d / density U_i.
(** See the comment above, source/navier_stokes/parabolic_solver.template.h:337-341,627-631. *)
Definition dirichlet_energy (position : vec) (t : R) : R :=
  let U_i := initial_state position t in internal_energy dim U_i / density U_i.

(** One entry of the boundary map,
    source/navier_stokes/parabolic_solver.template.h:301-350 *)
Definition boundary_1 (t tau : R) (s : field * field * (nat -> R)) (entry : description) : field * field * (nat -> R) :=
  let '(velocity, velocity_rhs, energy) := s in
  let i := d_index entry in
  let normal := d_normal entry in
  if Nat.leb n_owned i then s
  else if Nat.eqb (d_id entry) id_slip then
    (upd velocity i (remove_normal normal (velocity i)), upd velocity_rhs i (remove_normal normal (velocity_rhs i)), energy)
  else if Nat.eqb (d_id entry) id_no_slip then
    (upd velocity i (fun _ => 0), upd velocity_rhs i (fun _ => 0), energy)
  else if Nat.eqb (d_id entry) id_dirichlet then
    (upd velocity i (dirichlet_velocity (d_position entry) (t + tau)),
     upd velocity_rhs i (dirichlet_velocity (d_position entry) (t + tau)),
     upd energy i (dirichlet_energy (d_position entry) (t + tau)))
  else s.

(** The loop and the constrained degrees of freedom,
    source/navier_stokes/parabolic_solver.template.h:301-364 *)
Definition step_1 (U : field) (t tau : R) : field * field * (nat -> R) :=
  let '(velocity, velocity_rhs, energy) :=
    fold_left (boundary_1 t tau) boundary_map (velocity_0 U, velocity_rhs_0 U, internal_energy_0 U) in
  (set_zero_block velocity, set_zero_block velocity_rhs, set_zero energy).
(** See the comment above, source/navier_stokes/parabolic_solver.template.h:301-364. *)
Definition rho_ (U : field) : nat -> R := set_zero (density_0 U).

(** DiagonalMatrix::reinit and vmult,
    source/navier_stokes/parabolic_solver_gmg_operators.h:64-84,105-138; called in
    parabolic_solver.template.h:368-369.  (1 / 0 is infinite in the code; it occurs in
    constrained rows only, which are set to zero.) *)
Definition diagonal (rho : nat -> R) : nat -> R := set_zero (fun i => 1 / (rho i * m_ i)).
(** The inverse diagonal applied to a vector, source/navier_stokes/parabolic_solver_gmg_operators.h:105-114. *)
Definition precondition (rho : nat -> R) (src : nat -> R) : nat -> R := fun i => diagonal rho i * src i.
(** The same for every block, source/navier_stokes/parabolic_solver_gmg_operators.h:119-131. *)
Definition precondition_block (rho : nat -> R) (src : field) : field := fun i d => diagonal rho i * src i d.

(** ** The operators *)

(** FEEvaluation::read_dof_values: the constraints are resolved.
    Called in source/navier_stokes/parabolic_solver_gmg_operators.h:253, 646. *)
Definition read_dof_values (src : nat -> R) (c i : nat) : R :=
  match g_constraint G (g_dof G c i) with
  | None => src (g_dof G c i)
  | Some line => fold_right (fun e s => snd e * src (fst e) + s) 0 line
  end.

(** FEEvaluation::evaluate(gradients) and get_gradient: component b.
    Called in source/navier_stokes/parabolic_solver_gmg_operators.h:415, 754. *)
Definition get_gradient (src : nat -> R) (c q b : nat) : R :=
  rsum (g_n_local G) (fun i => read_dof_values src c i * g_grad G c i q b).

(** FEEvaluation::distribute_local_to_global after a loop over the cells.
    Called in source/navier_stokes/parabolic_solver_gmg_operators.h:255, 648. *)
Definition distribute_local (local : nat -> nat -> R) (I : nat) : R :=
  rsum (g_n_cells G) (fun c => rsum (g_n_local G) (fun i => weight G I (g_dof G c i) * local c i)).

(** Component d of a block vector.
    BlockVector::block, e.g. source/navier_stokes/parabolic_solver.template.h:362-363. *)
Definition block (x : field) (d : nat) : nat -> R := fun i => x i d.

(** get_symmetric_gradient.
    Called in source/navier_stokes/parabolic_solver_gmg_operators.h:421. *)
Definition symmetric_gradient (src : field) (c q a b : nat) : R :=
  1 / 2 * (get_gradient (block src a) c q b + get_gradient (block src b) c q a).
(** dealii::trace, source/navier_stokes/parabolic_solver_gmg_operators.h:421-427. *)
Definition trace (A : nat -> nat -> R) : R := rsum dim (fun d => A d d).

(** S, source/navier_stokes/parabolic_solver_gmg_operators.h:414-430 and once more
    parabolic_solver.template.h:540-555 *)
Definition stress (src : field) (c q a b : nat) : R :=
  if Nat.eqb dim 1 then (4 / 3 * mu par + lambda par) * get_gradient (block src a) c q b
  else 2 * mu par * symmetric_gradient src c q a b
       + (if Nat.eqb a b then (lambda par - 2 / 3 * mu par) * trace (symmetric_gradient src c q) else 0).

(** VelocityMatrix::apply_local_operator,
    source/navier_stokes/parabolic_solver_gmg_operators.h:404-434: component a of the
    local index i.  (submit_symmetric_gradient tests with the gradient, as S is symmetric.) *)
Definition velocity_local (theta_x_tau : R) (src : field) (a c i : nat) : R :=
  rsum (g_n_points G) (fun q => rsum dim (fun b => theta_x_tau * stress src c q a b * g_grad G c i q b) * g_JxW G c q).

(** The entries of the boundary map,
    source/navier_stokes/parabolic_solver_gmg_operators.h:269-303 *)
Definition velocity_fix (src : field) (dst : field) (entry : description) : field :=
  let i := d_index entry in
  let normal := d_normal entry in
  if Nat.leb n_owned i then dst
  else if Nat.eqb (d_id entry) id_slip then
    (* V_i += 1. * (src_d * normal[d]) * normal for each d *)
    upd dst i (vadd (remove_normal normal (dst i)) (fun k => rsum dim (fun d => 1 * (src i d * normal d) * normal k)))
  else if Nat.eqb (d_id entry) id_no_slip || Nat.eqb (d_id entry) id_dirichlet then upd dst i (src i)
  else dst.

(** The part of VelocityMatrix::vmult before the boundary map,
    source/navier_stokes/parabolic_solver_gmg_operators.h:190-260 *)
Definition velocity_stiffness (theta_x_tau : R) (rho : nat -> R) (src : field) : field :=
  fun I a => m_ I * rho I * src I a + distribute_local (velocity_local theta_x_tau src a) I.
(** See the comment above, source/navier_stokes/parabolic_solver_gmg_operators.h:190-260. *)
Definition velocity_vmult (theta_x_tau : R) (rho : nat -> R) (src : field) : field :=
  fold_left (velocity_fix src) boundary_map (velocity_stiffness theta_x_tau rho src).

(** EnergyMatrix::apply_local_operator and vmult,
    source/navier_stokes/parabolic_solver_gmg_operators.h:588-670,749-757 *)
Definition energy_local (factor : R) (src : nat -> R) (c i : nat) : R :=
  rsum (g_n_points G) (fun q => rsum dim (fun b => factor * get_gradient src c q b * g_grad G c i q b) * g_JxW G c q).
(** See the comment above, source/navier_stokes/parabolic_solver_gmg_operators.h:588-670,749-757. *)
Definition energy_stiffness (factor : R) (rho src : nat -> R) : nat -> R :=
  fun I => m_ I * rho I * src I + distribute_local (energy_local factor src) I.
(** See the comment above, source/navier_stokes/parabolic_solver_gmg_operators.h:588-670,749-757. *)
Definition energy_fix (src dst : nat -> R) (entry : description) : nat -> R :=
  let i := d_index entry in
  if Nat.leb n_owned i then dst
  else if Nat.eqb (d_id entry) id_dirichlet then upd dst i (src i) else dst.
(** See the comment above, source/navier_stokes/parabolic_solver_gmg_operators.h:588-670,749-757. *)
Definition energy_vmult (factor : R) (rho src : nat -> R) : nat -> R :=
  fold_left (energy_fix src) boundary_map (energy_stiffness factor rho src).

(** ** Step 2: right hand side of the internal energy *)

(** m_i K_i, source/navier_stokes/parabolic_solver.template.h:520-563: the value that is
    submitted is the contraction of (symmetric) gradient and stress. *)
Definition dissipation (velocity : field) (c q : nat) : R :=
  if Nat.eqb dim 1 then rsum dim (fun a => rsum dim (fun b => get_gradient (block velocity a) c q b * stress velocity c q a b))
  else rsum dim (fun a => rsum dim (fun b => symmetric_gradient velocity c q a b * stress velocity c q a b)).
(** See the comment above, source/navier_stokes/parabolic_solver.template.h:520-563. *)
Definition heating (velocity : field) (I : nat) : R :=
  distribute_local (fun c i => rsum (g_n_points G) (fun q => dissipation velocity c q * g_value G c i q * g_JxW G c q)) I.

(** The loop over the rows, source/navier_stokes/parabolic_solver.template.h:568-600.  (At
    constrained indices the code divides by zero; these are set to zero afterwards.) *)
Definition energy_rhs_0 (U : field) (tau : R) (energy : nat -> R) (velocity : field) : nat -> R := fun i =>
  let V_i := fun d => momentum (U i) d / rho_ U i in
  let correction := 1 / 2 * norm2 dim (vsub V_i (velocity i)) in
  m_ i * rho_ U i * (energy i + correction) + tau * heating velocity i.

(** source/navier_stokes/parabolic_solver.template.h:617-642 *)
Definition energy_boundary (t tau : R) (rhs : nat -> R) (entry : description) : nat -> R :=
  let i := d_index entry in
  if Nat.leb n_owned i then rhs
  else if Nat.eqb (d_id entry) id_dirichlet then upd rhs i (dirichlet_energy (d_position entry) (t + tau)) else rhs.
(** See the comment above, source/navier_stokes/parabolic_solver.template.h:617-642. *)
Definition energy_rhs (U : field) (t tau : R) (energy : nat -> R) (velocity : field) : nat -> R :=
  set_zero (fold_left (energy_boundary t tau) boundary_map (energy_rhs_0 U tau energy velocity)).

(** ** Step 3 and the minimum of the internal energy *)

(** std::min_element over the owned range.
    source/navier_stokes/parabolic_solver.template.h:431, 765. *)
Definition minimum (x : nat -> R) : R := fold_right Rmin (x 0%nat) (map x (seq 0 n_owned)).

(** source/navier_stokes/parabolic_solver.template.h:797-823 *)
Definition write_back (U : field) (velocity : field) (energy : nat -> R) : field := fun i =>
  let rho_i := density (U i) in
  let m_i_new := fun d => rho_i * velocity i d in
  let rho_e_i_new := rho_i * energy i in
  let E_i_new := rho_e_i_new + 1 / 2 * dot dim m_i_new m_i_new / rho_i in
  fun k => if Nat.eqb k (1 + dim) then E_i_new else if Nat.leb 1 k && Nat.leb k dim then m_i_new (k - 1)%nat else U i k.

(** The linear solver: dealii::SolverCG::solve(operator, solution, rhs, preconditioner);
    [None]: SolverControl::NoConvergence.
    Called in source/navier_stokes/parabolic_solver.template.h:485-500, 731-748. *)
Definition solver (A : Type) := (A -> A) -> (A -> A) -> A -> A -> option A.

(** The step, source/navier_stokes/parabolic_solver.template.h:211-848.  The result is the
    new state and whether a restart is needed; [None]: the exception of the linear solver
    leaves the function.  [eps] is the machine epsilon. *)
Definition backward_euler_step (eps : R) (solve_velocity : solver field) (solve_energy : solver (nat -> R))
    (U : field) (t tau : R) : option (field * bool) :=
  let '(velocity, velocity_rhs, energy) := step_1 U t tau in
  let rho := rho_ U in
  let e_min_old := minimum energy * (1 - 1000 * eps) in
  match solve_velocity (velocity_vmult tau rho) (precondition_block rho) velocity velocity_rhs with
  | None => None
  | Some velocity' =>
      let rhs := energy_rhs U t tau energy velocity' in
      match solve_energy (energy_vmult (tau * cv_inverse_kappa par) rho) (precondition rho) energy rhs with
      | None => None
      | Some energy' =>
          let restart_needed := if Rlt_dec (minimum energy') e_min_old then true else false in
          Some (write_back U velocity' energy', restart_needed)
      end
  end.

(** The extrapolation of the Crank-Nicolson step,
    source/time_integrator.template.h:542-543: sadd(new, 2, -1, old) *)
Definition extrapolate (old new : field) : field := fun i k => 2 * new i k + (- 1) * old i k.
End Parabolic.
