(** * Model: the geometric multigrid preconditioner of the parabolic step

    The level operators and their inverse diagonals
    (source/navier_stokes/parabolic_solver_gmg_operators.h), the level masses
    (OfflineData::create_multigrid_data), when they are set up
    (ParabolicModule::prepare, step, ParabolicSolver::prepare, backward_euler_step)
    and the change to plain conjugate gradients.  A level of the mesh is a geometry
    as in Assembly.v; its g_constraint is None everywhere since the level objects
    are built with empty constraints
    (source/navier_stokes/parabolic_solver.template.h:191-199,
    source/offline_data.template.h:1122).  The V-cycle, the Chebyshev smoother, the
    transfer between levels and the conjugate gradient method are those of deal.II and
    are parameters here; single precision of the levels is not modelled. *)
From Coq Require Import Reals List Bool Arith.
From Verif Require Import RVec BoundaryMap EulerSystem Assembly Parabolic.
Import ListNotations.
Local Open Scope R_scope.

Section Level.
Variable G : geometry.                       (** the cells of the level *)
Variable par : viscosity.
Variable boundary_map : list description.    (** level_boundary_map()[level] *)
Let dim := g_dim G.
Let n_owned := g_n_dofs G.

(** level_lumped_mass_matrix_[level], source/offline_data.template.h:1148-1161 *)
Definition level_mass (I : nat) : R :=
  distribute_local G (fun c i => rsum (g_n_points G) (fun q => g_value G c i q * g_JxW G c q)) I.

(** VelocityMatrix::vmult on the level,
    source/navier_stokes/parabolic_solver_gmg_operators.h:190-300 *)
Definition level_velocity_vmult (theta_x_tau : R) (rho : nat -> R) (src : field) : field :=
  fold_left (velocity_fix G src) boundary_map
    (fun I a => level_mass I * rho I * src I a + distribute_local G (velocity_local G par theta_x_tau src a) I).

(** EnergyMatrix::vmult on the level,
    source/navier_stokes/parabolic_solver_gmg_operators.h:588-671 *)
Definition level_energy_vmult (factor : R) (rho src : nat -> R) : nat -> R :=
  fold_left (energy_fix G src) boundary_map
    (fun I => level_mass I * rho I * src I + distribute_local G (energy_local G factor src) I).

(** FEEvaluation::get_gradient for values at the unknowns of one cell that were written to
    begin_dof_values(), source/navier_stokes/parabolic_solver_gmg_operators.h:331-336, 415. *)
Definition cell_gradient (u : nat -> R) (c q b : nat) : R :=
  rsum (g_n_local G) (fun i => u i * g_grad G c i q b).
(** See the comment above, source/navier_stokes/parabolic_solver_gmg_operators.h:331-336, 415. *)
Definition cell_symmetric_gradient (u : nat -> vec) (c q a b : nat) : R :=
  1 / 2 * (cell_gradient (fun i => u i a) c q b + cell_gradient (fun i => u i b) c q a).

(** VelocityMatrix::apply_local_operator,
    source/navier_stokes/parabolic_solver_gmg_operators.h:404-432 *)
Definition cell_stress (u : nat -> vec) (c q a b : nat) : R :=
  if Nat.eqb dim 1 then (4 / 3 * mu par + lambda par) * cell_gradient (fun i => u i a) c q b
  else 2 * mu par * cell_symmetric_gradient u c q a b
       + (if Nat.eqb a b then (lambda par - 2 / 3 * mu par) * trace G (cell_symmetric_gradient u c q) else 0).
(** See the comment above, source/navier_stokes/parabolic_solver_gmg_operators.h:404-432. *)
Definition apply_velocity (theta_x_tau : R) (u : nat -> vec) (c : nat) : nat -> vec := fun i a =>
  rsum (g_n_points G) (fun q => rsum dim (fun b => theta_x_tau * cell_stress u c q a b * g_grad G c i q b) * g_JxW G c q).

(** EnergyMatrix::apply_local_operator,
    source/navier_stokes/parabolic_solver_gmg_operators.h:749-757 *)
Definition apply_energy (factor : R) (u : nat -> R) (c : nat) : nat -> R := fun i =>
  rsum (g_n_points G) (fun q => rsum dim (fun b => factor * cell_gradient u c q b * g_grad G c i q b) * g_JxW G c q).

(** The values 0 except for a 1, source/navier_stokes/parabolic_solver_gmg_operators.h:331-335, 699-703. *)
Definition one_at (i : nat) : nat -> R := fun j => if Nat.eqb j i then 1 else 0.
(** See the comment above, source/navier_stokes/parabolic_solver_gmg_operators.h:331-335, 699-703. *)
Definition one_at_block (i a : nat) : nat -> vec := fun j b => if Nat.eqb j i && Nat.eqb b a then 1 else 0.

(** The loop over the cells of compute_diagonal and the mass,
    source/navier_stokes/parabolic_solver_gmg_operators.h:314-358, 686-725 *)
Definition velocity_denominator (theta_x_tau : R) (rho : nat -> R) : field := fun I a =>
  level_mass I * rho I + distribute_local G (fun c i => apply_velocity theta_x_tau (one_at_block i a) c i a) I.
(** See the comment above, source/navier_stokes/parabolic_solver_gmg_operators.h:314-358, 686-725. *)
Definition energy_denominator (factor : R) (rho : nat -> R) : nat -> R := fun I =>
  level_mass I * rho I + distribute_local G (fun c i => apply_energy factor (one_at i) c i) I.

(** The entries of the boundary map,
    source/navier_stokes/parabolic_solver_gmg_operators.h:364-393 *)
Definition velocity_diagonal_fix (vector : field) (entry : description) : field :=
  let i := d_index entry in
  let normal := d_normal entry in
  if Nat.leb n_owned i then vector
  else if Nat.eqb (d_id entry) id_slip then
    (* V_i += 1. * (1. * normal[d]) * normal for each d *)
    upd vector i (vadd (remove_normal G normal (vector i)) (fun k => rsum dim (fun d => 1 * (1 * normal d) * normal k)))
  else if Nat.eqb (d_id entry) id_no_slip || Nat.eqb (d_id entry) id_dirichlet then upd vector i (fun _ => 1)
  else vector.
(** source/navier_stokes/parabolic_solver_gmg_operators.h:731-739 *)
Definition energy_diagonal_fix (vector : nat -> R) (entry : description) : nat -> R :=
  let i := d_index entry in
  if Nat.leb n_owned i then vector
  else if Nat.eqb (d_id entry) id_dirichlet then upd vector i 1 else vector.

(** compute_diagonal: what the smoother is given,
    source/navier_stokes/parabolic_solver_gmg_operators.h:302-394, 673-740 *)
Definition velocity_inverse_diagonal (theta_x_tau : R) (rho : nat -> R) : field :=
  fold_left velocity_diagonal_fix boundary_map (fun I a => 1 / velocity_denominator theta_x_tau rho I a).
(** See the comment above, source/navier_stokes/parabolic_solver_gmg_operators.h:302-394, 673-740. *)
Definition energy_inverse_diagonal (factor : R) (rho : nat -> R) : nat -> R :=
  fold_left energy_diagonal_fix boundary_map (fun I => 1 / energy_denominator factor rho I).
End Level.

(** ** When the level operators are set up *)

(** What a level operator was initialized with: the mesh of its MatrixFree object, the factor and
    the densities of the levels at that time,
    source/navier_stokes/parabolic_solver_gmg_operators.h:169-183, 558-570.  (The operators keep a
    pointer to level_density_, which changes only together with them or to zero in prepare().) *)
Record level_data := { built_on : nat; built_with : R; built_density : nat -> nat -> R }.

(** ParabolicModule::cycle_ (source/parabolic_module.h:136), the mesh of level_matrix_free_,
    level_density_ and the level operators
    (source/navier_stokes/parabolic_solver.h:260-271). *)
Record multigrid := {
  cycle : nat;
  current_mesh : nat;
  level_density : nat -> nat -> R;
  velocity_levels : option level_data;
  energy_levels : option level_data }.

Section Cycle.
Variables use_gmg_velocity use_gmg_internal_energy : bool.
Variable cv_inverse_kappa : R.
Variable interpolate_to_mg : nat -> (nat -> R) -> nat -> nat -> R.   (** of dealii::MGTransferMatrixFree on a mesh *)

(** ParabolicModule::prepare and ParabolicSolver::prepare,
    source/parabolic_module.template.h:40-49,
    source/navier_stokes/parabolic_solver.template.h:163-208 *)
Definition mg_prepare (mesh : nat) (s : multigrid) : multigrid :=
  if negb use_gmg_velocity && negb use_gmg_internal_energy
  then {| cycle := 0; current_mesh := current_mesh s; level_density := level_density s;
          velocity_levels := velocity_levels s; energy_levels := energy_levels s |}
  else {| cycle := 0; current_mesh := mesh; level_density := fun _ _ => 0;
          velocity_levels := velocity_levels s; energy_levels := energy_levels s |}.

(** The multigrid part of ParabolicModule::step and of
    ParabolicSolver::backward_euler_step, source/parabolic_module.template.h:76-82,
    source/navier_stokes/parabolic_solver.template.h:376-415, 649-683. *)
Definition mg_step (tau : R) (density : nat -> R) (s : multigrid) : multigrid :=
  let reinitialize_gmg := Nat.eqb (cycle s mod 4) 0 in
  let s := {| cycle := S (cycle s); current_mesh := current_mesh s; level_density := level_density s;
              velocity_levels := velocity_levels s; energy_levels := energy_levels s |} in
  let s :=
    if use_gmg_velocity && reinitialize_gmg then
      let d := interpolate_to_mg (current_mesh s) density in
      {| cycle := cycle s; current_mesh := current_mesh s; level_density := d;
         velocity_levels := Some {| built_on := current_mesh s; built_with := tau; built_density := d |};
         energy_levels := energy_levels s |}
    else s in
  if use_gmg_internal_energy && reinitialize_gmg then
    {| cycle := cycle s; current_mesh := current_mesh s; level_density := level_density s;
       velocity_levels := velocity_levels s;
       energy_levels := Some {| built_on := current_mesh s; built_with := tau * cv_inverse_kappa;
                                built_density := level_density s |} |}
  else s.
End Cycle.

(** ** Multigrid first, then plain conjugate gradients

    source/navier_stokes/parabolic_solver.template.h:461-506, 708-754.  [mg] is the first attempt: the
    vector that it leaves behind and whether it converged.  The second attempt starts from that vector;
    it has the diagonal matrix as preconditioner. *)
Definition with_multigrid {A} (use_gmg : bool) (mg : (A -> A) -> A -> A -> A * bool) (cg : solver A) : solver A :=
  fun operator diagonal_matrix x rhs =>
    if use_gmg then
      let '(x', converged) := mg operator x rhs in
      if converged then Some x' else cg operator diagonal_matrix x' rhs
    else cg operator diagonal_matrix x rhs.
