(** * Property theorems: the multigrid preconditioner of the parabolic step (C152, C153) *)
From Coq Require Import Reals List Bool Arith.
From Verif Require Import RVec BoundaryMap AssemblySpec ParabolicSpec Discretization DiscretizationExamples ParabolicExamples.
From Verif Require Import Assembly Parabolic Multigrid MultigridSpec MultigridProofs MultigridFinal MultigridExamples.
Import ListNotations.
Local Open Scope R_scope.

(** ** Level operators and their diagonals (C152) *)

(** The lumped masses of a level are the integrals of the shape functions, *)
Theorem C152_mass : forall G I,
  level_mesh G -> (I < g_n_dofs G)%nat -> level_mass G I = nodal_mass G I.
Proof. exact C152_mass_proof. Qed.
Print Assumptions C152_mass.

(** and the operators of a level are those of the time step on the cells of the level. *)
Theorem C152_operators : forall G par bm theta factor rho v e I a,
  level_mesh G -> (I < g_n_dofs G)%nat -> (a < g_dim G)%nat ->
  level_velocity_vmult G par bm theta rho v I a = velocity_vmult G par bm theta rho v I a /\
  level_energy_vmult G bm factor rho e I = energy_vmult G bm factor rho e I.
Proof. exact C152_operators_proof. Qed.
Print Assumptions C152_operators.

(** Rows of boxes with bilinear elements. *)
Example C152_level : forall dim m,
  (1 <= dim)%nat -> (1 <= m)%nat -> level_mesh (row cg_q1 false dim m).
Proof. exact row_level. Qed.

(** Internal energy: what the smoother is given are the reciprocals of the diagonal entries, which are positive. *)
Theorem C152_energy : forall G bm factor rho I,
  level_mesh G -> (I < g_n_dofs G)%nat -> 0 <= factor -> 0 < rho I ->
  0 < entry (level_energy_vmult G bm factor rho) I /\
  energy_inverse_diagonal G bm factor rho I = 1 / entry (level_energy_vmult G bm factor rho) I.
Proof. exact C152_energy_proof. Qed.
Print Assumptions C152_energy.

(** Three boxes, one unknown on a slip boundary. *)
Example C152_energy_ex : forall I,
  (I < g_n_dofs (row cg_q1 false 2 3))%nat ->
  let A := level_energy_vmult (row cg_q1 false 2 3) [axis_entry 0] 2 (fun _ => 1) in
  0 < entry A I /\ energy_inverse_diagonal (row cg_q1 false 2 3) [axis_entry 0] 2 (fun _ => 1) I = 1 / entry A I.
Proof. exact energy_case. Qed.

(** The same for the velocity if the normals of slip boundaries are coordinate directions. *)
Theorem C152_velocity : forall G par bm theta rho I a,
  level_mesh G -> physical par (g_dim G) ->
  (I < g_n_dofs G)%nat -> (a < g_dim G)%nat -> 0 <= theta -> 0 < rho I ->
  (forall e, In e bm -> d_index e = I -> d_id e = 2%nat -> along_axis (g_dim G) (d_normal e)) ->
  0 < entry_block (level_velocity_vmult G par bm theta rho) I a /\
  velocity_inverse_diagonal G par bm theta rho I a = 1 / entry_block (level_velocity_vmult G par bm theta rho) I a.
Proof. exact C152_velocity_proof. Qed.
Print Assumptions C152_velocity.

(** A corner between two walls. *)
Example C152_velocity_ex : forall I a,
  (I < g_n_dofs (row cg_q1 false 2 3))%nat -> (a < 2)%nat ->
  let A := level_velocity_vmult (row cg_q1 false 2 3) viscous [axis_entry 0; axis_entry 1] (1 / 2) (fun _ => 1) in
  0 < entry_block A I a /\
  velocity_inverse_diagonal (row cg_q1 false 2 3) viscous [axis_entry 0; axis_entry 1] (1 / 2) (fun _ => 1) I a = 1 / entry_block A I a.
Proof. exact axis_case. Qed.

(** For other normals the smoother can be given a negative number although the diagonal entry is positive. *)
Theorem C152_skew_refuted : forall G par bm theta rho I e n0 n1,
  level_mesh G -> g_dim G = 2%nat -> mu par = 0 -> lambda par = 0 ->
  (I < g_n_dofs G)%nat -> 0 < rho I ->
  entries bm I = [e] -> d_id e = 2%nat -> d_normal e 0%nat = n0 -> d_normal e 1%nat = n1 ->
  n0 * n0 + n1 * n1 = 1 -> 0 < n1 -> n1 < n0 -> nodal_mass G I * rho I * (n0 * (n0 + n1)) < n1 * (n0 - n1) ->
  velocity_inverse_diagonal G par bm theta rho I 0%nat < 0 < entry_block (level_velocity_vmult G par bm theta rho) I 0%nat.
Proof. exact C152_skew_refuted_proof. Qed.
Print Assumptions C152_skew_refuted.

(** A wall with the normal (4/5, 3/5). *)
Example C152_skew_ex :
  velocity_inverse_diagonal (row cg_q1 false 2 1) inviscid [skew_entry] 1 (fun _ => 1 / 10) 0%nat 0%nat < 0 <
  entry_block (level_velocity_vmult (row cg_q1 false 2 1) inviscid [skew_entry] 1 (fun _ => 1 / 10)) 0 0.
Proof. exact skew_case. Qed.

(** ** Set-up of the levels and change of the solver (C153) *)

(** After prepare() for a mesh every step uses level operators of that mesh and of at most three steps before. *)
Theorem C153_setup : forall uv ue kappa interpolate mesh tau rho s k,
  (uv = true \/ ue = true) ->
  let s' := after uv ue kappa interpolate mesh tau rho s k in
  (last_setup k <= k < last_setup k + 4)%nat /\
  (uv = true -> velocity_levels s' = Some {| built_on := mesh; built_with := tau (last_setup k); built_density := interpolate mesh (rho (last_setup k)) |}) /\
  (ue = true -> exists d, energy_levels s' = Some {| built_on := mesh; built_with := tau (last_setup k) * kappa; built_density := d |}).
Proof. exact C153_setup_proof. Qed.
Print Assumptions C153_setup.

(** The eighth step. *)
Example C153_setup_ex : forall s,
  velocity_levels (after true false 1 (fun mesh rho l i => rho i) 3 (fun k => INR k) (fun k i => INR (k + i)) s 7) =
  Some {| built_on := 3; built_with := INR 4; built_density := fun l i => INR (4 + i) |}.
Proof. exact setup_case. Qed.

(** With multigrid for both equations the levels of the internal energy contain the density, *)
Theorem C153_both : forall kappa interpolate mesh tau rho s k,
  energy_levels (after true true kappa interpolate mesh tau rho s k) =
  Some {| built_on := mesh; built_with := tau (last_setup k) * kappa; built_density := interpolate mesh (rho (last_setup k)) |}.
Proof. exact C153_both_proof. Qed.
Print Assumptions C153_both.

(** but with multigrid for the internal energy alone they contain the density zero in all steps: *)
Theorem C153_density_refuted : forall kappa interpolate mesh tau rho s k,
  energy_levels (after false true kappa interpolate mesh tau rho s k) =
  Some {| built_on := mesh; built_with := tau (last_setup k) * kappa; built_density := fun _ _ => 0 |}.
Proof. exact C153_density_refuted_proof. Qed.
Print Assumptions C153_density_refuted.

(** the level operators are singular then, and without heat conduction the smoother is given 1 / 0. *)
Theorem C153_singular_refuted : forall G bm factor temperature I,
  level_mesh G -> (I < g_n_dofs G)%nat -> no_dirichlet bm I ->
  level_energy_vmult G bm factor (fun _ => 0) (fun _ => temperature) I = 0 /\
  (forall rho, 0 < rho I -> 0 < temperature -> 0 < level_energy_vmult G bm factor rho (fun _ => temperature) I) /\
  (factor = 0 -> energy_denominator G factor (fun _ => 0) I = 0).
Proof. exact C153_singular_refuted_proof. Qed.
Print Assumptions C153_singular_refuted.

(** Three boxes. *)
Example C153_singular_ex :
  level_energy_vmult (row cg_q1 false 2 3) [axis_entry 0] 2 (fun _ => 0) (fun _ => 300) 0%nat = 0 /\
  0 < level_energy_vmult (row cg_q1 false 2 3) [axis_entry 0] 2 (fun _ => 1) (fun _ => 300) 0%nat.
Proof. exact singular_case. Qed.

(** Whether multigrid converges or not the result satisfies the tolerance, *)
Theorem C153_tolerance : forall n dim tol use (mg : (field -> field) -> field -> field -> field * bool) (cg : solver field)
    use' (mg' : ((nat -> R) -> nat -> R) -> (nat -> R) -> (nat -> R) -> (nat -> R) * bool) (cg' : solver (nat -> R)),
  (forall A x0 b x, mg A x0 b = (x, true) -> forall i d, (i < n)%nat -> (d < dim)%nat -> Rabs (A x i d - b i d) <= tol) ->
  (forall A x0 b x, mg' A x0 b = (x, true) -> forall i, (i < n)%nat -> Rabs (A x i - b i) <= tol) ->
  accurate_block n dim tol cg -> accurate n tol cg' ->
  accurate_block n dim tol (with_multigrid use mg cg) /\ accurate n tol (with_multigrid use' mg' cg').
Proof. exact C153_tolerance_proof. Qed.
Print Assumptions C153_tolerance.

(** A first attempt that gives up. *)
Example C153_tolerance_ex : forall v e,
  accurate_block 3 1 0 (with_multigrid true gives_up (attempt_block 3 1 v)) /\ accurate 3 0 (with_multigrid true gives_up1 (attempt 3 e)).
Proof. exact tolerance_case. Qed.

(** and if the systems are solved exactly the step is the one without multigrid. *)
Theorem C153_same : forall G par bm init eps U t tau uv ue mgv mge cgv cge U1 U2 r1 r2,
  proper G -> gas G U -> physical par (g_dim G) -> positive_weights G -> ParabolicSpec.positive_masses G -> 0 <= tau ->
  (forall I, free G I -> posed (g_dim G) bm I) ->
  (forall A x0 b x, mgv A x0 b = (x, true) -> forall i d, (i < g_n_dofs G)%nat -> (d < g_dim G)%nat -> A x i d = b i d) ->
  (forall A x0 b x, mge A x0 b = (x, true) -> forall i, (i < g_n_dofs G)%nat -> A x i = b i) ->
  accurate_block (g_n_dofs G) (g_dim G) 0 cgv -> accurate (g_n_dofs G) 0 cge ->
  backward_euler_step G par bm init eps (with_multigrid uv mgv cgv) (with_multigrid ue mge cge) U t tau = Some (U1, r1) ->
  backward_euler_step G par bm init eps cgv cge U t tau = Some (U2, r2) ->
  forall I k, free G I -> U1 I k = U2 I k.
Proof. exact C153_same_proof. Qed.
Print Assumptions C153_same.

(** The second attempt starts from what the first one leaves behind. *)
Theorem C153_fallback : forall (A : Type) (mg : (A -> A) -> A -> A -> A * bool) (cg : solver A) operator diagonal x rhs y,
  mg operator x rhs = (y, false) -> with_multigrid true mg cg operator diagonal x rhs = cg operator diagonal y rhs.
Proof. exact C153_fallback_proof. Qed.
Print Assumptions C153_fallback.
