(** * C107 - C112: the parabolic step of the Navier-Stokes equations (property theorems)

    [backward_euler_step G par bm init eps sv se U t tau]: the step with the
    boundary map [bm], the prescribed states [init], the linear solvers [sv]
    (velocity) and [se] (internal energy); [Some (U', r)]: new state and whether
    a restart is requested.  [newtonian]: the stress; [integral], [basis],
    [basis_grad], [slope]: quadrature and finite element functions;
    [nodal_mass]: integral of a basis function; [entries bm I]: the boundary
    entries of a row (slip 2, no slip 3, Dirichlet 4) (ParabolicSpec.v). *)
From Coq Require Import Reals List Bool Arith Lia Lra.
From Verif Require Import RVec BoundaryMap EulerSystem AssemblySpec AssemblyExamples.
From Verif Require Import Assembly Parabolic ParabolicSpec ParabolicFinal ParabolicMore ParabolicExamples ParabolicTiles.
Import ListNotations.
Local Open Scope R_scope.

(** Non-vacuity: friction between two cells of an interval, solved exactly; the
    new velocities are 4.4, 3, 2.6 (from 10, 1, 1), the internal energies 20.6,
    5.12, 2.6 (from 1, 1, 1). *)
Example C107_instance :
  proper interval /\ gas interval moving /\ physical viscous 1 /\ positive_weights interval /\ positive_masses interval /\
  accurate_block 3 1 0 (attempt_block 3 1 slowed) /\ accurate 3 0 (attempt 3 heated) /\
  (exists r, backward_euler_step interval viscous [] nowhere (1 / 1000000) (attempt_block 3 1 slowed) (attempt 3 heated) moving 0 1
     = Some (write_back interval moving slowed heated, r)) /\
  (forall I, (I < 3)%nat -> free interval I /\ no_strong_condition [] I /\ wall 1 [] I /\ posed 1 [] I).
Proof.
  destruct interval_positive as (A & B & _ & _).
  split; [exact interval_proper|]. split; [intros I _; cbn; lra|]. split; [unfold physical; cbn; repeat split; lra || lia|]. split; [exact A|]. split; [exact B|].
  split; [apply attempt_block_exact|]. split; [apply attempt_exact|]. split; [apply viscous_run|].
  assert (Z : orthonormal 1 []) by (split; [intros m []|constructor]).
  intros I L. split; [apply interval_free; exact L|]. split; [intros e []|]. split; [split; [intros e []|right; exact Z]|right; exact Z].
Qed.

(** Conditions on the corners of a cube: slip, no slip together with slip, Dirichlet, none; one
    iteration of the linear solvers. *)
Example C108_instance :
  proper brick /\ gas brick sliding /\ iterates_block (iterate_block (1 / 2)) /\ iterates (iterate (1 / 3)) /\
  (exists U' r, backward_euler_step brick stokes conditions wind (1 / 1000000) (iterate_block (1 / 2)) (iterate (1 / 3)) sliding 0 1 = Some (U', r)) /\
  (orthonormal 3 (slip_normals conditions 0) /\ slip_normals conditions 0 = [wall_1]) /\
  (exists e, In e (entries conditions 1) /\ d_id e = 3%nat) /\ no_dirichlet conditions 1 /\
  (exists e, In e (entries conditions 2) /\ d_id e = 4%nat).
Proof.
  destruct conditions_rows as ((_ & A & B) & (C & D) & (E & _) & _).
  split; [exact brick_proper|]. split; [intros I _; cbn; lra|]. split; [apply iterate_block_search|]. split; [apply iterate_search|].
  split; [exact conditions_instance|]. auto.
Qed.

(** A moving gas with heat conduction, the velocity accepted up to a tolerance. *)
Example C109_instance :
  accurate_block 3 1 (1 / 100) (start_block 3 1 (1 / 100)) /\ iterates_block (start_block 3 1 (1 / 100)) /\ accurate 3 0 (attempt 3 cooled) /\
  let U := drifting (fun I => match I with 0%nat => 10 | _ => 1 end) in gas interval U /\
  exists U' r, backward_euler_step interval mixed [] nowhere (1 / 1000000) (start_block 3 1 (1 / 100)) (attempt 3 cooled) U 0 1 = Some (U', r).
Proof.
  split; [apply start_block_accurate|]. split; [apply start_block_search|]. split; [apply attempt_exact|]. split; [intros I _; cbn; lra|].
  destruct (drift_hot (1 / 1000000)) as (r & E). eexists. exists r. exact E.
Qed.

(** Uniform motion with uniform temperature. *)
Example C112_instance :
  let U := drifting (fun _ => 7) in
  gas interval U /\ physical mixed 1 /\ rigid interval (fun I => vel (U I)) /\ (forall I, specific_energy 1 (U I) = 7) /\
  (forall I, compatible 1 [] nowhere 1 I (U I)) /\ accurate_block 3 1 0 (start_block 3 1 0) /\
  exists U' r, backward_euler_step interval mixed [] nowhere (1 / 1000000) (start_block 3 1 0) (attempt 3 (fun _ => 7)) U 0 1 = Some (U', r).
Proof.
  split; [intros I _; cbn; lra|]. split; [unfold physical; cbn; repeat split; lra || lia|]. split; [exact drift_rigid|].
  split; [intros I; apply drifting_specific|]. split; [intros I e []|]. split; [apply start_block_accurate|].
  destruct (drift_uniform (1 / 1000000)) as (r & E). eexists. exists r. exact E.
Qed.

(** Heat conduction on the interval: the internal energies 10, 1, 1 become 4.4, 3, 2.6. *)
Example C110_instance :
  proper interval /\ gas interval hot_end /\ physical heat 1 /\ positive_weights interval /\ positive_basis interval /\ positive_masses interval /\
  (forall I J, free interval I -> free interval J -> I <> J -> laplace interval I J <= 0) /\
  backward_euler_step interval heat [] nowhere (1 / 1000000) (attempt_block 3 1 still) (attempt 3 cooled) hot_end 0 1
    = Some (write_back interval hot_end still cooled, false).
Proof.
  destruct interval_positive as (A & B & C & D).
  split; [exact interval_proper|]. split; [intros I _; cbn; lra|]. split; [unfold physical; cbn; repeat split; lra || lia|].
  split; [exact A|]. split; [exact C|]. split; [exact B|]. split; [exact D|]. apply heat_run. lra.
Qed.

(** ** C107 *)

(** The density is not changed, whatever the linear solvers do. *)
Theorem C107_density : forall G par bm init eps sv se U t tau U' r I,
  backward_euler_step G par bm init eps sv se U t tau = Some (U', r) -> U' I 0%nat = U I 0%nat.
Proof. exact C107_density_proof. Qed.
Print Assumptions C107_density.

(** The momentum equation in weak form. *)
Theorem C107_momentum : forall G par bm init eps sv se U t tau U' r I a,
  proper G -> dense G U -> accurate_block (g_n_dofs G) (g_dim G) 0 sv ->
  backward_euler_step G par bm init eps sv se U t tau = Some (U', r) ->
  free G I -> no_strong_condition bm I -> (a < (g_dim G))%nat ->
  nodal_mass G I * U' I (S a)
  + tau * integral G (fun c q => rsum (g_dim G) (fun b =>
      newtonian par (g_dim G) (velocity_gradient G (fun J => vel (U' J)) c q) a b * basis_grad G I c q b))
  = nodal_mass G I * U I (S a).
Proof. exact C107_momentum_proof. Qed.
Print Assumptions C107_momentum.

(** The equation of the internal energy in weak form; the square is the kinetic energy lost in the implicit step. *)
Theorem C107_energy : forall G par bm init eps sv se U t tau U' r I,
  proper G -> dense G U -> accurate (g_n_dofs G) 0 se ->
  backward_euler_step G par bm init eps sv se U t tau = Some (U', r) ->
  free G I -> no_dirichlet bm I ->
  let v J := vel (U J) in let v' J := vel (U' J) in
  let e J := specific_energy (g_dim G) (U J) in let e' J := specific_energy (g_dim G) (U' J) in
  nodal_mass G I * U I 0%nat * e' I
  + tau * cv_inverse_kappa par * integral G (fun c q => rsum (g_dim G) (fun b => slope G e' c q b * basis_grad G I c q b))
  = nodal_mass G I * U I 0%nat * (e I + 1 / 2 * rsum (g_dim G) (fun d => (v' I d - v I d) * (v' I d - v I d)))
  + tau * integral G (fun c q =>
      contraction (g_dim G) (velocity_gradient G v' c q) (newtonian par (g_dim G) (velocity_gradient G v' c q)) * basis G I c q).
Proof. exact C107_energy_proof. Qed.
Print Assumptions C107_energy.

(** ** C108 *)

(** No slip, after any number of iterations of the linear solver. *)
Theorem C108_no_slip : forall G par bm init eps sv se U t tau U' r I d,
  iterates_block sv ->
  backward_euler_step G par bm init eps sv se U t tau = Some (U', r) ->
  free G I -> (exists e, In e (entries bm I) /\ d_id e = 3%nat) -> no_dirichlet bm I -> (d < (g_dim G))%nat ->
  U' I (S d) = 0.
Proof. exact C108_no_slip_proof. Qed.
Print Assumptions C108_no_slip.

(** Slip, after any number of iterations. *)
Theorem C108_slip : forall G par bm init eps sv se U t tau U' r I nu,
  iterates_block sv ->
  backward_euler_step G par bm init eps sv se U t tau = Some (U', r) ->
  free G I -> (forall e, In e (entries bm I) -> d_id e <> 3%nat /\ d_id e <> 4%nat) ->
  orthonormal (g_dim G) (slip_normals bm I) -> In nu (slip_normals bm I) ->
  rsum (g_dim G) (fun d => U' I (S d) * nu d) = 0.
Proof. exact C108_slip_proof. Qed.
Print Assumptions C108_slip.

(** A single slip normal whose length is not exactly one. *)
Theorem C108_slip_length : forall G par bm init eps sv se U t tau U' r I nu,
  proper G -> dense G U -> accurate_block (g_n_dofs G) (g_dim G) 0 sv ->
  backward_euler_step G par bm init eps sv se U t tau = Some (U', r) ->
  free G I -> (forall e, In e (entries bm I) -> d_id e <> 3%nat /\ d_id e <> 4%nat) -> slip_normals bm I = [nu] ->
  let imbalance a := nodal_mass G I * U' I (S a)
    + tau * integral G (fun c q => rsum (g_dim G) (fun b =>
        newtonian par (g_dim G) (velocity_gradient G (fun J => vel (U' J)) c q) a b * basis_grad G I c q b))
    - nodal_mass G I * U I (S a) in
  dot (g_dim G) nu nu * dot (g_dim G) (vel (U' I)) nu = - (1 - dot (g_dim G) nu nu) * dot (g_dim G) imbalance nu.
Proof. exact C108_slip_length_proof. Qed.
Print Assumptions C108_slip_length.

(** Dirichlet: the velocity is the one prescribed at the end of the step. *)
Theorem C108_dirichlet_velocity : forall G par bm init eps sv se U t tau U' r I x d,
  iterates_block sv -> gas G U ->
  backward_euler_step G par bm init eps sv se U t tau = Some (U', r) ->
  free G I -> (exists e, In e (entries bm I) /\ d_id e = 4%nat) ->
  (forall e, In e (entries bm I) -> d_id e <> 2%nat /\ d_id e <> 3%nat /\ (d_id e = 4%nat -> d_position e = x)) -> (d < (g_dim G))%nat ->
  vel (U' I) d = vel (init x (t + tau)) d.
Proof. exact C108_dirichlet_velocity_proof. Qed.
Print Assumptions C108_dirichlet_velocity.

(** Dirichlet: the internal energy, also where slip or no slip walls meet the boundary. *)
Theorem C108_dirichlet_energy : forall G par bm init eps sv se U t tau U' r I x,
  iterates se -> gas G U ->
  backward_euler_step G par bm init eps sv se U t tau = Some (U', r) ->
  free G I -> (exists e, In e (entries bm I) /\ d_id e = 4%nat) ->
  (forall e, In e (entries bm I) -> d_id e = 4%nat -> d_position e = x) ->
  specific_energy (g_dim G) (U' I) = specific_energy (g_dim G) (init x (t + tau)).
Proof. exact C108_dirichlet_energy_proof. Qed.
Print Assumptions C108_dirichlet_energy.

(** Where two slip walls meet at an angle that is not a right one the first of the conditions is violated. *)
Theorem C108_slip_refuted : exists G par bm init eps sv se U t tau U' r I nu,
  proper G /\ gas G U /\ physical par (g_dim G) /\ positive_weights G /\ positive_masses G /\ 0 < eps /\ 0 <= tau /\
  accurate_block (g_n_dofs G) (g_dim G) 0 sv /\ accurate (g_n_dofs G) 0 se /\
  backward_euler_step G par bm init eps sv se U t tau = Some (U', r) /\ free G I /\
  (forall e, In e (entries bm I) -> d_id e = 2%nat) /\
  (forall n, In n (slip_normals bm I) -> dot (g_dim G) n n = 1) /\
  ForallOrdPairs (fun n n' => dot (g_dim G) n n' <= 1 / 2) (slip_normals bm I) /\
  In nu (slip_normals bm I) /\
  rsum (g_dim G) (fun d => U' I (S d) * nu d) <> 0.
Proof. exact C108_slip_refuted_proof. Qed.
Print Assumptions C108_slip_refuted.

(** ** C109 *)

(** Mass. *)
Theorem C109_mass : forall G par bm init eps sv se U t tau U' r,
  backward_euler_step G par bm init eps sv se U t tau = Some (U', r) -> total G U' 0 = total G U 0.
Proof. exact C109_mass_proof. Qed.
Print Assumptions C109_mass.

(** Total energy between walls. *)
Theorem C109_energy : forall G par bm init eps sv se U t tau U' r,
  proper G -> dense G U -> accurate_block (g_n_dofs G) (g_dim G) 0 sv -> accurate (g_n_dofs G) 0 se ->
  (forall I, free G I -> wall (g_dim G) bm I) ->
  backward_euler_step G par bm init eps sv se U t tau = Some (U', r) ->
  total G U' (S (g_dim G)) = total G U (S (g_dim G)).
Proof. exact C109_energy_proof. Qed.
Print Assumptions C109_energy.

(** Total energy with linear solvers that stop at a residual. *)
Theorem C109_tolerance : forall G par bm init eps tol tol' sv se U t tau U' r,
  proper G -> dense G U -> 0 <= tol -> 0 <= tol' -> accurate_block (g_n_dofs G) (g_dim G) tol sv -> iterates_block sv -> accurate (g_n_dofs G) tol' se ->
  (forall I, free G I -> wall (g_dim G) bm I) ->
  backward_euler_step G par bm init eps sv se U t tau = Some (U', r) ->
  Rabs (total G U' (S (g_dim G)) - total G U (S (g_dim G))) <=
  tol * rsum (g_n_dofs G) (fun I => if is_constrained G I then 0 else rsum (g_dim G) (fun d => Rabs (vel (U' I) d))) + tol' * INR (g_n_dofs G).
Proof. exact C109_tolerance_proof. Qed.
Print Assumptions C109_tolerance.

(** Momentum without strong boundary conditions. *)
Theorem C109_momentum : forall G par bm init eps sv se U t tau U' r a,
  proper G -> dense G U -> accurate_block (g_n_dofs G) (g_dim G) 0 sv ->
  (forall I, free G I -> no_strong_condition bm I) -> (a < (g_dim G))%nat ->
  backward_euler_step G par bm init eps sv se U t tau = Some (U', r) ->
  total G U' (S a) = total G U (S a).
Proof. exact C109_momentum_proof. Qed.
Print Assumptions C109_momentum.

(** Momentum in the direction of every rigid motion: angular momentum. *)
Theorem C109_rigid : forall G par bm init eps sv se U t tau U' r w,
  proper G -> dense G U -> accurate_block (g_n_dofs G) (g_dim G) 0 sv ->
  (forall I, free G I -> no_strong_condition bm I) -> rigid G w ->
  backward_euler_step G par bm init eps sv se U t tau = Some (U', r) ->
  rsum (g_n_dofs G) (fun I => nodal_mass G I * rsum (g_dim G) (fun d => w I d * U' I (S d))) =
  rsum (g_n_dofs G) (fun I => nodal_mass G I * rsum (g_dim G) (fun d => w I d * U I (S d))).
Proof. exact C109_rigid_proof. Qed.
Print Assumptions C109_rigid.

(** The kinetic energy decreases by the dissipation at least. *)
Theorem C109_kinetic : forall G par bm init eps sv se U t tau U' r,
  proper G -> gas G U -> (forall I, free G I -> 0 <= nodal_mass G I) -> accurate_block (g_n_dofs G) (g_dim G) 0 sv ->
  (forall I, free G I -> wall (g_dim G) bm I) ->
  backward_euler_step G par bm init eps sv se U t tau = Some (U', r) ->
  kinetic_energy G U' + tau * integral G (fun c q =>
    contraction (g_dim G) (velocity_gradient G (fun J => vel (U' J)) c q) (newtonian par (g_dim G) (velocity_gradient G (fun J => vel (U' J)) c q)))
  <= kinetic_energy G U.
Proof. exact C109_kinetic_proof. Qed.
Print Assumptions C109_kinetic.

(** ** C110 *)

(** Minimum principle if the stiffness matrix has no positive entries off the diagonal. *)
Theorem C110_minimum : forall G par bm init eps sv se U t tau U' r low,
  proper G -> gas G U -> physical par (g_dim G) -> positive_weights G -> positive_basis G -> positive_masses G ->
  (forall I J, free G I -> free G J -> I <> J -> laplace G I J <= 0) -> 0 <= tau ->
  accurate (g_n_dofs G) 0 se ->
  backward_euler_step G par bm init eps sv se U t tau = Some (U', r) ->
  (forall I, free G I -> low <= specific_energy (g_dim G) (U I)) ->
  (forall I e, free G I -> In e (entries bm I) -> d_id e = 4%nat -> low <= specific_energy (g_dim G) (init (d_position e) (t + tau))) ->
  forall I, free G I -> low <= specific_energy (g_dim G) (U' I).
Proof. exact C110_minimum_proof. Qed.
Print Assumptions C110_minimum.

(** The check, without constrained degrees of freedom. *)
Theorem C110_flag : forall G par bm init eps sv se U t tau U' low,
  gas G U -> (forall I, (I < (g_n_dofs G))%nat -> free G I) -> 0 <= 1 - 1000 * eps ->
  backward_euler_step G par bm init eps sv se U t tau = Some (U', false) ->
  (forall I, free G I -> low <= specific_energy (g_dim G) (U I)) ->
  (forall I e, free G I -> In e (entries bm I) -> d_id e = 4%nat -> low <= specific_energy (g_dim G) (init (d_position e) (t + tau))) ->
  forall I, free G I -> low * (1 - 1000 * eps) <= specific_energy (g_dim G) (U' I).
Proof. exact C110_flag_proof. Qed.
Print Assumptions C110_flag.

(** The check keeps the internal energy nonnegative in any case. *)
Theorem C110_nonnegative : forall G par bm init eps sv se U t tau U',
  gas G U -> 0 <= 1 - 1000 * eps ->
  backward_euler_step G par bm init eps sv se U t tau = Some (U', false) ->
  (forall I, free G I -> 0 <= specific_energy (g_dim G) (U I)) ->
  (forall I e, free G I -> In e (entries bm I) -> d_id e = 4%nat -> 0 <= specific_energy (g_dim G) (init (d_position e) (t + tau))) ->
  forall I, free G I -> 0 <= specific_energy (g_dim G) (U' I).
Proof. exact C110_nonnegative_proof. Qed.
Print Assumptions C110_nonnegative.

(** With constrained degrees of freedom (periodic boundaries, hanging nodes) the check does not see that the minimum falls to one half of what it was. *)
Theorem C110_flag_refuted : exists G par init eps sv se U t tau U',
  proper G /\ gas G U /\ physical par (g_dim G) /\ positive_weights G /\ positive_masses G /\ positive_basis G /\ 0 < eps /\ eps <= 1 / 1000000 /\ 0 <= tau /\
  accurate_block (g_n_dofs G) (g_dim G) 0 sv /\ accurate (g_n_dofs G) 0 se /\
  backward_euler_step G par [] init eps sv se U t tau = Some (U', false) /\
  (forall I, free G I -> 1 <= specific_energy (g_dim G) (U I)) /\
  exists I, free G I /\ specific_energy (g_dim G) (U' I) = 1 / 2.
Proof. exact C110_flag_refuted_proof. Qed.
Print Assumptions C110_flag_refuted.

(** ** C111 *)

(** The extrapolation keeps the density. *)
Theorem C111_density : forall G par bm init eps sv se U t tau U' r I,
  backward_euler_step G par bm init eps sv se U t tau = Some (U', r) -> extrapolate U U' I 0%nat = U I 0%nat.
Proof. exact C111_density_proof. Qed.
Print Assumptions C111_density.

(** The extrapolation keeps what the step keeps. *)
Theorem C111_total : forall G (old new : field) k, total G (extrapolate old new) k = 2 * total G new k - total G old k.
Proof. exact C111_total_proof. Qed.
Print Assumptions C111_total.

(** Midpoint rule with twice the step size: momentum. *)
Theorem C111_momentum : forall G par bm init eps sv se U t tau U' r I a,
  proper G -> dense G U -> accurate_block (g_n_dofs G) (g_dim G) 0 sv ->
  backward_euler_step G par bm init eps sv se U t tau = Some (U', r) ->
  free G I -> no_strong_condition bm I -> (a < (g_dim G))%nat ->
  nodal_mass G I * extrapolate U U' I (S a)
  + 2 * tau * integral G (fun c q => rsum (g_dim G) (fun b =>
      newtonian par (g_dim G) (velocity_gradient G (fun J => vel (U' J)) c q) a b * basis_grad G I c q b))
  = nodal_mass G I * U I (S a).
Proof. exact C111_momentum_proof. Qed.
Print Assumptions C111_momentum.

(** Midpoint rule: internal energy; no kinetic energy is lost but by dissipation. *)
Theorem C111_energy : forall G par bm init eps sv se U t tau U' r I,
  proper G -> dense G U -> accurate (g_n_dofs G) 0 se ->
  backward_euler_step G par bm init eps sv se U t tau = Some (U', r) ->
  free G I -> no_dirichlet bm I ->
  let v' J := vel (U' J) in let e' J := specific_energy (g_dim G) (U' J) in
  nodal_mass G I * U I 0%nat * specific_energy (g_dim G) (extrapolate U U' I)
  + 2 * tau * cv_inverse_kappa par * integral G (fun c q => rsum (g_dim G) (fun b => slope G e' c q b * basis_grad G I c q b))
  = nodal_mass G I * U I 0%nat * specific_energy (g_dim G) (U I)
  + 2 * tau * integral G (fun c q =>
      contraction (g_dim G) (velocity_gradient G v' c q) (newtonian par (g_dim G) (velocity_gradient G v' c q)) * basis G I c q).
Proof. exact C111_energy_proof. Qed.
Print Assumptions C111_energy.

(** Balance of the kinetic energy. *)
Theorem C111_kinetic : forall G par bm init eps sv se U t tau U' r,
  proper G -> dense G U -> accurate_block (g_n_dofs G) (g_dim G) 0 sv ->
  (forall I, free G I -> wall (g_dim G) bm I) ->
  backward_euler_step G par bm init eps sv se U t tau = Some (U', r) ->
  kinetic_energy G (extrapolate U U') + 2 * tau * integral G (fun c q =>
    contraction (g_dim G) (velocity_gradient G (fun J => vel (U' J)) c q) (newtonian par (g_dim G) (velocity_gradient G (fun J => vel (U' J)) c q)))
  = kinetic_energy G U.
Proof. exact C111_kinetic_proof. Qed.
Print Assumptions C111_kinetic.

(** The extrapolated internal energy may be negative, and nothing checks it. *)
Theorem C111_positive_refuted : exists G par init eps sv se U t tau U',
  proper G /\ gas G U /\ physical par (g_dim G) /\ positive_weights G /\ positive_masses G /\ 0 < eps /\ 0 <= tau /\
  accurate_block (g_n_dofs G) (g_dim G) 0 sv /\ accurate (g_n_dofs G) 0 se /\
  (forall I, (I < g_n_dofs G)%nat -> free G I /\ 1 <= specific_energy (g_dim G) (U I)) /\
  backward_euler_step G par [] init eps sv se U t tau = Some (U', false) /\
  (forall I, free G I -> 1 <= specific_energy (g_dim G) (U' I)) /\
  exists I, free G I /\ specific_energy (g_dim G) (extrapolate U U' I) < 0.
Proof. exact C111_positive_refuted_proof. Qed.
Print Assumptions C111_positive_refuted.

(** ** C112 *)

(** The new state does not depend on the linear solvers. *)
Theorem C112_unique : forall G par bm init eps sv se sv' se' U t tau U1 U2 r1 r2,
  proper G -> gas G U -> physical par (g_dim G) -> positive_weights G -> positive_masses G -> 0 <= tau ->
  (forall I, free G I -> posed (g_dim G) bm I) ->
  accurate_block (g_n_dofs G) (g_dim G) 0 sv -> accurate (g_n_dofs G) 0 se -> accurate_block (g_n_dofs G) (g_dim G) 0 sv' -> accurate (g_n_dofs G) 0 se' ->
  backward_euler_step G par bm init eps sv se U t tau = Some (U1, r1) ->
  backward_euler_step G par bm init eps sv' se' U t tau = Some (U2, r2) ->
  forall I k, free G I -> U1 I k = U2 I k.
Proof. exact C112_unique_proof. Qed.
Print Assumptions C112_unique.

(** Rigid motion with uniform temperature is not changed. *)
Theorem C112_rigid : forall G par bm init eps sv se U t tau U' r temperature,
  proper G -> gas G U -> physical par (g_dim G) -> positive_weights G -> positive_masses G -> 0 <= tau ->
  (forall I, free G I -> posed (g_dim G) bm I) ->
  accurate_block (g_n_dofs G) (g_dim G) 0 sv -> accurate (g_n_dofs G) 0 se ->
  rigid G (fun I => vel (U I)) ->
  (forall I, free G I -> specific_energy (g_dim G) (U I) = temperature) ->
  (forall I, free G I -> compatible (g_dim G) bm init (t + tau) I (U I)) ->
  backward_euler_step G par bm init eps sv se U t tau = Some (U', r) ->
  forall I k, free G I -> U' I k = U I k.
Proof. exact C112_rigid_proof. Qed.
Print Assumptions C112_rigid.

(** The linear solvers start from the old state with boundary values: solvers that return their
    initial guess leave a compatible state as it is. *)
Theorem C112_guess : forall G par bm init eps U t tau U' r,
  dense G U -> (forall I, free G I -> compatible (g_dim G) bm init (t + tau) I (U I)) ->
  backward_euler_step G par bm init eps (fun _ _ x _ => Some x) (fun _ _ x _ => Some x) U t tau = Some (U', r) ->
  forall I k, free G I -> U' I k = U I k.
Proof. exact C112_guess_proof. Qed.
Print Assumptions C112_guess.

(** Without viscosity the preconditioners invert the operators: one application to the right hand
    side solves both systems. *)
Theorem C112_inviscid : forall G par init eps U t tau U' r,
  proper G -> dense G U -> positive_masses G -> mu par = 0 -> lambda par = 0 ->
  backward_euler_step G par [] init eps (fun _ P _ b => Some (P b)) (fun _ P _ b => Some (P b)) U t tau = Some (U', r) ->
  forall I k, free G I -> U' I k = U I k.
Proof. exact C112_inviscid_proof. Qed.
Print Assumptions C112_inviscid.

(** Gas of uneven temperature on an interval. *)
Example C112_inviscid_ex : proper interval /\ positive_masses interval /\ dense interval hot_end /\ gas interval hot_end /\ hot_end 0%nat 2%nat <> hot_end 1%nat 2%nat.
Proof.
  split; [exact interval_proper|]. split; [apply interval_positive|]. split; [intros I _; cbn; lra|]. split; [intros I _; cbn; lra|]. cbn. lra.
Qed.
