(** * Physical properties of the Euler, AEOS and shallow water systems: C31 - C35, C45 and C46 *)
From Coq Require Import Reals Lra Lia.
From Verif Require Import RVec EulerSystem AeosSystem SWSystem EulerLimiter AeosLimiter PhysSpec
  EulerPhysProofs AeosPhysProofs SWPhysProofs PhysLimiter PhysExamples.
Local Open Scope R_scope.

(** ** C31 *)

(** Euler: the conversions are inverse to each other. *)
Theorem C31_euler_bijection : forall s dim, gamma s <> 1 ->
  (forall p, p 0%nat <> 0 -> forall k, to_primitive_state s dim (from_primitive_state s dim p) k = p k) /\
  (forall U, density U <> 0 -> forall k, from_primitive_state s dim (to_primitive_state s dim U) k = U k).
Proof. exact euler_bijection. Qed.
Print Assumptions C31_euler_bijection.

Example C31_euler_bijection_ex : gamma ex_euler <> 1 /\ ex_U 0%nat <> 0 /\
  to_primitive_state ex_euler 2 ex_U 1%nat = 1 / 2 /\ to_primitive_state ex_euler 2 ex_U 3%nat = 1.
Proof. exact ex_bijection. Qed.

(** Euler: expand_state keeps all thermodynamic quantities. *)
Theorem C31_euler_expand : forall s dim dim2 U, (dim2 <= dim)%nat ->
  let V := expand_state dim dim2 U in
  density V = density U /\ total_energy dim V = total_energy dim2 U /\
  internal_energy dim V = internal_energy dim2 U /\ pressure s dim V = pressure s dim2 U /\
  specific_entropy s dim V = specific_entropy s dim2 U.
Proof. exact expand_quantities. Qed.
Print Assumptions C31_euler_expand.

(** Euler: an initial state (rho, u, p) of lower dimension has this density, velocity and
    pressure. *)
Theorem C31_euler_initial : forall s dim dim2 p, (dim2 <= dim)%nat -> gamma s <> 1 -> p 0%nat <> 0 ->
  let V := from_initial_state s dim dim2 p in
  density V = p 0%nat /\ pressure s dim V = p (S dim2) /\
  forall k, (k < dim)%nat -> momentum V k = p 0%nat * (if Nat.ltb k dim2 then p (S k) else 0).
Proof. exact initial_state. Qed.
Print Assumptions C31_euler_initial.

Example C31_euler_initial_ex :
  let V := from_initial_state ex_euler 3 1 (fun k => INR (S k)) in
  density V = 1 /\ pressure ex_euler 3 V = 3 /\ momentum V 0%nat = 2 /\ momentum V 2%nat = 0.
Proof. exact ex_initial. Qed.

(** AEOS: primitive states are (rho, u, e). *)
Theorem C31_aeos_bijection : forall dim,
  (forall p, p 0%nat <> 0 -> forall k, a_to_primitive_state dim (a_from_primitive_state dim p) k = p k) /\
  (forall U, a_density U <> 0 -> forall k, a_from_primitive_state dim (a_to_primitive_state dim U) k = U k).
Proof. exact aeos_bijection. Qed.
Print Assumptions C31_aeos_bijection.

Theorem C31_aeos_expand : forall e dim dim2 U, (dim2 <= dim)%nat ->
  let V := a_expand_state dim dim2 U in
  a_density V = a_density U /\ a_total_energy dim V = a_total_energy dim2 U /\
  a_internal_energy dim V = a_internal_energy dim2 U /\
  (forall p, surrogate_gamma e dim V p = surrogate_gamma e dim2 U p) /\
  (forall g, surrogate_specific_entropy e dim V g = surrogate_specific_entropy e dim2 U g).
Proof. exact a_expand_quantities. Qed.
Print Assumptions C31_aeos_expand.

(** AEOS: initial states are (rho, u, p); if the energy function of the equation of state
    inverts its pressure function, the state has pressure p. *)
Theorem C31_aeos_initial : forall e dim dim2 p, (dim2 <= dim)%nat -> p 0%nat <> 0 ->
  let V := a_from_initial_state e dim dim2 p in
  a_density V = p 0%nat /\
  a_internal_energy dim V = p 0%nat * eos_specific_internal_energy e (p 0%nat) (p (S dim2)) /\
  (forall k, (k < dim)%nat -> a_momentum V k = p 0%nat * (if Nat.ltb k dim2 then p (S k) else 0)) /\
  (eos_pressure e (p 0%nat) (eos_specific_internal_energy e (p 0%nat) (p (S dim2))) = p (S dim2) ->
   eos_pressure e (a_density V) (a_internal_energy dim V / a_density V) = p (S dim2)).
Proof. exact a_initial_state. Qed.
Print Assumptions C31_aeos_initial.

Example C31_aeos_initial_ex : eos_pressure ex_eos 2 (eos_specific_internal_energy ex_eos 2 3) = 3.
Proof. exact ex_eos_inverse. Qed.

(** Shallow water: depths above the small cut off. *)
Theorem C31_sw_bijection : forall s eps dim,
  (forall p, 0 < p 0%nat -> cutoff_small s eps <= p 0%nat ->
     forall k, w_to_primitive_state s eps dim (w_from_primitive_state dim p) k = p k) /\
  (forall U, 0 < water_depth U -> cutoff_small s eps <= water_depth U ->
     forall k, w_from_primitive_state dim (w_to_primitive_state s eps dim U) k = U k).
Proof. exact sw_bijection. Qed.
Print Assumptions C31_sw_bijection.

Example C31_sw_bijection_ex : 0 < water_depth ex_W /\ cutoff_small ex_shallow (1 / 1000) <= water_depth ex_W.
Proof. exact ex_wet. Qed.

Theorem C31_sw_expand : forall s eps dim dim2 U, (dim2 <= dim)%nat ->
  let V := w_expand_state dim dim2 U in
  water_depth V = water_depth U /\ w_pressure s V = w_pressure s U /\
  kinetic_energy s eps dim V = kinetic_energy s eps dim2 U /\
  w_mathematical_entropy s eps dim V = w_mathematical_entropy s eps dim2 U.
Proof. exact w_expand_quantities. Qed.
Print Assumptions C31_sw_expand.

Theorem C31_sw_initial : forall dim dim2 p, (dim2 <= dim)%nat ->
  let V := w_from_initial_state dim dim2 p in
  water_depth V = p 0%nat /\
  forall k, (k < dim)%nat -> w_momentum V k = p 0%nat * (if Nat.ltb k dim2 then p (S k) else 0).
Proof. exact w_initial_state. Qed.
Print Assumptions C31_sw_initial.

(** ** C32 *)

Theorem C32_euler_slip : forall s dim U n data, norm2 dim n = 1 ->
  let V := apply_boundary_conditions s dim slip U n data in
  density V = density U /\ total_energy dim V = total_energy dim U /\
  dot dim (momentum V) n = 0 /\
  (forall t, dot dim n t = 0 -> dot dim (momentum V) t = dot dim (momentum U) t) /\
  (0 < density U -> internal_energy dim U <= internal_energy dim V) /\
  (forall k, (k < dim + 2)%nat -> apply_boundary_conditions s dim slip V n data k = V k).
Proof. exact slip_spec. Qed.
Print Assumptions C32_euler_slip.

Example C32_euler_slip_ex : norm2 2 ex_n = 1 /\
  let V := apply_boundary_conditions ex_euler 2 slip ex_U ex_n ex_U in
  momentum V 0%nat = 56 / 125 /\ momentum V 1%nat = - (42 / 125).
Proof. exact ex_slip. Qed.

Theorem C32_euler_no_slip : forall s dim U n data,
  let V := apply_boundary_conditions s dim no_slip U n data in
  density V = density U /\ total_energy dim V = total_energy dim U /\
  (forall k, (k < dim)%nat -> momentum V k = 0) /\
  (0 < density U -> internal_energy dim U <= internal_energy dim V) /\
  (forall k, (k < dim + 2)%nat -> apply_boundary_conditions s dim no_slip V n data k = V k).
Proof. exact no_slip_spec. Qed.
Print Assumptions C32_euler_no_slip.

Theorem C32_euler_admissible : forall s dim id U n data, norm2 dim n = 1 -> id = slip \/ id = no_slip ->
  is_admissible s dim U = true -> is_admissible s dim (apply_boundary_conditions s dim id U n data) = true.
Proof. exact walls_admissible. Qed.
Print Assumptions C32_euler_admissible.

Example C32_euler_admissible_ex : is_admissible ex_euler 2 ex_U = true.
Proof. exact ex_admissible. Qed.

Theorem C32_aeos_slip : forall dim U n data V, norm2 dim n = 1 ->
  a_apply_boundary_conditions dim slip U n data = Some V ->
  a_density V = a_density U /\ a_total_energy dim V = a_total_energy dim U /\
  dot dim (a_momentum V) n = 0 /\
  (forall t, dot dim n t = 0 -> dot dim (a_momentum V) t = dot dim (a_momentum U) t) /\
  (0 < a_density U -> a_internal_energy dim U <= a_internal_energy dim V) /\
  (exists W, a_apply_boundary_conditions dim slip V n data = Some W /\ forall k, (k < dim + 2)%nat -> W k = V k).
Proof. exact a_slip_spec. Qed.
Print Assumptions C32_aeos_slip.

Theorem C32_aeos_no_slip : forall dim U n data V,
  a_apply_boundary_conditions dim no_slip U n data = Some V ->
  a_density V = a_density U /\ a_total_energy dim V = a_total_energy dim U /\
  (forall k, (k < dim)%nat -> a_momentum V k = 0) /\
  (0 < a_density U -> a_internal_energy dim U <= a_internal_energy dim V) /\
  (exists W, a_apply_boundary_conditions dim no_slip V n data = Some W /\ forall k, (k < dim + 2)%nat -> W k = V k).
Proof. exact a_no_slip_spec. Qed.
Print Assumptions C32_aeos_no_slip.

Theorem C32_aeos_admissible : forall e dim id U n data, norm2 dim n = 1 -> id = slip \/ id = no_slip ->
  a_is_admissible e dim U = true ->
  exists V, a_apply_boundary_conditions dim id U n data = Some V /\ a_is_admissible e dim V = true.
Proof. exact a_walls_admissible. Qed.
Print Assumptions C32_aeos_admissible.

Example C32_aeos_admissible_ex : a_is_admissible ex_eos 2 ex_U = true.
Proof. exact ex_a_admissible. Qed.

Theorem C32_sw_slip : forall s eps dim U n data, norm2 dim n = 1 ->
  let V := w_apply_boundary_conditions s eps dim slip U n data in
  water_depth V = water_depth U /\
  dot dim (w_momentum V) n = 0 /\
  (forall t, dot dim n t = 0 -> dot dim (w_momentum V) t = dot dim (w_momentum U) t) /\
  (0 <= water_depth U -> w_mathematical_entropy s eps dim V <= w_mathematical_entropy s eps dim U) /\
  w_is_admissible s eps V = w_is_admissible s eps U /\
  (forall k, (k < dim + 1)%nat -> w_apply_boundary_conditions s eps dim slip V n data k = V k).
Proof. exact w_slip_spec. Qed.
Print Assumptions C32_sw_slip.

Theorem C32_sw_no_slip : forall s eps dim U n data,
  let V := w_apply_boundary_conditions s eps dim no_slip U n data in
  water_depth V = water_depth U /\
  (forall k, (k < dim)%nat -> w_momentum V k = 0) /\
  (0 <= water_depth U -> w_mathematical_entropy s eps dim V <= w_mathematical_entropy s eps dim U) /\
  w_is_admissible s eps V = w_is_admissible s eps U /\
  (forall k, (k < dim + 1)%nat -> w_apply_boundary_conditions s eps dim no_slip V n data k = V k).
Proof. exact w_no_slip_spec. Qed.
Print Assumptions C32_sw_no_slip.

(** ** C33 *)

Theorem C33_euler_consistent : forall s dim U n,
  1 < gamma s -> norm2 dim n = 1 -> 0 < density U -> 0 < pressure s dim U ->
  forall k, (k < dim + 2)%nat -> apply_boundary_conditions s dim dynamic U n U k = U k.
Proof. exact dynamic_consistent. Qed.
Print Assumptions C33_euler_consistent.

Example C33_euler_consistent_ex :
  1 < gamma ex_euler /\ norm2 2 ex_n = 1 /\ 0 < density ex_U /\ 0 < pressure ex_euler 2 ex_U.
Proof. exact ex_dynamic. Qed.

(** Supersonic inflow takes the prescribed state, supersonic outflow the interior state;
    otherwise the incoming Riemann invariant is prescribed, the outgoing one kept, and
    entropy and tangential velocity are those of the upstream state. *)
Theorem C33_euler_regimes : forall s dim U n data,
  1 < gamma s -> norm2 dim n = 1 -> 0 < density U -> 0 < pressure s dim U ->
  0 < density data -> 0 < pressure s dim data ->
  invariant_1 s dim n data < invariant_2 s dim n U ->
  let a := speed_of_sound s dim U in
  let vn := normal_velocity dim n U in
  let V := apply_boundary_conditions s dim dynamic U n data in
  (vn < - a -> V = data) /\
  (a < vn -> V = U) /\
  (- a <= vn <= a ->
     let upstream := if Rle_dec vn 0 then data else U in
     0 < density V /\ 0 < pressure s dim V /\
     invariant_1 s dim n V = invariant_1 s dim n data /\
     invariant_2 s dim n V = invariant_2 s dim n U /\
     isentropic s dim V = isentropic s dim upstream /\
     (forall t, dot dim n t = 0 ->
        dot dim (momentum V) t / density V = dot dim (momentum upstream) t / density upstream)).
Proof. exact euler_regimes. Qed.
Print Assumptions C33_euler_regimes.

Example C33_euler_regimes_ex :
  0 < density ex_D /\ 0 < pressure ex_euler 2 ex_D /\
  invariant_1 ex_euler 2 ex_n ex_D < invariant_2 ex_euler 2 ex_n ex_U /\
  - speed_of_sound ex_euler 2 ex_U <= normal_velocity 2 ex_n ex_U <= speed_of_sound ex_euler 2 ex_U /\
  ex_D 0%nat <> ex_U 0%nat.
Proof. exact ex_regimes. Qed.

Theorem C33_sw_consistent : forall s eps dim U n,
  0 < gravity s -> norm2 dim n = 1 -> 0 < water_depth U -> cutoff_small s eps <= water_depth U ->
  forall k, (k < dim + 1)%nat -> w_apply_boundary_conditions s eps dim dynamic U n U k = U k.
Proof. exact w_dynamic_consistent. Qed.
Print Assumptions C33_sw_consistent.

Theorem C33_sw_regimes : forall s eps dim U n data,
  0 < gravity s -> norm2 dim n = 1 -> 0 < water_depth U -> cutoff_small s eps <= water_depth U ->
  0 < water_depth data -> cutoff_small s eps <= water_depth data ->
  w_invariant_1 s dim n data < w_invariant_2 s dim n U ->
  let a := w_speed_of_sound s U in
  let vn := w_normal_velocity dim n U in
  let V := w_apply_boundary_conditions s eps dim dynamic U n data in
  (vn < - a -> V = data) /\
  (a < vn -> V = U) /\
  (- a <= vn <= a ->
     let upstream := if Rle_dec vn 0 then data else U in
     0 < water_depth V /\
     w_invariant_1 s dim n V = w_invariant_1 s dim n data /\
     w_invariant_2 s dim n V = w_invariant_2 s dim n U /\
     (forall t, dot dim n t = 0 ->
        dot dim (w_momentum V) t / water_depth V = dot dim (w_momentum upstream) t / water_depth upstream)).
Proof. exact sw_regimes. Qed.
Print Assumptions C33_sw_regimes.

Example C33_sw_regimes_ex :
  0 < gravity ex_shallow /\ 0 < water_depth ex_W /\ cutoff_small ex_shallow (1 / 1000) <= water_depth ex_W /\
  w_invariant_1 ex_shallow 2 ex_n ex_W < w_invariant_2 ex_shallow 2 ex_n ex_W /\
  - w_speed_of_sound ex_shallow ex_W <= w_normal_velocity 2 ex_n ex_W <= w_speed_of_sound ex_shallow ex_W.
Proof. exact ex_sw_regimes. Qed.

(** ** C34 *)

(** Euler: the flux in direction c in primitive variables. *)
Theorem C34_euler_flux : forall s dim p c, gamma s <> 1 -> p 0%nat <> 0 ->
  let U := from_primitive_state s dim p in
  let rho := p 0%nat in let u := momentum p in let pr := p (S dim) in
  let un := dot dim u c in
  dot dim (EulerSystem.flux s dim U 0%nat) c = rho * un /\
  (forall k, (k < dim)%nat -> dot dim (EulerSystem.flux s dim U (S k)) c = rho * un * u k + pr * c k) /\
  dot dim (EulerSystem.flux s dim U (S dim)) c = un * (total_energy dim U + pr).
Proof. exact flux_primitive. Qed.
Print Assumptions C34_euler_flux.

Theorem C34_euler_covariant : forall s dim U lambda c, isometry dim lambda ->
  let V := apply_galilei_transform dim U lambda in
  forall k, (k < dim + 2)%nat ->
  contract dim (EulerSystem.flux s dim V) (lambda c) k =
  apply_galilei_transform dim (contract dim (EulerSystem.flux s dim U) c) lambda k.
Proof. exact flux_covariant. Qed.
Print Assumptions C34_euler_covariant.

Example C34_euler_covariant_ex : isometry 2 (fun a k => if Nat.eqb k 0 then - a 1%nat else a 0%nat).
Proof. exact ex_rotation. Qed.

Theorem C34_euler_conservative : forall dim f_i f_j c k,
  flux_divergence dim f_j f_i (vscal (-1) c) k = - flux_divergence dim f_i f_j c k /\
  flux_divergence dim f_i f_i c k = - 2 * contract dim f_i c k.
Proof. exact euler_conservative. Qed.
Print Assumptions C34_euler_conservative.

Theorem C34_aeos_flux : forall dim prim p c, prim 0%nat <> 0 ->
  let U := a_from_primitive_state dim prim in
  let rho := prim 0%nat in let u := a_momentum prim in
  let un := dot dim u c in
  dot dim (a_flux dim U p 0%nat) c = rho * un /\
  (forall k, (k < dim)%nat -> dot dim (a_flux dim U p (S k)) c = rho * un * u k + p * c k) /\
  dot dim (a_flux dim U p (S dim)) c = un * (rho * prim (S dim) + 1 / 2 * rho * norm2 dim u + p).
Proof. exact a_flux_primitive. Qed.
Print Assumptions C34_aeos_flux.

Theorem C34_aeos_covariant : forall dim U p lambda c, isometry dim lambda ->
  forall k, (k < dim + 2)%nat ->
  contract dim (a_flux dim (a_apply_galilei_transform dim U lambda) p) (lambda c) k =
  a_apply_galilei_transform dim (contract dim (a_flux dim U p) c) lambda k.
Proof. exact a_flux_covariant. Qed.
Print Assumptions C34_aeos_covariant.

Theorem C34_aeos_conservative : forall dim f_i f_j c k,
  a_flux_divergence dim f_j f_i (vscal (-1) c) k = - a_flux_divergence dim f_i f_j c k /\
  a_flux_divergence dim f_i f_i c k = - 2 * contract dim f_i c k.
Proof. exact aeos_conservative. Qed.
Print Assumptions C34_aeos_conservative.

Theorem C34_sw_flux : forall s eps dim p c, 0 < p 0%nat -> cutoff_small s eps <= p 0%nat ->
  let U := w_from_primitive_state dim p in
  let h := p 0%nat in let u := w_momentum p in let un := dot dim u c in
  dot dim (w_f s eps U 0%nat) c = h * un /\
  (forall k, (k < dim)%nat -> dot dim (w_f s eps U (S k)) c = h * un * u k + 1 / 2 * gravity s * (h * h) * c k).
Proof. exact w_f_primitive. Qed.
Print Assumptions C34_sw_flux.

Theorem C34_sw_covariant : forall s eps dim U lambda c, isometry dim lambda ->
  0 < water_depth U -> cutoff_small s eps <= water_depth U ->
  forall k, (k < dim + 1)%nat ->
  contract dim (w_f s eps (w_apply_galilei_transform dim U lambda)) (lambda c) k =
  w_apply_galilei_transform dim (contract dim (w_f s eps U) c) lambda k.
Proof. exact w_flux_covariant. Qed.
Print Assumptions C34_sw_covariant.

(** Shallow water over a flat bottom: the low order flux of wet states is the central flux. *)
Theorem C34_sw_flat : forall s eps dim U_i U_j Z c,
  0 < water_depth U_i -> cutoff_large s eps <= water_depth U_i ->
  0 < water_depth U_j -> cutoff_large s eps <= water_depth U_j ->
  forall k, (k < dim + 1)%nat ->
  w_flux_divergence s eps dim (U_i, Z) (U_j, Z) c k =
  - (contract dim (w_f s eps U_i) c k + contract dim (w_f s eps U_j) c k).
Proof. exact w_flux_divergence_flat. Qed.
Print Assumptions C34_sw_flat.

Example C34_sw_flat_ex : 0 < water_depth ex_W /\ cutoff_large ex_shallow (1 / 1000) <= water_depth ex_W.
Proof. exact ex_wet_large. Qed.

(** ... and the high order flux is antisymmetric and consistent. *)
Theorem C34_sw_flat_high_order : forall s eps dim U_i U_j Z c,
  let F_ij := w_high_order_flux_divergence s eps dim (U_i, Z) (U_j, Z) c in
  let F_ji := w_high_order_flux_divergence s eps dim (U_j, Z) (U_i, Z) (vscal (-1) c) in
  let F_ii := w_high_order_flux_divergence s eps dim (U_i, Z) (U_i, Z) c in
  forall k, (k < dim + 1)%nat -> F_ji k = - F_ij k /\ F_ii k = -2 * contract dim (w_f s eps U_i) c k.
Proof. exact w_high_order_flat. Qed.
Print Assumptions C34_sw_flat_high_order.

(** Over every bottom no water is lost or created. *)
Theorem C34_sw_mass : forall s eps dim F_i F_j c,
  w_flux_divergence s eps dim F_j F_i (vscal (-1) c) 0%nat = - w_flux_divergence s eps dim F_i F_j c 0%nat /\
  w_high_order_flux_divergence s eps dim F_j F_i (vscal (-1) c) 0%nat =
    - w_high_order_flux_divergence s eps dim F_i F_j c 0%nat.
Proof. exact w_flux_divergence_mass. Qed.
Print Assumptions C34_sw_mass.

(** ** C35 *)

Theorem C35_euler_harten : forall s dim U P, 0 < gamma s + 1 ->
  0 < density U * total_energy dim U - 1 / 2 * norm2 dim (momentum U) ->
  derivable_pt_lim (fun t => harten_entropy s dim (line U P t)) 0 (dot (dim + 2) (harten_entropy_derivative s dim U) P).
Proof. exact harten_deriv. Qed.
Print Assumptions C35_euler_harten.

Example C35_euler_harten_ex : 0 < gamma ex_euler + 1 /\
  0 < density ex_U * total_energy 2 ex_U - 1 / 2 * norm2 2 (momentum ex_U).
Proof. exact ex_harten. Qed.

Theorem C35_euler_internal_energy : forall dim U P, 0 < density U ->
  derivable_pt_lim (fun t => internal_energy dim (line U P t)) 0 (dot (dim + 2) (internal_energy_derivative dim U) P).
Proof. exact internal_energy_deriv. Qed.
Print Assumptions C35_euler_internal_energy.

Theorem C35_euler_mathematical : forall s dim U P, 0 < gamma s -> 0 < density U -> 0 < pressure s dim U ->
  derivable_pt_lim (fun t => mathematical_entropy s dim (line U P t)) 0
    (dot (dim + 2) (mathematical_entropy_derivative s dim U) P).
Proof. exact mathematical_deriv. Qed.
Print Assumptions C35_euler_mathematical.

(** The derivative the Euler limiter hands to the Newton step. *)
Theorem C35_euler_limiter : forall s dim L t, 0 < density (along L t) ->
  derivable_pt_lim (psi s 0 dim L) t (dpsi s dim L t).
Proof. exact euler_dpsi. Qed.
Print Assumptions C35_euler_limiter.

Theorem C35_aeos_internal_energy : forall dim U P, 0 < a_density U ->
  derivable_pt_lim (fun t => a_internal_energy dim (line U P t)) 0 (dot (dim + 2) (a_internal_energy_derivative dim U) P).
Proof. exact internal_energy_deriv. Qed.
Print Assumptions C35_aeos_internal_energy.

(** The surrogate entropy; the code passes the stored value of the entropy as [eta]. *)
Theorem C35_aeos_harten : forall e dim U P g, 0 < g + 1 ->
  0 < 1 - interp_b e * a_density U ->
  0 < a_density U * a_total_energy dim U - 1 / 2 * norm2 dim (a_momentum U)
      - a_density U * a_density U * interp_q e - a_density U * interp_pinf e * (1 - interp_b e * a_density U) ->
  derivable_pt_lim (fun t => surrogate_harten_entropy e dim (line U P t) g) 0
    (dot (dim + 2) (surrogate_harten_entropy_derivative e dim U (surrogate_harten_entropy e dim U g) g) P).
Proof. exact surrogate_harten_deriv. Qed.
Print Assumptions C35_aeos_harten.

Example C35_aeos_harten_ex :
  0 < 1 - interp_b ex_eos * a_density ex_U /\
  0 < a_density ex_U * a_total_energy 2 ex_U - 1 / 2 * norm2 2 (a_momentum ex_U)
      - a_density ex_U * a_density ex_U * interp_q ex_eos
      - a_density ex_U * interp_pinf ex_eos * (1 - interp_b ex_eos * a_density ex_U).
Proof. exact ex_a_harten. Qed.

Theorem C35_aeos_limiter : forall s dim L t,
  0 < a_density (a_along L t) -> 0 < 1 - interp_b (a_eos s) * a_density (a_along L t) ->
  derivable_pt_lim (a_psi s 0 dim L) t (a_dpsi s dim L t).
Proof. exact aeos_dpsi. Qed.
Print Assumptions C35_aeos_limiter.

Theorem C35_sw_entropy : forall s eps dim U P, 0 < water_depth U -> cutoff_small s eps < water_depth U ->
  derivable_pt_lim (fun t => w_mathematical_entropy s eps dim (line U P t)) 0
    (dot (dim + 1) (w_mathematical_entropy_derivative s eps dim U) P).
Proof. exact w_entropy_deriv. Qed.
Print Assumptions C35_sw_entropy.

(** ** C45 *)

(** A step of size tau with the friction source only scales the momentum, by a factor in
    (0, 1], and does not change the depth.  h_star is the precomputed positive value. *)
Theorem C45_damps : forall s eps dim U h_star tau,
  0 <= gravity s -> 0 <= tau -> 0 < h_star ->
  let F := manning_friction s eps dim U h_star tau in
  F 0%nat = 0 /\
  exists theta, 0 < theta <= 1 /\
    forall k, (k < dim)%nat -> w_momentum U k + tau * w_momentum F k = theta * w_momentum U k.
Proof. exact friction_damps. Qed.
Print Assumptions C45_damps.

(** The precomputed h_star is positive. *)
Theorem C45_h_star : forall s eps dim U, 0 < cutoff_small s eps -> 0 < snd (w_precomputed s eps dim U).
Proof. exact h_star_pos. Qed.
Print Assumptions C45_h_star.

(** For wet states and a step size that resolves the friction the source is Manning's law
    - g n^2 |v| q / h^{4/3}. *)
Theorem C45_manning : forall s eps dim U tau,
  0 <= tau -> 0 < water_depth U -> cutoff_small s eps <= water_depth U -> cutoff_large s eps <= water_depth U ->
  let g := gravity s in let n := manning_friction_coefficient s in
  let h := water_depth U in let m := w_momentum U in
  let speed := sqrt (norm2 dim m) / h in
  tau * (2 * g * n ^ 2 * speed) <= powr h (4 / 3) ->
  forall k, (k < dim)%nat ->
  w_momentum (manning_friction s eps dim U (snd (w_precomputed s eps dim U)) tau) k = - (g * n ^ 2 * speed * m k) / powr h (4 / 3).
Proof. exact friction_law. Qed.
Print Assumptions C45_manning.

Example C45_manning_ex :
  0 < water_depth ex_W /\ cutoff_small ex_shallow (1 / 1000) <= water_depth ex_W /\ cutoff_large ex_shallow (1 / 1000) <= water_depth ex_W /\
  1 / 100 * (2 * gravity ex_shallow * manning_friction_coefficient ex_shallow ^ 2 * (sqrt (norm2 2 (w_momentum ex_W)) / water_depth ex_W))
    <= powr (water_depth ex_W) (4 / 3).
Proof. exact ex_manning. Qed.

Example C45_damps_ex :
  0 <= gravity ex_shallow /\ 0 < cutoff_small ex_shallow (1 / 1000) /\
  w_momentum (manning_friction ex_shallow (1 / 1000) 2 ex_W 1 1) 0%nat < 0.
Proof. exact ex_friction. Qed.

(** ** C46 *)

Theorem C46_inverse_depth : forall s eps U, 0 < cutoff_large s eps ->
  let h := water_depth U in let i := inverse_water_depth_mollified s eps U in
  0 <= i /\ (h <= 0 -> i = 0) /\ (0 < h -> 0 < i <= 1 / h) /\ (cutoff_large s eps <= h -> i = 1 / h) /\
  i <= 2 / cutoff_large s eps.
Proof. exact mollified_inverse. Qed.
Print Assumptions C46_inverse_depth.

Theorem C46_velocity : forall s eps dim U, 0 < cutoff_large s eps ->
  let h := water_depth U in
  let v := vscal (inverse_water_depth_mollified s eps U) (w_momentum U) in
  (0 < h -> sqrt (norm2 dim v) <= sqrt (norm2 dim (w_momentum U)) / h) /\
  (cutoff_large s eps <= h -> forall k, v k = w_momentum U k / h) /\
  (h <= 0 -> forall k, v k = 0).
Proof. exact mollified_velocity. Qed.
Print Assumptions C46_velocity.

Example C46_velocity_ex : 0 < cutoff_large ex_shallow (1 / 1000).
Proof. exact ex_cutoff_large. Qed.

(** ** C80 *)

(** The vacuum and dry state filters remove only values of magnitude below the
    cut off; in particular they never hide a negative density or depth that is
    not roundoff. *)
Theorem C80_filters : forall eps,
  (forall s, roundoff_filter (reference_density s * vacuum_state_relaxation_large s * eps) (filter_vacuum_density s eps)) /\
  (forall s, roundoff_filter (a_reference_density s * a_relaxation_large s * eps) (a_filter_vacuum_density s eps)) /\
  (forall s, roundoff_filter (cutoff_large s eps) (filter_dry_water_depth s eps)).
Proof. exact C80_filters_proof. Qed.
Print Assumptions C80_filters.

Example C80_filters_ex : filter_dry_water_depth ex_shallow (1 / 1000) (-1) = -1 /\
  filter_dry_water_depth ex_shallow (1 / 1000) 0 = 0.
Proof. exact C80_ex_proof. Qed.
