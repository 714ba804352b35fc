(** * The EulerAEOS part of C27; C63, C64 and C65 *)
From Coq Require Import Reals List Permutation Lra.
From Verif Require Import RVec EulerSystem AeosSystem EulerLimiter AeosLimiter AeosLimiterSpec AeosLimiterProofs
  AeosLimiterEntropy AeosLimiterBounds AeosLimiterFinal.
Import ListNotations.
Local Open Scope R_scope.

(** C27 (EulerAEOS): the accumulated bounds do not depend on the order of the
    stencil. *)
Theorem C27_aeos_order : forall s dim big gamma_i U_i flux_i cs cs',
  Permutation cs cs' ->
  al_stencil s dim big gamma_i U_i flux_i cs = al_stencil s dim big gamma_i U_i flux_i cs'.
Proof. exact al_stencil_perm. Qed.
Print Assumptions C27_aeos_order.

Example C27_aeos_order_ex : Permutation ex_astencil (rev ex_astencil).
Proof. apply Permutation_rev. Qed.

(** C27 (EulerAEOS): the relaxed bounds contain the density and the surrogate
    entropy of every bar state and the entropy of every stencil state. *)
Theorem C27_aeos_relaxed_contains : forall s dim big eps factor hd_i gamma_i U_i f cs,
  0 < eps -> 0 <= factor -> 0 <= big -> 1 < gamma_i -> 0 <= interp_b (a_eos s) ->
  (forall c, In c cs -> 0 <= a_density (bar_of dim U_i f c) /\
     interp_b (a_eos s) * a_density (bar_of dim U_i f c) <= 1 /\
     0 <= s_of s dim gamma_i c /\ 0 <= s_bar_of s dim gamma_i U_i f c) ->
  (exists c, In c cs /\ ac_U c = U_i) ->
  let b := al_get_bounds s eps factor dim (al_stencil s dim big gamma_i U_i f cs) hd_i in
  forall c, In c cs ->
    arho_min b <= a_density (bar_of dim U_i f c) <= arho_max b /\
    as_min b <= s_of s dim gamma_i c /\ as_min b <= s_bar_of s dim gamma_i U_i f c.
Proof. exact a_stencil_contains. Qed.
Print Assumptions C27_aeos_relaxed_contains.

Example C27_aeos_relaxed_contains_ex :
  let U_i := mkstate 1 2 (fun _ => 0) 5 in
  (forall c, In c ex_astencil -> 0 <= a_density (bar_of 1 U_i (fun _ _ => 0) c) /\
     interp_b (a_eos ex_aeos) * a_density (bar_of 1 U_i (fun _ _ => 0) c) <= 1 /\
     0 <= s_of ex_aeos 1 2 c /\ 0 <= s_bar_of ex_aeos 1 2 U_i (fun _ _ => 0) c) /\
  (exists c, In c ex_astencil /\ ac_U c = U_i).
Proof. exact ex_astencil_ok. Qed.

(** C27 (EulerAEOS): relaxation keeps the lower bounds positive as long as r_i < 1. *)
Theorem C27_aeos_relaxed_positive : forall s eps factor dim l hd_i,
  relaxation_radius dim hd_i * factor < 1 ->
  (0 < arho_min (al_bounds l) -> 0 < arho_min (al_get_bounds s eps factor dim l hd_i)) /\
  (0 <= as_min (al_bounds l) -> 0 <= as_min (al_get_bounds s eps factor dim l hd_i)).
Proof. exact a_relaxed_positive. Qed.
Print Assumptions C27_aeos_relaxed_positive.

Example C27_aeos_relaxed_positive_ex : relaxation_radius 1 (1 / 4) * 1 < 1.
Proof.
  unfold relaxation_radius. simpl.
  replace (1 / 4) with ((1 / 2) * (1 / 2)) by field. rewrite sqrt_square by lra. lra.
Qed.

(** C27 (EulerAEOS): combined bounds contain both. *)
Theorem C27_aeos_combine : forall l r,
  let b := a_combine_bounds l r in
  (arho_min b <= arho_min l /\ arho_max l <= arho_max b /\ as_min b <= as_min l /\ agamma_min b <= agamma_min l) /\
  (arho_min b <= arho_min r /\ arho_max r <= arho_max b /\ as_min b <= as_min r /\ agamma_min b <= agamma_min r).
Proof. exact a_combine_contains. Qed.
Print Assumptions C27_aeos_combine.

Example C27_aeos_combine_ex :
  agamma_min (a_combine_bounds {| arho_min := 1; arho_max := 2; as_min := 3; agamma_min := 2 |}
                               {| arho_min := 2; arho_max := 5; as_min := 1; agamma_min := 3 |}) = 2.
Proof. simpl. apply Rmin_left. lra. Qed.

(** C63: every lane's coefficient lies in [t_min, t_max], for every equation of
    state, machine epsilon, tolerance and iteration budget. *)
Theorem C63_range : forall s eps tol newton_max_iterations dim lanes ts success,
  Forall (fun L => al_tmin L <= al_tmax L) lanes ->
  a_limit s eps tol newton_max_iterations dim lanes = (ts, success) ->
  Forall2 (fun L t => al_tmin L <= t <= al_tmax L) lanes ts.
Proof. exact a_limit_in_range. Qed.
Print Assumptions C63_range.

Example C63_range_ex : Forall (fun L => al_tmin L <= al_tmax L) [ex_alane; ex_alane].
Proof. repeat constructor; simpl; lra. Qed.

(** C63: the updated density stays within the bounds. *)
Theorem C63_density_bounds : forall s eps tol newton_max_iterations dim lanes ts success,
  0 <= eps ->
  Forall a_density_call lanes ->
  a_limit s eps tol newton_max_iterations dim lanes = (ts, success) ->
  Forall2 (fun L t => a_density_within (al_b L) (a_updated L t)) lanes ts.
Proof. exact C63_density_bounds_proof. Qed.
Print Assumptions C63_density_bounds.

Example C63_density_bounds_ex : Forall a_density_call [ex_alane].
Proof. constructor; [exact ex_a_density_call|constructor]. Qed.

(** C63: if the full update U + t_max P is within the density bounds and satisfies
    the (relaxed) entropy inequality strictly, the coefficient is t_max, whatever the
    other lanes do. *)
Theorem C63_full_update_accepted : forall s eps tol n dim lanes ts success k L,
  a_limit s eps tol (S n) dim lanes = (ts, success) ->
  nth_error lanes k = Some L ->
  al_tmin L <= al_tmax L ->
  let b := interp_b (a_eos s) in
  let V := a_updated L (al_tmax L) in
  let rho := a_density V in
  let gamma := agamma_min (al_b L) in
  a_density_within (al_b L) V ->
  as_min (al_b L) * rho * powr rho gamma * powr (1 - b * rho) (- (gamma - 1))
    < a_relax_small s eps * rho *
      (a_internal_energy dim V - rho * interp_q (a_eos s) - interp_pinf (a_eos s) * (1 - b * rho)) ->
  nth_error ts k = Some (al_tmax L).
Proof. exact C63_full_update_accepted_proof. Qed.
Print Assumptions C63_full_update_accepted.

Example C63_full_update_accepted_ex :
  let L := {| al_b := {| arho_min := 1; arho_max := 4; as_min := 1 / 4; agamma_min := 2 |};
              al_U := mkstate 1 2 (fun _ => 0) 5; al_P := mkstate 1 (-1) (fun _ => 1) 0;
              al_tmin := 0; al_tmax := 1 |} in
  let V := a_updated L (al_tmax L) in
  let rho := a_density V in
  a_density_within (al_b L) V /\
  as_min (al_b L) * rho * powr rho 2 * powr (1 - 1 / 8 * rho) (- (2 - 1))
    < a_relax_small ex_aeos 0 * rho * (a_internal_energy 1 V - rho * 0 - 0 * (1 - 1 / 8 * rho)).
Proof.
  cbv zeta. unfold a_density_within, a_updated, a_relax_small, a_internal_energy, norm2, dot, a_total_energy,
    a_density, a_momentum, mkstate. simpl.
  rewrite powr_2 by lra. rewrite powr_opp by lra. replace (2 - 1) with 1 by ring. rewrite powr_1 by lra.
  replace (1 / (2 + 1 * -1)) with 1 by field.
  replace (/ (1 - 1 / 8 * (2 + 1 * -1))) with (8 / 7) by field. lra.
Qed.

(** C64: in exact arithmetic (eps = 0) the returned coefficients keep the surrogate
    entropy at least s_min, whatever the tolerance, the iteration budget and the
    other lanes. *)
Theorem C64_entropy_bound : forall s tol newton_max_iterations dim lanes ts success,
  Forall (a_entropy_call s dim) lanes ->
  a_limit s 0 tol newton_max_iterations dim lanes = (ts, success) ->
  Forall2 (fun L t => as_min (al_b L) <=
             surrogate_specific_entropy (a_eos s) dim (a_updated L t) (agamma_min (al_b L))) lanes ts.
Proof. exact C64_entropy_bound_proof. Qed.
Print Assumptions C64_entropy_bound.

Example C64_entropy_bound_ex :
  Forall (a_entropy_call ex_aeos 1) [ex_alane] /\
  (* the density bound alone would not suffice *)
  a_limit_density 0 ex_alane = 1 / 2 /\
  surrogate_specific_entropy ex_eos 1 (a_updated ex_alane (1 / 2)) 2 < as_min (al_b ex_alane).
Proof.
  split; [constructor; [exact ex_a_entropy_call|constructor]|]. exact ex_a_violates.
Qed.

(** C64: with such arguments limit() reports success. *)
Theorem C64_success_reported : forall s tol newton_max_iterations dim lanes ts success,
  Forall (a_entropy_call s dim) lanes ->
  a_limit s 0 tol newton_max_iterations dim lanes = (ts, success) ->
  success = true.
Proof. exact C64_success_reported_proof. Qed.
Print Assumptions C64_success_reported.

Example C64_success_reported_ex : Forall (a_entropy_call ex_aeos 1) [ex_alane].
Proof. constructor; [exact ex_a_entropy_call|constructor]. Qed.

(** C65, the part that holds: as long as the relaxed upper density bound does not
    exceed the maximal density 1/b, the compressibility cap leaves it unchanged. *)
Theorem C65_cap_partial : forall s eps factor dim l hd_i,
  1 < agamma_min (al_bounds l) -> 0 < interp_b (a_eos s) ->
  let relaxed := Rmin ((1 + relaxation_radius dim hd_i * factor) * arho_max (al_bounds l))
       (arho_max (al_bounds l) + 2 * factor * (Rabs (al_num l) / (Rabs (al_den l) + eps))) in
  0 <= interp_b (a_eos s) * relaxed <= 1 ->
  arho_max (al_get_bounds s eps factor dim l hd_i) = relaxed.
Proof. exact C65_cap_partial_proof. Qed.
Print Assumptions C65_cap_partial.

Example C65_cap_partial_ex :
  0 <= 1 / 8 * Rmin ((1 + 1 / 8) * 4) (4 + 2 * 1 * 6) <= 1.
Proof. rewrite Rmin_left by lra. lra. Qed.

(** C65 is false: for a uniform stencil (all bar states equal to a state with
    b rho = 95/100 < 1) bounds() returns an upper density bound beyond the maximal
    density, with the default relaxation factor 1. *)
Theorem C65_cap_refuted : forall eps, 0 <= eps <= 1 ->
  exists s big gamma_i U_i flux_i cs hd_i,
    0 < interp_b (a_eos s) /\ 1 < gamma_i /\
    (forall c, In c cs -> ac_U c = U_i /\
       interp_b (a_eos s) * a_density (bar_of 1 U_i flux_i c) <= 95 / 100) /\
    1 < interp_b (a_eos s) *
        arho_max (al_get_bounds s eps 1 1 (al_stencil s 1 big gamma_i U_i flux_i cs) hd_i).
Proof. exact C65_cap_refuted_proof. Qed.
Print Assumptions C65_cap_refuted.
