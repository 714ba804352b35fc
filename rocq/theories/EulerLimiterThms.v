(** * C25, C26 and the Euler part of C27 *)
From Coq Require Import Reals List Permutation Lra.
From Verif Require Import RVec EulerSystem EulerLimiter EulerLimiterSpec EulerLimiterProofs
  EulerLimiterEntropy EulerLimiterBounds EulerLimiterFinal.
Import ListNotations.
Local Open Scope R_scope.

(** C25: every lane's coefficient lies in [t_min, t_max], for every machine
    epsilon, tolerance and iteration budget. *)
Theorem C25_range : forall s eps tol newton_max_iterations dim lanes ts success,
  Forall (fun L => l_tmin L <= l_tmax L) lanes ->
  limit s eps tol newton_max_iterations dim lanes = (ts, success) ->
  Forall2 (fun L t => l_tmin L <= t <= l_tmax L) lanes ts.
Proof. exact limit_in_range. Qed.
Print Assumptions C25_range.

Example C25_range_ex : Forall (fun L => l_tmin L <= l_tmax L) [ex_lane; ex_lane].
Proof. repeat constructor; simpl; lra. Qed.

(** C25: the updated density stays within the bounds. *)
Theorem C25_density_bounds : forall s eps tol newton_max_iterations dim lanes ts success,
  0 <= eps ->
  Forall density_call lanes ->
  limit s eps tol newton_max_iterations dim lanes = (ts, success) ->
  Forall2 (fun L t => density_within (l_bounds L) (updated L t)) lanes ts.
Proof. exact C25_density_bounds_proof. Qed.
Print Assumptions C25_density_bounds.

Example C25_density_bounds_ex : Forall density_call [ex_lane].
Proof. constructor; [exact ex_density_call|constructor]. Qed.

(** C25: the limiter does not limit more than necessary at the right end: if the
    full update U + t_max P is within the density bounds and satisfies the (relaxed)
    entropy inequality strictly, the coefficient is t_max, whatever the other lanes
    do. *)
Theorem C25_full_update_accepted : forall s eps tol n dim lanes ts success k L,
  limit s eps tol (S n) dim lanes = (ts, success) ->
  nth_error lanes k = Some L ->
  l_tmin L <= l_tmax L ->
  density_within (l_bounds L) (updated L (l_tmax L)) ->
  s_min (l_bounds L) * powr (density (updated L (l_tmax L))) (gamma s) * density (updated L (l_tmax L))
    < relax_small s eps * density (updated L (l_tmax L)) * internal_energy dim (updated L (l_tmax L)) ->
  nth_error ts k = Some (l_tmax L).
Proof. exact C25_full_update_accepted_proof. Qed.
Print Assumptions C25_full_update_accepted.

Example C25_full_update_accepted_ex :
  let L := {| l_bounds := {| rho_min := 1; rho_max := 3; s_min := 1 |};
              l_U := mkstate 1 2 (fun _ => 0) 5; l_P := mkstate 1 (-1) (fun _ => 1) 0;
              l_tmin := 0; l_tmax := 1 |} in
  density_within (l_bounds L) (updated L (l_tmax L)) /\
  s_min (l_bounds L) * powr (density (updated L (l_tmax L))) (gamma ex_euler) * density (updated L (l_tmax L))
    < relax_small ex_euler 0 * density (updated L (l_tmax L)) * internal_energy 1 (updated L (l_tmax L)).
Proof.
  cbv zeta. unfold density_within, updated, relax_small, internal_energy, norm2, dot, total_energy,
    density, momentum, mkstate. simpl. rewrite powr_2 by lra.
  replace (1 / (2 + 1 * -1)) with 1 by field. lra.
Qed.

(** C26: in exact arithmetic (eps = 0) the Newton loop never leaves the set where
    the specific entropy is at least s_min, whatever the tolerance, the iteration
    budget and the other lanes. *)
Theorem C26_entropy_bound : forall s tol newton_max_iterations dim lanes ts success,
  1 < gamma s ->
  Forall (entropy_call s dim) lanes ->
  limit s 0 tol newton_max_iterations dim lanes = (ts, success) ->
  Forall2 (fun L t => s_min (l_bounds L) <= specific_entropy s dim (updated L t)) lanes ts.
Proof. exact C26_entropy_bound_proof. Qed.
Print Assumptions C26_entropy_bound.

Example C26_entropy_bound_ex :
  1 < gamma ex_euler /\ Forall (entropy_call ex_euler 1) [ex_lane] /\
  (* the density bound alone would not suffice *)
  limit_density 0 ex_lane = 1 / 4 /\
  specific_entropy ex_euler 1 (updated ex_lane (1 / 4)) < s_min (l_bounds ex_lane).
Proof.
  split; [simpl; lra|]. split; [constructor; [exact ex_entropy_call|constructor]|].
  exact ex_violates.
Qed.

(** C26: with such arguments limit() reports success. *)
Theorem C26_success_reported : forall s tol newton_max_iterations dim lanes ts success,
  Forall (entropy_call s dim) lanes ->
  limit s 0 tol newton_max_iterations dim lanes = (ts, success) ->
  success = true.
Proof. exact C26_success_reported_proof. Qed.
Print Assumptions C26_success_reported.

Example C26_success_reported_ex : Forall (entropy_call ex_euler 1) [ex_lane].
Proof. constructor; [exact ex_entropy_call|constructor]. Qed.

(** C27 (Euler): the accumulated bounds do not depend on the order of the stencil. *)
Theorem C27_euler_order : forall s dim big U_i cs cs',
  Permutation cs cs' ->
  lim_stencil s dim big U_i cs = lim_stencil s dim big U_i cs'.
Proof. exact lim_stencil_perm. Qed.
Print Assumptions C27_euler_order.

Example C27_euler_order_ex : Permutation ex_stencil (rev ex_stencil).
Proof. apply Permutation_rev. Qed.

(** C27 (Euler): the relaxed bounds contain every bar density and every entropy of
    the stencil. *)
Theorem C27_euler_relaxed_contains : forall s dim big eps factor hd_i U_i cs,
  0 < eps -> 0 <= factor -> 0 <= big ->
  (forall c, In c cs -> 0 <= bar_density dim U_i c /\ 0 <= entropy_of c) ->
  (exists c, In c cs /\ state_of c = U_i /\ entropy_of c = specific_entropy s dim U_i) ->
  let b := lim_get_bounds eps factor dim (lim_stencil s dim big U_i cs) hd_i in
  forall c, In c cs ->
    rho_min b <= bar_density dim U_i c <= rho_max b /\ s_min b <= entropy_of c.
Proof. exact stencil_contains. Qed.
Print Assumptions C27_euler_relaxed_contains.

Example C27_euler_relaxed_contains_ex :
  (forall c, In c ex_stencil ->
     0 <= bar_density 1 (mkstate 1 2 (fun _ => 0) 5) c /\ 0 <= entropy_of c) /\
  (exists c, In c ex_stencil /\ state_of c = mkstate 1 2 (fun _ => 0) 5 /\
     entropy_of c = specific_entropy ex_euler 1 (mkstate 1 2 (fun _ => 0) 5)).
Proof. exact ex_stencil_ok. Qed.

(** C27 (Euler): relaxation keeps the bounds positive as long as r_i < 1. *)
Theorem C27_euler_relaxed_positive : forall eps factor dim l hd_i,
  relaxation_radius dim hd_i * factor < 1 ->
  (0 < rho_min (lim_bounds l) -> 0 < rho_min (lim_get_bounds eps factor dim l hd_i)) /\
  (0 <= s_min (lim_bounds l) -> 0 <= s_min (lim_get_bounds eps factor dim l hd_i)).
Proof. exact relaxed_positive. Qed.
Print Assumptions C27_euler_relaxed_positive.

Example C27_euler_relaxed_positive_ex : relaxation_radius 3 (1 / 4) * 1 < 1.
Proof.
  unfold relaxation_radius. simpl.
  replace (1 / 4) with ((1 / 2) * (1 / 2)) by field. rewrite sqrt_square by lra. lra.
Qed.

(** C27 (Euler): combined bounds contain both. *)
Theorem C27_euler_combine : forall l r,
  let b := combine_bounds l r in
  (rho_min b <= rho_min l /\ rho_max l <= rho_max b /\ s_min b <= s_min l) /\
  (rho_min b <= rho_min r /\ rho_max r <= rho_max b /\ s_min b <= s_min r).
Proof. exact combine_contains. Qed.
Print Assumptions C27_euler_combine.

Example C27_euler_combine_ex :
  rho_min (combine_bounds {| rho_min := 1; rho_max := 2; s_min := 3 |}
                          {| rho_min := 2; rho_max := 5; s_min := 1 |}) = 1.
Proof. simpl. apply Rmin_left. lra. Qed.
