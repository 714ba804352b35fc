(** * The shallow water part of C27; C28, C29 and C66 - C69 *)
From Coq Require Import Reals List Permutation Bool Lra.
From Verif Require Import RVec Simd EulerSystem EulerLimiter SWSystem SWLimiter SWLimiterSpec SWLimiterProofs SWLimiterFinal.
Import ListNotations.
Local Open Scope R_scope.

(** C27 (ShallowWater): the accumulated bounds do not depend on the order of the
    stencil. *)
Theorem C27_sw_order : forall s eps dim big U_i cs cs',
  Permutation cs cs' -> w_stencil s eps dim big U_i cs = w_stencil s eps dim big U_i cs'.
Proof. exact w_stencil_perm. Qed.
Print Assumptions C27_sw_order.

Example C27_sw_order_ex : let a := {| wc_U := fun _ => 1; wc_ij := fun _ => 1; wc_ji := fun _ => 2;
    wc_c := fun _ => 1 / 10; wc_shift := fun _ => 0 |} in
  let b := {| wc_U := fun _ => 3; wc_ij := fun _ => 1; wc_ji := fun _ => 3;
    wc_c := fun _ => 1 / 10; wc_shift := fun _ => 0 |} in Permutation [a; b] [b; a].
Proof. constructor. Qed.

(** C27 (ShallowWater): the relaxed bounds contain the water depth, the kinetic energy
    and the square of the velocity of every bar state. *)
Theorem C27_sw_relaxed_contains : forall s eps dim big factor hd_i U_i cs,
  0 < eps -> 0 <= factor -> 0 <= big ->
  (forall c, In c cs -> 0 <= water_depth (w_bar_of s eps dim c)) ->
  let b := w_get_bounds s eps factor dim (w_stencil s eps dim big U_i cs) hd_i in
  forall c, In c cs ->
    h_min b <= water_depth (w_bar_of s eps dim c) <= h_max b /\
    kinetic_energy s eps dim (w_bar_of s eps dim c) <= kin_max b /\
    mollified_v2 s eps dim (w_bar_of s eps dim c) <= v2_max b.
Proof. exact w_stencil_contains. Qed.
Print Assumptions C27_sw_relaxed_contains.

Example C27_sw_relaxed_contains_ex :
  let c := {| wc_U := mkwater 1 2 (fun _ => 0); wc_ij := mkwater 1 1 (fun _ => 0);
              wc_ji := mkwater 1 2 (fun _ => 0); wc_c := fun _ => 0; wc_shift := fun _ => 0 |} in
  0 <= water_depth (w_bar_of ex_shallow (1 / 1000000) 1 c).
Proof.
  cbv zeta. unfold w_bar_of, w_bar_state, water_depth, contract, dot, mkwater; simpl. lra.
Qed.

(** C27 (ShallowWater): combined bounds contain both, except for the maximal kinetic
    energy of the right argument (see C69). *)
Theorem C27_sw_combine : forall l r,
  let b := w_combine_bounds l r in
  (h_min b <= h_min l /\ h_max l <= h_max b /\ h_small b <= h_small l /\ kin_max l <= kin_max b /\ v2_max l <= v2_max b) /\
  (h_min b <= h_min r /\ h_max r <= h_max b /\ h_small b <= h_small r /\ v2_max r <= v2_max b).
Proof. exact w_combine_contains. Qed.
Print Assumptions C27_sw_combine.

Example C27_sw_combine_ex :
  h_min (w_combine_bounds ex_bounds {| h_min := 1 / 2; h_max := 2; h_small := 0; kin_max := 5; v2_max := 10 |}) = 1 / 2.
Proof. simpl. apply Rmin_right. lra. Qed.

(** C28: every lane's coefficient lies in [t_min, t_max], for all options. *)
Theorem C28_range : forall s eps tiny tol on_kin on_v2 dim lanes ts success,
  Forall (fun L => wl_tmin L <= wl_tmax L) lanes ->
  w_limit s eps tiny tol on_kin on_v2 dim lanes = (ts, success) ->
  Forall2 (fun L t => wl_tmin L <= t <= wl_tmax L) lanes ts.
Proof. exact w_limit_in_range. Qed.
Print Assumptions C28_range.

Example C28_range_ex : Forall (fun L => wl_tmin L <= wl_tmax L) [ex_wlane; ex_wlane].
Proof. repeat constructor; simpl; lra. Qed.

(** C28: the updated water depth stays within the bounds (and, the lower bound being
    nonnegative, nonnegative). *)
Theorem C28_depth_bounds : forall s eps tiny tol on_kin on_v2 dim lanes ts success,
  0 <= eps -> 0 < tiny ->
  Forall depth_call lanes ->
  w_limit s eps tiny tol on_kin on_v2 dim lanes = (ts, success) ->
  Forall2 depth_within lanes ts.
Proof. exact w_limit_depth_ok. Qed.
Print Assumptions C28_depth_bounds.

Example C28_depth_bounds_ex : Forall depth_call [ex_wlane].
Proof. constructor; [exact ex_depth_call|constructor]. Qed.

(** C28: if the full update satisfies all bounds that are switched on (the last two
    strictly), it is accepted, whatever the other lanes do. *)
Theorem C28_full_update_accepted : forall s tiny tol on_kin on_v2 dim lanes ts success k L,
  w_limit s 0 tiny tol on_kin on_v2 dim lanes = (ts, success) ->
  nth_error lanes k = Some L ->
  on_kin || on_v2 = true ->
  wl_tmin L <= wl_tmax L ->
  let t := wl_tmax L in
  depth_within L t -> h_small (wl_b L) <= depth_at L t ->
  (on_kin = true -> 1 / 2 * norm2 dim (momentum_at L t) < kin_max (wl_b L) * depth_at L t) ->
  (on_v2 = true -> norm2 dim (momentum_at L t) < v2_max (wl_b L) * (depth_at L t * depth_at L t)) ->
  nth_error ts k = Some t.
Proof. exact C28_full_update_accepted_proof. Qed.
Print Assumptions C28_full_update_accepted.

Example C28_full_update_accepted_ex :
  let L := {| wl_b := ex_bounds; wl_U := mkwater 1 1 (fun _ => 0); wl_P := mkwater 1 1 (fun _ => 1);
              wl_tmin := 0; wl_tmax := 1 |} in
  depth_within L 1 /\ h_small (wl_b L) <= depth_at L 1 /\
  1 / 2 * norm2 1 (momentum_at L 1) < kin_max (wl_b L) * depth_at L 1 /\
  norm2 1 (momentum_at L 1) < v2_max (wl_b L) * (depth_at L 1 * depth_at L 1).
Proof.
  cbv zeta. unfold depth_within, depth_at, momentum_at, norm2, dot, ex_bounds, mkwater; simpl. lra.
Qed.

(** C28: if every low-order state satisfies its bounds the call reports success. *)
Theorem C28_success_reported : forall s eps tiny tol on_kin on_v2 dim lanes ts success,
  0 <= eps -> 0 < tiny -> 0 <= dry_state_relaxation_small s -> 0 <= dry_state_relaxation_large s ->
  Forall (fun L => depth_call L /\ 0 <= kin_max (wl_b L) /\ 0 <= v2_max (wl_b L) /\
            (on_kin = true -> kinetic_within dim L 0) /\ (on_v2 = true -> velocity_within dim L 0)) lanes ->
  w_limit s eps tiny tol on_kin on_v2 dim lanes = (ts, success) -> success = true.
Proof. exact w_limit_success. Qed.
Print Assumptions C28_success_reported.

Example C28_success_reported_ex : velocity_within 1 ex_wlane 0 /\ kinetic_within 1 ex_wlane 0.
Proof.
  split; [apply ex_velocity; lra|].
  unfold kinetic_within, depth_at, momentum_at, norm2, dot, ex_wlane, ex_bounds, mkwater; simpl. lra.
Qed.

(** C28: a low-order water depth outside the (slightly relaxed) bounds by more than the
    dry state cutoff is reported. *)
Theorem C28_failure_reported : forall s eps tiny tol on_kin on_v2 dim lanes ts success L,
  w_limit s eps tiny tol on_kin on_v2 dim lanes = (ts, success) ->
  In L lanes ->
  let cutoff := reference_water_depth s * dry_state_relaxation_large s * eps in
  0 < cutoff ->
  (cutoff <= wl_U L 0%nat - w_relax s eps * h_max (wl_b L) \/
   cutoff <= h_min (wl_b L) - w_relax s eps * wl_U L 0%nat) ->
  success = false.
Proof. exact w_limit_reports. Qed.
Print Assumptions C28_failure_reported.

Example C28_failure_reported_ex :
  let L := {| wl_b := ex_bounds; wl_U := mkwater 1 5 (fun _ => 0); wl_P := mkwater 1 0 (fun _ => 0);
              wl_tmin := 0; wl_tmax := 1 |} in
  1 * 10000 * (1 / 1000000) <= wl_U L 0%nat - w_relax ex_shallow (1 / 1000000) * h_max (wl_b L).
Proof. unfold w_relax, ex_bounds, mkwater; simpl. lra. Qed.

(** C29: in exact arithmetic the square of the velocity of the updated state is bounded
    by v2_max if the low-order state's is - although the derivative used by the code is
    wrong. *)
Theorem C29_velocity_bound : forall s tiny tol on_kin dim lanes ts success,
  0 < tiny ->
  Forall (fun L => depth_call L /\ 0 <= v2_max (wl_b L) /\ velocity_within dim L 0 /\
                   (on_kin = true -> kinetic_within dim L 0)) lanes ->
  w_limit s 0 tiny tol on_kin true dim lanes = (ts, success) ->
  Forall2 (velocity_within dim) lanes ts.
Proof. exact C29_velocity_bound_proof. Qed.
Print Assumptions C29_velocity_bound.

Example C29_velocity_bound_ex : depth_call ex_wlane /\ velocity_within 1 ex_wlane 0 /\ ~ velocity_within 1 ex_wlane 1.
Proof.
  split; [exact ex_depth_call|]. rewrite !ex_velocity. lra.
Qed.

(** C66: in exact arithmetic the kinetic energy of the updated state is bounded by
    kin_max if the low-order state's is, also if the square velocity limiter runs
    afterwards. *)
Theorem C66_kinetic_bound : forall s tiny tol on_v2 dim lanes ts success,
  0 < tiny ->
  Forall (fun L => depth_call L /\ kinetic_within dim L 0) lanes ->
  w_limit s 0 tiny tol true on_v2 dim lanes = (ts, success) ->
  Forall2 (kinetic_within dim) lanes ts.
Proof. exact C66_kinetic_bound_proof. Qed.
Print Assumptions C66_kinetic_bound.

Example C66_kinetic_bound_ex : depth_call ex_wlane /\ kinetic_within 1 ex_wlane 0 /\ ~ kinetic_within 1 ex_wlane 1.
Proof.
  split; [exact ex_depth_call|].
  unfold kinetic_within, depth_at, momentum_at, norm2, dot, ex_wlane, ex_bounds, mkwater; simpl. lra.
Qed.

(** C66: limiting on the kinetic energy alone gives the largest coefficient: if the full
    update satisfies the depth bounds, every larger coefficient violates the bound. *)
Theorem C66_kinetic_largest : forall s tiny tol dim lanes ts success k L t,
  0 < tiny ->
  w_limit s 0 tiny tol true false dim lanes = (ts, success) ->
  nth_error lanes k = Some L -> nth_error ts k = Some t ->
  0 <= tol < wl_tmax L -> depth_call L ->
  1 / 2 * norm2 dim (momentum_at L 0) < kin_max (wl_b L) * depth_at L 0 ->
  depth_within L (wl_tmax L) -> h_small (wl_b L) <= depth_at L (wl_tmax L) ->
  forall t', t < t' <= wl_tmax L -> ~ kinetic_within dim L t'.
Proof. exact C66_kinetic_largest_proof. Qed.
Print Assumptions C66_kinetic_largest.

Example C66_kinetic_largest_ex :
  1 / 2 * norm2 1 (momentum_at ex_wlane 0) < kin_max (wl_b ex_wlane) * depth_at ex_wlane 0 /\
  depth_within ex_wlane 1 /\ h_small (wl_b ex_wlane) <= depth_at ex_wlane 1.
Proof.
  unfold depth_within, depth_at, momentum_at, norm2, dot, ex_wlane, ex_bounds, mkwater; simpl. lra.
Qed.

(** C67 (claimed by the comment in the code, false): the square velocity limiter does not
    return the largest coefficient.  A state at rest with depth 1 and an update of the
    momentum by 2 with |v|^2 <= 1 admits the coefficient 1/2; less than 1/4 is returned. *)
Theorem C67_square_velocity_largest_refuted : forall tiny, 0 < tiny ->
  exists s tol L t t',
    fst (w_limit s 0 tiny tol false true 1 [L]) = [t] /\
    depth_call L /\ velocity_within 1 L 0 /\
    t < 1 / 4 /\ 1 / 2 <= t' <= wl_tmax L /\
    depth_within L t' /\ h_small (wl_b L) <= depth_at L t' /\ velocity_within 1 L t'.
Proof. exact C67_square_velocity_largest_refuted_proof. Qed.
Print Assumptions C67_square_velocity_largest_refuted.

(** C68 (false): with both velocity options switched off the limiter does not apply the
    depth-limited update; it returns t_min for every lane, even if the full update
    satisfies the depth bounds. *)
Theorem C68_depth_only_refuted : forall s eps tiny tol dim, exists L,
  fst (w_limit s eps tiny tol false false dim [L]) = [0] /\
  depth_call L /\ wl_tmax L = 1 /\ depth_within L 1 /\ h_small (wl_b L) <= depth_at L 1.
Proof. exact C68_depth_only_refuted_proof. Qed.
Print Assumptions C68_depth_only_refuted.

(** C69 (false): combine_bounds loses the maximal kinetic energy of its right argument. *)
Theorem C69_combine_kinetic_refuted : exists l r,
  kin_max (w_combine_bounds l r) < kin_max r /\
  0 < h_min l <= h_max l /\ 0 < h_min r <= h_max r /\ 0 < kin_max l /\ 0 < kin_max r.
Proof. exact w_combine_loses. Qed.
Print Assumptions C69_combine_kinetic_refuted.
