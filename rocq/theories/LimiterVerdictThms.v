(** * C113: the success flag of the limiters *)
From Coq Require Import Reals List Lra.
From Verif Require Import RVec EulerSystem AeosSystem EulerLimiter EulerLimiterSpec EulerLimiterFinal AeosLimiter AeosLimiterSpec AeosLimiterFinal
  SWSystem SWLimiter SWLimiterSpec SWLimiterFinal LimiterVerdictSpec EulerLimiterVerdict AeosLimiterVerdict SWLimiterVerdict.
Import ListNotations.
Local Open Scope R_scope.

(** Euler: in exact arithmetic, whatever the low-order states. *)
Theorem C113_euler_verdict : forall s tol n dim lanes ts,
  1 < gamma s -> Forall plain_call lanes ->
  limit s 0 tol (S n) dim lanes = (ts, true) -> Forall2 (verdict s dim) lanes ts.
Proof. exact C113_euler_verdict_proof. Qed.
Print Assumptions C113_euler_verdict.

Example C113_euler_verdict_ex : 1 < gamma ex_euler /\ Forall plain_call [ex_lane] /\ exists ts, limit ex_euler 0 (1 / 1000) 2 1 [ex_lane] = (ts, true).
Proof. split; [simpl; lra|]. split; [|exact verdict_example]. constructor; [unfold plain_call; simpl; lra|constructor]. Qed.

(** Euler: with any machine epsilon success means that the low-order densities are within the bounds up to rounding. *)
Theorem C113_euler_density : forall s eps tol n dim lanes ts L,
  limit s eps tol n dim lanes = (ts, true) -> In L lanes ->
  0 <= eps -> 0 <= reference_density s -> 0 <= vacuum_state_relaxation_large s ->
  let large := vacuum_state_relaxation_large s * eps in
  l_U L 0%nat <= (1 + large) * rho_max (l_bounds L) + reference_density s * large /\
  rho_min (l_bounds L) <= (1 + large) * l_U L 0%nat + reference_density s * large.
Proof. exact C113_euler_density_proof. Qed.
Print Assumptions C113_euler_density.

(** Euler: a low-order state with one tenth of the specific entropy required is returned with success if its density leaves no room. *)
Theorem C113_euler_closed_refuted : forall eps tol n, 0 <= eps <= 1 / 1000000 ->
  let s := ex_euler in exists L,
  plain_call L /\ density_within (l_bounds L) (l_U L) /\ specific_entropy s 1 (l_U L) = s_min (l_bounds L) / 10 /\
  limit s eps tol (S n) 1 [L] = ([0], true).
Proof. exact C113_euler_closed_refuted_proof. Qed.
Print Assumptions C113_euler_closed_refuted.

(** Euler with an arbitrary equation of state: the same three. *)
Theorem C113_aeos_verdict : forall s tol n dim lanes ts,
  Forall (a_plain_call s) lanes ->
  a_limit s 0 tol (S n) dim lanes = (ts, true) -> Forall2 (a_verdict s dim) lanes ts.
Proof. exact C113_aeos_verdict_proof. Qed.
Print Assumptions C113_aeos_verdict.

Example C113_aeos_verdict_ex : Forall (a_plain_call ex_aeos) [ex_alane] /\ exists ts, a_limit ex_aeos 0 (1 / 1000) 2 1 [ex_alane] = (ts, true).
Proof. split; [|exact a_verdict_example]. constructor; [unfold a_plain_call; simpl; lra|constructor]. Qed.

Theorem C113_aeos_density : forall s eps tol n dim lanes ts L,
  a_limit s eps tol n dim lanes = (ts, true) -> In L lanes ->
  0 <= eps -> 0 <= a_reference_density s -> 0 <= a_relaxation_large s ->
  let large := a_relaxation_large s * eps in
  al_U L 0%nat <= (1 + large) * arho_max (al_b L) + a_reference_density s * large /\
  arho_min (al_b L) <= (1 + large) * al_U L 0%nat + a_reference_density s * large.
Proof. exact C113_aeos_density_proof. Qed.
Print Assumptions C113_aeos_density.

Theorem C113_aeos_closed_refuted : forall eps tol n, 0 <= eps <= 1 / 1000000 ->
  let s := ex_aeos in exists L,
  a_plain_call s L /\ a_density_within (al_b L) (al_U L) /\
  surrogate_specific_entropy (a_eos s) 1 (al_U L) (agamma_min (al_b L)) = as_min (al_b L) / 10 /\
  a_limit s eps tol (S n) 1 [L] = ([0], true).
Proof. exact C113_aeos_closed_refuted_proof. Qed.
Print Assumptions C113_aeos_closed_refuted.

(** Shallow water with the square velocity limiter, with or without the one of the kinetic energy. *)
Theorem C113_sw_verdict : forall s tiny tol on_kin dim lanes ts,
  0 < tiny -> Forall w_plain_call lanes ->
  w_limit s 0 tiny tol on_kin true dim lanes = (ts, true) ->
  Forall2 (fun L t => depth_within L t /\ (velocity_within dim L t \/ t = 0)) lanes ts.
Proof. exact C113_sw_verdict_proof. Qed.
Print Assumptions C113_sw_verdict.

Example C113_sw_verdict_ex : Forall w_plain_call [ex_wlane] /\ exists ts, w_limit ex_shallow 0 (1 / 1000) (1 / 1000) false true 1 [ex_wlane] = (ts, true).
Proof. split; [|exact w_verdict_example]. constructor; [unfold w_plain_call; simpl; lra|constructor]. Qed.

(** Shallow water: a state three times as fast as permitted is returned with success. *)
Theorem C113_sw_closed_refuted : forall eps tiny tol, 0 <= eps <= 1 / 1000000 -> 0 < tiny -> exists L,
  w_plain_call L /\ depth_within L 0 /\ norm2 1 (momentum_at L 0) = 9 * (v2_max (wl_b L) * (depth_at L 0 * depth_at L 0)) /\
  w_limit ex_shallow eps tiny tol false true 1 [L] = ([0], true).
Proof. exact C113_sw_closed_refuted_proof. Qed.
Print Assumptions C113_sw_closed_refuted.
