(** * Initial states of the Euler equations: property theorems

    balance_at, solves_euler, jump_condition, limit_below and the like are defined in
    BalanceSpec.v in terms of derivatives and limits of the returned states. *)
From Coq Require Import Reals Arith List Bool Lia Lra.
From Verif Require Import RVec EulerSystem Eos AeosSystem BalanceSpec BalanceProofs EulerInitialStates EulerInitialProofs EulerInitialMore EulerInitialNoh EulerInitialShocks Becker BeckerFinal BeckerStall.
Import ListNotations.
Local Open Scope R_scope.

(** C88: the isentropic vortex is an exact solution: at every time and point the returned
    states have positive density and pressure, are isentropic and satisfy the Euler equations. *)
Theorem C88_vortex : forall dim gamma M beta,
  (dim = 2 \/ dim = 3)%nat -> 1 < gamma ->
  (gamma - 1) / (2 * gamma) * (beta / (2 * PI)) * (beta / (2 * PI)) * exp 1 < 1 ->
  exists W : field, (forall t x, isentropic_vortex dim gamma M beta x t = Some (W t x)) /\
    forall t x, 0 < W t x 0%nat /\ 0 < gas_pressure gamma dim (W t x) /\
      gas_pressure gamma dim (W t x) = powr (W t x 0%nat) gamma /\
      solves_euler gamma dim W t x.
Proof. exact C88_vortex_proof. Qed.
Print Assumptions C88_vortex.

Example C88_case : (14 / 10 - 1) / (2 * (14 / 10)) * (5 / (2 * PI)) * (5 / (2 * PI)) * exp 1 < 1.
Proof.
  assert (P : 3 < PI) by (pose proof PI2_3_2; unfold PI2 in *; lra). pose proof exp_le_3 as E. pose proof (exp_pos 1) as E0.
  assert (Q : 5 / (2 * PI) < 5 / 6).
  { apply Rmult_lt_compat_l; [lra|]. apply Rinv_lt_contravar; lra. }
  assert (Q0 : 0 < 5 / (2 * PI)) by (apply Rdiv_lt_0_compat; lra).
  set (q := 5 / (2 * PI)) in *. assert (q * q < 25 / 36) by nra.
  replace ((14 / 10 - 1) / (2 * (14 / 10))) with (1 / 7) by field. nra.
Qed.

(** C89: the shock front with an ideal gas: constant states on both sides, the jump condition
    holds with the speed of the front, and a supersonic front is compressive. *)
Theorem C89_shock_front : forall s dim M rho u p,
  1 < gamma s -> (1 <= dim)%nat -> 0 < rho -> 0 < p ->
  let a := sqrt (gamma s * p / rho) in
  u <> M * a ->
  let W := fun t x => shock_front (from_initial_state s dim 1) (gamma s) 0 M rho u p x t in
  exists Ul Ur : vec,
    Ur 0%nat = rho /\ Ur 1%nat = rho * u /\ gas_pressure (gamma s) dim Ur = p /\
    (forall k, (2 <= k <= dim)%nat -> Ur k = 0) /\
    (forall t x, M * a * t < x 0%nat -> W t x = Ur /\ solves_euler (gamma s) dim W t x) /\
    (forall t x, x 0%nat < M * a * t -> W t x = Ul /\ solves_euler (gamma s) dim W t x) /\
    jump_condition dim (dim + 2) (gas_flux (gamma s) dim) e0 (M * a) Ul Ur /\
    (u + a < M * a ->
       rho < Ul 0%nat /\ p < gas_pressure (gamma s) dim Ul /\
       M * a < Ul 1%nat / Ul 0%nat + sqrt (gamma s * gas_pressure (gamma s) dim Ul / Ul 0%nat)).
Proof. exact C89_shock_front_proof. Qed.
Print Assumptions C89_shock_front.

Definition ex_gas14 : euler := {| gamma := 14 / 10; reference_density := 1; vacuum_state_relaxation_small := 0; vacuum_state_relaxation_large := 0 |}.
Example C89_case : sqrt (gamma ex_gas14 * 1 / (14 / 10)) = 1 /\ 0 <> 3 * 1 /\ 0 + 1 < 3 * 1.
Proof. split; [|lra]. cbn [gamma ex_gas14]. replace (14 / 10 * 1 / (14 / 10)) with 1 by field. apply sqrt_1. Qed.

(** C89 fails for a gas with covolume: for an admissible choice of the parameters no front
    speed satisfies the jump condition between the two states. *)
Theorem C89_covolume_refuted : exists (o : nobleabel) (M rho u p : R),
  1 < na_gamma o /\ 0 <= na_b o /\ na_b o * rho < 1 /\ 0 < rho /\ 0 < p /\ 1 < M /\ na_q o = 0 /\ na_pinf o = 0 /\
  let a := na_speed_of_sound o rho (na_sie o rho p) in
  let W := fun t x => shock_front (a_from_initial_state (na_eos o) 1 1) (na_gamma o) (interp_b (na_eos o)) M rho u p x t in
  u + a < M * a /\
  forall t, exists Ul Ur,
    (forall x, M * a * t < x 0%nat -> W t x = Ur) /\
    (forall x, x 0%nat < M * a * t -> W t x = Ul) /\
    Ur 0%nat = rho /\ na_b o * Ul 0%nat < 1 /\
    forall sigma, ~ jump_condition 1 3 (eos_flux (na_pressure o) 1) e0 sigma Ul Ur.
Proof. exact C89_covolume_proof. Qed.
Print Assumptions C89_covolume_refuted.

(** C90: the rarefaction wave is an exact and continuous isentropic solution from the time
    - T0 at which it would emanate from a single point; T0 times the difference of the
    velocities on its two sides is 0.2. *)
Theorem C90_rarefaction : forall dim gamma,
  (1 <= dim)%nat -> 1 < gamma ->
  let W := fun t x => rarefaction dim gamma x t in
  exists T0 b, 0 < T0 /\ 0 < b /\
  forall t x, - T0 < t ->
    (0 < W t x 0%nat /\ gas_pressure gamma dim (W t x) = powr (W t x 0%nat / 3) gamma) /\
    (x 0%nat <= 0 -> W t x 0%nat = 3 /\ W t x 1%nat = 3 * sqrt (gamma * 1 / 3)) /\
    (b * (T0 + t) <= x 0%nat ->
       W t x 0%nat = 1 / 2 /\ T0 * (W t x 1%nat / W t x 0%nat - sqrt (gamma * 1 / 3)) = 1 / 5) /\
    (forall k, (2 <= k <= dim)%nat -> W t x k = 0) /\
    (x 0%nat <> 0 -> x 0%nat <> b * (T0 + t) -> solves_euler gamma dim W t x) /\
    no_jump (dim + 2) W e0 t x.
Proof. exact C90_rarefaction_proof. Qed.
Print Assumptions C90_rarefaction.

Example C90_case : (1 <= 2)%nat /\ 1 < 14 / 10.
Proof. split; [lia|lra]. Qed.

(** C91: the states of the LeBlanc shock tube solve the Euler equations away from the waves,
    and the tabulated constants satisfy the jump conditions up to 1e-15. *)
Theorem C91_leblanc : forall dim,
  (1 <= dim)%nat ->
  let W := fun t x => leblanc dim x t in
  exists r c s, - 1 / 3 < r < c /\ c < s /\
  forall t x, 0 < t ->
    (x 0%nat < - (1 / 3) * t -> W t x 0%nat = 1 /\ W t x 1%nat = 0 /\ gas_pressure (5 / 3) dim (W t x) = 1 / 15) /\
    (s * t < x 0%nat -> W t x 0%nat = 1 / 1000 /\ W t x 1%nat = 0 /\ gas_pressure (5 / 3) dim (W t x) = 2 / 3 / 10 ^ 10) /\
    (x 0%nat <> - (1 / 3) * t -> x 0%nat <> r * t -> x 0%nat <> c * t -> x 0%nat <> s * t ->
       solves_euler (5 / 3) dim W t x) /\
    (x 0%nat = - (1 / 3) * t -> no_jump (dim + 2) W e0 t x) /\
    (forall v, v = r \/ v = c \/ v = s -> x 0%nat = v * t -> exists Ul Ur,
       limit_below (dim + 2) W e0 t x Ul /\ limit_above (dim + 2) W e0 t x Ur /\
       jump_within (1 / 10 ^ 15) dim (dim + 2) (gas_flux (5 / 3) dim) e0 v Ul Ur) /\
    (x 0%nat = r * t -> exists Ul Ur,
       limit_below (dim + 2) W e0 t x Ul /\ limit_above (dim + 2) W e0 t x Ur /\
       forall k, (k < dim + 2)%nat -> Rabs (Ul k - Ur k) <= 1 / 10 ^ 15).
Proof. exact C91_leblanc_proof. Qed.
Print Assumptions C91_leblanc.

Example C91_case : exists x : vec, 0 < 1 / 2 /\ - (1 / 3) * (1 / 2) < x 0%nat < 495 / 1000 * (1 / 2).
Proof. exists (fun _ => 0). lra. Qed.

(** C92: the Noh implosion in one dimension, or with inward speed one, and without pressure. *)
Theorem C92_noh : forall s dim rho0 u0,
  1 < gamma s -> (1 <= dim)%nat -> 0 < rho0 -> 0 < u0 -> (dim = 1%nat \/ u0 = 1) ->
  let W := fun t x => noh dim (from_initial_state s dim dim) 0 (gamma s) rho0 u0 0 x t in
  let r := fun x => sqrt (norm2 dim x) in
  let D := u0 * (gamma s - 1) / 2 in
  (forall x, 0 < r x -> W 0 x 0%nat = rho0 /\ gas_pressure (gamma s) dim (W 0 x) = 0 /\
     forall i, (i < dim)%nat -> W 0 x (S i) = - rho0 * u0 * (x i / r x)) /\
  forall t x, 0 < t ->
    (r x <> D * t -> solves_euler (gamma s) dim W t x) /\
    (r x = D * t -> exists Ul Ur, let n := fun i => x i / r x in
       limit_below (dim + 2) W n t x Ul /\ limit_above (dim + 2) W n t x Ur /\
       jump_condition dim (dim + 2) (gas_flux (gamma s) dim) n D Ul Ur /\
       0 < Ur 0%nat < Ul 0%nat /\ 0 < gas_pressure (gamma s) dim Ul).
Proof. exact C92_noh_proof. Qed.
Print Assumptions C92_noh.

Example C92_case : 1 < gamma ex_gas53 /\ (1 <= 2)%nat /\ 0 < 1 /\ (2%nat = 1%nat \/ 1 = 1).
Proof. cbn [gamma ex_gas53]. split; [lra|]. split; [lia|]. split; [lra|right; reflexivity]. Qed.

(** C92: ahead of the shock the states solve the Euler equations only for these parameters, *)
Theorem C92_noh_iff : forall s dim rho0 u0 p0 t x,
  1 < gamma s -> (1 <= dim)%nat -> 0 < rho0 -> 0 < u0 -> 0 < t ->
  u0 * (gamma s - 1) / 2 * t < sqrt (norm2 dim x) ->
  solves_euler (gamma s) dim (fun t x => noh dim (from_initial_state s dim dim) 0 (gamma s) rho0 u0 p0 x t) t x
  <-> dim = 1%nat \/ u0 = 1 /\ p0 = 0.
Proof. exact C92_noh_iff_proof. Qed.
Print Assumptions C92_noh_iff.

(** in particular not with the speed 2 and the pressure 1 in two dimensions. *)
Theorem C92_noh_refuted : exists s dim rho0 u0 p0 t x,
  1 < gamma s /\ (1 <= dim)%nat /\ 0 < rho0 /\ 0 < u0 /\ 0 < p0 /\ 0 < t /\
  u0 * (gamma s - 1) / 2 * t < sqrt (norm2 dim x) /\
  ~ solves_euler (gamma s) dim (fun t x => noh dim (from_initial_state s dim dim) 0 (gamma s) rho0 u0 p0 x t) t x.
Proof. exact C92_noh_refuted_proof. Qed.
Print Assumptions C92_noh_refuted.

(** C93: the smooth wave is an exact solution: it is transported with the given velocity at
    constant pressure. *)
Theorem C93_smooth_wave : forall s dim rho0 p0 M,
  1 < gamma s -> (1 <= dim)%nat -> 0 < rho0 -> 0 < p0 ->
  let W := fun t x => smooth_wave dim (from_initial_state s dim dim) rho0 p0 M x t in
  forall t x,
    solves_euler (gamma s) dim W t x /\
    rho0 <= W t x 0%nat <= rho0 + 1 /\ gas_pressure (gamma s) dim (W t x) = p0 /\
    W t x 1%nat = W t x 0%nat * M /\ (forall k, (2 <= k <= dim)%nat -> W t x k = 0) /\
    (x 0%nat - M * t <= 1 / 10 \/ 3 / 10 <= x 0%nat - M * t -> W t x 0%nat = rho0) /\
    (x 0%nat - M * t = 2 / 10 -> W t x 0%nat = rho0 + 1).
Proof. exact C93_smooth_wave_proof. Qed.
Print Assumptions C93_smooth_wave.

Example C93_case : 1 < gamma ex_gas14 /\ (1 <= 3)%nat /\ 0 < 1 /\ 0 < 1 / 2.
Proof. cbn [gamma ex_gas14]. repeat split; lra || lia. Qed.

(** C94: the ramp goes continuously from the first to the second state and every intermediate
    state is admissible. *)
Theorem C94_ramp_up : forall gamma dim Ui Uf ti tf,
  1 < gamma -> 0 < Ui 0%nat -> 0 < gas_pressure gamma dim Ui -> 0 < Uf 0%nat -> 0 < gas_pressure gamma dim Uf ->
  ti < tf ->
  let W := fun t => ramp_up Ui Uf ti tf t in
  (forall t, t <= ti -> W t = Ui) /\ (forall t, tf <= t -> W t = Uf) /\
  (forall t, exists a, 0 <= a <= 1 /\ forall k, W t k = (1 - a) * Ui k + a * Uf k) /\
  (forall t, 0 < W t 0%nat /\ 0 < gas_pressure gamma dim (W t)) /\
  (forall k t, continuity_pt (fun s => W s k) t).
Proof. exact C94_ramp_up_proof. Qed.
Print Assumptions C94_ramp_up.

Example C94_case : let U := tensor [1; 0; 1] in let V := tensor [2; 2; 4] in
  0 < U 0%nat /\ 0 < gas_pressure (14 / 10) 1 U /\ 0 < V 0%nat /\ 0 < gas_pressure (14 / 10) 1 V.
Proof. unfold gas_pressure, tensor; simpl. lra. Qed.

(** C95: the converging shock of the ICF-like configuration, for a gas with gamma 1.4. *)
Theorem C95_icf : forall s dim M inside rho p Ri amp modes Rs angle,
  gamma s = 14 / 10 -> (1 <= dim)%nat -> 0 < rho -> 0 < p -> 1 < M -> 0 <= Ri -> Ri + Rabs amp < Rs ->
  let a := sqrt (14 / 10 * p / rho) in
  forall t x, sqrt (norm2 dim x) = Rs ->
  exists n Ul Ur,
    n = (fun i => x i / Rs) /\
    limit_below (dim + 2) (icf s dim M inside rho p Ri amp modes Rs angle) n t x Ul /\
    limit_above (dim + 2) (icf s dim M inside rho p Ri amp modes Rs angle) n t x Ur /\
    Ul 0%nat = rho /\ gas_pressure (14 / 10) dim Ul = p /\ (forall i, (i < dim)%nat -> Ul (S i) = 0) /\
    jump_condition dim (dim + 2) (gas_flux (14 / 10) dim) n (- (M * a)) Ul Ur /\
    rho < Ur 0%nat /\ p < gas_pressure (14 / 10) dim Ur.
Proof. exact C95_icf_proof. Qed.
Print Assumptions C95_icf.

Example C95_case : gamma ex_gas14 = 14 / 10 /\ 1 < 3 /\ 0 <= 1 /\ 1 + Rabs (2 / 100) < 12 / 10.
Proof. cbn [gamma ex_gas14]. rewrite Rabs_right by lra. lra. Qed.

(** C95 fails for any other ratio of specific heats chosen for the equation: with 5/3 no
    speed satisfies the jump condition. *)
Theorem C95_gamma_refuted : exists s M rho p Ri Rs x,
  1 < gamma s /\ 0 < rho /\ 0 < p /\ 1 < M /\ 0 < Ri < Rs /\ sqrt (norm2 1 x) = Rs /\
  forall inside modes angle t, exists Ul Ur,
    limit_below 3 (icf s 1 M inside rho p Ri 0 modes Rs angle) (fun i => x i / Rs) t x Ul /\
    limit_above 3 (icf s 1 M inside rho p Ri 0 modes Rs angle) (fun i => x i / Rs) t x Ur /\
    forall sigma, ~ jump_condition 1 3 (gas_flux (gamma s) 1) (fun i => x i / Rs) sigma Ul Ur.
Proof. exact C95_gamma_proof. Qed.
Print Assumptions C95_gamma_refuted.

(** C96: for every position the profile of Becker has exactly one velocity, and the states so
    defined solve the compressible Navier-Stokes equations with Prandtl number 3/4 and
    vanishing bulk viscosity, with the given limits. *)
Theorem C96_becker : forall b dim,
  (1 <= dim)%nat ->
  1 < k_gamma b -> 0 < k_right b < k_left b -> 0 < k_density b -> 0 < k_mu b ->
  exists v : R -> R,
    (forall x, k_right b < v x < k_left b /\ exists d, psi b x (v x) = Some (0, d)) /\
    (forall x w d, psi b x w = Some (0, d) -> w = v x) /\
    (forall x y, x < y -> v y < v x) /\
    (forall eps, 0 < eps -> exists X, forall x, (X < x -> v x < k_right b + eps) /\ (x < - X -> k_left b - eps < v x)) /\
    (forall t x, solves_navier_stokes (k_gamma b) (k_mu b) 0 (4 / 3 * k_gamma b * k_mu b) dim
       (fun t x => becker_state b dim (v (becker_position b x t))) t x) /\
    (forall x, 0 < becker_state b dim (v x) 0%nat) /\
    (k_left b < (k_gamma b + 1) / (k_gamma b - 1) * k_right b ->
     forall x, 0 < gas_energy dim (becker_state b dim (v x))).
Proof. exact C96_becker_proof. Qed.
Print Assumptions C96_becker.

Example C96_case : 1 < k_gamma ex_becker /\ 0 < k_right ex_becker < k_left ex_becker /\ 0 < k_density ex_becker /\
  0 < k_mu ex_becker /\ k_left ex_becker < (k_gamma ex_becker + 1) / (k_gamma ex_becker - 1) * k_right ex_becker.
Proof. unfold ex_becker; simpl. lra. Qed.

(** C96: the velocity found by the root finder is that velocity up to a relative error of 1e-11
    if the search ends with a small residual or beyond the cut-off.  Missing: a bound on the
    error where it ends because of a small step; C96_velocity_refuted shows that there is none. *)
Theorem C96_velocity_partial : forall b fuel x w v d,
  1 < k_gamma b -> 0 < k_right b < k_left b -> 0 < k_density b -> 0 < k_mu b ->
  find_velocity b fuel x = Some w -> psi b x v = Some (0, d) ->
  let delta := / 10 ^ 12 * (1 / 2) * (k_right b + k_left b) in
  (Rabs (w - v) <= 8 / 10 ^ 12 * (k_left b + k_right b) * (k_left b - k_right b) / k_right b /\ k_right b <= w <= k_left b) \/
  (exists v0 f d0, psi b x v0 = Some (f, d0) /\ w = v0 - f / d0 /\ Rabs (w - v0) < delta /\
     k_right b - delta < w < k_left b + delta).
Proof. exact C96_velocity_proof. Qed.
Print Assumptions C96_velocity_partial.

Example C96_velocity_case : exists x v d, find_velocity ex_becker 0 x = Some 1 /\ psi ex_becker x v = Some (0, d).
Proof. exact ex_becker_velocity. Qed.

(** C96: where the search ends because of a small step the returned velocity may be wrong by
    more than a millionth of the velocity jump, although tolerances of 1e-12 are asked for:
    near the upstream velocity the steps are small whatever the residual. *)
Theorem C96_velocity_refuted : exists b fuel x w v d,
  1 < k_gamma b /\ 0 < k_right b < k_left b /\ 0 < k_density b /\ 0 < k_mu b /\
  find_velocity b fuel x = Some w /\ psi b x v = Some (0, d) /\
  (k_left b - k_right b) / 10 ^ 6 < Rabs (w - v).
Proof. exact C96_velocity_refuted_proof. Qed.
Print Assumptions C96_velocity_refuted.
