(** * Property theorems for the Riemann solver of the arbitrary equation of state (C38, C73) *)
From Coq Require Import Reals Lra.
From Verif Require Import RVec EulerSystem PhysSpec AeosSystem AeosRiemann AeosRiemannSpec AeosRiemannFinal.
Local Open Scope R_scope.

(** C38: the exact Riemann problem of the surrogate gases has a solution in the sense of the
    specification, so the bounds below are not void. *)
Theorem C38_exact_exists : forall s dim U_i U_j p_i p_j n g_i g_j,
  let b := interp_b (a_eos s) in let pinf := interp_pinf (a_eos s) in let q := interp_q (a_eos s) in
  0 <= b ->
  n_gas b pinf q g_i (a_density U_i) (a_internal_energy dim U_i) p_i ->
  n_gas b pinf q g_j (a_density U_j) (a_internal_energy dim U_j) p_j ->
  exists sl sr,
    (exists us ps, n_fan b pinf q g_i (a_density U_i) (normal_velocity dim n U_i) p_i
                         g_j (a_density U_j) (normal_velocity dim n U_j) p_j us ps sl sr) \/
    n_vacuum b pinf g_i (a_density U_i) (normal_velocity dim n U_i) p_i
             g_j (a_density U_j) (normal_velocity dim n U_j) p_j sl sr.
Proof. exact C38_exact_exists_proof. Qed.
Print Assumptions C38_exact_exists.

(** C38: the computed speed bounds every signal speed of the exact solution, for any gamma > 1
    on each side, any covolume, with strict or with interpolated bounds; for an interpolation
    pressure pinf = 0, or when the pressure between the waves is not above both pressures.
    Missing: two shocks with pinf > 0, where the claim is false, see C38_pinf_refuted. *)
Theorem C38_wave_speed_partial : forall s dim U_i U_j p_i p_j n g_i g_j us ps sl sr xi,
  let b := interp_b (a_eos s) in let pinf := interp_pinf (a_eos s) in let q := interp_q (a_eos s) in
  n_gas b pinf q g_i (a_density U_i) (a_internal_energy dim U_i) p_i ->
  n_gas b pinf q g_j (a_density U_j) (a_internal_energy dim U_j) p_j ->
  0 <= pinf ->
  n_fan b pinf q g_i (a_density U_i) (normal_velocity dim n U_i) p_i
        g_j (a_density U_j) (normal_velocity dim n U_j) p_j us ps sl sr ->
  (pinf = 0 \/ ps <= Rmax p_i p_j) ->
  sl <= xi <= sr ->
  Rabs xi <= ar_wavespeed s dim U_i U_j p_i p_j n.
Proof. exact C38_wave_speed_proof. Qed.
Print Assumptions C38_wave_speed_partial.

(** Two colliding streams with covolume 3/10 and gamma = 3: shocks of speed -23/10 and 23/10. *)
Example C38_wave_speed_ex : let U_i := ex_jet (2 / 5) in let U_j := ex_jet (- (2 / 5)) in
  let n : vec := fun _ => 1 in
  let b := interp_b (a_eos ex_covolume) in let pinf := interp_pinf (a_eos ex_covolume) in let q := interp_q (a_eos ex_covolume) in
  n_gas b pinf q 3 (a_density U_i) (a_internal_energy 1 U_i) 1 /\
  n_gas b pinf q 3 (a_density U_j) (a_internal_energy 1 U_j) 1 /\
  pinf = 0 /\
  n_fan b pinf q 3 (a_density U_i) (normal_velocity 1 n U_i) 1
        3 (a_density U_j) (normal_velocity 1 n U_j) 1 0 (11 / 5) (- (23 / 10)) (23 / 10).
Proof.
  cbv zeta. split; [apply ex_jet_gas|]. split; [apply ex_jet_gas|]. split; [reflexivity|].
  destruct (ex_jet_values (2 / 5)) as (-> & -> & _). destruct (ex_jet_values (- (2 / 5))) as (-> & -> & _).
  exact ex_jet_fan.
Qed.

(** C38 when the waves do not meet. *)
Theorem C38_vacuum : forall s dim U_i U_j p_i p_j n g_i g_j sl sr xi,
  let b := interp_b (a_eos s) in let pinf := interp_pinf (a_eos s) in let q := interp_q (a_eos s) in
  n_gas b pinf q g_i (a_density U_i) (a_internal_energy dim U_i) p_i ->
  n_gas b pinf q g_j (a_density U_j) (a_internal_energy dim U_j) p_j ->
  n_vacuum b pinf g_i (a_density U_i) (normal_velocity dim n U_i) p_i
           g_j (a_density U_j) (normal_velocity dim n U_j) p_j sl sr ->
  sl <= xi <= sr ->
  Rabs xi <= ar_wavespeed s dim U_i U_j p_i p_j n.
Proof. exact C38_vacuum_proof. Qed.
Print Assumptions C38_vacuum.

Example C38_vacuum_ex : let U_i := ex_jet (- (2)) in let U_j := ex_jet 2 in
  let n : vec := fun _ => 1 in let a := n_sound (3 / 10) 0 3 (10 / 9) 1 in
  n_gas (3 / 10) 0 0 3 (a_density U_i) (a_internal_energy 1 U_i) 1 /\
  n_gas (3 / 10) 0 0 3 (a_density U_j) (a_internal_energy 1 U_j) 1 /\
  n_vacuum (3 / 10) 0 3 (a_density U_i) (normal_velocity 1 n U_i) 1
           3 (a_density U_j) (normal_velocity 1 n U_j) 1 (- (2) - a) (2 + a).
Proof.
  cbv zeta. split; [apply ex_jet_gas|]. split; [apply ex_jet_gas|].
  destruct (ex_jet_values (- (2))) as (-> & -> & _). destruct (ex_jet_values 2) as (-> & -> & _).
  exact ex_jet_vacuum.
Qed.

(** C38 for all pairs of states and every pinf: the computed speed bounds the outgoing acoustic
    characteristics of both states. *)
Theorem C38_characteristics : forall s dim U_i U_j p_i p_j n g_i g_j,
  let b := interp_b (a_eos s) in let pinf := interp_pinf (a_eos s) in let q := interp_q (a_eos s) in
  n_gas b pinf q g_i (a_density U_i) (a_internal_energy dim U_i) p_i ->
  n_gas b pinf q g_j (a_density U_j) (a_internal_energy dim U_j) p_j ->
  let lambda := ar_wavespeed s dim U_i U_j p_i p_j n in
  - lambda <= normal_velocity dim n U_i - n_sound b pinf g_i (a_density U_i) p_i /\
  normal_velocity dim n U_j + n_sound b pinf g_j (a_density U_j) p_j <= lambda.
Proof. exact C38_characteristics_proof. Qed.
Print Assumptions C38_characteristics.

(** A liquid with pinf = 1 at pressure 0. *)
Example C38_characteristics_ex : forall u,
  n_gas 0 1 0 3 (a_density (ex_water u)) (a_internal_energy 1 (ex_water u)) 0 /\
  normal_velocity 1 (fun _ => 1) (ex_water u) = u.
Proof. intros u. split; [apply ex_water_gas|apply ex_water_values]. Qed.

(** The full claim is false for pinf > 0, in both modes: two colliding streams of a liquid. *)
Theorem C38_pinf_refuted : forall strict, exists s dim U_i U_j p_i p_j n g_i g_j us ps sl sr,
  let b := interp_b (a_eos s) in let pinf := interp_pinf (a_eos s) in let q := interp_q (a_eos s) in
  compute_strict_bounds s = strict /\ 0 <= b /\ 0 <= pinf /\ dot dim n n = 1 /\
  n_gas b pinf q g_i (a_density U_i) (a_internal_energy dim U_i) p_i /\
  n_gas b pinf q g_j (a_density U_j) (a_internal_energy dim U_j) p_j /\
  n_fan b pinf q g_i (a_density U_i) (normal_velocity dim n U_i) p_i
        g_j (a_density U_j) (normal_velocity dim n U_j) p_j us ps sl sr /\
  ar_wavespeed s dim U_i U_j p_i p_j n < sr.
Proof. exact C38_pinf_refuted_proof. Qed.
Print Assumptions C38_pinf_refuted.

(** C73 (arbitrary equation of state): the computed speed is never negative; it does not change
    when the states are exchanged and the normal is reversed, if the pressures differ, or
    both gammas are at most 5/3, or the bounds are strict and pinf = 0. *)
Theorem C73_aeos_nonneg : forall s dim U_i U_j p_i p_j n, 0 <= ar_wavespeed s dim U_i U_j p_i p_j n.
Proof. exact ar_wavespeed_nonneg. Qed.
Print Assumptions C73_aeos_nonneg.

Theorem C73_aeos_symmetric : forall s dim U_i U_j p_i p_j n g_i g_j,
  let b := interp_b (a_eos s) in let pinf := interp_pinf (a_eos s) in let q := interp_q (a_eos s) in
  n_gas b pinf q g_i (a_density U_i) (a_internal_energy dim U_i) p_i ->
  n_gas b pinf q g_j (a_density U_j) (a_internal_energy dim U_j) p_j ->
  (p_i <> p_j \/ (g_i <= 5 / 3 /\ g_j <= 5 / 3) \/ (compute_strict_bounds s = true /\ pinf = 0)) ->
  ar_wavespeed s dim U_j U_i p_j p_i (fun k => - n k) = ar_wavespeed s dim U_i U_j p_i p_j n.
Proof. exact C73_aeos_symmetric_proof. Qed.
Print Assumptions C73_aeos_symmetric.

(** The hypotheses hold for the pair of C38_wave_speed_ex. *)
Example C73_aeos_symmetric_ex :
  ar_wavespeed ex_covolume 1 (ex_jet (- (2 / 5))) (ex_jet (2 / 5)) 1 1 (fun k => - 1) =
  ar_wavespeed ex_covolume 1 (ex_jet (2 / 5)) (ex_jet (- (2 / 5))) 1 1 (fun _ => 1).
Proof.
  apply (C73_aeos_symmetric ex_covolume 1 _ _ 1 1 (fun _ => 1) 3 3); [apply ex_jet_gas|apply ex_jet_gas|].
  right; right. split; reflexivity.
Qed.

(** Without these conditions the claim is false: equal pressures, gamma = 3, interpolated
    bounds. *)
Theorem C73_aeos_tie_refuted : exists s dim U_i U_j p_i p_j n g_i g_j,
  let b := interp_b (a_eos s) in let pinf := interp_pinf (a_eos s) in let q := interp_q (a_eos s) in
  n_gas b pinf q g_i (a_density U_i) (a_internal_energy dim U_i) p_i /\
  n_gas b pinf q g_j (a_density U_j) (a_internal_energy dim U_j) p_j /\
  ar_wavespeed s dim U_j U_i p_j p_i (fun k => - n k) <> ar_wavespeed s dim U_i U_j p_i p_j n.
Proof. exact C73_aeos_tie_refuted_proof. Qed.
Print Assumptions C73_aeos_tie_refuted.
