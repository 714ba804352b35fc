(** * Properties of the equations of state: C41, C42, C74, C75, C76 *)
From Coq Require Import Reals Lra Lia List.
From Verif Require Import RVec EulerSystem AeosSystem Eos EosSpec EosProofs.
Import ListNotations.
Local Open Scope R_scope.

(** C41: the energy as a function of the pressure inverts the pressure as a function of the
    energy, for all parameters. *)
Theorem C41_polytropic : forall o rho x, pg_gamma o <> 1 -> rho <> 0 -> inverse_at (pg_pressure o) (pg_sie o) rho x.
Proof. exact pg_inverse. Qed.
Print Assumptions C41_polytropic.

Theorem C41_noble_abel : forall o rho x, na_gamma o <> 1 -> rho <> 0 -> na_b o * rho <> 1 ->
  inverse_at (na_pressure o) (na_sie o) rho x.
Proof. exact na_inverse. Qed.
Print Assumptions C41_noble_abel.

Theorem C41_van_der_waals : forall o rho x, vw_gamma o <> 1 -> rho <> 0 -> vw_b o * rho <> 1 ->
  inverse_at (vw_pressure o) (vw_sie o) rho x.
Proof. exact vw_inverse. Qed.
Print Assumptions C41_van_der_waals.

(** Water: gamma = 1.19, b = 6.61e-4, q = -1177788, pinf = 7.028e8 at rho = 1000. *)
Example C41_noble_abel_ex : forall p,
  let o := na_parse (119 / 100) 1 (661 / 1000000) (- (1177788)) 702800000 na_construct in
  inverse_at (na_pressure o) (na_sie o) 1000 p.
Proof. intros p o. apply C41_noble_abel; unfold o; simpl; lra. Qed.

(** Jones-Wilkins-Lee: only without heat release, q_0 = 0. *)
Theorem C41_jwl_partial : forall o rho x, jw_q_0 o = 0 -> jw_omega o <> 0 -> rho <> 0 ->
  inverse_at (jw_pressure o) (jw_sie o) rho x.
Proof. exact jw_inverse. Qed.
Print Assumptions C41_jwl_partial.

(** The default parameters have q_0 = 0. *)
Example C41_jwl_ex : inverse_at (jw_pressure (ex_pbx 0)) (jw_sie (ex_pbx 0)) 1895 4000000.
Proof. apply C41_jwl_partial; simpl; lra. Qed.

(** For every other q_0 the energy comes back wrong. *)
Theorem C41_jwl_refuted : exists o rho e, 0 < rho /\ 0 < jw_omega o /\ 0 < e /\ jw_sie o rho (jw_pressure o rho e) <> e.
Proof. exact C41_jwl_refuted_proof. Qed.
Print Assumptions C41_jwl_refuted.

(** C42: the speed of sound is the one of the pressure law. *)
Theorem C42_polytropic : forall o rho e, rho <> 0 -> sound_law (pg_pressure o) (pg_speed_of_sound o rho e) rho e.
Proof. exact pg_sound. Qed.
Print Assumptions C42_polytropic.

Theorem C42_noble_abel : forall o rho e, rho <> 0 -> na_b o * rho < 1 ->
  sound_law (na_pressure o) (na_speed_of_sound o rho e) rho e.
Proof. exact na_sound. Qed.
Print Assumptions C42_noble_abel.

Theorem C42_van_der_waals : forall o rho e, rho <> 0 -> vw_b o * rho < 1 ->
  sound_law (vw_pressure o) (vw_speed_of_sound o rho e) rho e.
Proof. exact vw_sound. Qed.
Print Assumptions C42_van_der_waals.

Example C42_van_der_waals_ex : let o := vw_parse (7 / 5) 1 (1 / 2) (4 / 10) vw_construct in
  sound_law (vw_pressure o) (vw_speed_of_sound o 1 1) 1 1 /\ 0 < vw_speed_of_sound o 1 1.
Proof.
  split; [apply C42_van_der_waals; simpl; lra|]. unfold vw_speed_of_sound; simpl. apply sqrt_lt_R0. lra.
Qed.

(** Jones-Wilkins-Lee: only for omega = 1 and q_0 = 0. *)
Theorem C42_jwl_partial : forall o rho e,
  jw_omega o = 1 -> jw_q_0 o = 0 -> rho <> 0 -> jw_rho_0 o <> 0 -> jw_R1 o <> 0 -> jw_R2 o <> 0 ->
  sound_law (jw_pressure o) (jw_speed_of_sound o rho e) rho e.
Proof. exact jw_sound. Qed.
Print Assumptions C42_jwl_partial.

Example C42_jwl_ex : exists o, jw_omega o = 1 /\ jw_q_0 o = 0 /\ jw_rho_0 o <> 0 /\ jw_R1 o <> 0 /\ jw_R2 o <> 0.
Proof.
  exists {| jw_A := 3; jw_B := 2; jw_R1 := 4; jw_R2 := 1; jw_omega := 1; jw_rho_0 := 2; jw_q_0 := 0; jw_cv := 1 |}. simpl. lra.
Qed.

(** For other omega the computed speed is wrong, also with q_0 = 0. *)
Theorem C42_jwl_refuted : exists o rho e,
  0 < rho /\ 0 < e /\ 0 < jw_omega o /\ jw_q_0 o = 0 /\ 0 < jw_R1 o /\ 0 < jw_R2 o /\ 0 < jw_rho_0 o /\
  0 < jw_pressure o rho e /\ ~ sound_law (jw_pressure o) (jw_speed_of_sound o rho e) rho e.
Proof. exact C42_jwl_refuted_proof. Qed.
Print Assumptions C42_jwl_refuted.

(** C74: the temperature satisfies the thermal equation of state of the configured gas; for
    Jones-Wilkins-Lee always, for the other three only with the default gamma and R. *)
Theorem C74_jwl : forall o rho e, jw_cv o <> 0 -> rho <> 0 -> jw_rho_0 o <> 0 -> jw_R1 o <> 0 -> jw_R2 o <> 0 ->
  let v := jw_rho_0 o / rho in
  jw_pressure o rho e =
    jw_A o * exp (- (jw_R1 o * v)) + jw_B o * exp (- (jw_R2 o * v)) + jw_omega o * jw_cv o * rho * jw_temperature o rho e.
Proof. exact C74_jwl_proof. Qed.
Print Assumptions C74_jwl.

Theorem C74_polytropic_partial : forall gas_constant rho e, gas_constant = 287052874 / 1000000 ->
  let o := pg_parse (7 / 5) gas_constant pg_construct in
  thermal_law gas_constant 0 0 (pg_pressure o rho e) rho (pg_temperature o rho e).
Proof. exact C74_polytropic_proof. Qed.
Print Assumptions C74_polytropic_partial.

Theorem C74_noble_abel_partial : forall gas_constant b q pinf rho e,
  gas_constant = 287052874 / 1000000 -> rho <> 0 -> b * rho <> 1 ->
  let o := na_parse (7 / 5) gas_constant b q pinf na_construct in
  thermal_law gas_constant b pinf (na_pressure o rho e) rho (na_temperature o rho e).
Proof. exact C74_noble_abel_proof. Qed.
Print Assumptions C74_noble_abel_partial.

Theorem C74_van_der_waals_partial : forall gas_constant a b rho e, gas_constant = 4 / 10 -> b * rho <> 1 ->
  let o := vw_parse (7 / 5) a b gas_constant vw_construct in
  thermal_law gas_constant b (a * (rho * rho)) (vw_pressure o rho e) rho (vw_temperature o rho e).
Proof. exact C74_van_der_waals_proof. Qed.
Print Assumptions C74_van_der_waals_partial.

Example C74_van_der_waals_ex : let o := vw_parse (7 / 5) 1 (1 / 2) (4 / 10) vw_construct in
  thermal_law (4 / 10) (1 / 2) (1 * (1 * 1)) (vw_pressure o 1 1) 1 (vw_temperature o 1 1) /\ vw_temperature o 1 1 = 2.
Proof. split; [apply C74_van_der_waals_partial; lra|]. unfold vw_temperature. simpl. field. Qed.

(** The member cv_ keeps its value of the default parameters. *)
Theorem C74_polytropic_refuted : exists gamma gas_constant rho e, 1 < gamma /\ 0 < gas_constant /\ 0 < rho /\ 0 < e /\
  let o := pg_parse gamma gas_constant pg_construct in
  ~ thermal_law gas_constant 0 0 (pg_pressure o rho e) rho (pg_temperature o rho e).
Proof. exact C74_polytropic_refuted_proof. Qed.
Print Assumptions C74_polytropic_refuted.

Theorem C74_noble_abel_refuted : exists gamma gas_constant rho e, 1 < gamma /\ 0 < gas_constant /\ 0 < rho /\ 0 < e /\
  let o := na_parse gamma gas_constant 0 0 0 na_construct in
  ~ thermal_law gas_constant 0 0 (na_pressure o rho e) rho (na_temperature o rho e).
Proof. exact C74_noble_abel_refuted_proof. Qed.
Print Assumptions C74_noble_abel_refuted.

Theorem C74_van_der_waals_refuted : exists gamma gas_constant rho e, 1 < gamma /\ 0 < gas_constant /\ 0 < rho /\ 0 < e /\
  let o := vw_parse gamma 0 0 gas_constant vw_construct in
  ~ thermal_law gas_constant 0 (0 * (rho * rho)) (vw_pressure o rho e) rho (vw_temperature o rho e).
Proof. exact C74_van_der_waals_refuted_proof. Qed.
Print Assumptions C74_van_der_waals_refuted.

(** C75: the surrogate gamma of an admissible state of a polytropic or Noble-Abel stiffened gas
    is the gamma of the gas, ... *)
Theorem C75_polytropic : forall gamma gas_constant dim U,
  let e := pg_eos (pg_parse gamma gas_constant pg_construct) in
  a_is_admissible e dim U = true -> surrogate_gamma e dim U (state_pressure e dim U) = gamma.
Proof. exact C75_polytropic_proof. Qed.
Print Assumptions C75_polytropic.

Theorem C75_noble_abel : forall gamma gas_constant b q pinf dim U,
  let e := na_eos (na_parse gamma gas_constant b q pinf na_construct) in
  b * a_density U < 1 -> a_is_admissible e dim U = true -> surrogate_gamma e dim U (state_pressure e dim U) = gamma.
Proof. exact C75_noble_abel_proof. Qed.
Print Assumptions C75_noble_abel.

(** ... the admissible states have a real positive speed of sound (and are all such states of
    the Noble-Abel stiffened gas), ... *)
Theorem C75_polytropic_sound : forall gamma gas_constant dim U,
  let e := pg_eos (pg_parse gamma gas_constant pg_construct) in
  1 < gamma -> a_is_admissible e dim U = true -> 0 < state_pressure e dim U /\ 0 < state_sound e dim U.
Proof. exact C75_polytropic_sound_proof. Qed.
Print Assumptions C75_polytropic_sound.

Theorem C75_noble_abel_sound : forall gamma gas_constant b q pinf dim U,
  let e := na_eos (na_parse gamma gas_constant b q pinf na_construct) in
  1 < gamma -> b * a_density U < 1 ->
  (a_is_admissible e dim U = true <-> 0 < a_density U /\ 0 < state_sound e dim U).
Proof. exact C75_noble_abel_sound_proof. Qed.
Print Assumptions C75_noble_abel_sound.

(** ... and for the van der Waals gas the interpolated pressure and gamma are in range. *)
Theorem C75_van_der_waals : forall gamma a b gas_constant dim U,
  let e := vw_eos (vw_parse gamma a b gas_constant vw_construct) in
  1 < gamma -> 0 <= a -> 0 < b -> b * a_density U < 1 -> a_is_admissible e dim U = true ->
  0 < state_pressure e dim U + a / (b * b) /\ 1 < surrogate_gamma e dim U (state_pressure e dim U).
Proof. exact C75_van_der_waals_proof. Qed.
Print Assumptions C75_van_der_waals.

(** rho = 1, e = 3. *)
Example C75_van_der_waals_ex : let e := vw_eos (vw_parse (7 / 5) 1 (1 / 2) (4 / 10) vw_construct) in
  1 / 2 * a_density (ex_vw 1 3) < 1 /\ a_is_admissible e 1 (ex_vw 1 3) = true.
Proof.
  destruct (ex_vw_values 1 3 ltac:(lra)) as [V1 V2]. split; [rewrite V1; lra|].
  apply admissible_iff. rewrite V1, V2. simpl. destruct (Rgt_dec (1 / 2) 0); lra.
Qed.

(** But physical states of a van der Waals gas with positive pressure and real speed of sound are
    rejected as not admissible. *)
Theorem C75_van_der_waals_refuted : exists gamma a b gas_constant dim U,
  let e := vw_eos (vw_parse gamma a b gas_constant vw_construct) in
  1 < gamma /\ 0 < a /\ 0 < b /\ 0 < a_density U /\ b * a_density U < 1 /\ 0 < a_internal_energy dim U /\
  0 < state_pressure e dim U /\ 0 < state_sound e dim U /\ a_is_admissible e dim U = false.
Proof. exact C75_van_der_waals_refuted_proof. Qed.
Print Assumptions C75_van_der_waals_refuted.

(** C76: the array variants return what the scalar variants return for every element. *)
Theorem C76_base : forall e rho energy, length rho = length energy ->
  exists p, base_pressure e rho energy = Some p /\ length p = length rho /\
    forall k d, (k < length rho)%nat -> nth k p d = eos_pressure e (nth k rho d) (nth k energy d).
Proof. exact C76_base_proof. Qed.
Print Assumptions C76_base.

Theorem C76_sesame_pressure : forall table rho e, length rho = length e ->
  exists p rho' e', sesame_pressure_array table rho e = Some (p, rho', e') /\ length p = length rho /\
    forall k d, (k < length rho)%nat -> nth k p d = sesame_pressure table (nth k rho d) (nth k e d).
Proof. exact C76_sesame_pressure_proof. Qed.
Print Assumptions C76_sesame_pressure.

Theorem C76_sesame_sie : forall table rho p, length rho = length p ->
  exists e rho' p', sesame_sie_array table rho p = Some (e, rho', p') /\ length e = length rho /\
    forall k d, (k < length rho)%nat -> nth k e d = sesame_sie table (nth k rho d) (nth k p d).
Proof. exact C76_sesame_sie_proof. Qed.
Print Assumptions C76_sesame_sie.

Example C76_sesame_ex : exists p rho' e',
  sesame_pressure_array (fun rho e => rho + e) [1000; 2000] [0; 1000000] = Some (p, rho', e') /\ length p = 2%nat.
Proof.
  destruct (C76_sesame_pressure (fun rho e => rho + e) [1000; 2000] [0; 1000000] eq_refl) as (p & r & e & H & L & _).
  exists p, r, e. split; assumption.
Qed.

(** Unlike the one of the base class, this array variant overwrites its arguments. *)
Example C76_sesame_overwrites : exists table rho e p rho' e',
  sesame_pressure_array table rho e = Some (p, rho', e') /\ rho' <> rho /\ e' <> e.
Proof. exact sesame_overwrites. Qed.
