(** * Proofs for the equations of state *)
From Coq Require Import Reals Lra Lia List Psatz.
From Verif Require Import RVec PhysLib EulerSystem AeosSystem Eos EosSpec.
Import ListNotations.
Local Open Scope R_scope.

Lemma der_as f l g x l' : (forall t, g t = f t) -> l' = l -> derivable_pt_lim f x l -> derivable_pt_lim g x l'.
Proof. intros H E D. apply (deriv_transfer g f x l' l); [intros; symmetry; apply H|congruence|exact D]. Qed.

Lemma lin_deriv k c x : derivable_pt_lim (fun t => k * t + c) x k.
Proof.
  apply (der_as (fun t => c + t * k + t * t * 0) (k + 2 * x * 0)); [intros; ring|ring|apply quad_deriv].
Qed.

Lemma frac_deriv k c l d x : l * x + d <> 0 ->
  derivable_pt_lim (fun t => (k * t + c) / (l * t + d)) x ((k * (l * x + d) - l * (k * x + c)) / ((l * x + d) * (l * x + d))).
Proof.
  intros H. exact (derivable_pt_lim_div (fun t => k * t + c) (fun t => l * t + d) x k l (lin_deriv k c x) (lin_deriv l d x) H).
Qed.

(** ** Inverse *)

Lemma pg_inverse o rho x : pg_gamma o <> 1 -> rho <> 0 -> inverse_at (pg_pressure o) (pg_sie o) rho x.
Proof. intros. unfold inverse_at, pg_sie, pg_pressure. split; field; split; lra. Qed.

Lemma na_inverse o rho x : na_gamma o <> 1 -> rho <> 0 -> na_b o * rho <> 1 -> inverse_at (na_pressure o) (na_sie o) rho x.
Proof. intros. unfold inverse_at, na_sie, na_pressure. split; field; repeat split; lra. Qed.

Lemma vw_inverse o rho x : vw_gamma o <> 1 -> rho <> 0 -> vw_b o * rho <> 1 -> inverse_at (vw_pressure o) (vw_sie o) rho x.
Proof. intros. unfold inverse_at, vw_sie, vw_pressure. split; field; repeat split; lra. Qed.

Lemma jw_inverse o rho x : jw_q_0 o = 0 -> jw_omega o <> 0 -> rho <> 0 -> inverse_at (jw_pressure o) (jw_sie o) rho x.
Proof.
  intros Q W H. unfold inverse_at, jw_sie, jw_pressure. rewrite Q.
  generalize (jw_A o * (1 - jw_omega o / jw_R1 o * (rho / jw_rho_0 o)) * exp (- jw_R1 o * 1 / (rho / jw_rho_0 o))).
  generalize (jw_B o * (1 - jw_omega o / jw_R2 o * (rho / jw_rho_0 o)) * exp (- jw_R2 o * 1 / (rho / jw_rho_0 o))).
  intros a b. split; field; lra.
Qed.

(** Every offset q_0 other than 0 is lost. *)
Lemma jw_offset o rho e : jw_omega o <> 0 -> rho <> 0 -> jw_sie o rho (jw_pressure o rho e) = e + jw_q_0 o.
Proof.
  intros W H. unfold jw_sie, jw_pressure.
  generalize (jw_A o * (1 - jw_omega o / jw_R1 o * (rho / jw_rho_0 o)) * exp (- jw_R1 o * 1 / (rho / jw_rho_0 o))).
  generalize (jw_B o * (1 - jw_omega o / jw_R2 o * (rho / jw_rho_0 o)) * exp (- jw_R2 o * 1 / (rho / jw_rho_0 o))).
  intros a b. field. lra.
Qed.

(** Default parameters except q_0. *)
Definition ex_pbx (q_0 : R) : jwl :=
  {| jw_A := 63207000000000; jw_B := - (4472000000); jw_R1 := 113 / 10; jw_R2 := 113 / 100; jw_omega := 8938 / 10000;
     jw_rho_0 := 1895; jw_q_0 := q_0; jw_cv := 2487 / 1895 |}.

Lemma C41_jwl_refuted_proof : exists o rho e, 0 < rho /\ 0 < jw_omega o /\ 0 < e /\ jw_sie o rho (jw_pressure o rho e) <> e.
Proof.
  exists (ex_pbx 1000000), 1895, 4000000. split; [lra|]. split; [simpl; lra|]. split; [lra|].
  rewrite jw_offset; simpl; lra.
Qed.

(** ** Speed of sound *)

Lemma pg_sound o rho e : rho <> 0 -> sound_law (pg_pressure o) (pg_speed_of_sound o rho e) rho e.
Proof.
  intros H. exists ((pg_gamma o - 1) * e), ((pg_gamma o - 1) * rho). unfold pg_pressure, pg_speed_of_sound. repeat split.
  - apply (der_as (fun t => ((pg_gamma o - 1) * e) * t + 0) ((pg_gamma o - 1) * e)); [intros; ring|ring|apply lin_deriv].
  - apply (der_as (fun t => ((pg_gamma o - 1) * rho) * t + 0) ((pg_gamma o - 1) * rho)); [intros; ring|ring|apply lin_deriv].
  - f_equal. field. exact H.
Qed.

Lemma sqrt_over n c : 0 < c -> sqrt n / c = sqrt (n / (c * c)).
Proof.
  intros H. unfold Rdiv. rewrite (Rmult_comm n). rewrite sqrt_mult_alt by (apply Rlt_le, Rinv_0_lt_compat; nra).
  rewrite sqrt_inv, sqrt_square by lra. ring.
Qed.

Lemma na_sound o rho e : rho <> 0 -> na_b o * rho < 1 -> sound_law (na_pressure o) (na_speed_of_sound o rho e) rho e.
Proof.
  intros H B. unfold sound_law, na_pressure, na_speed_of_sound.
  generalize (na_gamma o) (na_q o) (na_pinf o). intros g q pinf. set (b := na_b o) in *. clearbody b.
  exists ((g - 1) * (e - q) / ((1 - b * rho) * (1 - b * rho))), ((g - 1) * rho / (1 - b * rho)). repeat split.
  - apply (der_as (fun t => ((g - 1) * (e - q) * t + 0) / (- b * t + 1) + - (g * pinf))
      (((g - 1) * (e - q) * (- b * rho + 1) - - b * ((g - 1) * (e - q) * rho + 0)) / ((- b * rho + 1) * (- b * rho + 1)) + 0)).
    + intros t. replace (- b * t + 1) with (1 - b * t) by ring. unfold Rdiv. ring.
    + field. lra.
    + apply (derivable_pt_lim_plus (fun t => ((g - 1) * (e - q) * t + 0) / (- b * t + 1)) (fun _ => - (g * pinf)));
        [apply frac_deriv; lra|apply derivable_pt_lim_const].
  - apply (der_as (fun t => ((g - 1) * rho / (1 - b * rho)) * t + (- ((g - 1) * rho * q / (1 - b * rho)) - g * pinf)) ((g - 1) * rho / (1 - b * rho)));
      [intros; field; lra|ring|apply lin_deriv].
  - rewrite sqrt_over by lra. f_equal. field. lra.
Qed.

Lemma vw_sound o rho e : rho <> 0 -> vw_b o * rho < 1 -> sound_law (vw_pressure o) (vw_speed_of_sound o rho e) rho e.
Proof.
  intros H B. unfold sound_law, vw_pressure, vw_speed_of_sound.
  generalize (vw_gamma o) (vw_a o). intros g a. set (b := vw_b o) in *. clearbody b.
  exists ((g - 1) * ((e + 2 * a * rho) * (1 - b * rho) + b * (rho * e + a * rho * rho)) / ((1 - b * rho) * (1 - b * rho)) - 2 * a * rho),
    ((g - 1) * rho / (1 - b * rho)). repeat split.
  - pose proof (quad_deriv 0 ((g - 1) * e) ((g - 1) * a) rho) as D1. pose proof (lin_deriv (- b) 1 rho) as D2.
    pose proof (quad_deriv 0 0 (- a) rho) as D3.
    assert (NZ : - b * rho + 1 <> 0) by lra.
    pose proof (derivable_pt_lim_div _ _ rho _ _ D1 D2 NZ) as D4.
    pose proof (derivable_pt_lim_plus _ _ rho _ _ D4 D3) as D5. unfold plus_fct, div_fct, Rsqr in D5.
    revert D5. apply der_as.
    + intros t. replace (- b * t + 1) with (1 - b * t) by ring. unfold Rdiv. ring.
    + field. lra.
  - apply (der_as (fun t => ((g - 1) * rho / (1 - b * rho)) * t + ((g - 1) * (a * rho * rho) / (1 - b * rho) - a * rho * rho)) ((g - 1) * rho / (1 - b * rho)));
      [intros; field; lra|ring|apply lin_deriv].
  - f_equal. field. lra.
Qed.

(** The square of the speed of sound of the pressure law. *)
Definition jw_square (o : jwl) (rho e : R) : R :=
  let x1 := jw_R1 o * jw_rho_0 o / rho in
  let x2 := jw_R2 o * jw_rho_0 o / rho in
  let w := jw_omega o in
  jw_A o / rho * ((1 - w / x1) * (x1 + w) - w / x1) * exp (- x1) +
  jw_B o / rho * ((1 - w / x2) * (x2 + w) - w / x2) * exp (- x2) + w * (w + 1) * (e + jw_q_0 o).

Lemma jw_term_deriv A w R0 r0 rho : rho <> 0 -> r0 <> 0 -> R0 <> 0 ->
  let x := R0 * r0 / rho in
  derivable_pt_lim (fun t => A * (1 - w / R0 * (t / r0)) * exp (- R0 * 1 / (t / r0))) rho
    (A / rho * ((1 - w / x) * x - w / x) * exp (- x)).
Proof.
  intros H0 H1 H2 x.
  pose proof (lin_deriv (- (A * w / (R0 * r0))) A rho) as D1.
  assert (D2 : derivable_pt_lim (fun t => - R0 * 1 / (t / r0)) rho (R0 * r0 / (rho * rho))).
  { assert (NZ : / r0 * rho + 0 <> 0) by (rewrite Rplus_0_r; apply Rmult_integral_contrapositive_currified; [apply Rinv_neq_0_compat; exact H1|exact H0]).
    pose proof (frac_deriv 0 (- R0) (/ r0) 0 rho NZ) as D. revert D. apply der_as.
    - intros t. unfold Rdiv. f_equal; [ring|]. f_equal. ring.
    - field. repeat split; try assumption. }
  pose proof (derivable_pt_lim_comp _ exp rho _ _ D2 (derivable_pt_lim_exp _)) as D3. unfold comp in D3.
  pose proof (derivable_pt_lim_mult _ _ rho _ _ D1 D3) as D4. unfold mult_fct in D4. revert D4. apply der_as.
  - intros t. f_equal. field. split; assumption.
  - replace (- R0 * 1 / (rho / r0)) with (- x) by (unfold x; field; split; assumption).
    unfold x. set (E := exp _). field. repeat split; assumption.
Qed.

Lemma jw_square_spec o rho e : rho <> 0 -> jw_rho_0 o <> 0 -> jw_R1 o <> 0 -> jw_R2 o <> 0 ->
  sound_law (jw_pressure o) (sqrt (jw_square o rho e)) rho e.
Proof.
  intros H0 H1 H2 H3.
  pose proof (jw_term_deriv (jw_A o) (jw_omega o) (jw_R1 o) (jw_rho_0 o) rho H0 H1 H2) as D1.
  pose proof (jw_term_deriv (jw_B o) (jw_omega o) (jw_R2 o) (jw_rho_0 o) rho H0 H1 H3) as D2. cbv zeta in D1, D2.
  pose proof (lin_deriv (jw_omega o * (e + jw_q_0 o)) 0 rho) as D3.
  pose proof (derivable_pt_lim_plus _ _ rho _ _ (derivable_pt_lim_plus _ _ rho _ _ D1 D2) D3) as D. unfold plus_fct in D.
  match type of D with derivable_pt_lim _ _ ?l => exists l, (jw_omega o * rho) end. split; [|split].
  - match type of D with derivable_pt_lim ?f _ ?l => apply (der_as f l) end; [intros t; unfold jw_pressure; cbv zeta; ring|reflexivity|exact D].
  - unfold jw_pressure. cbv zeta.
    match goal with |- derivable_pt_lim (fun x => ?a + ?b + _) _ _ =>
      apply (der_as (fun x => jw_omega o * rho * x + (a + b + jw_omega o * rho * jw_q_0 o)) (jw_omega o * rho)) end;
      [intros; ring|reflexivity|apply lin_deriv].
  - f_equal. unfold jw_square, jw_pressure. cbv zeta.
    replace (- jw_R1 o * 1 / (rho / jw_rho_0 o)) with (- (jw_R1 o * jw_rho_0 o / rho)) by (field; split; assumption).
    replace (- jw_R2 o * 1 / (rho / jw_rho_0 o)) with (- (jw_R2 o * jw_rho_0 o / rho)) by (field; split; assumption).
    set (E1 := exp _). set (E2 := exp _). field. repeat split; assumption.
Qed.

(** The code agrees for omega = 1 and q_0 = 0. *)
Lemma jw_sound o rho e : jw_omega o = 1 -> jw_q_0 o = 0 -> rho <> 0 -> jw_rho_0 o <> 0 -> jw_R1 o <> 0 -> jw_R2 o <> 0 ->
  sound_law (jw_pressure o) (jw_speed_of_sound o rho e) rho e.
Proof.
  intros W Q H0 H1 H2 H3. replace (jw_speed_of_sound o rho e) with (sqrt (jw_square o rho e)); [apply jw_square_spec; assumption|].
  unfold jw_square, jw_speed_of_sound. cbv zeta. rewrite W, Q. f_equal.
  replace (- (1) / (1 * rho / (jw_R1 o * jw_rho_0 o)) / 1) with (- (jw_R1 o * jw_rho_0 o / rho)) by (field; repeat split; assumption).
  replace (- (1) / (1 * rho / (jw_R2 o * jw_rho_0 o)) / 1) with (- (jw_R2 o * jw_rho_0 o / rho)) by (field; repeat split; assumption).
  set (E1 := exp _). set (E2 := exp _). field. repeat split; assumption.
Qed.

(** Otherwise the exponent is wrong; A = R1 = R2 = rho_0 = 1, B = 0, omega = 1/2. *)
Definition ex_half (q_0 : R) : jwl :=
  {| jw_A := 1; jw_B := 0; jw_R1 := 1; jw_R2 := 1; jw_omega := 1 / 2; jw_rho_0 := 1; jw_q_0 := q_0; jw_cv := 1 |}.

Lemma sound_unique p c c' rho e : sound_law p c rho e -> sound_law p c' rho e -> c = c'.
Proof.
  intros (a & b & A & B & ->) (a' & b' & A' & B' & ->).
  rewrite (uniqueness_limite _ _ _ _ A A'), (uniqueness_limite _ _ _ _ B B'). reflexivity.
Qed.

Lemma C42_jwl_refuted_proof : exists o rho e, 0 < rho /\ 0 < e /\ 0 < jw_omega o /\ jw_q_0 o = 0 /\ 0 < jw_R1 o /\ 0 < jw_R2 o /\ 0 < jw_rho_0 o /\ 0 < jw_pressure o rho e /\ ~ sound_law (jw_pressure o) (jw_speed_of_sound o rho e) rho e.
Proof.
  exists (ex_half 0), 1, 1. simpl jw_omega; simpl jw_q_0; simpl jw_R1; simpl jw_R2; simpl jw_rho_0.
  repeat match goal with |- _ /\ _ => split end; try lra.
  - unfold jw_pressure; simpl. pose proof (exp_pos (- (1) * 1 / (1 / 1))). nra.
  - intros S. assert (T : sound_law (jw_pressure (ex_half 0)) (sqrt (jw_square (ex_half 0) 1 1)) 1 1) by (apply jw_square_spec; simpl; lra).
    pose proof (sound_unique _ _ _ _ _ S T) as E. unfold jw_speed_of_sound, jw_square in E. cbn in E.
    replace (- (1) / (1 / 2 * 1 / (1 * 1)) / (1 / 2)) with (- (4)) in E by field.
    replace (- (1 * 1 / 1)) with (- (1)) in E by field.
    pose proof (exp_pos (- (4))) as P4. pose proof (exp_pos (- (1))) as P1.
    assert (L : exp (- (4)) < exp (- (1))) by (apply exp_increasing; lra).
    apply sqrt_inj in E.
    + clear - E L. set (x := exp (- (4))) in *. set (y := exp (- (1))) in *.
      assert (x / 4 = y / 4); [|lra].
      match type of E with ?a = ?b => assert (E1 : a = x / 4 + 3 / 4) by field; assert (E2 : b = y / 4 + 3 / 4) by field end. lra.
    + match goal with |- 0 <= ?a => replace a with (exp (- (4)) / 4 + 3 / 4) by field end. lra.
    + match goal with |- 0 <= ?a => replace a with (exp (- (1)) / 4 + 3 / 4) by field end. lra.
Qed.

(** ** Temperature *)

Lemma pg_thermal o rho e : pg_gamma o <> 1 -> pg_R o <> 0 -> pg_cv o = pg_R o / (pg_gamma o - 1) ->
  thermal_law (pg_R o) 0 0 (pg_pressure o rho e) rho (pg_temperature o rho e).
Proof. intros G N C. unfold thermal_law, pg_pressure, pg_temperature. rewrite C. field. lra. Qed.

Lemma na_thermal o rho e : na_gamma o <> 1 -> na_R o <> 0 -> rho <> 0 -> na_b o * rho <> 1 -> na_cv o = na_R o / (na_gamma o - 1) ->
  thermal_law (na_R o) (na_b o) (na_pinf o) (na_pressure o rho e) rho (na_temperature o rho e).
Proof. intros G N H B C. unfold thermal_law, na_pressure, na_temperature. rewrite C. field. repeat split; lra. Qed.

Lemma vw_thermal o rho e : vw_gamma o <> 1 -> vw_R o <> 0 -> vw_b o * rho <> 1 -> vw_cv o = vw_R o / (vw_gamma o - 1) ->
  thermal_law (vw_R o) (vw_b o) (vw_a o * (rho * rho)) (vw_pressure o rho e) rho (vw_temperature o rho e).
Proof. intros G N B C. unfold thermal_law, vw_pressure, vw_temperature. rewrite C. field. repeat split; lra. Qed.

Lemma C74_polytropic_proof gas_constant rho e : gas_constant = 287052874 / 1000000 ->
  let o := pg_parse (7 / 5) gas_constant pg_construct in thermal_law gas_constant 0 0 (pg_pressure o rho e) rho (pg_temperature o rho e).
Proof. intros -> o. apply pg_thermal; unfold o; simpl; lra. Qed.

Lemma C74_noble_abel_proof gas_constant b q pinf rho e : gas_constant = 287052874 / 1000000 -> rho <> 0 -> b * rho <> 1 ->
  let o := na_parse (7 / 5) gas_constant b q pinf na_construct in
  thermal_law gas_constant b pinf (na_pressure o rho e) rho (na_temperature o rho e).
Proof. intros -> H B o. apply (na_thermal o); unfold o; simpl; try assumption; lra. Qed.

Lemma C74_van_der_waals_proof gas_constant a b rho e : gas_constant = 4 / 10 -> b * rho <> 1 ->
  let o := vw_parse (7 / 5) a b gas_constant vw_construct in
  thermal_law gas_constant b (a * (rho * rho)) (vw_pressure o rho e) rho (vw_temperature o rho e).
Proof. intros -> B o. apply (vw_thermal o); unfold o; simpl; try assumption; lra. Qed.

Lemma C74_jwl_proof o rho e : jw_cv o <> 0 -> rho <> 0 -> jw_rho_0 o <> 0 -> jw_R1 o <> 0 -> jw_R2 o <> 0 ->
  let v := jw_rho_0 o / rho in
  jw_pressure o rho e = jw_A o * exp (- (jw_R1 o * v)) + jw_B o * exp (- (jw_R2 o * v)) + jw_omega o * jw_cv o * rho * jw_temperature o rho e.
Proof.
  intros C H H0 H1 H2 v. unfold jw_pressure, jw_temperature. cbv zeta.
  replace (- jw_R1 o * 1 / (rho / jw_rho_0 o)) with (- (jw_R1 o * v)) by (unfold v; field; split; assumption).
  replace (- jw_R2 o * 1 / (rho / jw_rho_0 o)) with (- (jw_R2 o * v)) by (unfold v; field; split; assumption).
  set (E1 := exp _). set (E2 := exp _). field. repeat split; assumption.
Qed.

Lemma C74_polytropic_refuted_proof : exists gamma gas_constant rho e, 1 < gamma /\ 0 < gas_constant /\ 0 < rho /\ 0 < e /\
  let o := pg_parse gamma gas_constant pg_construct in ~ thermal_law gas_constant 0 0 (pg_pressure o rho e) rho (pg_temperature o rho e).
Proof.
  exists (5 / 3), (287052874 / 1000000), 1, 1. repeat (split; [lra|]). cbv zeta. unfold thermal_law, pg_pressure, pg_temperature, pg_parse, pg_construct. simpl. lra.
Qed.

Lemma C74_noble_abel_refuted_proof : exists gamma gas_constant rho e, 1 < gamma /\ 0 < gas_constant /\ 0 < rho /\ 0 < e /\
  let o := na_parse gamma gas_constant 0 0 0 na_construct in ~ thermal_law gas_constant 0 0 (na_pressure o rho e) rho (na_temperature o rho e).
Proof.
  exists (5 / 3), (287052874 / 1000000), 1, 1. repeat (split; [lra|]). cbv zeta. unfold thermal_law, na_pressure, na_temperature, na_parse, na_construct. simpl. lra.
Qed.

Lemma C74_van_der_waals_refuted_proof : exists gamma gas_constant rho e, 1 < gamma /\ 0 < gas_constant /\ 0 < rho /\ 0 < e /\
  let o := vw_parse gamma 0 0 gas_constant vw_construct in
  ~ thermal_law gas_constant 0 (0 * (rho * rho)) (vw_pressure o rho e) rho (vw_temperature o rho e).
Proof.
  exists (5 / 3), (4 / 10), 1, 1. repeat (split; [lra|]). cbv zeta. unfold thermal_law, vw_pressure, vw_temperature, vw_parse, vw_construct. simpl. lra.
Qed.

(** ** Interpolation constants *)

Lemma admissible_iff e dim U : a_is_admissible e dim U = true <->
  0 < a_density U /\ 0 < a_internal_energy dim U - a_density U * interp_q e - interp_pinf e * (1 - interp_b e * a_density U).
Proof.
  unfold a_is_admissible. cbv zeta.
  destruct (Rgt_dec (a_density U) 0) as [A|A]; destruct (Rgt_dec (a_internal_energy dim U - a_density U * interp_q e - interp_pinf e * (1 - interp_b e * a_density U)) 0) as [B|B];
    match goal with |- (if ?d then _ else _) = _ <-> _ => destruct d as [D|D] end; split; intros Q; try discriminate Q; try reflexivity; try lra.
Qed.

Lemma C75_polytropic_proof gamma gas_constant dim U : let e := pg_eos (pg_parse gamma gas_constant pg_construct) in
  a_is_admissible e dim U = true -> surrogate_gamma e dim U (state_pressure e dim U) = gamma.
Proof.
  intros e A. apply admissible_iff in A. unfold e in A; simpl in A. unfold surrogate_gamma, state_pressure, e. simpl. unfold pg_pressure. simpl.
  field. lra.
Qed.

Lemma C75_polytropic_sound_proof gamma gas_constant dim U : let e := pg_eos (pg_parse gamma gas_constant pg_construct) in
  1 < gamma -> a_is_admissible e dim U = true -> 0 < state_pressure e dim U /\ 0 < state_sound e dim U.
Proof.
  intros e G A. apply admissible_iff in A. unfold e in A; simpl in A. unfold state_pressure, state_sound, e. simpl. unfold pg_pressure, pg_speed_of_sound. simpl.
  assert (X : 0 < a_internal_energy dim U / a_density U) by (apply Rdiv_lt_0_compat; lra). split.
  - apply Rmult_lt_0_compat; [apply Rmult_lt_0_compat; lra|exact X].
  - apply sqrt_lt_R0. apply Rmult_lt_0_compat; [apply Rmult_lt_0_compat; lra|exact X].
Qed.

Lemma C75_noble_abel_proof gamma gas_constant b q pinf dim U : let e := na_eos (na_parse gamma gas_constant b q pinf na_construct) in
  b * a_density U < 1 -> a_is_admissible e dim U = true -> surrogate_gamma e dim U (state_pressure e dim U) = gamma.
Proof.
  intros e B A. apply admissible_iff in A. unfold e in A; simpl in A. unfold surrogate_gamma, state_pressure, e. simpl. unfold na_pressure. simpl.
  destruct A as [A1 A2]. set (rho := a_density U) in *. set (x := a_internal_energy dim U) in *. clearbody rho x. field. repeat split; lra.
Qed.

Lemma C75_noble_abel_sound_proof gamma gas_constant b q pinf dim U : let e := na_eos (na_parse gamma gas_constant b q pinf na_construct) in
  1 < gamma -> b * a_density U < 1 -> (a_is_admissible e dim U = true <-> 0 < a_density U /\ 0 < state_sound e dim U).
Proof.
  intros e G B. rewrite admissible_iff. unfold e; simpl. unfold state_sound. simpl. unfold na_speed_of_sound. simpl.
  set (rho := a_density U) in *. set (x := a_internal_energy dim U) in *. clearbody rho x.
  assert (E : 0 < rho -> (rho * (x / rho - q) - pinf * (1 - b * rho)) / rho * (gamma * (gamma - 1)) =
    (x - rho * q - pinf * (1 - b * rho)) * (gamma * (gamma - 1) * / rho)) by (intros; field; lra).
  split; intros [H1 H2]; (split; [exact H1|]).
  - apply Rdiv_lt_0_compat; [|lra]. apply sqrt_lt_R0. rewrite E by exact H1. apply Rmult_lt_0_compat; [exact H2|].
    apply Rmult_lt_0_compat; [nra|apply Rinv_0_lt_compat; exact H1].
  - rewrite E in H2 by exact H1. destruct (Rlt_dec 0 (x - rho * q - pinf * (1 - b * rho))) as [Y|Y]; [exact Y|exfalso].
    assert (P : 0 < gamma * (gamma - 1) * / rho) by (apply Rmult_lt_0_compat; [nra|apply Rinv_0_lt_compat; exact H1]).
    rewrite sqrt_neg_0 in H2 by nra. unfold Rdiv in H2. lra.
Qed.

Lemma C75_van_der_waals_proof gamma a b gas_constant dim U : let e := vw_eos (vw_parse gamma a b gas_constant vw_construct) in
  1 < gamma -> 0 <= a -> 0 < b -> b * a_density U < 1 -> a_is_admissible e dim U = true ->
  0 < state_pressure e dim U + a / (b * b) /\ 1 < surrogate_gamma e dim U (state_pressure e dim U).
Proof.
  intros e G A0 B0 B A. apply admissible_iff in A. unfold e in *. unfold surrogate_gamma, state_pressure. simpl in *.
  destruct (Rgt_dec b 0) as [_|NB]; [|lra]. unfold vw_pressure; simpl.
  set (rho := a_density U) in *. set (x := a_internal_energy dim U) in *. clearbody rho x. destruct A as [A1 A2].
  assert (PI : 0 <= a / (b * b)) by (apply Rmult_le_pos; [lra|apply Rlt_le, Rinv_0_lt_compat; nra]).
  assert (X : 0 < x) by (assert (0 <= a / (b * b) * (1 - b * rho)) by (apply Rmult_le_pos; lra); lra).
  assert (P1 : 0 < (gamma - 1) * (rho * (x / rho) + a * rho * rho) / (1 - b * rho)).
  { replace (rho * (x / rho)) with x by (field; lra). apply Rdiv_lt_0_compat; [|lra]. apply Rmult_lt_0_compat; [lra|].
    assert (0 <= a * rho * rho) by (apply Rmult_le_pos; [apply Rmult_le_pos|]; lra). lra. }
  assert (P2 : a * rho * rho <= a / (b * b)).
  { apply (Rmult_le_reg_r (b * b)); [nra|]. replace (a / (b * b) * (b * b)) with (a * 1) by (field; lra).
    replace (a * rho * rho * (b * b)) with (a * ((b * rho) * (b * rho))) by ring. apply Rmult_le_compat_l; [lra|].
    assert (0 < b * rho) by (apply Rmult_lt_0_compat; lra). nra. }
  assert (P : 0 < (gamma - 1) * (rho * (x / rho) + a * rho * rho) / (1 - b * rho) - a * rho * rho + a / (b * b)) by lra.
  split; [exact P|].
  match goal with |- 1 < 1 + ?n / ?d => assert (0 < n / d); [|lra] end.
  apply Rdiv_lt_0_compat; [apply Rmult_lt_0_compat; lra|]. replace ((1 - b * rho) * (a / (b * b))) with (a / (b * b) * (1 - b * rho)) by ring. lra.
Qed.

(** A van der Waals gas at rest. *)
Definition ex_vw (rho e : R) : vec := fun k => match k with O => rho | 2%nat => rho * e | _ => 0 end.

Lemma ex_vw_values rho e : rho <> 0 -> a_density (ex_vw rho e) = rho /\ a_internal_energy 1 (ex_vw rho e) = rho * e.
Proof.
  intros H. split; [reflexivity|]. unfold a_internal_energy, a_total_energy, a_density, a_momentum, norm2, dot, rsum, ex_vw. simpl. field. exact H.
Qed.

Lemma C75_van_der_waals_refuted_proof : exists gamma a b gas_constant dim U,
  let e := vw_eos (vw_parse gamma a b gas_constant vw_construct) in
  1 < gamma /\ 0 < a /\ 0 < b /\ 0 < a_density U /\ b * a_density U < 1 /\ 0 < a_internal_energy dim U /\
  0 < state_pressure e dim U /\ 0 < state_sound e dim U /\ a_is_admissible e dim U = false.
Proof.
  exists (7 / 5), 1, (1 / 2), (4 / 10), 1%nat, (ex_vw 1 1). cbv zeta.
  destruct (ex_vw_values 1 1 ltac:(lra)) as [V1 V2].
  assert (E : a_is_admissible (vw_eos (vw_parse (7 / 5) 1 (1 / 2) (4 / 10) vw_construct)) 1 (ex_vw 1 1) = false).
  { destruct (a_is_admissible _ _ _) eqn:Q; [|reflexivity]. apply admissible_iff in Q. rewrite V1, V2 in Q. simpl in Q.
    destruct (Rgt_dec (1 / 2) 0); lra. }
  unfold state_pressure, state_sound. rewrite V1, V2. repeat split; try lra; try exact E; simpl; unfold vw_pressure, vw_speed_of_sound; simpl.
  - lra.
  - apply sqrt_lt_R0. lra.
Qed.

(** ** Arrays *)

Lemma transform2_spec f x y l : transform2 f x y = Some l <->
  length x = length y /\ length l = length x /\ forall k d, (k < length x)%nat -> nth k l d = f (nth k x d) (nth k y d).
Proof.
  revert y l. induction x as [|a x IH]; intros [|b y] l; simpl.
  - split; [intros H; injection H as <-; repeat split; simpl; intros; lia|]. intros (_ & H & _). destruct l; [reflexivity|discriminate].
  - split; [discriminate|]. intros (H & _); discriminate.
  - split; [discriminate|]. intros (H & _); discriminate.
  - destruct (transform2 f x y) as [l'|] eqn:E.
    + apply IH in E. destruct E as (E1 & E2 & E3). split.
      * intros H; injection H as <-. simpl. repeat split; [lia|lia|]. intros [|k] d Hk; simpl; [reflexivity|apply E3; lia].
      * intros (H1 & H2 & H3). destruct l as [|c l]; [discriminate|]. simpl in *. f_equal. f_equal.
        -- symmetry. exact (H3 0%nat 0 ltac:(lia)).
        -- apply nth_ext with (d := 0) (d' := 0); [lia|]. intros k Hk. rewrite E3 by lia. symmetry. apply (H3 (S k) 0). lia.
    + split; [discriminate|]. intros (H1 & H2 & H3). exfalso. destruct l as [|c l]; [discriminate|].
      assert (Q : transform2 f x y = Some l).
      { apply IH. simpl in *. repeat split; [lia|lia|]. intros k d Hk. apply (H3 (S k) d). lia. }
      congruence.
Qed.

Lemma transform2_total f x y : length x = length y -> exists l, transform2 f x y = Some l.
Proof.
  revert y. induction x as [|a x IH]; intros [|b y] H; try discriminate; simpl; [eauto|]. destruct (IH y) as [l ->]; [simpl in H; lia|eauto].
Qed.

Lemma C76_base_proof e rho en : length rho = length en ->
  exists p, base_pressure e rho en = Some p /\ length p = length rho /\
    forall k d, (k < length rho)%nat -> nth k p d = eos_pressure e (nth k rho d) (nth k en d).
Proof.
  intros H. destruct (transform2_total (eos_pressure e) rho en H) as [p P]. exists p. split; [exact P|].
  apply transform2_spec in P. tauto.
Qed.

Lemma nth_map_lt {A B} (f : A -> B) l k d d' : (k < length l)%nat -> nth k (map f l) d' = f (nth k l d).
Proof. intros H. rewrite (nth_indep _ d' (f d)) by (rewrite map_length; exact H). apply map_nth. Qed.

Lemma C76_sesame_pressure_proof table rho e : length rho = length e ->
  exists p rho' e', sesame_pressure_array table rho e = Some (p, rho', e') /\ length p = length rho /\
    forall k d, (k < length rho)%nat -> nth k p d = sesame_pressure table (nth k rho d) (nth k e d).
Proof.
  intros H. unfold sesame_pressure_array.
  destruct (transform2_total table (map (fun rho => rho / 1000) rho) (map (fun e => e / 1000000) e)) as [p P]; [rewrite !map_length; exact H|].
  rewrite P. eexists _, _, _. split; [reflexivity|]. apply transform2_spec in P. rewrite !map_length in P. destruct P as (_ & P1 & P2).
  rewrite map_length. split; [exact P1|]. intros k d Hk. rewrite (nth_map_lt _ _ _ d) by lia. rewrite P2 by exact Hk.
  rewrite !(nth_map_lt _ _ _ d) by lia. unfold sesame_pressure. ring.
Qed.

Lemma C76_sesame_sie_proof table rho p : length rho = length p ->
  exists e rho' p', sesame_sie_array table rho p = Some (e, rho', p') /\ length e = length rho /\
    forall k d, (k < length rho)%nat -> nth k e d = sesame_sie table (nth k rho d) (nth k p d).
Proof.
  intros H. unfold sesame_sie_array.
  destruct (transform2_total table (map (fun rho => rho / 1000) rho) (map (fun it => it / 1000000000) p)) as [e P]; [rewrite !map_length; exact H|].
  rewrite P. eexists _, _, _. split; [reflexivity|]. apply transform2_spec in P. rewrite !map_length in P. destruct P as (_ & P1 & P2).
  rewrite map_length. split; [exact P1|]. intros k d Hk. rewrite (nth_map_lt _ _ _ d) by lia. rewrite P2 by exact Hk.
  rewrite !(nth_map_lt _ _ _ d) by lia. unfold sesame_sie. ring.
Qed.

(** The input arrays do not survive. *)
Lemma sesame_overwrites : exists table rho e p rho' e',
  sesame_pressure_array table rho e = Some (p, rho', e') /\ rho' <> rho /\ e' <> e.
Proof.
  exists (fun rho e => rho * e), [1000], [1000000], [1 * 1 * 1000000000], [1], [1]. unfold sesame_pressure_array. simpl.
  replace (1000 / 1000) with 1 by field. replace (1000000 / 1000000) with 1 by field.
  split; [reflexivity|]. split; intros H; injection H; lra.
Qed.
