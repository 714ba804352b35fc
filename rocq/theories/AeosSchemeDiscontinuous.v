(** * Scheme with an arbitrary equation of state: four cells with piecewise
    constant states whose low-order update is outside of the extended bounds *)
From Coq Require Import Reals List Arith Bool Lia Lra Psatz FunctionalExtensionality.
From Verif Require Import RVec Newton PhysSpec PhysLib EulerSystem EulerLimiter EulerSpeed EulerRiemannSpec EulerRiemannProofs AeosSystem EulerLimiterBounds AeosLimiter AeosLimiterProofs AeosLimiterEntropy AeosLimiterBounds AeosRiemann AeosRiemannSpec AeosRiemannProofs AeosRiemannFinal
  AeosPrecompute Eos Indicator SWScheme SchemeSpec SchemeProofs SchemeUpdate SchemeLimit SchemeFinal ScalarSchemeProofs
  SchemeExamples SWSchemeExamples EulerScheme EulerSchemeSpec EulerSchemeProofs EulerSchemeFinal EulerSchemeExamples AeosScheme AeosSchemeSpec AeosSchemeProofs AeosSchemeCovolume AeosSchemeFinal AeosSchemeExamples AeosSchemeBounds AeosSchemeLimits.
From Verif Require Import Scheme.
Import ListNotations.
Local Open Scope R_scope.

(** Four cells of length 1 in a row, one degree of freedom each. *)
Definition cells4 : mesh := {|
  n_rows := 4;
  owner := fun _ => 0%nat;
  index := fun i => i;
  lanes := fun i => [i];
  columns := fun i => match i with
                      | 0%nat => [0; 1]%nat
                      | 1%nat => [1; 0; 2]%nat
                      | 2%nat => [2; 1; 3]%nat
                      | _ => [3; 2]%nat
                      end;
  mass := fun _ => 1; mass_inv := fun _ => / 1;
  mass_ij := fun i j => if (i =? j)%nat then 1 else 0;
  mass_ij_inv := fun i j => if (i =? j)%nat then 1 else 0;
  c_ij := fun i j => if (j =? i + 1)%nat then [1 / 2] else if (i =? j + 1)%nat then [- (1 / 2)]
                     else if (i =? 0)%nat then [- (1 / 2)] else if (i =? 3)%nat then [1 / 2] else [0];
  incidence := fun _ _ => 1;
  coupling_pairs := [];
  measure_of_omega := 4;
  discontinuous := true |}.

Ltac rows4 i Hi := destruct i as [|[|[|[|i]]]]; [| | | |cbn in Hi; lia].

Lemma cells4_pattern : symmetric_pattern cells4.
Proof.
  intros i Hi. rows4 i Hi; cbn [columns cells4].
  - exists [1]%nat. split; [reflexivity|]. split; [repeat constructor; simpl; intuition discriminate|].
    intros j [<-|[]]; cbn; split; try lia; tauto.
  - exists [0; 2]%nat. split; [reflexivity|]. split; [repeat constructor; simpl; intuition discriminate|].
    intros j [<-|[<-|[]]]; cbn; split; try lia; tauto.
  - exists [1; 3]%nat. split; [reflexivity|]. split; [repeat constructor; simpl; intuition discriminate|].
    intros j [<-|[<-|[]]]; cbn; split; try lia; tauto.
  - exists [2]%nat. split; [reflexivity|]. split; [repeat constructor; simpl; intuition discriminate|].
    intros j [<-|[]]; cbn; split; try lia; tauto.
Qed.

Lemma cells4_masses : positive_masses cells4.
Proof. intros i _. cbn. split; [lra|reflexivity]. Qed.

Lemma cells4_numbering : valid_numbering cells4.
Proof. split; [intros i _; left; reflexivity|]. intros i j _ _ _ H. exact H. Qed.

Lemma cells4_active i : (i < 4)%nat -> active cells4 i.
Proof. intros Hi. split; [exact Hi|]. rows4 i Hi; cbn; discriminate. Qed.

Lemma cells4_pairs : pairs_listed cells4.
Proof.
  intros i j [Hi _] Hj Hne. left. unfold skew_at.
  rows4 i Hi; cbn in Hj; repeat (destruct Hj as [<-|Hj]; [cbn; first [contradiction|f_equal; lra]|]); destruct Hj.
Qed.

Lemma cells4_dimension : mesh_dimension cells4 1.
Proof.
  intros i j Hi Hj. rows4 i Hi; cbn in Hj; repeat (destruct Hj as [<-|Hj]; [reflexivity|]); destruct Hj.
Qed.

Lemma cells4_sum i : active cells4 i -> zero_row_sum cells4 i.
Proof.
  intros [Hi _] x. rows4 i Hi; cbn; destruct x as [|[|x]]; cbn; lra.
Qed.

Lemma cells4_norm i j : active cells4 i -> In j (neighbours cells4 i) -> 0 < cnorm (c_ij cells4 i j).
Proof.
  intros [Hi _] Hj. rows4 i Hi; cbn in Hj; repeat (destruct Hj as [<-|Hj]; [unfold cnorm; cbn; apply sqrt_lt_R0; lra|]); destruct Hj.
Qed.

(** The user expression 4 rho^2 e for the pressure: the gas has gamma = 1 + 4 rho. *)
Definition quad_eos : eos :=
  {| eos_pressure := fun rho en => 4 * (rho * rho) * en; eos_specific_internal_energy := fun rho pr => pr / (4 * (rho * rho));
     eos_speed_of_sound := fun rho en => sqrt (8 * rho * en + 16 * (rho * rho) * en); interp_b := 0; interp_pinf := 0; interp_q := 0 |}.
Definition cell_params (strict : bool) : aparameters :=
  {| ap_system := {| a_eos := quad_eos; a_reference_density := 1; a_relaxation_small := 10000; a_relaxation_large := 10000; compute_strict_bounds := strict |};
     ap_eps := 0; ap_big := 1000; ap_tol := 0; ap_iterations := 2; ap_relaxation := 0; ap_evc := 1 |}.
(** A gas at rest with constant pressure 4. *)
Definition cell_rho (i : nat) : R := match i with 0%nat => 1 / 4 | 1%nat => 1 / 5 | 2%nat => 1 / 5 | _ => 1 / 20 end.
Definition cell_U : nat -> state nat := fun i => mkstate 1 (cell_rho i) (fun _ => 0) (/ cell_rho i).
Definition cell_pc0 : nat -> prec := fun _ => prec_of quad_eos 1 (cell_U 0) 0.
Definition cell_old strict : (nat -> state nat) * PC nat (aeos_scheme (cell_params strict) 1) :=
  (cell_U, aeos_precomputed (cell_params strict) 1 cells4 cell_U cell_pc0).

Lemma cell_rho_pos i : 0 < cell_rho i <= 1 / 4.
Proof. destruct i as [|[|[|i]]]; cbn; lra. Qed.

Lemma cell_energy i : a_internal_energy 1 (cell_U i) = / cell_rho i.
Proof.
  pose proof (cell_rho_pos i). unfold cell_U, a_internal_energy, a_total_energy, a_density, a_momentum, norm2, dot, rsum, mkstate. cbn -[IZR].
  field. lra.
Qed.

Lemma cell_p strict i : eos_p (cell_params strict) 1 (cell_U i) = 4.
Proof.
  unfold eos_p. rewrite cell_energy. change (a_density (cell_U i)) with (cell_rho i). pose proof (cell_rho_pos i).
  cbn -[IZR]. field. lra.
Qed.

Lemma cell_g strict i : eos_g (cell_params strict) 1 (cell_U i) = 1 + 4 * cell_rho i.
Proof.
  unfold eos_g, surrogate_gamma. cbv zeta. rewrite cell_p, cell_energy. change (a_density (cell_U i)) with (cell_rho i).
  pose proof (cell_rho_pos i). cbn -[IZR]. field. lra.
Qed.

Lemma cell_gas i : aeos_gas quad_eos 1 (cell_U i).
Proof.
  pose proof (cell_rho_pos i). unfold aeos_gas, admissible_gas, excess_energy. rewrite inner_energy_eq by (cbn; lra). rewrite cell_energy.
  change (cell_U i 0%nat) with (cell_rho i). cbn -[IZR]. set (r := cell_rho i) in *.
  assert (0 < / r) by (apply Rinv_0_lt_compat; lra).
  replace (4 * (r * r) * (/ r / r)) with 4 by (field; lra). repeat split; lra.
Qed.

Lemma cell_ok strict : precomputed_ok (cell_params strict) 1 cells4 (cell_old strict).
Proof. apply (a_pc_ok (cell_params strict) 1 cells4 (cell_old strict) cell_pc0 eq_refl). Qed.

Lemma cell_prec_p strict i : (i < 4)%nat -> prec_p (snd (cell_old strict) i) = 4.
Proof. intros Hi. rewrite (cell_ok strict i (cells4_active i Hi)). apply cell_p. Qed.

Definition row_gamma (i : nat) : R := match i with 0%nat => 9 / 5 | 1%nat => 9 / 5 | _ => 6 / 5 end.

Lemma cell_gamma strict i : (i < 4)%nat -> prec_gamma (snd (cell_old strict) i) = row_gamma i.
Proof.
  intros Hi. pose proof (cells4_active i Hi) as Ha. destruct (proj1 (active_constrained cells4 i) Ha) as [_ Hc].
  cbn [snd cell_old]. unfold aeos_precomputed. rewrite Hc. unfold cycle1_row. cbn [prec_gamma].
  assert (G : forall j, (j < 4)%nat -> surrogate_gamma (a_eos (ap_system (cell_params strict))) 1 (cell_U j)
      (prec_p (aeos_first (cell_params strict) 1 cells4 cell_U cell_pc0 j)) = 1 + 4 * cell_rho j).
  { intros j Hj. destruct (a_first_p (cell_params strict) 1 cells4 (cell_old strict) cell_pc0 j (cells4_active j Hj)) as [F _].
    cbn [fst cell_old] in F. rewrite F. apply (cell_g strict j). }
  destruct (a_first_p (cell_params strict) 1 cells4 (cell_old strict) cell_pc0 i Ha) as [_ F]. cbn [fst cell_old] in F. rewrite F. rewrite cell_g.
  rows4 i Hi; cbn [columns cells4 tl fold_left]; rewrite !G by lia; cbn [cell_rho row_gamma];
    unfold Rmin; repeat (destruct (Rle_dec _ _); try lra).
Qed.

(** The surrogate entropy of states at rest *)
Lemma rest_entropy u g : u 1%nat = 0 -> u 0%nat <> 0 -> surrogate_specific_entropy quad_eos 1 u g = u 2%nat * powr (1 / u 0%nat) g.
Proof.
  intros H Hr. unfold surrogate_specific_entropy, a_internal_energy, a_total_energy, a_density, a_momentum, norm2, dot, rsum. cbn -[IZR powr].
  rewrite H. replace (1 / u 0%nat - 0) with (1 / u 0%nat) by ring. field. exact Hr.
Qed.

Definition level : R := 5 * powr 5 (6 / 5).

Lemma level_small : level <= 4 * powr 4 (9 / 5).
Proof.
  (* 5^11 <= 4^14 *)
  unfold level.
  assert (P5 : 0 < powr 5 (6 / 5)) by (apply powr_gt0; lra). assert (P4 : 0 < powr 4 (9 / 5)) by (apply powr_gt0; lra).
  destruct (Rle_lt_dec (5 * powr 5 (6 / 5)) (4 * powr 4 (9 / 5))) as [H|H]; [exact H|exfalso].
  assert (E5 : powr 5 (6 / 5) ^ 5 = 5 ^ 6).
  { rewrite <- Rpower_pow by lra. rewrite <- (Rpower_pow 6) by lra. unfold powr. destruct (Rlt_dec 0 5); [|lra]. rewrite Rpower_mult. f_equal. cbn. field. }
  assert (E4 : powr 4 (9 / 5) ^ 5 = 4 ^ 9).
  { rewrite <- Rpower_pow by lra. rewrite <- (Rpower_pow 9) by lra. unfold powr. destruct (Rlt_dec 0 4); [|lra]. rewrite Rpower_mult. f_equal. cbn. field. }
  assert (Q : (4 * powr 4 (9 / 5)) ^ 5 <= (5 * powr 5 (6 / 5)) ^ 5) by (apply pow_incr; lra).
  rewrite !Rpow_mult_distr, E5, E4 in Q. cbn in Q. lra.
Qed.

Lemma level_bound u g c : u 1%nat = 0 -> 0 < u 0%nat <= / c -> c <= u 2%nat -> 0 < c ->
  (c = 4 /\ g = 9 / 5) \/ (c = 5 /\ (g = 6 / 5)) -> level <= surrogate_specific_entropy quad_eos 1 u g.
Proof.
  intros Hm Hr He Hc Hcase. rewrite rest_entropy by (try exact Hm; lra).
  assert (G : 0 <= g) by (destruct Hcase as [[_ ->]|[_ ->]]; lra).
  assert (V : c <= 1 / u 0%nat).
  { apply Rmult_le_reg_r with (u 0%nat); [lra|]. replace (1 / u 0%nat * u 0%nat) with 1 by (field; lra).
    apply Rle_trans with (c * / c); [apply Rmult_le_compat_l; lra|]. rewrite Rinv_r by lra. lra. }
  assert (K : powr c g <= powr (1 / u 0%nat) g) by (apply powr_mono; lra).
  pose proof (powr_gt0 c g Hc) as Kp.
  apply Rle_trans with (c * powr c g).
  - destruct Hcase as [[-> ->]|[-> ->]]; [exact level_small|unfold level; lra].
  - apply Rmult_le_compat; lra.
Qed.

Section Cell.
Variables (strict : bool) (nm : R) (d0 : nat -> nat -> R) (tau : R).
Local Notation SY := (aeos_scheme (cell_params strict) 1).
Local Notation d := (dij_matrix SY cells4 nm (cell_old strict) d0).

(** At rest with constant pressure, the bar states are averages. *)
Lemma cell_bar i j k : (i < 4)%nat -> (j < 4)%nat -> (k < 3)%nat ->
  a_bar (cell_params strict) 1 cells4 nm (cell_old strict) d0 tau i j k = 1 / 2 * (cell_U i k + cell_U j k).
Proof.
  intros Hi Hj Hk. unfold a_bar, bar_of. cbn [a_contribution ac_U ac_flux ac_c ac_shift fst cell_old].
  rewrite (a_shift (cell_params strict) 1 cells4 nm (cell_old strict) d0 tau i k), !cell_prec_p by assumption.
  unfold dot, rsum. rewrite <- (Rplus_0_r (1 / 2 * (cell_U i k + cell_U j k))) at 2. rewrite <- (Rminus_0_r (1 / 2 * (cell_U i k + cell_U j k))) at 2.
  f_equal. f_equal. 
  replace (a_flux 1 (cell_U j) 4 k 0%nat) with (a_flux 1 (cell_U i) 4 k 0%nat); [ring|].
  unfold a_flux, vscal, a_momentum, a_density, cell_U, mkstate.
  destruct k as [|[|[|k]]]; [| | |lia]; cbn -[IZR]; ring.
Qed.

Lemma cell_prec_s i : (i < 4)%nat -> prec_s (snd (cell_old strict) i) = surrogate_specific_entropy quad_eos 1 (cell_U i) (row_gamma i).
Proof.
  intros Hi. rewrite <- (cell_gamma strict i Hi). pose proof (cells4_active i Hi) as Ha. destruct (proj1 (active_constrained cells4 i) Ha) as [_ Hc].
  cbn [snd cell_old]. unfold aeos_precomputed. rewrite Hc. reflexivity.
Qed.

Definition row_c (i : nat) : R := match i with 0%nat => 4 | 1%nat => 4 | _ => 5 end.

Lemma cell_row_rho i j : (i < 4)%nat -> In j (columns cells4 i) -> 0 < cell_rho j <= / row_c i.
Proof.
  intros Hi Hj. rows4 i Hi; cbn in Hj; repeat (destruct Hj as [<-|Hj]; [cbn; lra|]); destruct Hj.
Qed.

Lemma cell_row_inv i j : (i < 4)%nat -> In j (columns cells4 i) -> row_c i <= / cell_rho j.
Proof.
  intros Hi Hj. rows4 i Hi; cbn in Hj; repeat (destruct Hj as [<-|Hj]; [cbn; lra|]); destruct Hj.
Qed.

Lemma cell_s_min i : (i < 3)%nat ->
  level <= as_min (bounds_step4 SY cells4 nm (cell_old strict) d tau i) /\
  agamma_min (bounds_step4 SY cells4 nm (cell_old strict) d tau i) = row_gamma i.
Proof.
  intros Hi. rewrite a_bounds_stencil.
  set (l := a_row (cell_params strict) 1 cells4 nm (cell_old strict) d0 tau i).
  assert (F := al_fold_bounds (ap_system (cell_params strict)) 1 (map (a_contribution (cell_params strict) 1 cells4 nm (cell_old strict) d0 tau i) (columns cells4 i))
     (al_reset (ap_big (cell_params strict)) (prec_gamma (snd (cell_old strict) i)) (fst (cell_old strict) i) (a_flux 1 (fst (cell_old strict) i) (prec_p (snd (cell_old strict) i))))).
  cbv zeta in F. destruct F as ((_ & _ & _ & _ & A5) & _ & _ & _ & D).
  change (fold_left _ _ _) with l in A5, D. change (agamma_min (al_bounds (al_reset _ ?g _ _))) with g in A5, D.
  cbn [al_reset al_bounds agamma_min al_U_i al_flux_i as_min] in A5, D. rewrite cell_gamma in A5 by lia.
  split.
  - unfold al_get_bounds. cbv zeta. cbn [as_min ap_relaxation cell_params].
    eapply Rle_trans; [|apply Rmax_l]. rewrite Rmult_0_r, Rminus_0_r, Rmult_1_l.
    apply (D (fun x => level <= x)).
    + cbn. apply Rle_trans with (1 := level_small).
      assert (powr 4 (9 / 5) <= powr 4 2) by (apply powr_exp_ge; lra). 
      assert (powr 4 2 = 16). { unfold powr. destruct (Rlt_dec 0 4); [|lra]. replace 2 with (INR 2) by (cbn; ring). rewrite Rpower_pow by lra. cbn. ring. }
      lra.
    + intros c Hc. apply in_map_iff in Hc. destruct Hc as (j & <- & Hj).
      pose proof (uniform_columns cells4 cells4_pattern i j ltac:(cbn; lia) Hj) as Hjb. cbn in Hjb.
      pose proof (cell_row_rho i j ltac:(lia) Hj) as R1. pose proof (cell_row_inv i j ltac:(lia) Hj) as R2.
      pose proof (cell_row_rho i i ltac:(lia) ltac:(rows4 i Hi; cbn; tauto)) as R3. pose proof (cell_row_inv i i ltac:(lia) ltac:(rows4 i Hi; cbn; tauto)) as R4.
      assert (RC : 0 < row_c i) by (rows4 i Hi; cbn; lra).
      assert (CC : (row_c i = 4 /\ row_gamma i = 9 / 5) \/ (row_c i = 5 /\ row_gamma i = 6 / 5)) by (rows4 i Hi; cbn; lra).
      split.
      * unfold s_of. cbn [a_contribution ac_s ac_U fst cell_old compute_strict_bounds ap_system cell_params].
        destruct strict eqn:Es.
        -- rewrite cell_gamma by lia. apply (level_bound _ _ (row_c i)); try assumption; reflexivity.
        -- rewrite <- Es, cell_prec_s by exact Hjb.
           apply (level_bound _ _ (row_c j)); [reflexivity| | | |].
           ++ apply (cell_row_rho j j); [exact Hjb|]. rows4 j Hjb; cbn; tauto.
           ++ apply (cell_row_inv j j); [exact Hjb|]. rows4 j Hjb; cbn; tauto.
           ++ rows4 j Hjb; cbn; lra.
           ++ rows4 j Hjb; cbn; lra.
      * unfold s_bar_of. rewrite cell_gamma by lia.
        change (a_eos (ap_system (cell_params strict))) with quad_eos.
        change (bar_of _ _ _ _) with (a_bar (cell_params strict) 1 cells4 nm (cell_old strict) d0 tau i j).
        apply (level_bound _ _ (row_c i)); try assumption; rewrite !cell_bar by lia; cbn -[IZR cell_rho]; unfold mkstate; cbn -[IZR cell_rho]; lra.
  - unfold al_get_bounds. cbv zeta. cbn [agamma_min]. exact A5.
Qed.

Lemma cell_bounds : let b := limiter_bounds_i SY cells4 nm (cell_old strict) d tau [0; 1; 2; 3]%nat 1%nat in
  level <= as_min b /\ agamma_min b = 6 / 5.
Proof.
  cbv zeta. unfold limiter_bounds_i, extend_bounds. cbn [discontinuous cells4].
  destruct (cell_s_min 0 ltac:(lia)) as [S0 G0]. destruct (cell_s_min 1 ltac:(lia)) as [S1 G1]. destruct (cell_s_min 2 ltac:(lia)) as [S2 G2].
  revert S0 G0 S1 G1 S2 G2. generalize (bounds_step4 SY cells4 nm (cell_old strict) d tau). intros b S0 G0 S1 G1 S2 G2.
  cbn -[IZR]. rewrite G0, G1, G2. cbn [row_gamma].
  split; [repeat apply Rmin_glb; assumption|].
  unfold Rmin. repeat (destruct (Rle_dec _ _); try lra).
Qed.

Lemma cell_update new0 k : (k < 3)%nat ->
  low_order_update SY cells4 (cell_old strict) d tau new0 1%nat k =
  cell_U 1%nat k + tau * d 1%nat 0%nat * (cell_U 0%nat k - cell_U 1%nat k).
Proof.
  intros Hk. rewrite low_order_form by reflexivity. cbn [columns cells4 lsum]. unfold source. cbn [have_source_terms aeos_scheme].
  unfold low_order_flux, jump. cbn [have_high_order_flux have_source_terms shallow_water aeos_scheme flux_divergence Scheme.flux flux_contribution fst cell_old].
  unfold Scheme.flux. cbn [flux_contribution aeos_scheme fst]. unfold a_flux_divergence, contract, fadd, vadd, dot, rsum, sminus, szero.
  change (snd (cell_old strict)) with (snd (cell_old strict)).
  rewrite !(cell_prec_p strict) by lia.
  assert (F : forall j, (j < 4)%nat -> a_flux 1 (cell_U j) 4 k 0%nat = a_flux 1 (cell_U 1%nat) 4 k 0%nat).
  { intros j Hj. unfold a_flux, vscal, a_momentum, a_density, cell_U, mkstate. destruct k as [|[|[|k]]]; [| | |lia]; cbn -[IZR]; ring. }
  rewrite (F 0%nat), (F 2%nat) by lia.
  change (mass_inv cells4 1) with (/ 1). rewrite Rinv_1.
  unfold vec_of. cbn [c_ij cells4 Nat.eqb Nat.add nth]. 
  change (cell_U 2%nat k) with (cell_U 1%nat k). set (D := d 1%nat 0%nat). ring.
Qed.

Lemma cell_outside a0 l0 ln0 new0 stages : 0 < tau -> 0 < d 1%nat 0%nat ->
  let u := fst (hyperbolic_update SY cells4 nm [0; 1; 2; 3]%nat 0 a0 d0 l0 ln0 new0 (cell_old strict) stages tau) 1%nat in
  tau * d 1%nat 0%nat < 1 ->
  ~ a_entropy_inside quad_eos 1 (limiter_bounds_i SY cells4 nm (cell_old strict) d tau [0; 1; 2; 3]%nat 1%nat) u.
Proof.
  intros Ht Hd. cbv zeta. intros Hs (_ & _ & _ & Q). destruct cell_bounds as [B1 B2]. rewrite B2 in Q.
  apply (Rle_trans _ _ _ B1) in Q. clear B1 B2.
  change (fst (hyperbolic_update SY cells4 nm [0; 1; 2; 3]%nat 0 a0 d0 l0 ln0 new0 (cell_old strict) stages tau) 1%nat)
    with (low_order_update SY cells4 (cell_old strict) d tau new0 1%nat) in Q.
  set (u := low_order_update SY cells4 (cell_old strict) d tau new0 1%nat) in *.
  assert (U0 : u 0%nat = 1 / 5 + tau * d 1%nat 0%nat * (1 / 20)).
  { unfold u. rewrite cell_update by lia. cbn -[IZR dij_matrix]. unfold mkstate. cbn -[IZR dij_matrix]. field. }
  assert (U1 : u 1%nat = 0).
  { unfold u. rewrite cell_update by lia. cbn -[IZR dij_matrix]. unfold mkstate. cbn -[IZR dij_matrix]. ring. }
  assert (U2 : u 2%nat = 5 - tau * d 1%nat 0%nat).
  { unfold u. rewrite cell_update by lia. cbn -[IZR dij_matrix]. unfold mkstate. cbn -[IZR dij_matrix]. field. }
  set (x := tau * d 1%nat 0%nat) in *. assert (Hx : 0 < x) by (apply Rmult_lt_0_compat; assumption). clearbody x u.
  rewrite <- surrogate_excess, rest_entropy in Q by (auto; lra). unfold level in Q.
  assert (V : 0 < 1 / u 0%nat <= 5).
  { split; [apply Rdiv_lt_0_compat; lra|]. apply Rmult_le_reg_r with (u 0%nat); [lra|]. replace (1 / u 0%nat * u 0%nat) with 1 by (field; lra). lra. }
  assert (K : powr (1 / u 0%nat) (6 / 5) <= powr 5 (6 / 5)) by (apply powr_mono; lra).
  assert (Kp : 0 < powr (1 / u 0%nat) (6 / 5)) by (apply powr_gt0; lra).
  assert (u 2%nat * powr (1 / u 0%nat) (6 / 5) < 5 * powr (1 / u 0%nat) (6 / 5)) by (apply Rmult_lt_compat_r; lra).
  lra.
Qed.
End Cell.

Lemma C125_extended_refuted_proof : forall strict,
  exists p M num_min order (old : (nat -> state nat) * PC nat (aeos_scheme p 1)) pc0,
  compute_strict_bounds (ap_system p) = strict /\ ap_relaxation p = 0 /\ discontinuous M = true /\
  exists tau, 0 < tau /\ limited_step p 1 M num_min 1 order (fun _ _ => 0) old pc0 tau /\
  exists i, active M i /\ forall a0 l0 ln0 new0 stages,
  ~ a_entropy_inside (a_eos (ap_system p)) 1
      (limiter_bounds_i (aeos_scheme p 1) M num_min old (dij_matrix (aeos_scheme p 1) M num_min old (fun _ _ => 0)) tau order i)
      (fst (hyperbolic_update (aeos_scheme p 1) M num_min order 0 a0 (fun _ _ => 0) l0 ln0 new0 old stages tau) i).
Proof.
  intros strict.
  destruct (fast_exists (cell_params strict) 1 cells4 (cell_old strict) cell_pc0 (fun _ _ => 0) cells4_pattern cells4_numbering cells4_pairs
    eq_refl ltac:(cbn; lra) ltac:(intros i _; apply cell_gas) eq_refl cells4_norm) as (nm & Hnm & Hf).
  destruct (step_exists (aeos_scheme (cell_params strict) 1) cells4 nm 1 (cell_old strict) (fun _ _ => 0) cells4_pattern cells4_masses Hnm ltac:(lra)) as (tau & Ht & Hs).
  exists (cell_params strict), cells4, nm, [0; 1; 2; 3]%nat, (cell_old strict), cell_pc0.
  split; [reflexivity|]. split; [reflexivity|]. split; [reflexivity|].
  exists tau. split; [exact Ht|]. split.
  { split; [|split; [|split; [|split; [|split; [|split; [|split]]]]]].
    - split; [exact cells4_pattern|]. split; [exact cells4_masses|]. split; [exact cells4_numbering|]. split; [exact cells4_pairs|].
      split; [exact cells4_dimension|]. split; [exact cells4_sum|].
      intros i Hi. cbn in *. intuition lia.
    - split; [exact Hnm|]. split; [lra|]. split; [lra|]. exact Hs.
    - split; [reflexivity|]. split; [cbn; lra|]. split; [cbn; lra|]. intros i _. cbn [ap_relaxation cell_params]. lra.
    - reflexivity.
    - cbn. lra.
    - intros i _. apply cell_gas.
    - reflexivity.
    - exact Hf. }
  exists 1%nat. split; [apply cells4_active; lia|]. intros. 
  assert (Hd : 0 < dij_matrix (aeos_scheme (cell_params strict) 1) cells4 nm (cell_old strict) (fun _ _ => 0) 1%nat 0%nat).
  { pose proof (Hf 1%nat (cells4_active 1 ltac:(lia)) 0%nat ltac:(cbn; tauto)). lra. }
  apply cell_outside; try assumption.
  assert (A1 : active cells4 1) by (apply cells4_active; lia).
  pose proof (row_tau_bound (aeos_scheme (cell_params strict) 1) cells4 nm 1 (cell_old strict) (fun _ _ => 0) tau cells4_pattern cells4_masses Hnm ltac:(lra) Hs 1%nat A1) as Hb.
  rewrite dij_diag in Hb by (try assumption; try apply cells4_pattern; cbn; lia).
  match type of Hb with context[Rmax ?a ?b] => pose proof (Rmax_l a b) as Hl; set (m := Rmax a b) in * end.
  cbn [neighbours columns cells4 tl lsum] in Hl. change (mass cells4 1) with 1 in Hb.
  assert (H2 : 0 < dij_matrix (aeos_scheme (cell_params strict) 1) cells4 nm (cell_old strict) (fun _ _ => 0) 1%nat 2%nat).
  { pose proof (Hf 1%nat A1 2%nat ltac:(cbn; tauto)). lra. }
  set (x := dij_matrix _ _ _ _ _ 1%nat 0%nat) in *. set (y := dij_matrix _ _ _ _ _ 1%nat 2%nat) in *. clearbody x y m. clear Hs Hf.
  assert (tau * x <= tau * m) by (apply Rmult_le_compat_l; lra).
  assert (0 < tau * x) by (apply Rmult_lt_0_compat; assumption). lra.
Qed.
