(** * Scheme with an arbitrary equation of state: examples and counterexamples *)
From Coq Require Import Reals List Arith Bool Lia Lra Psatz FunctionalExtensionality.
From Verif Require Import RVec Simd Newton SWRiemannProofs PhysSpec PhysLib EulerSystem EulerLimiter EulerSpeed EulerRiemann EulerRiemannSpec EulerRiemannProofs AeosSystem AeosLimiter AeosRiemann AeosRiemannSpec AeosRiemannProofs AeosRiemannFinal
  AeosPrecompute Eos Indicator SWScheme SchemeSpec SchemeProofs SchemeUpdate SchemeLimit SchemeFinal ScalarSchemeProofs
  SchemeExamples SWSchemeExamples EulerScheme EulerSchemeSpec EulerSchemeProofs EulerSchemeExamples ScalarSchemeFinal AeosScheme AeosSchemeSpec AeosSchemeProofs AeosSchemeCovolume AeosSchemeFinal.
From Verif Require Import Scheme.
Import ListNotations.
Local Open Scope R_scope.

Lemma line_speed s u v pu pv x : ar_wavespeed s 1 u v pu pv (vec_of [x]) = ar_wavespeed s 1 u v pu pv (fun _ => x).
Proof. reflexivity. Qed.

(** ** Two ranks, a contact discontinuity and gamma = 3 *)

Definition tie_params : aparameters :=
  {| ap_system := ex_gas; ap_eps := 0; ap_big := 1000; ap_tol := 0; ap_iterations := 2; ap_relaxation := 0; ap_evc := 1 |}.
Definition tie_U : nat -> state nat := fun i => if (i =? 0)%nat then ex_rest else ex_heavy.
Definition tie_pc0 : nat -> prec := fun _ => prec_of (a_eos ex_gas) 1 ex_rest 1.
Definition tie_old : (nat -> state nat) * PC nat (aeos_scheme tie_params 1) :=
  (tie_U, aeos_precomputed tie_params 1 ring3 tie_U tie_pc0).

Lemma tie_pressure_heavy : eos_pressure (a_eos ex_gas) (a_density ex_heavy) (a_internal_energy 1 ex_heavy / a_density ex_heavy) = 1.
Proof. destruct ex_heavy_values as (A & _ & C). rewrite A, C. cbn. lra. Qed.
Lemma tie_pressure_rest : eos_pressure (a_eos ex_gas) (a_density ex_rest) (a_internal_energy 1 ex_rest / a_density ex_rest) = 1.
Proof. destruct ex_rest_values as (A & _ & C). rewrite A, C. cbn. lra. Qed.

Lemma tie_p i : active ring3 i -> prec_p (snd tie_old i) = 1.
Proof.
  intros Ha. pose proof (precomputed_p tie_params 1 ring3 tie_U tie_pc0 i Ha) as P. 
  etransitivity; [exact P|]. unfold eos_p. cbn [fst]. unfold tie_U. destruct (i =? 0)%nat; [apply tie_pressure_rest|apply tie_pressure_heavy].
Qed.

Lemma tie_viscosity nm d0 i j : (i = 2 \/ j = 2)%nat -> (i = 0 \/ j = 0)%nat -> (i < 3)%nat -> (j < 3)%nat ->
  dij_matrix (aeos_scheme tie_params 1) ring3 nm tie_old d0 i j =
  1 / 2 * ar_wavespeed ex_gas 1 (tie_U i) (tie_U j) 1 1 (if (i =? 2)%nat then fun _ => 1 else fun _ => - (1)).
Proof.
  intros H2 H0 Hi Hj.
  assert (E : dij_matrix (aeos_scheme tie_params 1) ring3 nm tie_old d0 i j = viscosity (aeos_scheme tie_params 1) tie_old i j (c_ij ring3 i j)).
  { assert (X : (i = 2 /\ j = 0 \/ i = 0 /\ j = 2)%nat) by lia. destruct X as [[-> ->] | [-> ->]]; reflexivity. }
  rewrite E, viscosity_eq. unfold wave_viscosity. cbn [riemann_compute aeos_scheme].
  rewrite (tie_p i (ring3_active i Hi)), (tie_p j (ring3_active j Hj)). cbn [fst tie_old ap_system tie_params].
  assert (X : (i = 2 /\ j = 0 \/ i = 0 /\ j = 2)%nat) by lia. destruct X as [[-> ->] | [-> ->]].
  - change (c_ij ring3 2 0) with [1 / 2]. rewrite cnorm_1. rewrite (Rabs_right (1 / 2)) by lra.
    cbn [Nat.eqb]. f_equal. unfold cdiv. cbn [map].
    replace (1 / 2 / (1 / 2)) with 1 by field. apply line_speed.
  - change (c_ij ring3 0 2) with [- (1 / 2)]. rewrite cnorm_1. rewrite Rabs_Ropp, (Rabs_right (1 / 2)) by lra.
    cbn [Nat.eqb]. f_equal. unfold cdiv. cbn [map].
    replace (- (1 / 2) / (1 / 2)) with (- (1)) by field. apply line_speed.
Qed.

Lemma tie_order nm d0 : dij_matrix (aeos_scheme tie_params 1) ring3 nm tie_old d0 2 0 < dij_matrix (aeos_scheme tie_params 1) ring3 nm tie_old d0 0 2.
Proof.
  rewrite !tie_viscosity by lia. cbn [Nat.eqb]. unfold tie_U. cbn [Nat.eqb].
  apply Rmult_lt_compat_l; [lra|]. unfold ar_wavespeed.
  change (fun _ : nat => - (1)) with (fun k : nat => - ((fun _ : nat => 1) k)).
  rewrite !(ar_data_eq (a_eos ex_gas) 1 ex_heavy 1 _ 3 ex_heavy_gas), !(ar_data_eq (a_eos ex_gas) 1 ex_rest 1 _ 3 ex_rest_gas).
  rewrite !normal_velocity_opp.
  destruct ex_heavy_values as (A1 & A2 & _). destruct ex_rest_values as (B1 & B2 & _). rewrite A1, A2, B1, B2.
  exact tie_differs.
Qed.

Lemma tie_total nm order a0 d0 l0 ln0 new0 stages tau :
  let d := dij_matrix (aeos_scheme tie_params 1) ring3 nm tie_old d0 in
  total ring3 (active_rows ring3)
    (fst (hyperbolic_update (aeos_scheme tie_params 1) ring3 nm order 0 a0 d0 l0 ln0 new0 tie_old stages tau)) 0%nat =
  total ring3 (active_rows ring3) (fst tie_old) 0%nat + tau * (d 0%nat 2%nat - d 2%nat 0%nat) * (300 - 100 / 27).
Proof.
  cbv zeta.
  change (fst (hyperbolic_update (aeos_scheme tie_params 1) ring3 nm order 0 a0 d0 l0 ln0 new0 tie_old stages tau)) with
    (low_order_update (aeos_scheme tie_params 1) ring3 tie_old (dij_matrix (aeos_scheme tie_params 1) ring3 nm tie_old d0) tau new0).
  assert (D01 : dij_matrix (aeos_scheme tie_params 1) ring3 nm tie_old d0 1 0 = dij_matrix (aeos_scheme tie_params 1) ring3 nm tie_old d0 0 1).
  { apply rank_symmetric; [exact ring3_pattern|exact ring3_numbering|cbn; lia|cbn; tauto|intros X; exfalso; apply X; reflexivity]. }
  set (d := dij_matrix _ _ _ _ _) in *. clearbody d.
  change (active_rows ring3) with [0; 1; 2]%nat. unfold total. cbn [lsum].
  unfold low_order_update, low_order_flux, jump, source. cbn -[IZR aeos_precomputed]. 
  unfold splus, smult, szero, sminus, a_flux_divergence, dot, rsum, vadd, vec_of.
  cbn -[IZR aeos_precomputed]. rewrite D01. unfold tie_U, ex_rest, ex_heavy, mkstate. cbn -[IZR]. 
  field.
Qed.

Lemma tie_gas i : aeos_gas (a_eos ex_gas) 1 (tie_U i).
Proof.
  unfold tie_U, aeos_gas, admissible_gas, excess_energy, inner_energy, ex_rest, ex_heavy, mkstate.
  destruct (i =? 0)%nat; cbn -[IZR]; repeat split; lra.
Qed.

Lemma C122_ranks_refuted_proof :
  exists p M (old : (nat -> state nat) * PC nat (aeos_scheme p 1)) pc0 num_min cfl tau,
    symmetric_pattern M /\ positive_masses M /\ valid_numbering M /\ symmetric_matrices M /\ pairs_listed M /\ mesh_dimension M 1 /\
    (forall i j, active M i -> In j (columns M i) -> skew_at M i j) /\
    (forall i, active M i -> aeos_gas (a_eos (ap_system p)) 1 (fst old i)) /\
    snd old = aeos_precomputed p 1 M (fst old) pc0 /\
    0 < num_min /\ 0 < cfl <= 1 /\ 0 < tau /\
    (forall d0 t, In t (row_tau (aeos_scheme p 1) M num_min cfl old d0) -> tau <= t) /\
    forall order a0 d0 l0 ln0 new0 stages,
    total M (active_rows M) (fst old) 0%nat <
    total M (active_rows M) (fst (hyperbolic_update (aeos_scheme p 1) M num_min order 0 a0 d0 l0 ln0 new0 old stages tau)) 0%nat.
Proof.
  destruct (step_exists (aeos_scheme tie_params 1) ring3 (1 / 10000) 1 tie_old (fun _ _ => 0) ring3_pattern ring3_masses ltac:(lra) ltac:(lra)) as (tau & Ht & Hs).
  exists tie_params, ring3, tie_old, tie_pc0, (1 / 10000), 1, tau.
  split; [exact ring3_pattern|]. split; [exact ring3_masses|]. split; [exact ring3_numbering|]. split; [exact ring3_symmetric|].
  split; [exact ring3_pairs|]. split; [exact ring3_dimension|]. split; [exact ring3_skew|]. split; [intros i _; apply tie_gas|].
  split; [reflexivity|]. split; [lra|]. split; [lra|]. split; [exact Ht|].
  split; [exact (fun d0 t H => Hs t H)|]. intros. rewrite tie_total. cbv zeta.
  pose proof (tie_order (1 / 10000) d0) as O. 
  set (d := dij_matrix _ _ _ _ _) in *. clearbody d.
  assert (0 < tau * (d 0%nat 2%nat - d 2%nat 0%nat) * (300 - 100 / 27)); [|lra].
  apply Rmult_lt_0_compat; [apply Rmult_lt_0_compat|]; lra.
Qed.

(** ** A liquid (pinf = 1, covolume 7/8) under tension: two colliding streams *)

Definition cold_eos : eos := na_eos (na_parse 3 1 (7 / 8) 0 1 na_construct).
Definition cold_params (strict : bool) : aparameters :=
  {| ap_system := {| a_eos := cold_eos; a_reference_density := 1; a_relaxation_small := 10000; a_relaxation_large := 10000; compute_strict_bounds := strict |};
     ap_eps := 0; ap_big := 1000; ap_tol := 0; ap_iterations := 2; ap_relaxation := 0; ap_evc := 1 |}.

(** Density 1, velocity u, pressure -1 + 1/2400. *)
Definition cold (u : R) : state nat := mkstate 1 1 (fun _ => u) (4801 / 38400 + 1 / 2 * u * u).
Definition cold_v (i : nat) : R := match i with O => 9 | 1%nat => - (9) | _ => 0 end.
Definition cold_U : nat -> state nat := fun i => cold (cold_v i).
Definition cold_pc0 : nat -> prec := fun _ => prec_of cold_eos 1 (cold 0) 0.
Definition cold_old strict : (nat -> state nat) * PC nat (aeos_scheme (cold_params strict) 1) :=
  (cold_U, aeos_precomputed (cold_params strict) 1 ring3 cold_U cold_pc0).

Lemma cold_values u : a_density (cold u) = 1 /\ a_internal_energy 1 (cold u) = 4801 / 38400.
Proof.
  unfold cold, a_internal_energy, a_density, a_momentum, a_total_energy, density, norm2, dot, rsum, momentum, mkstate; simpl.
  split; [reflexivity|field].
Qed.

Lemma cold_gas u : n_gas (7 / 8) 1 0 3 (a_density (cold u)) (a_internal_energy 1 (cold u)) (- (1) + 1 / 2400).
Proof.
  destruct (cold_values u) as (A & C). rewrite A, C. unfold n_gas, n_energy. repeat split; lra.
Qed.

Lemma cold_state u : aeos_gas cold_eos 1 (cold u).
Proof.
  unfold aeos_gas, admissible_gas, excess_energy, inner_energy, cold, mkstate, cold_eos; cbn -[IZR]. unfold na_pressure. cbn -[IZR].
  repeat split; try lra.
Qed.

Lemma cold_p strict i : active ring3 i -> prec_p (snd (cold_old strict) i) = - (1) + 1 / 2400.
Proof.
  intros Ha. etransitivity; [exact (precomputed_p (cold_params strict) 1 ring3 cold_U cold_pc0 i Ha)|].
  unfold eos_p. cbn [fst]. unfold cold_U. destruct (cold_values (cold_v i)) as (A & C). rewrite A, C.
  cbn. unfold na_pressure. cbn. field.
Qed.

Lemma cold_speed strict ui uj n : n = 1 \/ n = - (1) -> Rabs ui <= 9 -> Rabs uj <= 9 -> 
  ar_wavespeed (ap_system (cold_params strict)) 1 (cold ui) (cold uj) (- (1) + 1 / 2400) (- (1) + 1 / 2400) (vec_of [n]) <= 13 + 1 / 500.
Proof.
  intros Hn Hi Hj. unfold ar_wavespeed. cbn [ap_system cold_params a_eos compute_strict_bounds].
  rewrite (ar_data_eq cold_eos 1 (cold ui) _ _ 3 (cold_gas ui)), (ar_data_eq cold_eos 1 (cold uj) _ _ 3 (cold_gas uj)).
  destruct (cold_values ui) as (A & _). destruct (cold_values uj) as (B & _). rewrite A, B.
  assert (V : forall u, normal_velocity 1 (vec_of [n]) (cold u) = n * u).
  { intros u. unfold normal_velocity, cold, density, mkstate, momentum, dot, rsum, vec_of. cbn. field. }
  rewrite !V.
  assert (Ni : Rabs (n * ui) <= 9) by (destruct Hn as [-> | ->]; unfold Rabs in *; repeat destruct (Rcase_abs _); lra).
  assert (Nj : Rabs (n * uj) <= 9) by (destruct Hn as [-> | ->]; unfold Rabs in *; repeat destruct (Rcase_abs _); lra).
  revert Ni Nj. generalize (n * ui) as vi, (n * uj) as vj. intros vi vj Ni Nj.
  set (di := nasg cold_eos 3 1 vi (- (1) + 1 / 2400)). set (dj := nasg cold_eos 3 1 vj (- (1) + 1 / 2400)).
  assert (PHI : 0 <= ar_phi_of_p_max cold_eos di dj).
  { unfold ar_phi_of_p_max. cbn [ad_rho ad_u ad_p ad_gamma ad_a di dj nasg]. change (interp_b cold_eos) with (7 / 8). change (interp_pinf cold_eos) with 1.
    rewrite Rmax_left by lra.
    match goal with |- context [sqrt ?x] => replace x with (1 / 10 * (1 / 10)) by field end. rewrite sqrt_square by lra.
    unfold Rabs in *; repeat destruct (Rcase_abs _); lra. }
  assert (P2 : ar_p_2 cold_eos strict di dj <= 1 / 2400).
  { unfold ar_p_2, mask_lt. cbn [ad_p di dj nasg]. change (interp_pinf cold_eos) with 1.
    replace (Rmax (- (1) + 1 / 2400) (- (1) + 1 / 2400) + 1) with (1 / 2400) by (rewrite Rmax_left; lra).
    destruct strict; cbn [negb]; destruct (Rlt_dec _ 0); try lra; apply Rmin_l. }
  unfold ar_compute, ar_compute_lambda, ar_lambda1_minus, ar_lambda3_plus.
  set (P := ar_p_2 cold_eos strict di dj) in *. clearbody P.
  cbn [ad_rho ad_u ad_p ad_gamma ad_a di dj nasg]. change (interp_b cold_eos) with (7 / 8). change (interp_pinf cold_eos) with 1.
  assert (SQ : 0 <= n_sound (7 / 8) 1 3 1 (- (1) + 1 / 2400) * sqrt (1 + 1 / 2 * (3 + 1) / 3 * positive_part ((P - (- (1) + 1 / 2400)) / (- (1) + 1 / 2400 + 1))) <= 4 + 1 / 500).
  { assert (T : 0 <= positive_part ((P - (- (1) + 1 / 2400)) / (- (1) + 1 / 2400 + 1)) <= 2400).
    { split; [generalize ((P - (- (1) + 1 / 2400)) / (- (1) + 1 / 2400 + 1)); intros z; unfold positive_part, Rabs; destruct (Rcase_abs z); lra|].
      eapply Rle_trans; [apply (pp_mono _ 2400)|rewrite pp_pos; lra].
      apply Rmult_le_reg_r with (1 / 2400); [lra|]. replace (- (1) + 1 / 2400 + 1) with (1 / 2400) by lra.
      unfold Rdiv at 1. rewrite Rmult_assoc. rewrite Rinv_l by lra. lra. }
    set (X := positive_part _) in *. clearbody X.
    unfold n_sound. replace (3 * (- (1) + 1 / 2400 + 1) / (1 * (1 - 7 / 8 * 1))) with (1 / 10 * (1 / 10)) by field.
    rewrite sqrt_square by lra. split; [apply Rmult_le_pos; [lra|apply sqrt_pos]|].
    assert (sqrt (1 + 1 / 2 * (3 + 1) / 3 * X) <= 40 + 1 / 50); [|lra].
    rewrite <- (sqrt_square (40 + 1 / 50)) by lra. apply sqrt_le_1_alt. lra. }
  set (X := n_sound _ _ _ _ _ * _) in *. clearbody X.
  apply Rmax_lub; unfold positive_part, negative_part, Rabs in *; repeat destruct (Rcase_abs _); lra.
Qed.

Lemma cold_wave strict i j : (i < 3)%nat -> (j < 3)%nat -> i <> j ->
  wave_viscosity (aeos_scheme (cold_params strict) 1) ring3 (cold_old strict) i j <= 13 / 2 + 1 / 1000.
Proof.
  intros Hi Hj Hne. unfold wave_viscosity.
  assert (C : exists n, (n = 1 \/ n = - (1)) /\ c_ij ring3 i j = [1 / 2 * n]).
  { rows3 i Hi; rows3 j Hj; try congruence; cbn;
      first [exists 1; split; [tauto|f_equal; field]|exists (- (1)); split; [tauto|f_equal; field]]. }
  destruct C as (n & Hn & ->). rewrite cnorm_1.
  assert (A : Rabs (1 / 2 * n) = 1 / 2) by (destruct Hn as [-> | ->]; dec_r; lra).
  rewrite A. unfold cdiv. cbn [map]. replace (1 / 2 * n / (1 / 2)) with n by field.
  cbn [riemann_compute aeos_scheme]. rewrite (cold_p strict i (ring3_active i Hi)), (cold_p strict j (ring3_active j Hj)).
  assert (V : forall k, Rabs (cold_v k) <= 9) by (intros [|[|k]]; cbn; dec_r; lra).
  pose proof (cold_speed strict (cold_v i) (cold_v j) n Hn (V i) (V j)) as L.
  change (fst (cold_old strict) i) with (cold (cold_v i)). change (fst (cold_old strict) j) with (cold (cold_v j)). lra.
Qed.

Lemma cold_tau strict d0 t : In t (row_tau (aeos_scheme (cold_params strict) 1) ring3 (1 / 10000000000) 1 (cold_old strict) d0) -> 100 / 2601 <= t.
Proof.
  intros Ht. unfold row_tau in Ht. apply in_map_iff in Ht. destruct Ht as (i & <- & Hi).
  apply active_rows_in in Hi. destruct Hi as [Hi _].
  rewrite (dij_diag _ ring3 _ _ d0 i ring3_pattern Hi).
  assert (B : forall j, In j (neighbours ring3 i) -> dij_matrix (aeos_scheme (cold_params strict) 1) ring3 (1 / 10000000000) (cold_old strict) d0 i j <= 13 / 2 + 1 / 1000).
  { intros j Hj. destruct (neighbours_bound ring3 i j ring3_pattern Hi Hj) as (Hjb & _ & Hne).
    eapply Rle_trans; [apply (dij_bounds _ ring3 _ _ d0 ring3_pattern ring3_numbering i j ring3_pairs Hi Hj)|].
    apply Rmax_lub; apply cold_wave; auto. }
  set (d := dij_matrix _ _ _ _ _) in *.
  assert (D : lsum (fun j => d i j) (neighbours ring3 i) <= 13 + 1 / 500).
  { clearbody d. cbn [n_rows ring3] in Hi. rows3 i Hi; cbn in *;
      match goal with |- ?a + (?b + 0) <= _ => assert (a <= 13 / 2 + 1 / 1000) by (apply B; tauto); assert (b <= 13 / 2 + 1 / 1000) by (apply B; tauto) end; lra. }
  set (m := lsum _ _) in *. clearbody m.
  assert (M1 : mass ring3 i = 1) by reflexivity. rewrite M1.
  assert (X : 0 < Rmax m (1000000 * (1 / 10000000000)) <= 13 + 1 / 500).
  { split; [eapply Rlt_le_trans; [|apply Rmax_r]; lra|apply Rmax_lub; lra]. }
  set (x := Rmax _ _) in *. clearbody x.
  apply Rmult_le_reg_r with (2 * x); [lra|].
  replace (1 * 1 / (-2 * - x) * (2 * x)) with 1 by (field; lra). lra.
Qed.

Lemma C123_covolume_refuted_proof : forall strict,
  exists p M (old : (nat -> state nat) * PC nat (aeos_scheme p 1)) pc0 num_min cfl tau,
    symmetric_pattern M /\ positive_masses M /\ valid_numbering M /\ pairs_listed M /\ mesh_dimension M 1 /\
    (forall i, active M i -> zero_row_sum M i) /\
    compute_strict_bounds (ap_system p) = strict /\ compatible_eos (a_eos (ap_system p)) /\
    (forall i, active M i -> aeos_gas (a_eos (ap_system p)) 1 (fst old i)) /\
    snd old = aeos_precomputed p 1 M (fst old) pc0 /\
    0 < num_min /\ 0 < cfl <= 1 /\ 0 < tau /\
    (forall d0 t, In t (row_tau (aeos_scheme p 1) M num_min cfl old d0) -> tau <= t) /\
    exists i, active M i /\ forall order a0 d0 l0 ln0 new0 stages,
    1 < interp_b (a_eos (ap_system p)) *
      fst (hyperbolic_update (aeos_scheme p 1) M num_min order 0 a0 d0 l0 ln0 new0 old stages tau) i 0%nat.
Proof.
  intros strict. exists (cold_params strict), ring3, (cold_old strict), cold_pc0, (1 / 10000000000), 1, (100 / 2601).
  split; [exact ring3_pattern|]. split; [exact ring3_masses|]. split; [exact ring3_numbering|]. 
  split; [exact ring3_pairs|]. split; [exact ring3_dimension|]. split; [intros i [Hi _]; apply ring3_sum; exact Hi|].
  split; [reflexivity|]. split; [exact (proj1 (proj2 C123_compatible_proof) na_construct 3 1 (7 / 8) 0 1 ltac:(lra))|].
  split; [intros i _; apply cold_state|]. split; [reflexivity|].
  split; [lra|]. split; [lra|]. split; [lra|]. split; [apply cold_tau|].
  exists 0%nat. split; [apply ring3_active; lia|]. intros.
  change (fst (hyperbolic_update (aeos_scheme (cold_params strict) 1) ring3 (1 / 10000000000) order 0 a0 d0 l0 ln0 new0 (cold_old strict) stages (100 / 2601))) with
    (low_order_update (aeos_scheme (cold_params strict) 1) ring3 (cold_old strict) (dij_matrix (aeos_scheme (cold_params strict) 1) ring3 (1 / 10000000000) (cold_old strict) d0) (100 / 2601) new0).
  set (d := dij_matrix _ _ _ _ _). clearbody d.
  unfold low_order_update, low_order_flux, jump, source. cbn -[IZR aeos_precomputed]. 
  unfold splus, smult, szero, sminus, a_flux_divergence, dot, rsum, vadd, vec_of.
  cbn -[IZR aeos_precomputed]. unfold mkstate. cbn -[IZR].
  unfold fadd, vadd, a_flux, a_momentum, cold_U, cold, mkstate. cbn -[IZR].
  match goal with |- _ < ?x => replace x with (7 / 8 * (1 + 450 / 2601)) by field end. lra.
Qed.

(** ** A gas with covolume 1/8 *)

Definition gas_eos : eos := na_eos (na_parse (7 / 5) 1 (1 / 8) 0 0 na_construct).
Definition noble_params : aparameters :=
  {| ap_system := {| a_eos := gas_eos; a_reference_density := 1; a_relaxation_small := 10000; a_relaxation_large := 10000; compute_strict_bounds := false |};
     ap_eps := 0; ap_big := 1000; ap_tol := 0; ap_iterations := 2; ap_relaxation := 0; ap_evc := 1 |}.
Definition noble_U : nat -> state nat := fun i =>
  if (i =? 2)%nat then mkstate 1 2 (fun _ => - (1)) 3 else mkstate 1 1 (fun _ => 1) 3.
Definition noble_pc0 : nat -> prec := fun _ => prec_of gas_eos 1 (noble_U 0) 0.
Definition noble_old M : (nat -> state nat) * PC nat (aeos_scheme noble_params 1) :=
  (noble_U, aeos_precomputed noble_params 1 M noble_U noble_pc0).

Lemma noble_gas i : aeos_gas gas_eos 1 (noble_U i).
Proof.
  unfold aeos_gas, admissible_gas, excess_energy, inner_energy, noble_U, gas_eos.
  destruct (i =? 2)%nat; cbn -[IZR]; unfold na_pressure, mkstate; cbn -[IZR]; repeat split; lra.
Qed.

Lemma noble_pressure i : eos_pressure gas_eos (a_density (noble_U i)) (a_internal_energy 1 (noble_U i) / a_density (noble_U i)) =
  if (i =? 2)%nat then 22 / 15 else 8 / 7.
Proof.
  unfold noble_U, gas_eos. destruct (i =? 2)%nat; cbn -[IZR]; unfold na_pressure, a_density, a_internal_energy, a_density, density, a_momentum, a_total_energy, norm2, dot, rsum, momentum, mkstate; cbn -[IZR]; field.
Qed.

Lemma C122_ranks_setting :
  symmetric_pattern ring3 /\ positive_masses ring3 /\ valid_numbering ring3 /\ symmetric_matrices ring3 /\ mesh_dimension ring3 1 /\
  (forall i j, active ring3 i -> In j (columns ring3 i) -> skew_at ring3 i j) /\
  (forall i, active ring3 i -> aeos_gas gas_eos 1 (noble_U i)) /\
  (forall i j, active ring3 i -> In j (columns ring3 i) -> owner ring3 i <> owner ring3 j ->
     eos_pressure gas_eos (a_density (noble_U i)) (a_internal_energy 1 (noble_U i) / a_density (noble_U i)) <>
     eos_pressure gas_eos (a_density (noble_U j)) (a_internal_energy 1 (noble_U j) / a_density (noble_U j))) /\
  (exists i j, active ring3 i /\ In j (columns ring3 i) /\ owner ring3 i <> owner ring3 j).
Proof.
  split; [exact ring3_pattern|]. split; [exact ring3_masses|]. split; [exact ring3_numbering|]. split; [exact ring3_symmetric|].
  split; [exact ring3_dimension|]. split; [exact ring3_skew|]. split; [intros i _; apply noble_gas|]. split.
  - intros i j [Hi _] Hj Ho. pose proof (uniform_columns ring3 ring3_pattern i j Hi Hj) as Hjb. rewrite !noble_pressure. cbn [n_rows ring3] in Hi, Hjb.
    rows3 i Hi; rows3 j Hjb; cbn [Nat.eqb]; try lra; exfalso; apply Ho; reflexivity.
  - exists 2%nat, 0%nat. split; [apply ring3_active; lia|]. split; [cbn; tauto|]. cbn. discriminate.
Qed.

Lemma C123_setting : exists tau, 0 < tau /\
  symmetric_pattern ring3 /\ positive_masses ring3 /\ valid_numbering ring3 /\ pairs_listed ring3 /\ mesh_dimension ring3 1 /\
  (forall t, In t (row_tau (aeos_scheme noble_params 1) ring3 (1 / 10000) 1 (noble_old ring3) (fun _ _ => 0)) -> tau <= t) /\
  (forall i, active ring3 i -> zero_row_sum ring3 i) /\
  snd (noble_old ring3) = aeos_precomputed noble_params 1 ring3 (fst (noble_old ring3)) noble_pc0 /\
  compatible_eos gas_eos /\ interp_pinf gas_eos = 0 /\ interp_b gas_eos = 1 / 8 /\
  (forall i, active ring3 i -> aeos_gas gas_eos 1 (fst (noble_old ring3) i)) /\
  fst (noble_old ring3) 0%nat 0%nat <> fst (noble_old ring3) 2%nat 0%nat.
Proof.
  destruct (step_exists (aeos_scheme noble_params 1) ring3 (1 / 10000) 1 (noble_old ring3) (fun _ _ => 0) ring3_pattern ring3_masses ltac:(lra) ltac:(lra)) as (tau & Ht & Hs).
  exists tau. split; [exact Ht|]. split; [exact ring3_pattern|]. split; [exact ring3_masses|]. split; [exact ring3_numbering|].
  split; [exact ring3_pairs|]. split; [exact ring3_dimension|]. split; [exact Hs|]. split; [intros i [Hi _]; apply ring3_sum; exact Hi|].
  split; [reflexivity|]. split; [exact (proj1 (proj2 C123_compatible_proof) na_construct (7 / 5) 1 (1 / 8) 0 0 ltac:(lra))|].
  split; [reflexivity|]. split; [reflexivity|]. split; [intros i _; apply noble_gas|]. cbn. unfold mkstate. cbn. lra.
Qed.

Lemma C122_one_rank_setting :
  symmetric_pattern ring3' /\ positive_masses ring3' /\ valid_numbering ring3' /\ symmetric_matrices ring3' /\
  (forall i j, active ring3' i -> In j (columns ring3' i) -> skew_at ring3' i j) /\
  (forall i j, (i < n_rows ring3')%nat -> (j < n_rows ring3')%nat -> owner ring3' i = owner ring3' j) /\
  (exists i j, active ring3' i /\ In j (columns ring3' i) /\ i <> j).
Proof.
  destruct C114_one_setting as (A & B & C & D & E & F).
  split; [exact A|]. split; [exact B|]. split; [exact C|]. split; [exact D|]. split; [exact E|]. split; [exact F|].
  exists 0%nat, 1%nat. split; [apply active_constrained; split; [cbn; lia|reflexivity]|]. split; [cbn; tauto|discriminate].
Qed.
