(** * Euler scheme: verdict, concrete cases *)
From Coq Require Import Reals List Arith Bool Lia Lra Psatz FunctionalExtensionality.
From Verif Require Import RVec Simd Newton EulerSystem EulerLimiter EulerLimiterSpec EulerLimiterProofs EulerLimiterEntropy EulerLimiterBounds EulerLimiterFinal
  PhysSpec PhysLib EulerRiemann EulerRiemannSpec EulerRiemannProofs EulerRiemannFinal EulerSpeed Indicator SWScheme
  EulerScheme EulerSchemeSpec SchemeSpec SchemeProofs SchemeUpdate SchemeLimit SchemeFinal SchemeExamples SWSchemeFinal SWSchemeExamples
  EulerSchemeProofs EulerSchemeFinal EulerSchemeBounds.
From Verif Require Import Scheme.
Import ListNotations.
Local Open Scope R_scope.

Lemma C85_verdict_proof : forall p dim M nm order n a0 d0 l0 ln0 new0
    (old : (nat -> state nat) * PC nat (euler_scheme p dim)) stages tau,
  ep_eps p = 0 ->
  let bounds := limiter_bounds_i (euler_scheme p dim) M nm old (dij_matrix (euler_scheme p dim) M nm old d0) tau order in
  (forall i, active M i -> entropy_inside (ep_system p) dim (bounds i)
     (fst (hyperbolic_update (euler_scheme p dim) M nm order 0 a0 d0 l0 ln0 new0 old stages tau) i)) ->
  ~ violation (euler_scheme p dim) M nm order n (compute_alpha (euler_scheme p dim) M old a0)
      (dij_matrix (euler_scheme p dim) M nm old d0) new0 old stages tau.
Proof.
  intros p dim M nm order n a0 d0 l0 ln0 new0 old stages tau He bounds H [_ (i & j & Ha & _ & _ & E)].
  specialize (H i Ha).
  change (entropy_inside (ep_system p) dim (bounds i) (low_order_update (euler_scheme p dim) M old (dij_matrix (euler_scheme p dim) M nm old d0) tau new0 i)) in H.
  fold bounds in E. cbn [limiter_limit euler_scheme] in E.
  set (u := low_order_update _ _ _ _ _ _ i) in *. set (P := pij _ _ _ _ _ _ _ i j) in *. set (b := bounds i) in *.
  unfold euler_limit in E. rewrite He in E. cbn [snd] in E.
  change {| l_bounds := b; l_U := u; l_P := P; l_tmin := 0; l_tmax := 1 |} with (call_lane b u P) in E.
  assert (HM : mass_inside b u) by apply H.
  assert (EH : density_hyp (call_lane b u P) /\ 0 < rho_min b /\ 0 <= s_min b /\ 0 <= psi (ep_system p) 0 dim (call_lane b u P) 0).
  { split; [apply call_density_hyp; exact HM|]. split; [apply HM|].
    apply entropy_inside_eq in H. destruct H as (_ & H2 & H3). split; [lra|].
    assert (A0 : along (call_lane b u P) 0 = u).
    { apply functional_extensionality. intros k. unfold along, vadd, vscal, call_lane. cbn. ring. }
    apply call_psi; rewrite A0; [destruct HM as [? [? ?]]; unfold density; lra|exact H3]. }
  destruct (limit (ep_system p) 0 (ep_tol p) (ep_iterations p) dim [call_lane b u P]) as [ts ok] eqn:EL.
  apply limit_success in EL; [cbn [snd] in E; congruence|lra|lra|].
  constructor; [exact EH|constructor].
Qed.

(** ** A shock tube on a ring of three nodes *)

Definition gas_params (eps : R) : eparameters :=
  {| ep_system := ex_air; ep_eps := eps; ep_big := 1000000; ep_riemann_tol := 1 / 1000; ep_riemann_iterations := 0;
     ep_tol := 1 / 1000; ep_iterations := 2; ep_relaxation := 1; ep_evc := 1 |}.

(** At rest, pressures 1, 1/2, 1/2, densities 1, 1/2, 1/2. *)
Definition tube_U : nat -> state nat :=
  fun i => if Nat.eqb i 0 then mkstate 1 1 (fun _ => 0) (5 / 2) else mkstate 1 (1 / 2) (fun _ => 0) (5 / 4).
Definition tube_old eps : (nat -> state nat) * PC nat (euler_scheme (gas_params eps) 1) :=
  (tube_U, euler_precomputed (gas_params eps) 1 ring3 tube_U (fun _ => (0, 0))).

(** A uniform stream. *)
Definition stream_u : state nat := mkstate 1 1 (fun _ => 1) 3.
Definition stream_old eps : (nat -> state nat) * PC nat (euler_scheme (gas_params eps) 1) :=
  (fun _ => stream_u, euler_precomputed (gas_params eps) 1 ring3 (fun _ => stream_u) (fun _ => (0, 0))).

Lemma tube_gas i : positive_gas 1 (tube_U i).
Proof. unfold positive_gas, tube_U. destruct (Nat.eqb i 0); cbn; lra. Qed.

Lemma stream_gas : positive_gas 1 stream_u.
Proof. unfold positive_gas, stream_u. cbn. lra. Qed.

Lemma ring3_dimension : mesh_dimension ring3 1.
Proof. intros i j Hi Hj. assert (Hb : (j < 3)%nat) by apply (uniform_columns ring3 ring3_pattern i j Hi Hj). rows3 i Hi; rows3 j Hb; reflexivity. Qed.

Lemma ring3_all_skew i j : (i < n_rows ring3)%nat -> In j (columns ring3 i) -> skew_at ring3 i j.
Proof.
  intros Hi Hj. unfold skew_at. cbn [c_ij ring3]. apply ring_skew; [exact Hi|]. apply (uniform_columns ring3 ring3_pattern i j Hi Hj).
Qed.

Lemma gas_moderate eps : moderate_relaxation (gas_params eps) 1 ring3.
Proof.
  intros i _. cbn [mass measure_of_omega ring3 gas_params ep_relaxation]. unfold relaxation_radius. cbn [Nat.eqb].
  replace (1 * (1 / 3)) with (1 / 3) by lra.
  assert (H0 := sqrt_pos (1 / 3)). assert (H1 : sqrt (1 / 3) < sqrt 1) by (apply sqrt_lt_1_alt; lra).
  rewrite sqrt_1 in H1. set (q := sqrt (1 / 3)) in *. assert (q * q < 1) by nra. assert (0 <= q * q) by nra. nra.
Qed.

Lemma gas_fast eps (old : (nat -> state nat) * PC nat (euler_scheme (gas_params eps) 1)) :
  (forall i, (i < 3)%nat -> positive_gas 1 (fst old i)) ->
  (forall i n, (i < 3)%nat -> dot 1 n n = 1 -> 1 / 10 <= normal_velocity 1 n (fst old i) + speed_of_sound ex_air 1 (fst old i)) ->
  forall i, active ring3 i -> e_fast (gas_params eps) 1 ring3 (1 / 10000) old (fun _ _ => 0) i.
Proof.
  intros HG HS i Ha j Hj. destruct Ha as [Hi _]. cbn [n_rows ring3] in Hi.
  assert (Hjb : (j < 3)%nat) by apply (neighbours_bound ring3 i j ring3_pattern Hi Hj).
  assert (Hjc : In j (columns ring3 i)) by apply (neighbours_columns ring3 i j ring3_pattern Hi Hj).
  assert (Hg : 1 < gamma (ep_system (gas_params eps))) by (cbn; lra).
  rewrite (dij_value (euler_scheme (gas_params eps) 1) ring3 (1 / 10000) old (fun _ _ => 0) i j ring3_pattern ring3_numbering ring3_pairs
    (euler_symmetric (gas_params eps) 1 ring3 old Hg ring3_pattern ring3_dimension (fun k Hk => HG k (proj1 Hk))) Hi Hj).
  eapply Rle_trans; [|apply Rmax_l]. unfold wave_viscosity. cbn [riemann_compute euler_scheme].
  pose proof (ring_cnorm i j Hi Hj) as Hc. set (c := c_ij ring3 i j) in *. set (n := cdiv c (cnorm c)).
  assert (Hn : unit_vector 1 n).
  { split; [apply cnorm_cdiv; lra|]. unfold n, cdiv. rewrite map_length. apply ring3_dimension; [exact Hi|exact Hjc]. }
  destruct (gas_pressure (gas_params eps) 1 (fst old i) Hg (HG i Hi)) as [A1 A2].
  destruct (gas_pressure (gas_params eps) 1 (fst old j) Hg (HG j Hjb)) as [B1 B2].
  destruct (C37_characteristics_proof (ep_system (gas_params eps)) (ep_eps (gas_params eps)) (ep_riemann_tol (gas_params eps)) (ep_riemann_iterations (gas_params eps)) 1
     (fst old i) (fst old j) (vec_of n) Hg (unit_dot 1 n Hn) A1 A2 B1 B2) as [_ C2].
  pose proof (HS j (vec_of n) Hjb (unit_dot 1 n Hn)) as S.
  set (lam := er_wavespeed _ _ _ _ _ _ _ _) in *. cbn [ep_system gas_params] in C2.
  pose proof (Rmult_le_compat (1 / 2) (cnorm c) (1 / 10) lam ltac:(lra) ltac:(lra) Hc ltac:(lra)). lra.
Qed.

Lemma tube_fast eps i : active ring3 i -> e_fast (gas_params eps) 1 ring3 (1 / 10000) (tube_old eps) (fun _ _ => 0) i.
Proof.
  apply gas_fast; [intros; apply tube_gas|]. intros k n _ _. cbn [fst tube_old].
  assert (E : normal_velocity 1 n (tube_U k) = 0).
  { unfold normal_velocity, dot, tube_U, momentum. destruct (Nat.eqb k 0); cbn; unfold Rdiv; ring. }
  rewrite E, Rplus_0_l.
  assert (P : 1 <= speed_of_sound ex_air 1 (tube_U k)); [|lra].
  rewrite <- sqrt_1. unfold speed_of_sound. cbv zeta. apply sqrt_le_1_alt.
  unfold pressure, tube_U, internal_energy, norm2, dot, momentum, density, total_energy, ex_air.
  destruct (Nat.eqb k 0); cbn; lra.
Qed.

Lemma stream_speed n : dot 1 n n = 1 -> 1 / 10 <= normal_velocity 1 n stream_u + speed_of_sound ex_air 1 stream_u.
Proof.
  intros Hn. unfold dot in Hn. cbn in Hn.
  assert (E : normal_velocity 1 n stream_u = n 0%nat).
  { unfold normal_velocity, dot, stream_u, momentum, density. cbn. field. }
  assert (P : 11 / 10 <= speed_of_sound ex_air 1 stream_u).
  { rewrite <- (sqrt_square (11 / 10)) by lra. unfold speed_of_sound. cbv zeta. apply sqrt_le_1_alt.
    unfold pressure, stream_u, internal_energy, norm2, dot, momentum, density, total_energy, ex_air. cbn. lra. }
  rewrite E. assert (-1 <= n 0%nat) by nra. lra.
Qed.

Lemma stream_fast eps i : active ring3 i -> e_fast (gas_params eps) 1 ring3 (1 / 10000) (stream_old eps) (fun _ _ => 0) i.
Proof. apply gas_fast; [intros; apply stream_gas|]. intros k n _. apply stream_speed. Qed.

(** The low-order update of the uniform stream. *)
Lemma stream_low eps order a0 l0 ln0 new0 stages tau i : active ring3 i ->
  fst (hyperbolic_update (euler_scheme (gas_params eps) 1) ring3 (1 / 10000) order 0 a0 (fun _ _ => 0) l0 ln0 new0 (stream_old eps) stages tau) i = stream_u.
Proof.
  intros Ha.
  change (fst (hyperbolic_update (euler_scheme (gas_params eps) 1) ring3 (1 / 10000) order 0 a0 (fun _ _ => 0) l0 ln0 new0 (stream_old eps) [] tau) i = stream_u).
  apply (C21_uniform_proof nat (euler_scheme (gas_params eps) 1) ring3 (1 / 10000) 1 (e_F (gas_params eps) 1) stream_u
    (EulerSystem.flux ex_air 1 stream_u)).
  - exact ring3_pattern.
  - apply euler_plain.
  - reflexivity.
  - apply euler_central.
  - intros j [Hj _]; exact (ring3_sum j Hj).
  - intros v [->|[]] j _. split; reflexivity.
  - exact Ha.
Qed.

Lemma specific_entropy_bound s dim u : 0 < density u -> specific_entropy s dim u * powr (density u) (gamma s) = internal_energy dim u.
Proof.
  intros H. unfold specific_entropy. cbv zeta. replace (1 / density u) with (/ density u) by (unfold Rdiv; ring).
  pose proof (powr_gt0 (density u) (gamma s) H) as P. rewrite Rmult_assoc.
  assert (E : powr (/ density u) (gamma s) * powr (density u) (gamma s) = 1); [|rewrite E; ring].
  rewrite !powr_pos by (try apply Rinv_0_lt_compat; exact H). unfold Rpower. rewrite ln_Rinv by exact H.
  rewrite <- exp_plus. replace (gamma s * - ln (density u) + gamma s * ln (density u)) with 0 by ring. apply exp_0.
Qed.

Lemma stream_inside order a0 l0 ln0 new0 stages tau i :
  active ring3 i ->
  entropy_inside ex_air 1
    (limiter_bounds_i (euler_scheme (gas_params 0) 1) ring3 (1 / 10000) (stream_old 0)
      (dij_matrix (euler_scheme (gas_params 0) 1) ring3 (1 / 10000) (stream_old 0) (fun _ _ => 0)) tau order i)
    (fst (hyperbolic_update (euler_scheme (gas_params 0) 1) ring3 (1 / 10000) order 0 a0 (fun _ _ => 0) l0 ln0 new0 (stream_old 0) stages tau) i).
Proof.
  intros Ha. rewrite stream_low by exact Ha.
  assert (Hr : 0 < density stream_u) by (unfold density, stream_u, mkstate; cbn; lra).
  assert (H1 : 0 <= ep_eps (gas_params 0)) by (cbn; lra). assert (H2 : 0 < ep_big (gas_params 0)) by (cbn; lra).
  assert (H3 : 0 <= ep_relaxation (gas_params 0)) by (cbn; lra). assert (H4 : 1 < gamma (ep_system (gas_params 0))) by (cbn; lra).
  assert (H5 : forall k, active ring3 k -> positive_gas 1 (fst (stream_old 0) k)) by (intros; apply stream_gas).
  assert (H6 : 0 < 1 / 10000) by lra. assert (Hi : (i < n_rows ring3)%nat) by apply Ha.
  assert (Hii : In i (columns ring3 i)) by (rewrite (columns_split ring3 i ring3_pattern Hi); left; reflexivity).
  assert (Hcon : constrained ring3 i = false) by apply (proj1 (active_constrained ring3 i) Ha).
  assert (Q : limiter_bounds_i (euler_scheme (gas_params 0) 1) ring3 (1 / 10000) (stream_old 0)
      (dij_matrix (euler_scheme (gas_params 0) 1) ring3 (1 / 10000) (stream_old 0) (fun _ _ => 0)) tau order i =
      bounds_step4 (euler_scheme (gas_params 0) 1) ring3 (1 / 10000) (stream_old 0)
      (dij_matrix (euler_scheme (gas_params 0) 1) ring3 (1 / 10000) (stream_old 0) (fun _ _ => 0)) tau i) by reflexivity.
  rewrite Q.
  destruct (e_bounds_positive (gas_params 0) 1 ring3 (1 / 10000) (stream_old 0) (fun _ => (0, 0)) (fun _ _ => 0) tau
     ring3_pattern ring3_numbering ring3_pairs ring3_dimension H6 H2 (gas_moderate 0) H4 H5 eq_refl i Hi Hcon (stream_fast 0 i Ha)) as [B1 B2].
  destruct (e_bounds_contain (gas_params 0) 1 ring3 (1 / 10000) (stream_old 0) (fun _ => (0, 0)) (fun _ _ => 0) tau
     ring3_pattern ring3_numbering ring3_pairs ring3_dimension H6 H1 H2 H3 H4 H5 eq_refl i i Hi Hcon Hii (stream_fast 0 i Ha)) as [C1 C2].
  rewrite e_bar_diag in C1. cbn [fst stream_old] in C1, C2.
  apply entropy_inside_eq. split; [split; [exact B1|exact C1]|]. split; [exact B2|].
  rewrite <- (specific_entropy_bound ex_air 1 stream_u Hr). apply Rmult_le_compat_r; [|exact C2].
  apply Rlt_le, powr_gt0, Hr.
Qed.

Lemma tube_setting : symmetric_pattern ring3 /\ positive_masses ring3 /\ valid_numbering ring3 /\ pairs_listed ring3 /\
  symmetric_matrices ring3 /\ mesh_dimension ring3 1 /\
  (forall i j, (i < n_rows ring3)%nat -> In j (columns ring3 i) -> skew_at ring3 i j) /\
  (forall i, active ring3 i -> zero_row_sum ring3 i) /\
  (forall i, active ring3 i -> positive_gas 1 (tube_U i)) /\ tube_U 0%nat 0%nat <> tube_U 1%nat 0%nat /\
  (forall i, (i < 3)%nat -> active ring3 i).
Proof.
  split; [exact ring3_pattern|]. split; [exact ring3_masses|]. split; [exact ring3_numbering|]. split; [exact ring3_pairs|].
  split; [exact ring3_symmetric|]. split; [exact ring3_dimension|]. split; [exact ring3_all_skew|].
  split; [intros i Hi; apply ring3_sum, Hi|]. split; [intros i _; apply tube_gas|]. split; [|exact ring3_active].
  unfold tube_U, mkstate. cbn. lra.
Qed.

Lemma tube_step eps : exists tau, 0 < tau /\
  forall t, In t (row_tau (euler_scheme (gas_params eps) 1) ring3 (1 / 10000) 1 (tube_old eps) (fun _ _ => 0)) -> tau <= t.
Proof. apply step_exists; [exact ring3_pattern|exact ring3_masses|lra|lra]. Qed.

Lemma stream_unflagged order n a0 new0 stages tau :
  ~ violation (euler_scheme (gas_params 0) 1) ring3 (1 / 10000) order n
      (compute_alpha (euler_scheme (gas_params 0) 1) ring3 (stream_old 0) a0)
      (dij_matrix (euler_scheme (gas_params 0) 1) ring3 (1 / 10000) (stream_old 0) (fun _ _ => 0)) new0 (stream_old 0) stages tau.
Proof.
  apply (C85_verdict_proof (gas_params 0) 1 ring3 (1 / 10000) order n a0 (fun _ _ => 0) (fun _ _ => 0) (fun _ _ => 0)); [reflexivity|].
  intros i Ha. apply stream_inside. exact Ha.
Qed.

Lemma tube_estimate : 1 < gamma ex_air <= 5 / 3 /\
  0 < density (tube_U 0) /\ 0 < pressure ex_air 1 (tube_U 0) /\ 0 < density (tube_U 1) /\ 0 < pressure ex_air 1 (tube_U 1).
Proof.
  split; [cbn; lra|].
  assert (Hg : 1 < gamma (ep_system (gas_params 0))) by (cbn; lra).
  destruct (gas_pressure (gas_params 0) 1 (tube_U 0) Hg (tube_gas 0)) as [A1 A2].
  destruct (gas_pressure (gas_params 0) 1 (tube_U 1) Hg (tube_gas 1)) as [B1 B2]. auto.
Qed.
