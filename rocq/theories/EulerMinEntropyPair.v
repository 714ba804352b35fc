(** * Proofs: the entropy of bar states with the estimated wave speed *)
From Coq Require Import Reals List Arith Lia Lra Psatz FunctionalExtensionality.
From Verif Require Import RVec Newton EulerSystem EulerLimiter EulerLimiterEntropy PhysSpec PhysLib EulerRiemann EulerRiemannSpec EulerRiemannProofs EulerRiemannNewton EulerRiemannFinal
  EulerSpeed EulerScheme EulerSchemeSpec EulerMinEntropySpec SchemeProofs EulerSchemeProofs EulerMinEntropy EulerMinEntropyBar EulerLinearWaves EulerContact.
From Verif Require Import Scheme.
Local Open Scope R_scope.

Section Pair.
Variables (s : euler) (dim : nat) (n : vec) (s0 : R).
Hypothesis Hg : 1 < gamma s <= 5 / 3.
Hypothesis Hn : dot dim n n = 1.
Hypothesis Hs0 : 0 <= s0.
Local Notation g := (gamma s).

Local Notation data u := (gas g (density u) (normal_velocity dim n u) (pressure s dim u)).

Lemma Phi_bar_estimate rho0 v0 u v lam : 0 < rho0 -> 0 < density u -> 0 < pressure s dim u -> 0 < density v -> 0 < pressure s dim v -> 0 < lam ->
  s0 * powr (density u) g <= pressure s dim u / (g - 1) -> s0 * powr (density v) g <= pressure s dim v / (g - 1) ->
  er_compute_lambda g (data u) (data v) (er_p_2 g (data u) (data v)) <= lam -> 0 <= Phi s dim s0 rho0 v0 (bar s dim n u v lam) + s0 * H0 s rho0.
Proof using Hg Hn Hs0.
  intros Hrho0 Ru Pu Rv Pv Hl Su Sv HL. assert (Hg1 : 1 < g) by lra.
  rewrite Phi_bar by lra. rewrite !(Phi_flux s dim n s0 Hg1), !(Phi_fn s dim n s0 Hg1) by assumption.
  set (a := dot dim v0 n).
  set (ru := density u) in *. set (rv := density v) in *. set (pu := pressure s dim u) in *. set (pv := pressure s dim v) in *.
  set (nu := normal_velocity dim n u) in *. set (nv := normal_velocity dim n v) in *.
  pose proof (kap_nonneg dim n Hn v0 u) as Ku. pose proof (kap_nonneg dim n Hn v0 v) as Kv.
  set (G := G0 s rho0) in *. set (H := H0 s rho0) in *.
  enough (T : 0 <= lam * fn g s0 G a (kap dim n v0 u) ru nu pu + fn_flux g s0 G a (kap dim n v0 u) ru nu pu +
              (lam * fn g s0 G a (kap dim n v0 v) rv nv pv - fn_flux g s0 G a (kap dim n v0 v) rv nv pv) + 2 * lam * (s0 * H)).
  { apply Rmult_le_reg_r with (2 * lam); [lra|]. rewrite Rmult_0_l.
    match goal with |- _ <= ?x => match type of T with _ <= ?y => replace x with y; [exact T|] end end. field. lra. }
  set (P := er_p_2 g (gas g ru nu pu) (gas g rv nv pv)) in *.
  destruct (lambda_ge g ru nu pu rv nv pv P) as [L1 L2].
  pose proof (mass_flux_pos g Hg1 ru pu Ru Pu P) as Q1. pose proof (mass_flux_pos g Hg1 rv pv Rv Pv P) as Q2.
  set (q1 := mass_flux g ru pu P) in *. set (q2 := mass_flux g rv pv P) in *.
  (* common momentum flux and velocity *)
  set (f := (pu / q1 + pv / q2 - (nv - nu)) / (/ q1 + / q2)).
  assert (Hden : 0 < / q1 + / q2) by (pose proof (Rinv_0_lt_compat _ Q1); pose proof (Rinv_0_lt_compat _ Q2); lra).
  assert (Hf : (f - pu) / q1 + (f - pv) / q2 + (nv - nu) = 0).
  { transitivity (f * (/ q1 + / q2) - (pu / q1 + pv / q2 - (nv - nu))); [field; lra|]. unfold f. field. repeat split; try lra. }
  set (w := nu + (pu - f) / q1).
  destruct (estimate_ok g ru nu pu rv nv pv Hg Ru Pu Rv Pv f Hf) as [[A1 A2] [B1 B2]]. fold P in A1, A2, B1, B2.
  pose proof (half_linear g s0 G H a (kap dim n v0 u) Hg1 Hs0 Ku (tangent0 s Hg1 rho0 Hrho0) ru nu pu (Rmax P pu) f q1 w lam Ru Pu (Rmax_r _ _) Q1
    (mass_flux_sq g Hg1 ru pu Ru Pu P) ltac:(unfold w; field; lra) A1 A2 Su) as X.
  pose proof (half_linear g s0 G H (- a) (kap dim n v0 v) Hg1 Hs0 Kv (tangent0 s Hg1 rho0 Hrho0) rv (- nv) pv (Rmax P pv) f q2 (- w) lam Rv Pv (Rmax_r _ _) Q2
    (mass_flux_sq g Hg1 rv pv Rv Pv P)) as Y.
  rewrite mirror_fn, mirror_flux in Y.
  assert (E1 : q1 / ru = sound g ru pu * e_stretch g pu P) by (unfold q1, mass_flux; field; lra).
  assert (E2 : q2 / rv = sound g rv pv * e_stretch g pv P) by (unfold q2, mass_flux; field; lra).
  rewrite E1 in X. rewrite E2 in Y. specialize (X ltac:(lra)).
  assert (Ew : q2 * (- w - - nv) = pv - f).
  { assert (Z : w = nv + (f - pv) / q2).
    { unfold w. assert (Z0 : (f - pv) / q2 = - ((f - pu) / q1) - (nv - nu)) by lra. rewrite Z0. field. lra. }
    rewrite Z. field. lra. }
  specialize (Y Ew B1 B2 Sv ltac:(lra)). lra.
Qed.

Lemma bar_density_slow u v lam : 0 < density u -> 0 < density v -> 0 < lam ->
  - lam < normal_velocity dim n u -> normal_velocity dim n v < lam -> 0 < density (bar s dim n u v lam).
Proof using.
  intros Ru Rv Hl A B.
  unfold density at 1. unfold bar. rewrite !s_flux_normal by assumption. cbn [Nat.eqb].
  fold (normal_velocity dim n u) (normal_velocity dim n v). set (a := normal_velocity dim n u) in *. set (b := normal_velocity dim n v) in *.
  change (u 0%nat) with (density u). change (v 0%nat) with (density v).
  replace ((density u + density v) / 2 - (density v * b - density u * a) / (2 * lam)) with
    ((density u * (lam + a) + density v * (lam - b)) / (2 * lam)) by (field; lra).
  apply Rdiv_lt_0_compat; [|lra]. apply Rplus_lt_0_compat; apply Rmult_lt_0_compat; lra.
Qed.

Lemma bar_estimate u v lam : 0 < density u -> 0 < pressure s dim u -> 0 < density v -> 0 < pressure s dim v -> 0 < lam ->
  s0 <= entropy_of_gas s dim u -> s0 <= entropy_of_gas s dim v ->
  er_compute_lambda g (data u) (data v) (er_p_2 g (data u) (data v)) <= lam ->
  0 < density (bar s dim n u v lam) /\ s0 <= entropy_of_gas s dim (bar s dim n u v lam).
Proof using Hg Hn Hs0.
  intros Ru Pu Rv Pv Hl Su Sv HL. assert (Hg1 : 1 < g) by lra.
  assert (K : forall u, 0 < density u -> s0 <= entropy_of_gas s dim u -> s0 * powr (density u) g <= pressure s dim u / (g - 1)).
  { intros w Hw H. unfold entropy_of_gas in H. pose proof (powr_gt0 (density w) g Hw) as Q. unfold pressure.
    replace ((g - 1) * internal_energy dim w / (g - 1)) with (internal_energy dim w) by (field; lra).
    apply (Rmult_le_compat_r (powr (density w) g)) in H; [|lra].
    unfold internal_energy. unfold Rdiv in H at 1. rewrite Rmult_assoc, Rinv_l, Rmult_1_r in H by lra.
    eapply Rle_trans; [exact H|]. right. field. lra. }
  set (P := er_p_2 g (data u) (data v)) in HL.
  destruct (lambda_ge g (density u) (normal_velocity dim n u) (pressure s dim u) (density v) (normal_velocity dim n v) (pressure s dim v) P) as [L1 L2].
  pose proof (stretch_pos g (density u) (pressure s dim u) P Hg1 Ru Pu) as W1. pose proof (stretch_pos g (density v) (pressure s dim v) P Hg1 Rv Pv) as W2.
  pose proof (bar_density_slow u v lam Ru Rv Hl ltac:(lra) ltac:(lra)) as HB. split; [exact HB|].
  set (B := bar s dim n u v lam) in *.
  pose proof (Phi_bar_estimate (density B) (vscal (/ density B) (momentum B)) u v lam HB Ru Pu Rv Pv Hl (K u Ru Su) (K v Rv Sv) HL) as Q1.
  fold B in Q1. unfold Phi, G0, H0 in Q1. rewrite dot_scal_l, norm2_scal in Q1.
  change (dot dim (momentum B) (momentum B)) with (norm2 dim (momentum B)) in Q1.
  assert (E : powr (density B) g = density B * powr (density B) (g - 1)).
  { replace g with (1 + (g - 1)) at 1 by ring. rewrite powr_plus, powr_1 by exact HB. reflexivity. }
  pose proof (powr_gt0 (density B) (g - 1) HB) as Q. rewrite E in Q1.
  unfold entropy_of_gas. rewrite E.
  assert (Q' : 0 < density B * powr (density B) (g - 1)) by (apply Rmult_lt_0_compat; assumption).
  apply Rmult_le_reg_r with (density B * powr (density B) (g - 1)); [exact Q'|].
  unfold Rdiv at 1. rewrite Rmult_assoc, Rinv_l, Rmult_1_r by lra.
  set (q := powr (density B) (g - 1)) in *. set (r := density B) in *. clearbody q r.
  replace (total_energy dim B - / r * norm2 dim (momentum B) +
    (1 / 2 * (/ r * / r * norm2 dim (momentum B)) - s0 * (g * q)) * r + s0 * ((g - 1) * (r * q)))
    with (total_energy dim B - norm2 dim (momentum B) / (2 * r) - s0 * (r * q)) in Q1 by (field; lra). lra.
Qed.
End Pair.

(** ** Newton steps with a wrong upper bound *)

(** A right end where phi is negative is not moved. *)
Lemma newton_stuck eps tol g di dj p2 n : er_phi g di dj p2 <= 0 -> 0 < er_dphi g di dj p2 -> forall p1 gap, p1 <= p2 ->
  er_newton eps tol g di dj n p1 p2 gap (er_compute_lambda g di dj p2) = er_compute_lambda g di dj p2.
Proof.
  intros HF HD. induction n as [|n IH]; intros p1 gap H1; cbn [er_newton]; [reflexivity|].
  destruct (Req_EM_T _ _); [reflexivity|]. unfold quadratic_newton_step. cbv zeta.
  set (c1 := newton_candidate eps 1 p1 _ _ _).
  set (dd := (er_dphi g di dj p2 - _) * _). set (c2 := newton_candidate eps 1 p2 _ _ dd).
  assert (C2 : p2 <= c2).
  { unfold c2, newton_candidate, mask_lt. set (q := sqrt _). assert (Hq : 0 <= q) by apply sqrt_pos.
    destruct (Rlt_dec _ eps); [lra|]. assert (D : 0 < er_dphi g di dj p2 + 1 * q) by lra.
    assert (0 <= (- (2 * er_phi g di dj p2)) * / (er_dphi g di dj p2 + 1 * q)) by (apply Rmult_le_pos; [lra|left; apply Rinv_0_lt_compat; exact D]).
    unfold Rdiv. lra. }
  assert (E2 : clamp p1 p2 c2 = p2).
  { unfold clamp. rewrite Rmin_left; [reflexivity|]. pose proof (Rmax_r p1 c2). lra. }
  assert (E1 : clamp p1 p2 c1 <= p2) by apply Rmin_l.
  rewrite E2, (Rmax_right _ _ E1). rewrite (Rmin_left _ _ E1).
  unfold er_compute_gap. apply IH. exact E1.
Qed.

Lemma newton_point eps tol g di dj p n : forall gap,
  er_newton eps tol g di dj n p p gap (er_compute_lambda g di dj p) = er_compute_lambda g di dj p.
Proof.
  induction n as [|n IH]; intros gap; cbn [er_newton]; [reflexivity|].
  destruct (Req_EM_T _ _); [reflexivity|]. unfold quadratic_newton_step. cbv zeta.
  assert (E : forall t, clamp p p t = p).
  { intros t. unfold clamp. apply Rmin_left. apply Rmax_l. }
  rewrite !E. rewrite Rmin_left, Rmax_left by lra. unfold er_compute_gap. apply IH.
Qed.
