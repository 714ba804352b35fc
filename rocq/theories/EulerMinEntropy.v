(** * Proofs: the entropy of averages of a Riemann fan *)
From Coq Require Import Reals Arith Lia Lra Psatz FunctionalExtensionality.
From Verif Require Import RVec EulerSystem EulerLimiter EulerLimiterEntropy PhysSpec PhysLib EulerRiemann EulerRiemannSpec EulerRiemannProofs.
Local Open Scope R_scope.

(** ** The entropy grows over shocks *)

Lemma hugoniot g rho u p us ps sp rhos : 1 < g -> 0 < rho -> 0 < p -> 0 < rhos -> p < ps -> sp < u ->
  rho * u - rhos * us = sp * (rho - rhos) ->
  (rho * u * u + p) - (rhos * us * us + ps) = sp * (rho * u - rhos * us) ->
  u * (energy g rho u p + p) - us * (energy g rhos us ps + ps) = sp * (energy g rho u p - energy g rhos us ps) ->
  rhos * ((g + 1) * p + (g - 1) * ps) = rho * ((g + 1) * ps + (g - 1) * p) /\ sp < us.
Proof.
  intros Hg Hr Hp Hrs P Hsp M Mo En.
  set (v := u - sp). set (w := us - sp).
  assert (M1 : rho * v = rhos * w) by (unfold v, w; lra).
  assert (M2 : rho * v * (v - w) = ps - p).
  { assert (rho * u * v + p = us * (rhos * w) + ps) by (unfold v, w; lra).
    rewrite <- M1 in H. replace (v - w) with (u - us) by (unfold v, w; ring). lra. }
  set (A := (g + 1) * ps + (g - 1) * p). set (B := (g + 1) * p + (g - 1) * ps).
  assert (Vp : 0 < v) by (unfold v; lra).
  assert (E : v * B = w * A).
  { assert (H1 : v * energy g rho u p + u * p = w * energy g rhos us ps + us * ps) by (unfold v, w; lra).
    unfold energy in H1.
    assert (H2 : v * p + (g - 1) * (rho * v * (u * u) / 2 + u * p) =
                 w * ps + (g - 1) * (rhos * w * (us * us) / 2 + us * ps)).
    { apply (f_equal (fun z => z * (g - 1))) in H1.
      replace ((v * (p / (g - 1) + rho * u * u / 2) + u * p) * (g - 1))
        with (v * p + (g - 1) * (rho * v * (u * u) / 2 + u * p)) in H1 by (field; lra).
      replace ((w * (ps / (g - 1) + rhos * us * us / 2) + us * ps) * (g - 1))
        with (w * ps + (g - 1) * (rhos * w * (us * us) / 2 + us * ps)) in H1 by (field; lra).
      exact H1. }
    rewrite <- M1 in H2.
    assert (H3 : rho * v * (u * u) - rho * v * (us * us) = (ps - p) * (u + us)).
    { rewrite <- M2. unfold v, w. ring. }
    unfold A, B. assert (H4 : u - us = v - w) by (unfold v, w; ring).
    assert (H5 : v * p - w * ps + (g - 1) * ((ps - p) * (u + us) / 2 + u * p - us * ps) = 0) by (rewrite <- H3; lra).
    replace ((ps - p) * (u + us) / 2 + u * p - us * ps) with ((ps + p) * (u - us) / 2) in H5 by field.
    rewrite H4 in H5. lra. }
  assert (Wp : 0 < w).
  { assert (0 < rho * v) by (apply Rmult_lt_0_compat; lra). rewrite M1 in H. 
    destruct (Rle_lt_dec w 0); [|assumption]. nra. }
  split; [|unfold w in Wp; lra].
  apply Rmult_eq_reg_r with w; [|lra].
  transitivity (rhos * w * B); [unfold B; ring|]. rewrite <- M1. transitivity (rho * (v * B)); [ring|]. rewrite E. unfold A. ring.
Qed.

Lemma log_hugoniot g z : 1 < g -> 1 <= z ->
  g * ln (((g + 1) * z + (g - 1)) / ((g - 1) * z + (g + 1))) <= ln z.
Proof.
  intros Hg Hz. destruct (Req_dec z 1) as [->|Hne].
  { replace (((g + 1) * 1 + (g - 1)) / ((g - 1) * 1 + (g + 1))) with 1 by (field; lra). rewrite ln_1. lra. }
  assert (Hz1 : 1 < z) by lra.
  set (F := fun x => ln x - g * (ln ((g + 1) * x + (g - 1)) - ln ((g - 1) * x + (g + 1)))).
  set (F' := fun x => / x - g * ((g + 1) / ((g + 1) * x + (g - 1)) - (g - 1) / ((g - 1) * x + (g + 1)))).
  assert (L : forall a b x, 0 < a * x + b -> derivable_pt_lim (fun x => ln (a * x + b)) x (a / (a * x + b))).
  { intros a b x H.
    pose proof (derivable_pt_lim_comp (fun x => a * x + b) ln x a (/ (a * x + b))) as D.
    cbv beta in D. unfold comp in D. unfold Rdiv. rewrite (Rmult_comm a). apply D; [|apply derivable_pt_lim_ln; exact H].
    pose proof (derivable_pt_lim_plus _ _ _ _ _ (derivable_pt_lim_scal _ a _ _ (derivable_pt_lim_id x)) (derivable_pt_lim_const b x)) as D2.
    eapply deriv_transfer; [| |exact D2]; [reflexivity|ring]. }
  destruct (MVT_cor2 F F' 1 z Hz1) as (c & E & Hc).
  { intros c Hc. unfold F, F'.
    pose proof (derivable_pt_lim_minus _ _ _ _ _ (derivable_pt_lim_ln c ltac:(lra))
      (derivable_pt_lim_scal _ g _ _ (derivable_pt_lim_minus _ _ _ _ _ (L (g + 1) (g - 1) c ltac:(nra)) (L (g - 1) (g + 1) c ltac:(nra))))) as D.
    eapply deriv_transfer; [| |exact D]; reflexivity. }
  assert (F1 : F 1 = 0).
  { unfold F. rewrite ln_1. replace ((g - 1) * 1 + (g + 1)) with ((g + 1) * 1 + (g - 1)) by ring. ring. }
  assert (PA : 0 < (g + 1) * c + (g - 1)) by nra. assert (PB : 0 < (g - 1) * c + (g + 1)) by nra.
  assert (Fc : 0 <= F' c).
  { unfold F'.
    replace (/ c - g * ((g + 1) / ((g + 1) * c + (g - 1)) - (g - 1) / ((g - 1) * c + (g + 1))))
      with ((g * g - 1) * ((c - 1) * (c - 1)) / (c * ((g + 1) * c + (g - 1)) * ((g - 1) * c + (g + 1)))) by (field; repeat split; lra).
    apply Rmult_le_pos; [apply Rmult_le_pos; [nra|apply Rle_0_sqr]|].
    left. apply Rinv_0_lt_compat. repeat apply Rmult_lt_0_compat; lra. }
  assert (0 <= F z) by nra.
  assert (PA' : 0 < (g + 1) * z + (g - 1)) by nra. assert (PB' : 0 < (g - 1) * z + (g + 1)) by nra.
  unfold Rdiv. rewrite ln_mult by (try apply Rinv_0_lt_compat; lra). rewrite ln_Rinv by lra. unfold F in H. lra.
Qed.

Lemma shock_entropy g rho p rhos ps : 1 < g -> 0 < rho -> 0 < p -> 0 < rhos -> p < ps ->
  rhos * ((g + 1) * p + (g - 1) * ps) = rho * ((g + 1) * ps + (g - 1) * p) ->
  p * powr rhos g <= ps * powr rho g.
Proof.
  intros Hg Hr Hp Hrs P E.
  set (z := ps / p). assert (Hz : 1 <= z).
  { unfold z. apply Rmult_le_reg_r with p; [lra|]. unfold Rdiv. rewrite Rmult_assoc, Rinv_l; lra. }
  assert (PB : 0 < (g + 1) * p + (g - 1) * ps) by nra.
  set (q := ((g + 1) * z + (g - 1)) / ((g - 1) * z + (g + 1))).
  assert (Hq : 0 < q) by (unfold q; apply Rdiv_lt_0_compat; nra).
  assert (Eq : rhos = rho * q).
  { apply Rmult_eq_reg_r with ((g + 1) * p + (g - 1) * ps); [|lra]. rewrite E. unfold q, z. field. split; lra. }
  pose proof (log_hugoniot g z Hg Hz) as L. fold q in L.
  rewrite !powr_pos by assumption. rewrite Eq, <- Rpower_mult_distr by assumption.
  assert (Q : Rpower q g <= z).
  { unfold Rpower. rewrite <- (exp_ln z) by lra. destruct (Rle_lt_or_eq_dec _ _ L) as [L'|L']; [left; apply exp_increasing; exact L'|right; rewrite L'; reflexivity]. }
  assert (Pr : 0 < Rpower rho g) by apply exp_pos.
  replace ps with (p * z) by (unfold z; field; lra).
  rewrite (Rmult_comm (Rpower rho g)), <- Rmult_assoc. apply Rmult_le_compat_r; [lra|]. apply Rmult_le_compat_l; lra.
Qed.

(** ** A linear functional that is nonnegative on states of large entropy *)

Section Functional.
Variables (g s0 G H a kappa : R).
Hypothesis Hg : 1 < g.
Hypothesis Hs0 : 0 <= s0.
Hypothesis HH : 0 <= H.
Hypothesis Hk : 0 <= kappa.
Hypothesis Htan : forall rho, 0 < rho -> G * rho - H <= powr rho g.

Definition fn (rho u p : R) : R := p / (g - 1) + 1 / 2 * rho * ((u - a) * (u - a) + kappa) - s0 * G * rho.
Definition fn_flux (rho u p : R) : R := u * fn rho u p + p * (u - a).

Lemma fn_nonneg rho u p : 0 < rho -> s0 * powr rho g <= p / (g - 1) -> 0 <= fn rho u p + s0 * H.
Proof using Hs0 Hk Htan.
  intros Hr Hs. unfold fn. pose proof (Htan rho Hr) as T. apply (Rmult_le_compat_l s0) in T; [|exact Hs0].
  assert (0 <= 1 / 2 * rho * ((u - a) * (u - a) + kappa)).
  { apply Rmult_le_pos; [lra|]. pose proof (Rle_0_sqr (u - a)). unfold Rsqr in *. lra. }
  lra.
Qed.

(** A shock. *)
Lemma half_shock rho u p us ps sp rhos lam : 0 < rho -> 0 < p -> 0 < rhos -> p < ps -> sp < u ->
  rho * u - rhos * us = sp * (rho - rhos) ->
  (rho * u * u + p) - (rhos * us * us + ps) = sp * (rho * u - rhos * us) ->
  u * (energy g rho u p + p) - us * (energy g rhos us ps + ps) = sp * (energy g rho u p - energy g rhos us ps) ->
  s0 * powr rho g <= p / (g - 1) -> - lam <= sp ->
  0 <= lam * fn rho u p + fn_flux rho u p - ps * (us - a) + s0 * H * (lam + us).
Proof using Hg Hs0 Hk Htan.
  intros Hr Hp Hrs P Hsp M Mo En Hs Hl.
  destruct (hugoniot g rho u p us ps sp rhos Hg Hr Hp Hrs P Hsp M Mo En) as (E & Hus).
  pose proof (shock_entropy g rho p rhos ps Hg Hr Hp Hrs P E) as S.
  assert (HsS : s0 * powr rhos g <= ps / (g - 1)).
  { pose proof (powr_gt0 rho g Hr) as Q. pose proof (powr_gt0 rhos g Hrs) as Q'.
    apply Rmult_le_reg_r with (powr rho g); [exact Q|].
    replace (ps / (g - 1) * powr rho g) with (ps * powr rho g / (g - 1)) by (field; lra).
    apply Rle_trans with (p * powr rhos g / (g - 1)).
    - apply (Rmult_le_compat_r (powr rhos g)) in Hs; [|lra].
      replace (p * powr rhos g / (g - 1)) with (p / (g - 1) * powr rhos g) by (field; lra). lra.
    - unfold Rdiv. apply Rmult_le_compat_r; [|exact S]. left. apply Rinv_0_lt_compat. lra. }
  assert (C : fn_flux rho u p - fn_flux rhos us ps = sp * (fn rho u p - fn rhos us ps)).
  { assert (F : forall rho u p, fn rho u p = energy g rho u p - a * (rho * u) + (1 / 2 * (a * a + kappa) - s0 * G) * rho).
    { intros. unfold fn, energy. field. lra. }
    assert (FF : forall rho u p, fn_flux rho u p = u * (energy g rho u p + p) - a * (rho * u * u + p) + (1 / 2 * (a * a + kappa) - s0 * G) * (rho * u)).
    { intros. unfold fn_flux. rewrite F. ring. }
    rewrite !F, !FF. 
    replace (u * (energy g rho u p + p) - a * (rho * u * u + p) + (1 / 2 * (a * a + kappa) - s0 * G) * (rho * u) -
      (us * (energy g rhos us ps + ps) - a * (rhos * us * us + ps) + (1 / 2 * (a * a + kappa) - s0 * G) * (rhos * us))) with
      ((u * (energy g rho u p + p) - us * (energy g rhos us ps + ps)) - a * ((rho * u * u + p) - (rhos * us * us + ps)) + (1 / 2 * (a * a + kappa) - s0 * G) * (rho * u - rhos * us)) by ring.
    rewrite En, Mo. set (C := 1 / 2 * (a * a + kappa) - s0 * G).
    assert (X : C * (rho * u - rhos * us) = C * (sp * (rho - rhos))) by (rewrite M; reflexivity). rewrite X. ring. }
  pose proof (fn_nonneg rho u p Hr Hs) as N1. pose proof (fn_nonneg rhos us ps Hrs HsS) as N2.
  assert (0 <= (lam + sp) * (fn rho u p + s0 * H)) by (apply Rmult_le_pos; lra).
  assert (0 <= (us - sp) * (fn rhos us ps + s0 * H)) by (apply Rmult_le_pos; lra).
  unfold fn_flux in C at 2. lra.
Qed.

(** The fan of a rarefaction, parametrized by the density. *)
Section Fan.
Variables (K J : R).
Hypothesis HK : 0 < K.
Hypothesis HsK : s0 <= K / (g - 1).
Definition fan_c (r : R) : R := sqrt (g * K) * powr r ((g - 1) / 2).
Definition fan_p (r : R) : R := K * powr r g.
Definition fan_u (r : R) : R := J - 2 / (g - 1) * fan_c r.
Definition fan (r : R) : R :=
  - fan_c r * fn r (fan_u r) (fan_p r) - fan_p r * (fan_u r - a) + s0 * H * (fan_u r - fan_c r).

Lemma fan_c_sq r : 0 < r -> fan_c r * fan_c r = g * fan_p r / r.
Proof using Hg HK.
  intros Hr. unfold fan_c, fan_p.
  replace (sqrt (g * K) * powr r ((g - 1) / 2) * (sqrt (g * K) * powr r ((g - 1) / 2))) with
    (sqrt (g * K) * sqrt (g * K) * (powr r ((g - 1) / 2) * powr r ((g - 1) / 2))) by ring.
  rewrite sqrt_sqrt by (apply Rmult_le_pos; lra). rewrite <- powr_plus by exact Hr.
  replace ((g - 1) / 2 + (g - 1) / 2) with (g + - (1)) by field. rewrite powr_plus, powr_opp, powr_1 by exact Hr. field. lra.
Qed.

Lemma fan_c_deriv r : 0 < r -> derivable_pt_lim fan_c r ((g - 1) / 2 * (fan_c r / r)).
Proof using.
  intros Hr. unfold fan_c.
  pose proof (derivable_pt_lim_scal _ (sqrt (g * K)) _ _ (powr_deriv r ((g - 1) / 2) Hr)) as D.
  eapply deriv_transfer; [| |exact D]; [reflexivity|].
  replace ((g - 1) / 2 - 1) with ((g - 1) / 2 + - (1)) by ring.
  rewrite powr_plus, powr_opp, powr_1 by exact Hr. field. lra.
Qed.

Lemma fan_p_deriv r : 0 < r -> derivable_pt_lim fan_p r (g * fan_p r / r).
Proof using.
  intros Hr. unfold fan_p.
  pose proof (derivable_pt_lim_scal _ K _ _ (powr_deriv r g Hr)) as D.
  eapply deriv_transfer; [| |exact D]; [reflexivity|].
  replace (g - 1) with (g + - (1)) by ring.
  rewrite powr_plus, powr_opp, powr_1 by exact Hr. field. lra.
Qed.

Lemma fan_deriv r : 0 < r ->
  derivable_pt_lim fan r (- ((g + 1) / 2 * (fan_c r / r)) * (fn r (fan_u r) (fan_p r) + s0 * H)).
Proof using Hg HK.
  intros Hr. pose proof (fan_c_deriv r Hr) as DC. pose proof (fan_p_deriv r Hr) as DP.
  assert (DU : derivable_pt_lim fan_u r (- (fan_c r / r))).
  { pose proof (derivable_pt_lim_minus _ _ _ _ _ (derivable_pt_lim_const J r) (derivable_pt_lim_scal _ (2 / (g - 1)) _ _ DC)) as D.
    eapply deriv_transfer; [| |exact D]; [reflexivity|]. field. split; lra. }
  assert (DUa : derivable_pt_lim (fun r => fan_u r - a) r (- (fan_c r / r))).
  { pose proof (derivable_pt_lim_minus _ _ _ _ _ DU (derivable_pt_lim_const a r)) as D.
    eapply deriv_transfer; [| |exact D]; [reflexivity|]. ring. }
  assert (DF : derivable_pt_lim (fun r => fn r (fan_u r) (fan_p r)) r
    (g * fan_p r / r / (g - 1) + (1 / 2 * ((fan_u r - a) * (fan_u r - a) + kappa) - fan_c r * (fan_u r - a)) - s0 * G)).
  { pose proof (derivable_pt_lim_minus _ _ _ _ _
      (derivable_pt_lim_plus _ _ _ _ _ (derivable_pt_lim_scal _ (/ (g - 1)) _ _ DP)
        (derivable_pt_lim_mult _ _ _ _ _ (derivable_pt_lim_scal _ (1 / 2) _ _ (derivable_pt_lim_id r))
           (derivable_pt_lim_plus _ _ _ _ _ (derivable_pt_lim_mult _ _ _ _ _ DUa DUa) (derivable_pt_lim_const kappa r))))
      (derivable_pt_lim_scal _ (s0 * G) _ _ (derivable_pt_lim_id r))) as D.
    eapply deriv_transfer; [| |exact D].
    - intros t. unfold minus_fct, plus_fct, mult_fct, mult_real_fct, fct_cte, id, fn. field. lra.
    - unfold minus_fct, plus_fct, mult_fct, mult_real_fct, fct_cte, id. field. split; lra. }
  pose proof (derivable_pt_lim_plus _ _ _ _ _
    (derivable_pt_lim_minus _ _ _ _ _ (derivable_pt_lim_mult _ _ _ _ _ (derivable_pt_lim_opp _ _ _ DC) DF) (derivable_pt_lim_mult _ _ _ _ _ DP DUa))
    (derivable_pt_lim_scal _ (s0 * H) _ _ (derivable_pt_lim_minus _ _ _ _ _ DU DC))) as D.
  eapply deriv_transfer; [| |exact D].
  - intros t. reflexivity.
  - unfold opp_fct. pose proof (fan_c_sq r Hr) as C2. unfold fn.
    set (c := fan_c r) in *. set (P := fan_p r) in *. set (v := fan_u r) in *.
    assert (EP : P = r * (c * c) / g) by (rewrite C2; field; lra).
    rewrite EP. field. repeat split; lra.
Qed.

Lemma fan_entropy r : 0 < r -> s0 * powr r g <= fan_p r / (g - 1).
Proof using Hg HsK.
  intros Hr. unfold fan_p. pose proof (powr_gt0 r g Hr).
  replace (K * powr r g / (g - 1)) with (K / (g - 1) * powr r g) by (field; lra).
  apply Rmult_le_compat_r; lra.
Qed.

Lemma fan_c_nonneg r : 0 <= fan_c r.
Proof using.
  unfold fan_c. apply Rmult_le_pos; [apply sqrt_pos|]. unfold powr. destruct (Rlt_dec 0 r); [left; apply exp_pos|lra].
Qed.

Lemma fan_decreasing x y : 0 < x <= y -> fan y <= fan x.
Proof using Hg Hs0 Hk Htan HK HsK.
  intros [Hx Hxy]. destruct (Rle_lt_or_eq_dec _ _ Hxy) as [L|<-]; [|lra].
  destruct (MVT_cor2 fan (fun r => - ((g + 1) / 2 * (fan_c r / r)) * (fn r (fan_u r) (fan_p r) + s0 * H)) x y L) as (c & E & Hc).
  { intros c Hc. apply fan_deriv. lra. }
  assert (Pc : 0 < c) by lra.
  pose proof (fn_nonneg c (fan_u c) (fan_p c) Pc (fan_entropy c Pc)) as N.
  assert (0 <= (g + 1) / 2 * (fan_c c / c)).
  { apply Rmult_le_pos; [lra|]. apply Rmult_le_pos; [apply fan_c_nonneg|]. left. apply Rinv_0_lt_compat, Pc. }
  assert (0 <= (g + 1) / 2 * (fan_c c / c) * (fn c (fan_u c) (fan_p c) + s0 * H)) by (apply Rmult_le_pos; lra).
  nra.
Qed.

(** The end of the fan is a vacuum. *)
Lemma fan_vacuum x : 0 < x -> fan x <= s0 * H * J.
Proof using Hg Hs0 HH Hk Htan HK HsK.
  intros Hx. apply le_epsilon. intros e He.
  set (b := (g - 1) / 2). assert (Hb : 0 < b) by (unfold b; lra).
  set (S := sqrt (g * K)). assert (HS : 0 < S) by (apply sqrt_lt_R0; apply Rmult_lt_0_compat; lra).
  set (V := Rabs (J - a) + 2 / (g - 1) * fan_c x).
  assert (HV : 0 <= V).
  { unfold V. apply Rplus_le_le_0_compat; [apply Rabs_pos|]. apply Rmult_le_pos; [|apply fan_c_nonneg].
    apply Rmult_le_pos; [lra|]. left. apply Rinv_0_lt_compat. lra. }
  set (W := x * (Rabs (s0 * G) + fan_c x * V / g)).
  assert (HW : 0 <= W).
  { unfold W. apply Rmult_le_pos; [lra|]. apply Rplus_le_le_0_compat; [apply Rabs_pos|].
    apply Rmult_le_pos; [apply Rmult_le_pos; [apply fan_c_nonneg|exact HV]|]. left. apply Rinv_0_lt_compat. lra. }
  set (d := Rmin (powr x b) (e / (S * (W + 1)))).
  assert (Hpx : 0 < powr x b) by (apply powr_gt0; exact Hx).
  assert (HSW : 0 < S * (W + 1)) by (apply Rmult_lt_0_compat; lra).
  assert (Hd : 0 < d) by (unfold d; apply Rmin_glb_lt; [exact Hpx|apply Rdiv_lt_0_compat; lra]).
  set (r := powr d (/ b)). assert (Hr : 0 < r) by (apply powr_gt0; exact Hd).
  assert (Hrb : powr r b = d).
  { unfold r. rewrite powr_mult by exact Hd. rewrite Rinv_l by lra. apply powr_1. exact Hd. }
  assert (Hrx : r <= x).
  { replace x with (powr (powr x b) (/ b)).
    - unfold r. apply powr_mono; [left; apply Rinv_0_lt_compat, Hb|]. split; [exact Hd|apply Rmin_l].
    - rewrite powr_mult by exact Hx. rewrite Rinv_r by lra. apply powr_1. exact Hx. }
  assert (Ec : fan_c r = S * d) by (unfold fan_c; fold b S; rewrite Hrb; reflexivity).
  assert (Hcx : 0 <= fan_c r <= fan_c x).
  { split; [apply fan_c_nonneg|]. rewrite Ec. unfold fan_c. fold b S. apply Rmult_le_compat_l; [lra|apply Rmin_l]. }
  eapply Rle_trans; [apply (fan_decreasing r x); lra|].
  assert (HcW : fan_c r * W <= e).
  { rewrite Ec. apply Rle_trans with (S * (e / (S * (W + 1))) * W).
    - apply Rmult_le_compat_r; [exact HW|]. apply Rmult_le_compat_l; [lra|apply Rmin_r].
    - replace (S * (e / (S * (W + 1))) * W) with (e * (W / (W + 1))) by (field; split; lra).
      rewrite <- (Rmult_1_r e) at 2. apply Rmult_le_compat_l; [lra|]. apply Rmult_le_reg_r with (W + 1); [lra|].
      unfold Rdiv. rewrite Rmult_assoc, Rinv_l by lra. lra. }
  pose proof (fan_c_sq r Hr) as C2. set (c := fan_c r) in *. set (v := fan_u r).
  assert (EP : fan_p r = r * (c * c) / g) by (rewrite C2; field; lra).
  unfold fan. fold c v. rewrite EP. unfold fn.
  assert (Hv : - V <= v - a).
  { unfold v, fan_u. fold c. unfold V. pose proof (Rle_abs (- (J - a))) as Q. rewrite Rabs_Ropp in Q.
    assert (2 / (g - 1) * c <= 2 / (g - 1) * fan_c x).
    { apply Rmult_le_compat_l; [|lra]. apply Rmult_le_pos; [lra|]. left. apply Rinv_0_lt_compat. lra. }
    lra. }
  assert (T1 : 0 <= c * (r * (c * c) / g / (g - 1))).
  { apply Rmult_le_pos; [lra|]. apply Rmult_le_pos; [|left; apply Rinv_0_lt_compat; lra].
    apply Rmult_le_pos; [|left; apply Rinv_0_lt_compat; lra]. apply Rmult_le_pos; [lra|]. apply Rmult_le_pos; lra. }
  assert (T2 : 0 <= c * (1 / 2 * r * ((v - a) * (v - a) + kappa))).
  { apply Rmult_le_pos; [lra|]. apply Rmult_le_pos; [lra|]. pose proof (Rle_0_sqr (v - a)). unfold Rsqr in *. lra. }
  assert (T3 : c * (s0 * G * r) <= c * (x * Rabs (s0 * G))).
  { apply Rmult_le_compat_l; [lra|]. pose proof (Rle_abs (s0 * G)). pose proof (Rabs_pos (s0 * G)).
    apply Rle_trans with (Rabs (s0 * G) * r); [apply Rmult_le_compat_r; lra|]. rewrite Rmult_comm. apply Rmult_le_compat_r; lra. }
  assert (T4 : - (r * (c * c) / g * (v - a)) <= c * (x * (fan_c x * V / g))).
  { replace (- (r * (c * c) / g * (v - a))) with (r * (c * c) / g * - (v - a)) by ring.
    assert (Hgi : 0 < / g) by (apply Rinv_0_lt_compat; lra).
    apply Rle_trans with (r * (c * c) / g * V).
    - apply Rmult_le_compat_l; [|lra]. apply Rmult_le_pos; [|lra]. apply Rmult_le_pos; [lra|]. apply Rmult_le_pos; lra.
    - replace (r * (c * c) / g * V) with (c * (r * c * (V / g))) by (field; lra).
      replace (c * (x * (fan_c x * V / g))) with (c * (x * fan_c x * (V / g))) by (field; lra).
      apply Rmult_le_compat_l; [lra|]. apply Rmult_le_compat_r; [apply Rmult_le_pos; lra|]. apply Rmult_le_compat; lra. }
  assert (T5 : s0 * H * (v - c) <= s0 * H * J).
  { apply Rmult_le_compat_l; [apply Rmult_le_pos; assumption|]. unfold v, fan_u. fold c.
    assert (0 <= 2 / (g - 1) * c). { apply Rmult_le_pos; [|lra]. apply Rmult_le_pos; [lra|]. left. apply Rinv_0_lt_compat. lra. }
    lra. }
  assert (EW : c * W = c * (x * Rabs (s0 * G)) + c * (x * (fan_c x * V / g))) by (unfold W; ring).
  lra.
Qed.
End Fan.

(** The parameters of the fan in front of a state. *)
Lemma fan_head rho u p : 0 < rho -> 0 < p ->
  let K := p / powr rho g in let J := u + 2 * sound g rho p / (g - 1) in
  0 < K /\ fan_c K rho = sound g rho p /\ fan_p K rho = p /\ fan_u K J rho = u.
Proof using Hg.
  intros Hr Hp K J. pose proof (powr_gt0 rho g Hr) as Q.
  assert (HK : 0 < K) by (apply Rdiv_lt_0_compat; lra).
  assert (EP : fan_p K rho = p) by (unfold fan_p, K; field; lra).
  assert (EC : fan_c K rho = sound g rho p).
  { unfold sound. symmetry. apply sqrt_lem_1; [apply Rlt_le, Rdiv_lt_0_compat; nra|apply fan_c_nonneg|].
    rewrite fan_c_sq by assumption. rewrite EP. reflexivity. }
  split; [exact HK|]. split; [exact EC|]. split; [exact EP|]. unfold fan_u. rewrite EC. unfold J. field. lra.
Qed.

Lemma half_rarefaction rho u p us ps rhos lam : 0 < rho -> 0 < p -> 0 < rhos -> 0 < ps <= p ->
  ps / Rpower rhos g = p / Rpower rho g ->
  us + 2 * sound g rhos ps / (g - 1) = u + 2 * sound g rho p / (g - 1) ->
  s0 * powr rho g <= p / (g - 1) -> - lam <= u - sound g rho p ->
  0 <= lam * fn rho u p + fn_flux rho u p - ps * (us - a) + s0 * H * (lam + us).
Proof using Hg Hs0 Hk Htan.
  intros Hr Hp Hrs Hps E EJ Hs Hl. rewrite <- !powr_pos in E by assumption.
  destruct (fan_head rho u p Hr Hp) as (HK & EC & EP & EU).
  destruct (fan_head rhos us ps Hrs ltac:(lra)) as (_ & ECs & EPs & EUs).
  rewrite E, EJ in *. set (K := p / powr rho g) in *. set (J := u + 2 * sound g rho p / (g - 1)) in *.
  pose proof (powr_gt0 rho g Hr) as Q.
  assert (HsK : s0 <= K / (g - 1)).
  { apply Rmult_le_reg_r with (powr rho g); [exact Q|]. replace (K / (g - 1) * powr rho g) with (p / (g - 1)) by (unfold K; field; lra). exact Hs. }
  assert (Hle : rhos <= rho).
  { apply Rnot_lt_le. intros L. assert (powr rho g < powr rhos g).
    { rewrite !powr_pos by assumption. apply Rlt_Rpower_l; lra. }
    assert (fan_p K rho < fan_p K rhos) by (unfold fan_p; apply Rmult_lt_compat_l; assumption). lra. }
  pose proof (fan_decreasing K J HK HsK rhos rho ltac:(lra)) as D.
  unfold fan in D. rewrite EC, EP, EU, ECs, EPs, EUs in D.
  pose proof (fn_nonneg rho u p Hr Hs) as N1.
  assert (Hss : s0 * powr rhos g <= ps / (g - 1)) by (rewrite <- EPs; apply fan_entropy; assumption).
  pose proof (fn_nonneg rhos us ps Hrs Hss) as N2.
  assert (HC : 0 <= sound g rhos ps) by apply sqrt_pos.
  assert (0 <= (lam + (u - sound g rho p)) * (fn rho u p + s0 * H)) by (apply Rmult_le_pos; lra).
  assert (0 <= sound g rhos ps * (fn rhos us ps + s0 * H)) by (apply Rmult_le_pos; lra).
  unfold fn_flux. lra.
Qed.

Lemma half_vacuum rho u p lam : 0 < rho -> 0 < p -> s0 * powr rho g <= p / (g - 1) -> - lam <= u - sound g rho p ->
  0 <= lam * fn rho u p + fn_flux rho u p + s0 * H * (lam + (u + 2 * sound g rho p / (g - 1))).
Proof using Hg Hs0 HH Hk Htan.
  intros Hr Hp Hs Hl. destruct (fan_head rho u p Hr Hp) as (HK & EC & EP & EU).
  set (K := p / powr rho g) in *. set (J := u + 2 * sound g rho p / (g - 1)) in *.
  pose proof (powr_gt0 rho g Hr) as Q.
  assert (HsK : s0 <= K / (g - 1)).
  { apply Rmult_le_reg_r with (powr rho g); [exact Q|]. replace (K / (g - 1) * powr rho g) with (p / (g - 1)) by (unfold K; field; lra). exact Hs. }
  pose proof (fan_vacuum K J HK HsK rho Hr) as D.
  unfold fan in D. rewrite EC, EP, EU in D.
  pose proof (fn_nonneg rho u p Hr Hs) as N1.
  assert (0 <= (lam + (u - sound g rho p)) * (fn rho u p + s0 * H)) by (apply Rmult_le_pos; lra).
  unfold fn_flux. lra.
Qed.

Lemma half_wave rho u p us ps sp lam : 0 < rho -> 0 < p -> s0 * powr rho g <= p / (g - 1) ->
  e_left_wave g rho u p us ps sp -> - lam <= sp ->
  0 <= lam * fn rho u p + fn_flux rho u p - ps * (us - a) + s0 * H * (lam + us).
Proof using Hg Hs0 Hk Htan.
  intros Hr Hp Hs [(rhos & Hrs & P & E1 & E2 & ->)|(rhos & Hrs & P & Hsp & M & Mo & En)] Hl.
  - apply (half_rarefaction rho u p us ps rhos lam); assumption.
  - apply (half_shock rho u p us ps sp rhos lam); assumption.
Qed.
End Functional.
