(** * Proofs: averages of Riemann problems with underestimated waves

    The bar state of two gases is a mixture of two states with a common velocity and a
    common momentum flux.  Each of them has at least the entropy of its side as long as this
    flux does not exceed the pressure of the estimate too much. *)
From Coq Require Import Reals Arith Lia Lra Psatz.
From Verif Require Import RVec Simd Newton EulerSystem EulerLimiter EulerLimiterEntropy GasWaves PhysSpec PhysLib SWRiemannProofs EulerRiemann EulerRiemannSpec EulerRiemannProofs EulerRiemannFinal EulerSpeed EulerMinEntropy.
Local Open Scope R_scope.

Section Log.
Variables (g d y : R).
Hypothesis Hg : 1 < g.
Hypothesis Hd : 0 <= d.
Hypothesis Hy1 : y <= 3 / 2 * d.
Hypothesis Hy2 : y <= (g + 1) / 2 * d.
Let b := (g + 1) / 2.
Let A (t : R) := g + b * d * t + (g - 1) * (y * t + y * y * (t * t) / 2).
Let B (t : R) := (b * d - y) * t + g.
Let m (t : R) := b * d * t + g.

Lemma lw_A_pos t : 0 <= t -> 0 < A t.
Proof using Hg Hd.
  intros Ht. unfold A. assert (0 <= b * d * t) by (apply Rmult_le_pos; [apply Rmult_le_pos; unfold b; lra|exact Ht]).
  assert (X : - (1 / 2) <= y * t + y * y * (t * t) / 2).
  { pose proof (Rle_0_sqr (y * t + 1)) as Q. unfold Rsqr in Q. lra. }
  apply (Rmult_le_compat_l (g - 1)) in X; lra.
Qed.
Lemma lw_B_pos t : 0 <= t -> 0 < B t.
Proof using Hg Hy2. intros Ht. unfold B. assert (0 <= (b * d - y) * t) by (apply Rmult_le_pos; unfold b; lra). lra. Qed.
Lemma lw_m_pos t : 0 <= t -> 0 < m t.
Proof using Hg Hd. intros Ht. unfold m. assert (0 <= b * d * t) by (apply Rmult_le_pos; [apply Rmult_le_pos; unfold b; lra|exact Ht]). lra. Qed.

Lemma linear_log : g * ln (m 1) <= ln (A 1) + (g - 1) * ln (B 1).
Proof using Hg Hd Hy1 Hy2.
  set (F := fun t => ln (A t) + (g - 1) * ln (B t) - g * ln (m t)).
  set (F' := fun t => (b * d + (g - 1) * (y + y * y * t)) / A t + (g - 1) * ((b * d - y) / B t) - g * (b * d / m t)).
  destruct (MVT_cor2 F F' 0 1 ltac:(lra)) as (c & E & Hc).
  { intros c Hc. unfold F, F'.
    assert (DA : derivable_pt_lim (fun t => ln (A t)) c ((b * d + (g - 1) * (y + y * y * c)) / A c)).
    { pose proof (derivable_pt_lim_comp A ln c (b * d + (g - 1) * (y + y * y * c)) (/ A c)) as D.
      unfold comp in D. unfold Rdiv. rewrite (Rmult_comm _ (/ A c)). apply D; [|apply derivable_pt_lim_ln, lw_A_pos; lra].
      unfold A.
      pose proof (derivable_pt_lim_plus _ _ _ _ _ (derivable_pt_lim_plus _ _ _ _ _ (derivable_pt_lim_const g c) (derivable_pt_lim_scal _ (b * d + (g - 1) * y) _ _ (derivable_pt_lim_id c)))
        (derivable_pt_lim_scal _ ((g - 1) * (y * y) / 2) _ _ (derivable_pt_lim_mult _ _ _ _ _ (derivable_pt_lim_id c) (derivable_pt_lim_id c)))) as D2.
      eapply deriv_transfer; [| |exact D2]; [intros t; unfold plus_fct, mult_fct, mult_real_fct, fct_cte, id; field|unfold id; field]. }
    pose proof (derivable_pt_lim_minus _ _ _ _ _ (derivable_pt_lim_plus _ _ _ _ _ DA
       (derivable_pt_lim_scal _ (g - 1) _ _ (ln_affine_deriv (b * d - y) g c (lw_B_pos c ltac:(lra)))))
       (derivable_pt_lim_scal _ g _ _ (ln_affine_deriv (b * d) g c (lw_m_pos c ltac:(lra))))) as D.
    eapply deriv_transfer; [| |exact D]; reflexivity. }
  pose proof (lw_A_pos c ltac:(lra)) as PA. pose proof (lw_B_pos c ltac:(lra)) as PB. pose proof (lw_m_pos c ltac:(lra)) as Pm.
  assert (Fc : 0 <= F' c).
  { unfold F'.
    replace ((b * d + (g - 1) * (y + y * y * c)) / A c + (g - 1) * ((b * d - y) / B c) - g * (b * d / m c))
      with ((g - 1) * (c * c * (y * y)) * b * (g * (3 / 2 * d - y) + c * ((b * d - y) * d) / 2) * / (A c * B c * m c)).
    2:{ transitivity (((b * d + (g - 1) * (y + y * y * c)) * B c * m c + (g - 1) * (b * d - y) * A c * m c - g * (b * d) * A c * B c) * / (A c * B c * m c)); [|field; lra].
        f_equal. unfold A, B, m, b. field. }
    apply Rmult_le_pos; [|left; apply Rinv_0_lt_compat; repeat apply Rmult_lt_0_compat; assumption].
    apply Rmult_le_pos.
    - apply Rmult_le_pos; [|unfold b; lra]. apply Rmult_le_pos; [lra|]. apply Rmult_le_pos; apply Rle_0_sqr.
    - assert (0 <= g * (3 / 2 * d - y)) by (apply Rmult_le_pos; lra).
      assert (0 <= c * ((b * d - y) * d)) by (apply Rmult_le_pos; [lra|apply Rmult_le_pos; unfold b; lra]). lra. }
  assert (F0 : F 0 = 0).
  { unfold F, A, B, m. replace (g + b * d * 0 + (g - 1) * (y * 0 + y * y * (0 * 0) / 2)) with g by field.
    replace ((b * d - y) * 0 + g) with g by ring. replace (b * d * 0 + g) with g by ring. ring. }
  assert (0 <= F 1) by lra. unfold F in H. lra.
Qed.
End Log.

(** The state behind a linear wave of mass flux Q with Q^2 = rho ((g + 1) x + (g - 1) p) / 2. *)
Lemma linear_entropy g rho p x f q s0 : 1 < g -> 0 < rho -> 0 < p -> p <= x ->
  q = rho * ((g + 1) * x + (g - 1) * p) / 2 ->
  f - p <= 3 / 2 * (x - p) -> f - p <= (g + 1) / 2 * (x - p) ->
  s0 * powr rho g <= p / (g - 1) ->
  let v := / rho - (f - p) / q in
  0 < v /\ s0 * powr (/ v) g <= / v * (p / ((g - 1) * rho) + (f * f - p * p) / (2 * q)).
Proof.
  intros Hg Hr Hp Hx Eq H1 H2 Hs v.
  set (d := (x - p) / p). set (y := (f - p) / p). set (b := (g + 1) / 2).
  assert (Ip : 0 < / p) by (apply Rinv_0_lt_compat; exact Hp).
  assert (Hd : 0 <= d) by (unfold d; apply Rmult_le_pos; lra).
  assert (Y1 : y <= 3 / 2 * d).
  { unfold y, d. apply (Rmult_le_compat_r (/ p)) in H1; [|lra]. unfold Rdiv at 1 3. lra. }
  assert (Y2 : y <= (g + 1) / 2 * d).
  { unfold y, d. apply (Rmult_le_compat_r (/ p)) in H2; [|lra]. unfold Rdiv at 1 3. lra. }
  pose proof (linear_log g d y Hg Hd Y1 Y2) as L.
  pose proof (lw_A_pos g d y Hg Hd 1 ltac:(lra)) as PA. pose proof (lw_B_pos g d y Hg Y2 1 ltac:(lra)) as PB. pose proof (lw_m_pos g d Hg Hd 1 ltac:(lra)) as Pm.
  cbv beta zeta in L, PA, PB, Pm.
  set (A := g + (g + 1) / 2 * d * 1 + (g - 1) * (y * 1 + y * y * (1 * 1) / 2)) in *.
  set (B := ((g + 1) / 2 * d - y) * 1 + g) in *. set (m := (g + 1) / 2 * d * 1 + g) in *.
  assert (Em : q = rho * p * m) by (rewrite Eq; unfold m, d; field; lra).
  assert (Hrp : 0 < rho * p) by (apply Rmult_lt_0_compat; assumption).
  assert (Hq : 0 < q) by (rewrite Em; apply Rmult_lt_0_compat; assumption).
  assert (Ev : v = / rho * (B / m)).
  { unfold v. rewrite Em. unfold B. replace (((g + 1) / 2 * d - y) * 1 + g) with (m - y) by (unfold m; ring). unfold y. field. repeat split; lra. }
  assert (Hbm : 0 < B / m) by (apply Rdiv_lt_0_compat; assumption).
  assert (Hv : 0 < v) by (rewrite Ev; apply Rmult_lt_0_compat; [apply Rinv_0_lt_compat|]; assumption).
  split; [exact Hv|].
  assert (Hiv : / v = rho * (m / B)) by (rewrite Ev; field; repeat split; lra).
  assert (Hmb : 0 < m / B) by (apply Rdiv_lt_0_compat; assumption).
  assert (Ee : p / ((g - 1) * rho) + (f * f - p * p) / (2 * q) = p / ((g - 1) * rho) * (A / m)).
  { replace A with (m + (g - 1) * (y + y * y / 2)) by (unfold A, m; field). rewrite Em. unfold y. field. repeat split; lra. }
  rewrite Ee, Hiv. rewrite powr_mult_base by assumption.
  assert (K : powr (m / B) g <= m / B * (A / m)).
  { rewrite powr_pos by exact Hmb. unfold Rpower.
    replace (m / B * (A / m)) with (A / B) by (field; lra). rewrite <- (exp_ln (A / B)) by (apply Rdiv_lt_0_compat; assumption).
    apply exp_le. unfold Rdiv. rewrite !ln_mult by (try apply Rinv_0_lt_compat; assumption). rewrite !ln_Rinv by assumption. lra. }
  pose proof (powr_gt0 (m / B) g Hmb) as Pk.
  replace (rho * (m / B) * (p / ((g - 1) * rho) * (A / m))) with (p / (g - 1) * (m / B * (A / m))) by (field; repeat split; lra).
  assert (0 <= p / (g - 1)) by (left; apply Rdiv_lt_0_compat; lra).
  eapply Rle_trans; [|apply Rmult_le_compat_l; [exact H|exact K]].
  rewrite <- Rmult_assoc. apply Rmult_le_compat_r; [lra|exact Hs].
Qed.

Section Half.
Variables (g s0 G H a kappa : R).
Hypothesis Hg : 1 < g.
Hypothesis Hs0 : 0 <= s0.
Hypothesis Hk : 0 <= kappa.
Hypothesis Htan : forall rho, 0 < rho -> G * rho - H <= powr rho g.

(** One side: mass flux Q, common velocity v and momentum flux f. *)
Lemma half_linear rho u p x f Q v lam : 0 < rho -> 0 < p -> p <= x -> 0 < Q ->
  Q * Q = rho * ((g + 1) * x + (g - 1) * p) / 2 -> Q * (v - u) = p - f ->
  f - p <= 3 / 2 * (x - p) -> f - p <= (g + 1) / 2 * (x - p) ->
  s0 * powr rho g <= p / (g - 1) -> - lam <= u - Q / rho ->
  0 <= lam * fn g s0 G a kappa rho u p + fn_flux g s0 G a kappa rho u p - f * (v - a) + s0 * H * (lam + v).
Proof using Hg Hs0 Hk Htan.
  intros Hr Hp Hx HQ EQ Ev H1 H2 Hs Hl.
  destruct (linear_entropy g rho p x f (Q * Q) s0 Hg Hr Hp Hx EQ H1 H2 Hs) as [V S].
  set (w := / rho - (f - p) / (Q * Q)) in *. set (rhos := / w) in *.
  assert (Hrs : 0 < rhos) by (apply Rinv_0_lt_compat; exact V).
  set (ps := (g - 1) * (rhos * (p / ((g - 1) * rho) + (f * f - p * p) / (2 * (Q * Q))))).
  assert (HsS : s0 * powr rhos g <= ps / (g - 1)).
  { eapply Rle_trans; [exact S|]. right. unfold ps. field. repeat split; lra. }
  pose proof (fn_nonneg g s0 G H a kappa Hs0 Hk Htan rho u p Hr Hs) as N1.
  pose proof (fn_nonneg g s0 G H a kappa Hs0 Hk Htan rhos v ps Hrs HsS) as N2.
  set (sp := u - Q / rho) in *.
  assert (Evu : v = u + (p - f) / Q) by (rewrite <- Ev; field; lra).
  assert (Ew : v - sp = Q * w) by (unfold sp, w; rewrite Evu; field; repeat split; lra).
  assert (Hpos : 0 < v - sp) by (rewrite Ew; apply Rmult_lt_0_compat; assumption).
  assert (A1 : 0 <= (lam + sp) * (fn g s0 G a kappa rho u p + s0 * H)) by (apply Rmult_le_pos; lra).
  assert (A2 : 0 <= (v - sp) * (fn g s0 G a kappa rhos v ps + s0 * H)) by (apply Rmult_le_pos; lra).
  assert (C : fn_flux g s0 G a kappa rho u p - f * (v - a) = sp * fn g s0 G a kappa rho u p + (v - sp) * fn g s0 G a kappa rhos v ps).
  { rewrite Ew. unfold fn_flux. unfold fn. unfold ps, rhos. clear - Hr HQ V Hg Evu Ew.
    transitivity (u * (p / (g - 1) + 1 / 2 * rho * ((u - a) * (u - a) + kappa) - s0 * G * rho) + p * (u - a) - f * (v - a)); [reflexivity|].
    replace (Q * w * ((g - 1) * (/ w * (p / ((g - 1) * rho) + (f * f - p * p) / (2 * (Q * Q)))) / (g - 1) + 1 / 2 * / w * ((v - a) * (v - a) + kappa) - s0 * G * / w))
      with (Q * (p / ((g - 1) * rho) + (f * f - p * p) / (2 * (Q * Q)) + 1 / 2 * ((v - a) * (v - a) + kappa) - s0 * G)).
    2:{ field. repeat split; lra. }
    rewrite Evu. unfold sp. field. repeat split; lra. }
  lra.
Qed.
End Half.
