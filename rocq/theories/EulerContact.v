(** * Proofs: the common momentum flux of linear waves at the estimated pressure *)
From Coq Require Import Reals Arith Lia Lra Psatz.
From Verif Require Import RVec Simd Newton EulerSystem EulerLimiter EulerLimiterEntropy GasWaves PhysSpec PhysLib SWRiemannProofs SWRiemannFinal EulerRiemann EulerRiemannSpec EulerRiemannProofs EulerRiemannFinal EulerSpeed EulerMinEntropy EulerLinearWaves.
Local Open Scope R_scope.

(** The mass flux of the wave head of the estimate. *)
Definition mass_flux (g r p P : R) : R := r * (sound g r p * e_stretch g p P).

Section Flux.
Variable g : R.
Hypothesis Hg : 1 < g.
Variables (r p : R).
Hypothesis Hr : 0 < r.
Hypothesis Hp : 0 < p.
Local Notation Q P := (mass_flux g r p P).

Lemma mass_flux_pos P : 0 < Q P.
Proof using Hg Hr Hp. unfold mass_flux. apply Rmult_lt_0_compat; [exact Hr|]. apply stretch_pos; assumption. Qed.

Lemma mass_flux_sq P : Q P * Q P = r * ((g + 1) * Rmax P p + (g - 1) * p) / 2.
Proof using Hg Hr Hp.
  unfold mass_flux, sound, e_stretch.
  assert (E1 : sqrt (g * p / r) * sqrt (g * p / r) = g * p / r) by (apply sqrt_sqrt; left; apply Rdiv_lt_0_compat; nra).
  set (z := 1 + (g + 1) * (1 / 2) * (1 / g) * positive_part ((P - p) * (1 / p))).
  assert (Ez : z = ((g + 1) * Rmax P p + (g - 1) * p) / (2 * g * p)).
  { unfold z. destruct (Rle_dec p P) as [C|C].
    - rewrite Rmax_left by exact C. rewrite pp_pos; [field; lra|]. apply Rmult_le_pos; [lra|left; apply Rdiv_lt_0_compat; lra].
    - rewrite Rmax_right by lra. rewrite pp_neg; [field; lra|]. assert (0 < 1 / p) by (apply Rdiv_lt_0_compat; lra). nra. }
  assert (Hz : 0 <= z).
  { rewrite Ez. left. pose proof (Rmax_r P p). apply Rdiv_lt_0_compat; [nra|]. repeat apply Rmult_lt_0_compat; lra. }
  assert (E2 : sqrt z * sqrt z = z) by (apply sqrt_sqrt; exact Hz).
  transitivity (r * r * (sqrt (g * p / r) * sqrt (g * p / r)) * (sqrt z * sqrt z)); [ring|]. rewrite E1, E2, Ez. field. lra.
Qed.

Lemma mass_flux_mono P P' : P <= P' -> Q P <= Q P'.
Proof using Hg Hr Hp.
  intros H. unfold mass_flux. apply Rmult_le_compat_l; [lra|]. apply Rmult_le_compat_l; [apply sqrt_pos|]. apply e_stretch_mono; assumption.
Qed.

(** On shocks. *)
Lemma f_linear u P : p <= P -> er_f g (gas g r u p) P = (P - p) / Q P.
Proof using Hg Hr Hp.
  intros H. rewrite f_above by assumption. unfold Rdiv at 2. f_equal.
  set (B := (g + 1) * P + (g - 1) * p). assert (HB : 0 < B) by (unfold B; nra).
  symmetry. apply (Rmult_eq_reg_r (Q P)); [|pose proof (mass_flux_pos P); lra]. rewrite Rinv_l by (pose proof (mass_flux_pos P); lra).
  unfold mass_flux. rewrite shock_stretch by assumption. fold B.
  set (y := sqrt (2 / (r * B))). assert (E : y * y = 2 / (r * B)).
  { apply sqrt_sqrt. left. apply Rdiv_lt_0_compat; [lra|]. apply Rmult_lt_0_compat; assumption. }
  transitivity (r * (B / 2) * (y * y)); [|ring]. rewrite E. field. lra.
Qed.

(** The linear wave is above the rarefaction curve. *)
Lemma rare_linear P : g <= 5 / 3 -> 0 <= P ->
  2 * sound g r p / (g - 1) * (powr (P / p) ((g - 1) / (2 * g)) - 1) <= (P - p) / Q P.
Proof using Hg Hr Hp.
  intros H53 HP. destruct (Rle_dec P p) as [C|C].
  - assert (EQ : Q P = r * sound g r p) by (unfold mass_flux; rewrite e_stretch_below by lra; ring).
    pose proof (sound_pos g r p Hg Hr Hp) as Pa. set (a := sound g r p) in *.
    assert (Ea : a * a = g * p / r) by (apply sqrt_sqrt; left; apply Rdiv_lt_0_compat; nra).
    set (k := (g - 1) / (2 * g)). assert (Hk : 0 < k) by (apply Rdiv_lt_0_compat; lra).
    assert (Hk1 : k < 1) by (unfold k; apply Rmult_lt_reg_r with (2 * g); [lra|]; replace ((g - 1) / (2 * g) * (2 * g)) with (g - 1) by (field; lra); lra).
    set (z := P / p). assert (Hz : 0 <= z) by (unfold z; apply Rmult_le_pos; [exact HP|left; apply Rinv_0_lt_compat; exact Hp]).
    assert (T : powr z k - 1 <= k * (z - 1)).
    { destruct (Rle_lt_or_eq_dec 0 z Hz) as [Hz1|<-].
      - pose proof (powr_gt0 z k Hz1) as Pz.
        assert (K1 : 1 <= / k) by (rewrite <- Rinv_1; apply Rinv_le_contravar; lra).
        pose proof (powr_tangent (/ k) (powr z k) 1 K1 Pz ltac:(lra)) as T.
        rewrite powr_mult in T by exact Hz1. rewrite Rinv_r, powr_1 in T by lra.
        rewrite !(powr_pos 1) in T by lra. rewrite !Rpower_base_1 in T.
        apply (Rmult_le_compat_l k) in T; [|lra].
        replace (k * (1 + / k * 1 * (powr z k - 1))) with (k + (powr z k - 1)) in T by (field; lra). lra.
      - unfold powr. destruct (Rlt_dec 0 0); lra. }
    rewrite EQ. apply (Rmult_le_compat_l (2 * a / (g - 1))) in T; [|left; apply Rdiv_lt_0_compat; lra].
    eapply Rle_trans; [exact T|]. right. apply (Rmult_eq_reg_r (r * a)); [|apply Rgt_not_eq, Rmult_lt_0_compat; assumption].
    replace ((P - p) / (r * a) * (r * a)) with (P - p) by (field; lra).
    transitivity (2 / (g - 1) * k * (z - 1) * r * (a * a)); [field; lra|]. rewrite Ea. unfold k, z. field. repeat split; lra.
  - rewrite <- (f_linear 0) by lra. apply f_ge_rare; lra.
Qed.

(** The slope of the failsafe estimate relative to the linear wave. *)
Definition fs_slope (m : R) : R := sqrt (2 * m / (r * ((g + 1) * m + (g - 1) * p))).

Lemma fs_slope_pos m : 0 < m -> 0 < fs_slope m.
Proof using Hg Hr Hp. intros H. apply sqrt_lt_R0, Rdiv_lt_0_compat; [lra|]. apply Rmult_lt_0_compat; nra. Qed.

Lemma fs_slope_flux m P : 0 < m ->
  (fs_slope m * Q P) * (fs_slope m * Q P) = m * ((g + 1) * Rmax P p + (g - 1) * p) / ((g + 1) * m + (g - 1) * p).
Proof using Hg Hr Hp.
  intros Hm. transitivity (fs_slope m * fs_slope m * (Q P * Q P)); [ring|]. rewrite mass_flux_sq. unfold fs_slope. rewrite sqrt_sqrt.
  - field. assert (0 < (g + 1) * m + (g - 1) * p) by nra. lra.
  - left. apply Rdiv_lt_0_compat; [lra|]. apply Rmult_lt_0_compat; nra.
Qed.

(** Above the larger pressure. *)
Lemma fs_above m s : 0 < s -> p <= m -> m <= s * s -> (s * s - p) * fs_slope m / s <= (s * s - p) / Q (s * s).
Proof using Hg Hr Hp.
  intros Hs Hm H. pose proof (mass_flux_pos (s * s)) as PQ. pose proof (fs_slope_pos m ltac:(lra)) as Px.
  assert (K : fs_slope m * Q (s * s) <= s).
  { apply Rsqr_incr_0_var; [|lra]. unfold Rsqr. rewrite fs_slope_flux by lra. rewrite Rmax_left by lra.
    assert (PD : 0 < (g + 1) * m + (g - 1) * p) by nra.
    apply Rmult_le_reg_r with ((g + 1) * m + (g - 1) * p); [exact PD|]. unfold Rdiv. rewrite Rmult_assoc, Rinv_l, Rmult_1_r by lra.
    assert (0 <= (g - 1) * p * (s * s - m)) by (apply Rmult_le_pos; [apply Rmult_le_pos|]; lra). lra. }
  apply Rmult_le_reg_r with (s * Q (s * s)); [apply Rmult_lt_0_compat; assumption|].
  replace ((s * s - p) * fs_slope m / s * (s * Q (s * s))) with ((s * s - p) * (fs_slope m * Q (s * s))) by (field; lra).
  replace ((s * s - p) / Q (s * s) * (s * Q (s * s))) with ((s * s - p) * s) by (field; lra).
  apply Rmult_le_compat_l; lra.
Qed.

(** The side of the larger pressure, below it. *)
Lemma fs_top s : 0 < s -> s * s <= p -> s <= fs_slope p * Q (s * s).
Proof using Hg Hr Hp.
  intros Hs H. pose proof (mass_flux_pos (s * s)) as PQ. pose proof (fs_slope_pos p Hp) as Px.
  apply Rsqr_incr_0_var; [|apply Rmult_le_pos; lra]. unfold Rsqr. rewrite fs_slope_flux by lra. rewrite Rmax_right by lra.
  replace (p * ((g + 1) * p + (g - 1) * p) / ((g + 1) * p + (g - 1) * p)) with p; [exact H|]. field. nra.
Qed.

(** The side of the smaller pressure, between both. *)
Lemma fs_between m s : 0 < s -> p <= s * s -> s * s <= m ->
  fs_slope m * Q (s * s) <= 3 / 2 * s /\ fs_slope m * Q (s * s) <= (g + 1) / 2 * s.
Proof using Hg Hr Hp.
  intros Hs H1 H2. pose proof (mass_flux_pos (s * s)) as PQ.
  assert (PD : 0 < (g + 1) * m + (g - 1) * p) by nra.
  assert (K : (fs_slope m * Q (s * s)) * (fs_slope m * Q (s * s)) <= 2 * g / (g + 1) * (s * s)).
  { rewrite fs_slope_flux by lra. rewrite Rmax_left by lra.
    apply Rmult_le_reg_r with (((g + 1) * m + (g - 1) * p) * (g + 1)); [apply Rmult_lt_0_compat; lra|].
    replace (m * ((g + 1) * (s * s) + (g - 1) * p) / ((g + 1) * m + (g - 1) * p) * (((g + 1) * m + (g - 1) * p) * (g + 1)))
      with (m * ((g + 1) * (s * s) + (g - 1) * p) * (g + 1)) by (field; lra).
    replace (2 * g / (g + 1) * (s * s) * (((g + 1) * m + (g - 1) * p) * (g + 1))) with (2 * g * (s * s) * ((g + 1) * m + (g - 1) * p)) by (field; lra).
    set (q := s * s) in *.
    assert (0 <= m * (g + 1) * (g - 1) * (q - p)) by (repeat apply Rmult_le_pos; lra).
    assert (0 <= 2 * g * q * ((g - 1) * p)) by (repeat apply Rmult_le_pos; lra). lra. }
  assert (C : forall c, 0 < c -> 2 * g / (g + 1) <= c * c -> fs_slope m * Q (s * s) <= c * s).
  { intros c Hc HH. apply Rsqr_incr_0_var; [|apply Rmult_le_pos; lra]. unfold Rsqr. eapply Rle_trans; [exact K|].
    replace (c * s * (c * s)) with (c * c * (s * s)) by ring. apply Rmult_le_compat_r; [nra|exact HH]. }
  split; apply C; try lra; apply Rmult_le_reg_r with (g + 1); try lra;
    (replace (2 * g / (g + 1) * (g + 1)) with (2 * g) by (field; lra)); nra.
Qed.
End Flux.

(** Admissible momentum flux of one side. *)
Definition flux_ok (g p P f : R) : Prop :=
  f - p <= 3 / 2 * (Rmax P p - p) /\ f - p <= (g + 1) / 2 * (Rmax P p - p).

Lemma flux_ok_below g p P f : 1 < g -> f <= Rmax P p -> flux_ok g p P f.
Proof. intros Hg H. pose proof (Rmax_r P p). unfold flux_ok. split; nra. Qed.

Section Contact.
Variables (g r1 p1 r2 p2 du f P : R).
Hypothesis Hg : 1 < g.
Hypothesis Hr1 : 0 < r1.
Hypothesis Hp1 : 0 < p1.
Hypothesis Hr2 : 0 < r2.
Hypothesis Hp2 : 0 < p2.
Local Notation Q1 := (mass_flux g r1 p1 P).
Local Notation Q2 := (mass_flux g r2 p2 P).
Hypothesis Hf : (f - p1) / Q1 + (f - p2) / Q2 + du = 0.

Lemma contact_le z : 0 <= (z - p1) / Q1 + (z - p2) / Q2 + du -> f <= z.
Proof using Hf Hg Hr1 Hp1 Hr2 Hp2.
  intros H. pose proof (mass_flux_pos g Hg r1 p1 Hr1 Hp1 P) as A. pose proof (mass_flux_pos g Hg r2 p2 Hr2 Hp2 P) as B.
  apply Rnot_lt_le. intros C.
  assert (X : forall p q, 0 < q -> (z - p) / q < (f - p) / q) by (intros p q Hq; apply Rmult_lt_compat_r; [apply Rinv_0_lt_compat; exact Hq|lra]).
  pose proof (X p1 _ A). pose proof (X p2 _ B). lra.
Qed.

Lemma contact_rare : g <= 5 / 3 -> 0 <= P ->
  0 <= 2 * sound g r1 p1 / (g - 1) * (powr (P / p1) ((g - 1) / (2 * g)) - 1) +
       2 * sound g r2 p2 / (g - 1) * (powr (P / p2) ((g - 1) / (2 * g)) - 1) + du -> f <= P.
Proof using Hf Hg Hr1 Hp1 Hr2 Hp2.
  intros H53 HP H. apply contact_le.
  pose proof (rare_linear g Hg r1 p1 Hr1 Hp1 P H53 HP). pose proof (rare_linear g Hg r2 p2 Hr2 Hp2 P H53 HP). lra.
Qed.

Lemma contact_fs_above m s : 0 < s -> P = s * s -> p1 <= m -> p2 <= m -> m <= P ->
  (P - p1) * fs_slope g r1 p1 m + (P - p2) * fs_slope g r2 p2 m + du * s = 0 -> f <= P.
Proof using Hf Hg Hr1 Hp1 Hr2 Hp2.
  intros Hs EP M1 M2 M E. apply contact_le. rewrite EP in *.
  pose proof (fs_above g Hg r1 p1 Hr1 Hp1 m s Hs M1 M) as A. pose proof (fs_above g Hg r2 p2 Hr2 Hp2 m s Hs M2 M) as B.
  assert (X : (s * s - p1) * fs_slope g r1 p1 m / s + (s * s - p2) * fs_slope g r2 p2 m / s + du = 0).
  { replace ((s * s - p1) * fs_slope g r1 p1 m / s + (s * s - p2) * fs_slope g r2 p2 m / s + du)
      with (((s * s - p1) * fs_slope g r1 p1 m + (s * s - p2) * fs_slope g r2 p2 m + du * s) / s) by (field; lra). rewrite E. field. lra. }
  lra.
Qed.

(** Pressures below the larger one. *)
Lemma contact_top m : p1 <= m -> p2 <= m -> P <= m ->
  0 <= (m - p1) / mass_flux g r1 p1 m + (m - p2) / mass_flux g r2 p2 m + du -> f <= m.
Proof using Hf Hg Hr1 Hp1 Hr2 Hp2.
  intros M1 M2 M H. apply contact_le.
  assert (X : forall r p, 0 < r -> 0 < p -> p <= m -> (m - p) / mass_flux g r p m <= (m - p) / mass_flux g r p P).
  { intros r p Hr Hp Hm. apply Rmult_le_compat_l; [lra|]. apply Rinv_le_contravar; [apply mass_flux_pos; assumption|apply mass_flux_mono; assumption]. }
  pose proof (X r1 p1 Hr1 Hp1 M1). pose proof (X r2 p2 Hr2 Hp2 M2). lra.
Qed.

Lemma contact_fs_below s : p1 <= p2 -> 0 < s -> P = s * s -> P <= p2 -> f <= p2 ->
  (P - p1) * fs_slope g r1 p1 p2 + (P - p2) * fs_slope g r2 p2 p2 + du * s = 0 ->
  flux_ok g p1 P f /\ flux_ok g p2 P f.
Proof using Hf Hg Hr1 Hp1 Hr2 Hp2.
  intros H12 Hs EP HP Hf2 E.
  split; [|apply flux_ok_below; [exact Hg|]; pose proof (Rmax_r P p2); lra].
  pose proof (mass_flux_pos g Hg r1 p1 Hr1 Hp1 P) as A. pose proof (mass_flux_pos g Hg r2 p2 Hr2 Hp2 P) as B.
  pose proof (fs_slope_pos g Hg r1 p1 Hr1 Hp1 p2 Hp2) as X1. pose proof (fs_slope_pos g Hg r2 p2 Hr2 Hp2 p2 Hp2) as X2.
  assert (T : s <= fs_slope g r2 p2 p2 * Q2) by (rewrite EP; apply fs_top; try assumption; lra).
  set (x1 := fs_slope g r1 p1 p2) in *. set (x2 := fs_slope g r2 p2 p2) in *.
  assert (IT : / Q2 <= x2 / s).
  { apply Rmult_le_reg_r with (Q2 * s); [apply Rmult_lt_0_compat; assumption|]. replace (/ Q2 * (Q2 * s)) with s by (field; lra).
    replace (x2 / s * (Q2 * s)) with (x2 * Q2) by (field; lra). exact T. }
  assert (Ed : du = (p1 - P) * x1 / s + (p2 - P) * x2 / s).
  { apply (Rmult_eq_reg_r s); [|lra]. replace (((p1 - P) * x1 / s + (p2 - P) * x2 / s) * s) with ((p1 - P) * x1 + (p2 - P) * x2) by (field; lra). lra. }
  assert (Y : (p2 - P) * / Q2 <= (p2 - P) * x2 / s).
  { unfold Rdiv. rewrite (Rmult_assoc (p2 - P) x2). apply Rmult_le_compat_l; [lra|exact IT]. }
  destruct (Rle_dec p1 P) as [C|C].
  - destruct (Rle_dec f P) as [D|D]; [apply flux_ok_below; [exact Hg|]; pose proof (Rmax_l P p1); lra|].
    assert (Z : (f - p1) / Q1 <= (P - p1) * x1 / s).
    { assert ((f - p1) / Q1 = - ((f - p2) / Q2) - du) by lra. rewrite H, Ed.
      assert ((p2 - f) / Q2 <= (p2 - P) * / Q2).
      { unfold Rdiv. apply Rmult_le_compat_r; [left; apply Rinv_0_lt_compat; exact B|lra]. }
      replace (- ((f - p2) / Q2)) with ((p2 - f) / Q2) by (field; lra).
      replace ((P - p1) * x1 / s) with (- ((p1 - P) * x1 / s)) by (field; lra). lra. }
    assert (W : f - p1 <= (P - p1) * (x1 * Q1) / s).
    { apply (Rmult_le_compat_r Q1) in Z; [|lra]. replace ((f - p1) / Q1 * Q1) with (f - p1) in Z by (field; lra).
      eapply Rle_trans; [exact Z|]. right. field. lra. }
    destruct (fs_between g Hg r1 p1 Hr1 Hp1 p2 s Hs ltac:(lra) ltac:(lra)) as [K1 K2]. rewrite <- EP in K1, K2. fold x1 in K1, K2.
    unfold flux_ok. rewrite Rmax_left by exact C.
    assert (V : forall c, x1 * Q1 <= c * s -> f - p1 <= c * (P - p1)).
    { intros c Hc. eapply Rle_trans; [exact W|]. apply Rmult_le_reg_r with s; [exact Hs|].
      replace ((P - p1) * (x1 * Q1) / s * s) with ((P - p1) * (x1 * Q1)) by (field; lra).
      replace (c * (P - p1) * s) with ((P - p1) * (c * s)) by ring. apply Rmult_le_compat_l; lra. }
    split; apply V; assumption.
  - apply flux_ok_below; [exact Hg|]. rewrite Rmax_right by lra. apply contact_le.
    replace ((p1 - p1) / Q1) with 0 by (field; lra). rewrite Ed.
    assert (0 <= (p1 - P) * x1 / s) by (apply Rmult_le_pos; [apply Rmult_le_pos; lra|left; apply Rinv_0_lt_compat; exact Hs]).
    assert ((p2 - p1) / Q2 <= (p2 - P) * / Q2).
    { unfold Rdiv. apply Rmult_le_compat_r; [left; apply Rinv_0_lt_compat; exact B|lra]. }
    replace ((p1 - p2) / Q2) with (- ((p2 - p1) / Q2)) by (field; lra). lra.
Qed.
End Contact.

(** ** The estimated pressure *)
Section Estimate.
Variables (g ri ui pi rj uj pj : R).
Hypothesis Hg : 1 < g <= 5 / 3.
Hypothesis Hri : 0 < ri.
Hypothesis Hpi : 0 < pi.
Hypothesis Hrj : 0 < rj.
Hypothesis Hpj : 0 < pj.
Local Notation di := (gas g ri ui pi).
Local Notation dj := (gas g rj uj pj).

Lemma failsafe_root : exists s, 0 < s /\ er_p_star_failsafe g di dj = s * s /\
  (s * s - pi) * fs_slope g ri pi (Rmax pi pj) + (s * s - pj) * fs_slope g rj pj (Rmax pi pj) + (uj - ui) * s = 0.
Proof using Hg Hri Hpi Hrj Hpj.
  unfold er_p_star_failsafe, gas. cbn [ed_rho ed_u ed_p ed_a].
  set (m := Rmax pi pj). assert (M1 : pi <= m) by apply Rmax_l.
  pose proof (fs_slope_pos g ltac:(lra) ri pi Hri Hpi m ltac:(lra)) as Xi. pose proof (fs_slope_pos g ltac:(lra) rj pj Hrj Hpj m ltac:(lra)) as Xj.
  fold (fs_slope g ri pi m) (fs_slope g rj pj m).
  set (xi := fs_slope g ri pi m) in *. set (xj := fs_slope g rj pj m) in *.
  set (a := xi + xj). set (b := uj - ui). set (c := - pi * xi - pj * xj).
  assert (Pa : 0 < a) by (unfold a; lra).
  assert (Nc : c < 0) by (unfold c; assert (0 < pi * xi) by (apply Rmult_lt_0_compat; assumption);
    assert (0 < pj * xj) by (apply Rmult_lt_0_compat; assumption); lra).
  assert (Pac : 0 < - (a * c)) by (replace (- (a * c)) with (a * - c) by ring; apply Rmult_lt_0_compat; lra).
  set (r := sqrt (b * b - 4 * a * c)).
  assert (B2 : 0 <= b * b) by nra.
  assert (Rr : r * r = b * b - 4 * a * c) by (apply sqrt_sqrt; lra).
  assert (R0 : 0 <= r) by apply sqrt_pos.
  assert (Rb : b < r) by (destruct (Rlt_dec b r); [assumption|exfalso; nra]).
  exists ((- b + r) / (2 * a)). split; [apply Rdiv_lt_0_compat; lra|]. split; [reflexivity|].
  set (s := (- b + r) / (2 * a)).
  assert (Q : a * (s * s) + b * s + c = 0).
  { unfold s. replace (a * ((- b + r) / (2 * a) * ((- b + r) / (2 * a))) + b * ((- b + r) / (2 * a)) + c)
      with ((r * r - b * b + 4 * a * c) / (4 * a)) by (field; lra). rewrite Rr. field. lra. }
  unfold a, b, c in Q. fold b. unfold b. lra.
Qed.

(** A negative value at the larger pressure puts the failsafe estimate above it. *)
Lemma failsafe_above : er_phi_of_p_max g di dj < 0 -> Rmax pi pj <= er_p_star_failsafe g di dj.
Proof using Hg Hri Hpi Hrj Hpj.
  intros H. destruct failsafe_root as (s & Hs & -> & E). set (m := Rmax pi pj) in *.
  assert (M1 : pi <= m) by apply Rmax_l. assert (M2 : pj <= m) by apply Rmax_r.
  rewrite phi_max_eq in H by lra. rewrite e_phi_eq in H. fold m in H. rewrite !f_above in H by lra.
  pose proof (fs_slope_pos g ltac:(lra) ri pi Hri Hpi m ltac:(lra)) as Xi. pose proof (fs_slope_pos g ltac:(lra) rj pj Hrj Hpj m ltac:(lra)) as Xj.
  assert (K : forall r p, 0 < r -> 0 < p -> sqrt (2 / (r * ((g + 1) * m + (g - 1) * p))) * sqrt m = fs_slope g r p m).
  { intros r p Hr Hp. unfold fs_slope. rewrite <- sqrt_mult_alt.
    - f_equal. field. assert (0 < (g + 1) * m) by nra. assert (0 < (g - 1) * p) by (apply Rmult_lt_0_compat; lra). lra.
    - left. apply Rdiv_lt_0_compat; [lra|]. apply Rmult_lt_0_compat; [lra|].
      assert (0 < (g + 1) * m) by nra. assert (0 < (g - 1) * p) by (apply Rmult_lt_0_compat; lra). lra. }
  assert (Pm : 0 < sqrt m) by (apply sqrt_lt_R0; lra). assert (Em : sqrt m * sqrt m = m) by (apply sqrt_sqrt; lra).
  apply (Rmult_lt_compat_r (sqrt m)) in H; [|exact Pm]. rewrite Rmult_0_l in H.
  pose proof (K ri pi Hri Hpi) as Ki. pose proof (K rj pj Hrj Hpj) as Kj.
  set (xi := fs_slope g ri pi m) in *. set (xj := fs_slope g rj pj m) in *. set (t := sqrt m) in *.
  set (yi := sqrt (2 / (ri * ((g + 1) * m + (g - 1) * pi)))) in *. set (yj := sqrt (2 / (rj * ((g + 1) * m + (g - 1) * pj)))) in *.
  assert (H' : (m - pi) * xi + (m - pj) * xj + (uj - ui) * t < 0).
  { rewrite <- Ki, <- Kj. lra. }
  rewrite <- Em. rewrite <- Em in H'.
  apply Rnot_lt_le. intros C. assert (st : s < t) by nra.
  (* the quadratic is positive right of its positive root *)
  assert (X : (t - s) * ((xi + xj) * (t * s) + (pi * xi + pj * xj)) = s * ((t * t - pi) * xi + (t * t - pj) * xj + (uj - ui) * t) - t * ((s * s - pi) * xi + (s * s - pj) * xj + (uj - ui) * s)) by ring.
  rewrite E in X.
  assert (0 < (t - s) * ((xi + xj) * (t * s) + (pi * xi + pj * xj))).
  { apply Rmult_lt_0_compat; [lra|]. assert (0 < t * s) by (apply Rmult_lt_0_compat; lra).
    assert (0 < (xi + xj) * (t * s)) by (apply Rmult_lt_0_compat; lra).
    assert (0 < pi * xi) by (apply Rmult_lt_0_compat; lra). assert (0 < pj * xj) by (apply Rmult_lt_0_compat; lra). lra. }
  assert (s * ((t * t - pi) * xi + (t * t - pj) * xj + (uj - ui) * t) < 0) by nra. lra.
Qed.

Lemma two_rarefaction_root : let P := er_p_star_two_rarefaction g di dj in 0 <= P /\
  0 <= 2 * sound g ri pi / (g - 1) * (powr (P / pi) ((g - 1) / (2 * g)) - 1) +
       2 * sound g rj pj / (g - 1) * (powr (P / pj) ((g - 1) / (2 * g)) - 1) + (uj - ui).
Proof using Hg Hri Hpi Hrj Hpj.
  intros P. set (k := (g - 1) / (2 * g)).
  assert (Pk : 0 < k) by (unfold k; apply Rdiv_lt_0_compat; lra).
  pose proof (sound_pos g ri pi ltac:(lra) Hri Hpi) as Ai. pose proof (sound_pos g rj pj ltac:(lra) Hrj Hpj) as Aj.
  set (ai := sound g ri pi) in *. set (aj := sound g rj pj) in *.
  set (num := ai + aj - (g - 1) * (1 / 2) * (uj - ui)).
  set (q := powr (pi * (1 / pj)) (- ((g - 1) * (1 / 2)) * (1 / g))).
  assert (Hpp : 0 < pi * (1 / pj)) by (apply Rmult_lt_0_compat; [lra|apply Rdiv_lt_0_compat; lra]).
  assert (Pq : 0 < q) by (apply powr_gt0; exact Hpp).
  assert (Den : 0 < ai * q + aj) by nra.
  assert (EP : P = pj * powr (positive_part num / (ai * q + aj)) (2 * g * (1 / (g - 1)))) by reflexivity.
  destruct (Rlt_dec 0 num) as [Hnum|Hnum].
  - rewrite pp_pos in EP by lra.
    assert (Hz : 0 < num / (ai * q + aj)) by (apply Rdiv_lt_0_compat; assumption).
    assert (HP : 0 < P) by (rewrite EP; apply Rmult_lt_0_compat; [lra|apply powr_gt0; exact Hz]).
    assert (Xj : powr (P / pj) k = num / (ai * q + aj)).
    { replace (P / pj) with (powr (num / (ai * q + aj)) (2 * g * (1 / (g - 1)))) by (rewrite EP; field; lra).
      rewrite powr_mult by exact Hz. replace (2 * g * (1 / (g - 1)) * k) with 1 by (unfold k; field; lra). apply powr_1, Hz. }
    assert (Xi : powr (P / pi) k = powr (P / pj) k * q).
    { unfold q. replace (- ((g - 1) * (1 / 2)) * (1 / g)) with (- k) by (unfold k; field; lra).
      rewrite powr_opp by exact Hpp. rewrite <- powr_inv by exact Hpp.
      rewrite <- powr_mult_base; [|apply Rdiv_lt_0_compat; lra|apply Rinv_0_lt_compat; exact Hpp].
      f_equal. field. lra. }
    split; [lra|]. rewrite Xi, Xj. right.
    replace (2 * ai / (g - 1) * (num / (ai * q + aj) * q - 1) + 2 * aj / (g - 1) * (num / (ai * q + aj) - 1))
      with (2 / (g - 1) * (num - (ai + aj))) by (field; lra). unfold num. field. lra.
  - rewrite pp_neg in EP by lra.
    assert (E0 : P = 0).
    { rewrite EP. replace (0 / (ai * q + aj)) with 0 by (field; lra). unfold powr. destruct (Rlt_dec 0 0); lra. }
    split; [lra|]. rewrite E0. replace (0 / pi) with 0 by (field; lra). replace (0 / pj) with 0 by (field; lra).
    unfold powr. destruct (Rlt_dec 0 0); [lra|].
    replace (2 * ai / (g - 1) * (0 - 1) + 2 * aj / (g - 1) * (0 - 1) + (uj - ui)) with (- (2 / (g - 1) * num)) by (unfold num; field; lra).
    assert (0 < 2 / (g - 1)) by (apply Rdiv_lt_0_compat; lra). nra.
Qed.

Variable f : R.
Local Notation P := (er_p_2 g di dj).
Hypothesis Hf : (f - pi) / mass_flux g ri pi P + (f - pj) / mass_flux g rj pj P + (uj - ui) = 0.

Lemma estimate_ok : flux_ok g pi P f /\ flux_ok g pj P f.
Proof using Hg Hri Hpi Hrj Hpj Hf.
  assert (Hg1 : 1 < g) by lra.
  assert (B : f <= P -> flux_ok g pi P f /\ flux_ok g pj P f).
  { intros H. split; (apply flux_ok_below; [exact Hg1|]); eapply Rle_trans; try exact H; apply Rmax_l. }
  destruct two_rarefaction_root as [T1 T2]. destruct failsafe_root as (s & Hs & Es & Er).
  set (pr := er_p_star_two_rarefaction g di dj) in *.
  assert (M1 : pi <= Rmax pi pj) by apply Rmax_l. assert (M2 : pj <= Rmax pi pj) by apply Rmax_r.
  assert (CR : P = pr -> f <= P).
  { intros E. eapply (contact_rare g ri pi rj pj (uj - ui) f P Hg1); try assumption; [lra|rewrite E; exact T1|rewrite E; exact T2]. }
  destruct (Rlt_dec (er_phi_of_p_max g di dj) 0) as [C|C].
  - assert (EP : P = Rmin pr (s * s)).
    { unfold er_p_2, mask_lt. destruct (Rlt_dec _ 0); [|contradiction]. rewrite Es. reflexivity. }
    apply B. unfold Rmin in EP. destruct (Rle_dec pr (s * s)); [apply CR, EP|].
    pose proof (failsafe_above C) as Q. rewrite Es in Q.
    eapply (contact_fs_above g ri pi rj pj (uj - ui) f P Hg1) with (m := Rmax pi pj) (s := s); try assumption; [lra|rewrite EP; exact Er].
  - assert (EP : P = Rmin (Rmax pi pj) (Rmin pr (s * s))).
    { unfold er_p_2, mask_lt. destruct (Rlt_dec _ 0); [contradiction|]. rewrite Es. reflexivity. }
    assert (HPm : P <= Rmax pi pj) by (rewrite EP; apply Rmin_l).
    assert (Top : f <= Rmax pi pj).
    { eapply (contact_top g ri pi rj pj (uj - ui) f P Hg1); try assumption.
      rewrite phi_max_eq, e_phi_eq, !f_linear in C by assumption. lra. }
    unfold Rmin in EP at 1. destruct (Rle_dec (Rmax pi pj) (Rmin pr (s * s))) as [D|D]; [apply B; rewrite EP; exact Top|].
    unfold Rmin in EP. destruct (Rle_dec pr (s * s)) as [D'|D']; [apply B, CR, EP|].
    destruct (Rle_dec pi pj) as [L|L].
    + rewrite Rmax_right in * by lra.
      apply (contact_fs_below g ri pi rj pj (uj - ui) f P Hg1) with (s := s); try assumption; rewrite EP; exact Er.
    + rewrite Rmax_left in * by lra.
      apply and_comm. apply (contact_fs_below g rj pj ri pi (uj - ui) f P Hg1) with (s := s); try assumption; try lra; rewrite EP; lra.
Qed.
End Estimate.
