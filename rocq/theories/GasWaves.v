(** * The shock curve lies above the rarefaction curve for 1 < gamma <= 5/3, and above a
    multiple of it for all gamma > 1 *)
From Coq Require Import Reals Lra Lia Arith Psatz.
From Verif Require Import RVec NewtonProofs PhysLib.
Local Open Scope R_scope.

Lemma Rpower_base_1 y : Rpower 1 y = 1.
Proof. unfold Rpower. rewrite ln_1, Rmult_0_r. apply exp_0. Qed.

Section Curves.
  Variable g : R.
  Hypothesis Hg : 1 < g.

  Let D x := (g + 1) * x + (g - 1).
  Let N x := (g + 1) * x + (3 * g - 1).
  Let k := (g - 1) / (2 * g).

  Lemma ln_affine_deriv a b x : 0 < a * x + b -> derivable_pt_lim (fun t => ln (a * t + b)) x (a / (a * x + b)).
  Proof.
    intros P. replace (a / (a * x + b)) with (/ (a * x + b) * a) by (field; lra).
    apply (derivable_pt_lim_comp (fun t => a * t + b) ln).
    - apply (deriv_transfer (fun t => a * t + b) (fun t => b + t * a) x a a); [intros; ring|reflexivity|apply affine_deriv].
    - apply derivable_pt_lim_ln. exact P.
  Qed.

  Definition logratio (x : R) : R := ln (N x) - 3 / 2 * ln (D x) + (g + 1) / (2 * g) * ln x.

  Lemma logratio_deriv x : 1 <= x ->
    derivable_pt_lim logratio x ((g + 1) / N x - 3 / 2 * ((g + 1) / D x) + (g + 1) / (2 * g) * / x).
  Proof.
    intros Hx. unfold logratio.
    apply (derivable_pt_lim_plus (fun x => ln (N x) - 3 / 2 * ln (D x)) (fun x => (g + 1) / (2 * g) * ln x)).
    - apply (derivable_pt_lim_minus (fun x => ln (N x)) (fun x => 3 / 2 * ln (D x))).
      + apply ln_affine_deriv. nra.
      + apply (derivable_pt_lim_scal (fun x => ln (D x))). apply ln_affine_deriv. nra.
    - apply (derivable_pt_lim_scal ln). apply derivable_pt_lim_ln. lra.
  Qed.

  Lemma logratio_slope_eq x : 1 <= x ->
    (g + 1) / N x - 3 / 2 * ((g + 1) / D x) + (g + 1) / (2 * g) * / x =
    (x - 1) * ((g + 1) * x - (3 * g - 1) * (g - 1)) * ((g + 1) / (2 * g * x * N x * D x)).
  Proof.
    intros Hx. assert (PN : 0 < N x) by (unfold N; nra). assert (PD : 0 < D x) by (unfold D; nra).
    unfold N, D in *. field. repeat split; nra.
  Qed.

  Lemma slope_factor x : 1 <= x -> 0 < (g + 1) / (2 * g * x * N x * D x).
  Proof.
    intros Hx. assert (PN : 0 < N x) by (unfold N; nra). assert (PD : 0 < D x) by (unfold D; nra).
    clearbody N D. apply Rdiv_lt_0_compat; [lra|]. repeat apply Rmult_lt_0_compat; lra.
  Qed.

  Lemma logratio_min x : g <= 5 / 3 -> 1 <= x -> logratio 1 <= logratio x.
  Proof.
    intros Hg5 Hx. eapply (mono_incr logratio _ 1 x); [| |lra|lra].
    - intros y Hy. apply logratio_deriv. lra.
    - intros y Hy. cbv beta. rewrite logratio_slope_eq by lra. pose proof (slope_factor y ltac:(lra)).
      apply Rmult_le_pos; [|lra]. apply Rmult_le_pos; [lra|].
      assert ((3 * g - 1) * (g - 1) <= g + 1) by nra. nra.
  Qed.

  (** For gamma > 5/3 the minimum is attained at x0. *)
  Let x0 := (3 * g - 1) * (g - 1) / (g + 1).

  Lemma x0_eq : (g + 1) * x0 = (3 * g - 1) * (g - 1).
  Proof. unfold x0. field. lra. Qed.

  Lemma logratio_min_0 x : 5 / 3 <= g -> 1 <= x -> logratio x0 <= logratio x.
  Proof.
    intros Hg5 Hx. pose proof x0_eq as E.
    assert (X0 : 1 <= x0).
    { apply Rmult_le_reg_l with (g + 1); [lra|]. rewrite E. nra. }
    destruct (Rle_dec x0 x) as [C|C].
    - eapply (mono_incr logratio _ x0 x); [| |lra|lra].
      + intros y Hy. apply logratio_deriv. lra.
      + intros y Hy. cbv beta. rewrite logratio_slope_eq by lra. pose proof (slope_factor y ltac:(lra)).
        apply Rmult_le_pos; [|lra]. apply Rmult_le_pos; [lra|]. rewrite <- E. nra.
    - eapply (mono_decr logratio _ x x0); [| |lra|lra].
      + intros y Hy. apply logratio_deriv. lra.
      + intros y Hy. cbv beta. rewrite logratio_slope_eq by lra. pose proof (slope_factor y ltac:(lra)).
        assert (0 <= (y - 1) * ((3 * g - 1) * (g - 1) - (g + 1) * y)).
        { apply Rmult_le_pos; [lra|]. rewrite <- E. nra. }
        nra.
  Qed.

  Definition shock_curve (x : R) : R := (x - 1) * (sqrt (2 / g) * powr (D x) (- (1 / 2))).
  Definition rare_curve (x : R) : R := 2 / (g - 1) * (powr x k - 1).

  Lemma shock_curve_deriv x : 1 <= x ->
    derivable_pt_lim shock_curve x (sqrt (2 / g) * / 2 * N x * powr (D x) (- (3 / 2))).
  Proof.
    intros Hx. assert (PD : 0 < D x) by (unfold D; nra).
    replace (sqrt (2 / g) * / 2 * N x * powr (D x) (- (3 / 2)))
      with (1 * (sqrt (2 / g) * powr (D x) (- (1 / 2))) +
            (x - 1) * (sqrt (2 / g) * (- (1 / 2) * powr (D x) (- (1 / 2) - 1) * (g + 1)))).
    2:{ replace (- (1 / 2) - 1) with (- (3 / 2)) by field.
        replace (- (1 / 2)) with (- (3 / 2) + 1) at 1 by field. rewrite powr_plus, powr_1 by exact PD.
        unfold N, D. field. }
    unfold shock_curve.
    apply (derivable_pt_lim_mult (fun x => x - 1) (fun x => sqrt (2 / g) * powr (D x) (- (1 / 2)))).
    - apply (deriv_transfer (fun x => x - 1) (fun t => - (1) + t * 1) x 1 1); [intros; ring|reflexivity|apply affine_deriv].
    - apply (derivable_pt_lim_scal (fun x => powr (D x) (- (1 / 2)))).
      apply (powr_comp_deriv D); [exact PD|].
      apply (deriv_transfer D (fun t => (g - 1) + t * (g + 1)) x (g + 1) (g + 1)); [intros; unfold D; ring|reflexivity|apply affine_deriv].
  Qed.

  Lemma rare_curve_deriv x : 1 <= x -> derivable_pt_lim rare_curve x (/ g * powr x (k - 1)).
  Proof.
    intros Hx. replace (/ g * powr x (k - 1)) with (2 / (g - 1) * (k * powr x (k - 1) - 0)) by (unfold k; field; lra).
    apply (derivable_pt_lim_scal (fun x => powr x k - 1)).
    apply (derivable_pt_lim_minus (fun x => powr x k) (fun _ => 1)); [apply powr_deriv; lra|apply derivable_pt_lim_const].
  Qed.

  Lemma slope_identity x : 1 <= x ->
    sqrt (2 / g) * / 2 * N x * powr (D x) (- (3 / 2)) =
    powr x (k - 1) * (sqrt (2 / g) * / 2 * exp (logratio x)).
  Proof.
    intros Hx. assert (PD : 0 < D x) by (unfold D; nra). assert (PN : 0 < N x) by (unfold N; nra).
    rewrite !powr_pos by lra. unfold Rpower, logratio.
    replace (N x) with (exp (ln (N x))) at 1 by (apply exp_ln; exact PN).
    replace (sqrt (2 / g) * / 2 * exp (ln (N x)) * exp (- (3 / 2) * ln (D x)))
      with (sqrt (2 / g) * / 2 * (exp (ln (N x)) * exp (- (3 / 2) * ln (D x)))) by ring.
    replace (exp ((k - 1) * ln x) * (sqrt (2 / g) * / 2 * exp (ln (N x) - 3 / 2 * ln (D x) + (g + 1) / (2 * g) * ln x)))
      with (sqrt (2 / g) * / 2 * (exp ((k - 1) * ln x) * exp (ln (N x) - 3 / 2 * ln (D x) + (g + 1) / (2 * g) * ln x))) by ring.
    f_equal. rewrite <- !exp_plus. f_equal. unfold k. field. lra.
  Qed.

  Lemma slope_at_1 : sqrt (2 / g) * / 2 * exp (logratio 1) = / g.
  Proof.
    pose proof (slope_identity 1 (Rle_refl 1)) as H.
    rewrite (powr_pos 1), (Rpower_base_1 (k - 1)) in H by lra. rewrite Rmult_1_l in H. rewrite <- H. clear H.
    replace (D 1) with (2 * g) by (unfold D; ring). replace (N 1) with (4 * g) by (unfold N; ring).
    replace (- (3 / 2)) with (- (1) + - (1 / 2)) by field. rewrite powr_plus by lra.
    rewrite !powr_opp by lra. rewrite powr_1 by lra. rewrite (powr_pos (2 * g)) by lra.
    replace (1 / 2) with (/ 2) by field. rewrite Rpower_sqrt by lra.
    unfold Rdiv. rewrite (sqrt_mult 2 (/ g)), (sqrt_mult 2 g), sqrt_inv by (try lra; apply Rlt_le, Rinv_0_lt_compat; lra).
    pose proof (sqrt_lt_R0 2 ltac:(lra)). pose proof (sqrt_lt_R0 g ltac:(lra)).
    pose proof (sqrt_sqrt g ltac:(lra)) as Q.
    replace (/ g) with (/ (sqrt g * sqrt g)) by (rewrite Q; reflexivity).
    clear Q. field. repeat split; lra.
  Qed.

  (** The main inequality. *)
  Lemma c_rare_le_shock c x : (forall y, 1 <= y -> c * exp (logratio 1) <= exp (logratio y)) ->
    1 <= x -> c * rare_curve x <= shock_curve x.
  Proof.
    intros Hc Hx.
    assert (M : shock_curve 1 - c * rare_curve 1 <= shock_curve x - c * rare_curve x).
    { eapply (mono_incr (fun x => shock_curve x - c * rare_curve x) _ 1 x); [| |lra|lra].
      - intros y Hy. apply (derivable_pt_lim_minus shock_curve (fun x => c * rare_curve x)).
        + apply shock_curve_deriv. lra.
        + apply (derivable_pt_lim_scal rare_curve). apply rare_curve_deriv. lra.
      - intros y Hy. cbv beta. rewrite slope_identity by lra. rewrite <- slope_at_1.
        pose proof (powr_gt0 y (k - 1) ltac:(lra)) as P.
        pose proof (Hc y ltac:(lra)) as E.
        assert (0 <= sqrt (2 / g) * / 2) by (pose proof (sqrt_pos (2 / g)); lra).
        assert (0 <= sqrt (2 / g) * / 2 * (exp (logratio y) - c * exp (logratio 1))) by (apply Rmult_le_pos; lra).
        nra. }
    assert (shock_curve 1 = 0) by (unfold shock_curve; ring).
    assert (rare_curve 1 = 0).
    { unfold rare_curve. rewrite powr_pos, Rpower_base_1 by lra. ring. }
    nra.
  Qed.

  Lemma exp_le a b : a <= b -> exp a <= exp b.
  Proof. intros [L| ->]; [left; apply exp_increasing; exact L|lra]. Qed.

  Lemma ln_lower x : 1 <= x -> 2 * (x - 1) / (x + 1) <= ln x.
  Proof.
    intros Hx. assert (M : ln 1 - (2 - 4 * / (1 + 1)) <= ln x - (2 - 4 * / (x + 1))).
    { eapply (mono_incr (fun x => ln x - (2 - 4 * / (x + 1))) (fun x => / x - (0 - 4 * (- 1 / ((x + 1) * (x + 1))))) 1 x); [| |lra|lra].
      - intros y Hy. apply (derivable_pt_lim_minus ln (fun x => 2 - 4 * / (x + 1))); [apply derivable_pt_lim_ln; lra|].
        apply (derivable_pt_lim_minus (fun _ => 2) (fun x => 4 * / (x + 1))); [apply derivable_pt_lim_const|].
        apply (derivable_pt_lim_scal (fun x => / (x + 1))).
        assert (Q : derivable_pt_lim (fun x => x + 1) y 1).
        { apply (deriv_transfer (fun t => t + 1) (fun t => 1 + t * 1) y 1 1); [intros; ring|reflexivity|apply affine_deriv]. }
        pose proof (derivable_pt_lim_div (fun _ => 1) (fun x => x + 1) y 0 1 (derivable_pt_lim_const 1 y) Q) as V.
        cbv beta in V. specialize (V ltac:(lra)).
        eapply (deriv_transfer (fun x => / (x + 1)) (fun x => 1 / (x + 1))); [| |exact V].
        + intros; unfold Rdiv; ring.
        + unfold Rsqr. field. lra.
      - intros y Hy. cbv beta. replace (/ y - (0 - 4 * (- 1 / ((y + 1) * (y + 1))))) with ((y - 1) * (y - 1) * / (y * ((y + 1) * (y + 1)))).
        + apply Rmult_le_pos; [nra|]. apply Rlt_le, Rinv_0_lt_compat. nra.
        + field. lra. }
    rewrite ln_1 in M. replace (2 * (x - 1) / (x + 1)) with (2 - 4 * / (x + 1)) by (field; lra). lra.
  Qed.

  Lemma ln_products q v w z : 0 < q -> 0 < v -> 0 < w -> 0 < z ->
    q * (4 * 4) * (w * w * w) = v * v * (2 * 2 * 2) * z ->
    ln q = 2 * ln v - 2 * ln 4 - 3 * ln w + 3 * ln 2 + ln z.
  Proof.
    intros Pq Pv Pw Pz T. apply (f_equal ln) in T.
    rewrite !ln_mult in T by (repeat apply Rmult_lt_0_compat; lra). lra.
  Qed.

  Lemma logratio_gap : 5 / 3 <= g ->
    exp (2 * (logratio x0 - logratio 1)) =
    (3 * g - 1) * (3 * g - 1) * (3 * g - 1) / (54 * ((g - 1) * (g - 1)) * (g + 1)) * exp (ln x0 / g).
  Proof.
    intros Hg5. pose proof x0_eq as E.
    assert (X0 : 0 < x0) by (unfold x0; apply Rdiv_lt_0_compat; nra).
    unfold logratio, N, D. rewrite E.
    replace ((3 * g - 1) * (g - 1) + (3 * g - 1)) with (g * (3 * g - 1)) by ring.
    replace ((3 * g - 1) * (g - 1) + (g - 1)) with (3 * g * (g - 1)) by ring.
    replace ((g + 1) * 1 + (3 * g - 1)) with (4 * g) by ring.
    replace ((g + 1) * 1 + (g - 1)) with (2 * g) by ring.
    rewrite ln_1.
    set (q := (3 * g - 1) * (3 * g - 1) * (3 * g - 1) / (54 * ((g - 1) * (g - 1)) * (g + 1))).
    assert (Pq : 0 < q).
    { unfold q. apply Rdiv_lt_0_compat; repeat apply Rmult_lt_0_compat; lra. }
    rewrite <- (exp_ln q Pq) at 1. rewrite <- exp_plus. f_equal.
    assert (Q : ln q = 2 * ln (3 * g - 1) - 2 * ln 4 - 3 * ln (3 * (g - 1)) + 3 * ln 2 + ln x0).
    { assert (T : q * (4 * 4) * ((3 * (g - 1)) * (3 * (g - 1)) * (3 * (g - 1))) = (3 * g - 1) * (3 * g - 1) * (2 * 2 * 2) * x0).
      { unfold q, x0. field. lra. }
      apply (ln_products q (3 * g - 1) (3 * (g - 1)) x0); try assumption; lra. }
    rewrite Q.
    replace (ln (g * (3 * g - 1))) with (ln g + ln (3 * g - 1)) by (symmetry; apply ln_mult; lra).
    replace (ln (3 * g * (g - 1))) with (ln g + ln (3 * (g - 1))).
    2:{ rewrite <- ln_mult by lra. f_equal. ring. }
    rewrite !(ln_mult 4), !(ln_mult 2) by lra. field. lra.
  Qed.

  Lemma c_bound c x : 0 <= c -> (g <= 5 / 3 -> c <= 1) ->
    (5 / 3 < g -> c * c <= 1 / 2 \/ (g <= 4 /\ c * c <= (3 * g + 11) / (6 * g + 6))) ->
    1 <= x -> c * rare_curve x <= shock_curve x.
  Proof.
    intros Hc C1 C2 Hx. apply c_rare_le_shock; [|exact Hx]. intros y Hy.
    destruct (Rle_dec g (5 / 3)) as [G|G].
    { pose proof (exp_le _ _ (logratio_min y G Hy)). pose proof (exp_pos (logratio 1)). specialize (C1 G). nra. }
    apply Rle_trans with (exp (logratio x0)); [|apply exp_le, logratio_min_0; lra].
    specialize (C2 ltac:(lra)).
    set (e := exp (logratio x0 - logratio 1)).
    assert (Pe : 0 < e) by apply exp_pos.
    assert (E : exp (logratio x0) = e * exp (logratio 1)) by (unfold e; rewrite <- exp_plus; f_equal; ring).
    rewrite E. apply Rmult_le_compat_r; [apply Rlt_le, exp_pos|].
    assert (S : e * e = (3 * g - 1) * (3 * g - 1) * (3 * g - 1) / (54 * ((g - 1) * (g - 1)) * (g + 1)) * exp (ln x0 / g)).
    { rewrite <- logratio_gap by lra. unfold e. rewrite <- exp_plus. f_equal. ring. }
    assert (K : c * c <= e * e); [|nra].
    rewrite S. clear E S e Pe.
    pose proof x0_eq as E0.
    assert (X0 : 1 <= x0). { apply Rmult_le_reg_l with (g + 1); [lra|]. rewrite E0. nra. }
    assert (Pd : 0 < 54 * ((g - 1) * (g - 1)) * (g + 1)) by (repeat apply Rmult_lt_0_compat; lra).
    assert (L0 : 0 <= ln x0) by (rewrite <- ln_1; destruct X0 as [X0| <-]; [left; apply ln_increasing; lra|lra]).
    destruct C2 as [C2|[G4 C2]].
    - eapply Rle_trans; [exact C2|].
      assert (1 <= exp (ln x0 / g)).
      { rewrite <- exp_0. apply exp_le. apply Rmult_le_pos; [exact L0|]. apply Rlt_le, Rinv_0_lt_compat; lra. }
      assert (1 / 2 <= (3 * g - 1) * (3 * g - 1) * (3 * g - 1) / (54 * ((g - 1) * (g - 1)) * (g + 1))); [|nra].
      apply Rmult_le_reg_r with (54 * ((g - 1) * (g - 1)) * (g + 1)); [exact Pd|].
      match goal with |- _ <= ?a / ?b * ?b => replace (a / b * b) with a by (field; lra) end. nra.
    - eapply Rle_trans; [exact C2|].
      pose proof (ln_lower x0 X0) as LL.
      set (z := 2 * (3 * g - 5) / (3 * g * g - 3 * g + 2)).
      assert (Pz0 : 0 < 3 * g * g - 3 * g + 2) by nra.
      assert (Pz : 0 <= z) by (unfold z; apply Rmult_le_pos; [lra|apply Rlt_le, Rinv_0_lt_compat; lra]).
      assert (Z : z <= ln x0 / g).
      { replace z with (2 * (x0 - 1) / (x0 + 1) / g).
        - apply Rmult_le_compat_r; [apply Rlt_le, Rinv_0_lt_compat; lra|exact LL].
        - unfold z, x0. field. repeat split; try lra. }
      assert (EZ : (1 + z / 2) * (1 + z / 2) <= exp (ln x0 / g)).
      { apply Rle_trans with (exp z); [|apply exp_le; exact Z].
        replace z with (z / 2 + z / 2) at 3 by field. rewrite exp_plus.
        assert (1 + z / 2 <= exp (z / 2)). { destruct Pz as [Pz| <-]; [left; apply exp_ineq1; lra|]. unfold Rdiv. rewrite Rmult_0_l, exp_0; lra. }
        apply Rmult_le_compat; lra. }
      assert (V : 1 + z / 2 = 3 * (g * g - 1) / (3 * g * g - 3 * g + 2)) by (unfold z; field; lra).
      rewrite V in EZ.
      set (B := (3 * g - 1) * (3 * g - 1) * (3 * g - 1) / (54 * ((g - 1) * (g - 1)) * (g + 1))).
      assert (PB : 0 <= B). { unfold B. apply Rlt_le, Rdiv_lt_0_compat; [|exact Pd]. repeat apply Rmult_lt_0_compat; lra. }
      apply Rle_trans with (2 := Rmult_le_compat_l _ _ _ PB EZ).
      unfold B. replace ((3 * g - 1) * (3 * g - 1) * (3 * g - 1) / (54 * ((g - 1) * (g - 1)) * (g + 1)) *
        (3 * (g * g - 1) / (3 * g * g - 3 * g + 2) * (3 * (g * g - 1) / (3 * g * g - 3 * g + 2))))
        with ((3 * g + 11) / (6 * g + 6) + (3 * g - 5) * (g * g * (29 - 6 * g) - 20 * g + 9) /
              (6 * (g + 1) * ((3 * g * g - 3 * g + 2) * (3 * g * g - 3 * g + 2)))).
      2:{ field. repeat split; nra. }
      assert (0 <= (3 * g - 5) * (g * g * (29 - 6 * g) - 20 * g + 9) /
              (6 * (g + 1) * ((3 * g * g - 3 * g + 2) * (3 * g * g - 3 * g + 2)))); [|lra].
      apply Rmult_le_pos.
      + apply Rmult_le_pos; [lra|]. replace (g * g * (29 - 6 * g) - 20 * g + 9) with ((4 - g) * (g * (6 * g - 5)) + 9) by ring.
        assert (0 <= (4 - g) * (g * (6 * g - 5))); [|lra]. apply Rmult_le_pos; [lra|]. apply Rmult_le_pos; lra.
      + apply Rlt_le, Rinv_0_lt_compat. repeat apply Rmult_lt_0_compat; lra.
  Qed.

  Lemma rare_le_shock x : g <= 5 / 3 -> 1 <= x -> rare_curve x <= shock_curve x.
  Proof. intros. rewrite <- (Rmult_1_l (rare_curve x)). apply c_bound; intros; lra. Qed.
End Curves.
