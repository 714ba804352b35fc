(** * The root finder of Becker's solution may stop far from the root *)
From Coq Require Import Reals Arith Lia Lra Psatz List FunctionalExtensionality.
From Verif Require Import RVec EulerSystem BalanceSpec BalanceProofs EulerInitialStates EulerInitialProofs Becker BeckerProofs BeckerFinal.
Local Open Scope R_scope.

(** A weak shock: all parameters but velocity and velocity right are those of
    source/euler/initial_state_becker_solution.h:59-83. *)
Definition weak_shock : becker :=
  {| k_gamma := 7 / 5; k_velocity := 0; k_left := 1; k_right := 9 / 10; k_density := 1; k_mu := 1 / 100 |}.

Lemma weak_good : good_becker weak_shock.
Proof. unfold good_becker, weak_shock; simpl. lra. Qed.

Definition stall_eta : R := / 10 ^ 20.

Lemma stall_F : 0 < becker_factor weak_shock.
Proof. exact (F_pos _ weak_good). Qed.

Lemma place_diff v w : place weak_shock v - place weak_shock w
  = becker_factor weak_shock * (10 * (ln (1 - v) - ln (1 - w)) - 9 * (ln (v - 9 / 10) - ln (w - 9 / 10))).
Proof. unfold place. change (k_left weak_shock) with 1. change (k_right weak_shock) with (9 / 10). field. Qed.

Lemma tanh_window z : -5 <= z <= 0 -> 2 / 59050 <= 1 + tanh z <= 1.
Proof.
  intros H. pose proof (exp_pos z) as P. pose proof (exp_pos (- z)) as Q.
  assert (E : 1 + tanh z = 2 / (1 + exp (- z) * exp (- z))).
  { unfold tanh, sinh, cosh. assert (Z : exp z = / exp (- z)) by (rewrite <- exp_Ropp; f_equal; ring).
    rewrite Z. field. split; [|lra]. apply Rgt_not_eq. pose proof (Rmult_lt_0_compat _ _ Q Q). lra. }
  rewrite E. assert (B1 : 1 <= exp (- z)) by (pose proof (exp_ineq1_le (- z)); lra).
  assert (B2 : exp (- z) * exp (- z) <= 59049).
  { rewrite <- exp_plus. apply Rle_trans with (exp 10).
    - destruct (Req_dec z (-5)); [subst; right; f_equal; lra|left; apply exp_increasing; lra].
    - replace 10 with (1 + 1 + 1 + 1 + 1 + (1 + 1 + 1 + 1 + 1)) by lra. rewrite !exp_plus.
      pose proof exp_le_3 as T. pose proof (exp_pos 1) as T0. set (q := exp 1) in *.
      assert (q * q <= 9) by nra. assert (q * q * q <= 27) by nra. assert (q * q * q * q <= 81) by nra.
      assert (0 < q * q * q * q) by (repeat apply Rmult_lt_0_compat; lra).
      assert (q * q * q * q * q <= 243) by nra. assert (0 < q * q * q * q * q) by (repeat apply Rmult_lt_0_compat; lra). nra. }
  set (s := exp (- z) * exp (- z)) in *. assert (1 <= s) by (unfold s; nra). split.
  - unfold Rdiv. apply Rmult_le_compat_l; [lra|]. apply Rinv_le_contravar; lra.
  - apply Rmult_le_reg_r with (1 + s); [lra|]. unfold Rdiv. rewrite Rmult_assoc, Rinv_l by lra. lra.
Qed.

Lemma guess_form xl xr x :
  becker_guess weak_shock xl xr x = 1 - 1 / 20 * (1 + tanh (10 * (x - 1 / 2 * (xr + xl)) / (xr - xl))).
Proof. unfold becker_guess. simpl. field. Qed.

Lemma guess_inside xl xr x : 9 / 10 < becker_guess weak_shock xl xr x < 1.
Proof. rewrite guess_form. pose proof (tanh_bound (10 * (x - 1 / 2 * (xr + xl)) / (xr - xl))). lra. Qed.

(** The Newton step from the initial guess. *)
Definition newton_guess (xl xr x : R) : R :=
  let g := becker_guess weak_shock xl xr x in
  g + (place weak_shock g - x) * ((1 - g) * (g - 9 / 10) / (becker_factor weak_shock * g)).

Lemma continuity_tanh : continuity tanh.
Proof.
  intros x. unfold tanh. apply continuity_pt_div.
  - apply derivable_continuous_pt. exists (cosh x). apply derivable_pt_lim_sinh.
  - apply derivable_continuous_pt. exists (sinh x). apply derivable_pt_lim_cosh.
  - unfold cosh. pose proof (exp_pos x). pose proof (exp_pos (- x)). lra.
Qed.

Lemma continuity_affine a c : continuity (fun x => a * x + c).
Proof. intros x. reg. Qed.

Lemma continuity_guess xl xr : xl < xr -> continuity (becker_guess weak_shock xl xr).
Proof.
  intros H.
  assert (E : forall x, becker_guess weak_shock xl xr x
    = (fun t => (- (1 / 20)) * t + (1 - 1 / 20)) (tanh ((fun x => 10 / (xr - xl) * x + - (5 * (xr + xl) / (xr - xl))) x))).
  { intros x. rewrite guess_form. replace (10 * (x - 1 / 2 * (xr + xl)) / (xr - xl)) with (10 / (xr - xl) * x + - (5 * (xr + xl) / (xr - xl))) by (field; lra). ring. }
  intros x. rewrite (functional_extensionality _ _ E).
  apply (continuity_pt_comp (fun x => 10 / (xr - xl) * x + - (5 * (xr + xl) / (xr - xl)))
           (fun u => (- (1 / 20)) * tanh u + (1 - 1 / 20))); [apply continuity_affine|].
  apply (continuity_pt_comp tanh (fun t => (- (1 / 20)) * t + (1 - 1 / 20))); [apply continuity_tanh|apply continuity_affine].
Qed.

Lemma continuity_newton xl xr : xl < xr -> continuity (newton_guess xl xr).
Proof.
  intros H x. pose proof (continuity_guess xl xr H x) as Cg. pose proof (guess_inside xl xr x) as I.
  pose proof stall_F as PF. unfold newton_guess. set (g := becker_guess weak_shock xl xr) in *.
  change (continuity_pt (fun x => g x + (place weak_shock (g x) - x) * ((1 - g x) * (g x - 9 / 10) / (becker_factor weak_shock * g x))) x).
  assert (Cp : continuity_pt (fun x => place weak_shock (g x)) x).
  { apply (continuity_pt_comp g (place weak_shock)); [exact Cg|].
    apply derivable_continuous_pt. eexists. apply D_place. exact I. }
  assert (Cc : forall c, continuity_pt (fun _ => c) x) by (intros c; apply continuity_pt_const; intros ? ?; reflexivity).
  apply continuity_pt_plus; [exact Cg|]. apply (continuity_pt_mult (fun x => place weak_shock (g x) - x)).
  - apply (continuity_pt_minus (fun x => place weak_shock (g x)) (fun x => x)); [exact Cp|].
    apply derivable_continuous_pt, derivable_pt_id.
  - apply (continuity_pt_div (fun x => (1 - g x) * (g x - 9 / 10)) (fun x => becker_factor weak_shock * g x)).
    + apply (continuity_pt_mult (fun x => 1 - g x) (fun x => g x - 9 / 10)).
      * apply (continuity_pt_minus (fun _ => 1) g); [apply Cc|exact Cg].
      * apply (continuity_pt_minus g (fun _ => 9 / 10)); [exact Cg|apply Cc].
    + apply (continuity_pt_mult (fun _ => becker_factor weak_shock) g); [apply Cc|exact Cg].
    + apply Rgt_not_eq. apply Rmult_lt_0_compat; lra.
Qed.

Local Definition vL := (1 - becker_tol) * 1 + becker_tol * (9 / 10).
Local Definition vR := becker_tol * 1 + (1 - becker_tol) * (9 / 10).
Local Definition xL := place weak_shock vL.
Local Definition xR := place weak_shock vR.

Lemma stall_cut : 9 / 10 < vR /\ vR < vL /\ vL < 1 /\
  becker_cut weak_shock = Some (xL, xR, (xR - xL) * becker_tol) /\ xL < xR /\
  xR - xL <= 608 * becker_factor weak_shock.
Proof.
  pose proof (becker_cut_eq weak_shock weak_good) as C. cbv zeta in C.
  destruct C as (I1 & I2 & I3 & C & L12 & LB).
  change (k_left weak_shock) with 1 in *. change (k_right weak_shock) with (9 / 10) in *. fold vL vR in *. fold xL xR in *.
  repeat (split; [assumption|]). lra.
Qed.

Lemma exp_one_lower : 244 / 100 < exp 1.
Proof.
  assert (E : 5 / 4 < exp (1 / 4)) by (pose proof (exp_ineq1 (1 / 4) ltac:(lra)); lra).
  replace 1 with (1 / 4 + 1 / 4 + (1 / 4 + 1 / 4)) at 1 by lra. rewrite !exp_plus.
  set (q := exp (1 / 4)) in *. assert (25 / 16 < q * q) by nra. nra.
Qed.

(** Left end: the step goes beyond the left velocity. *)
Lemma newton_left : 1 < newton_guess xL xR xL.
Proof.
  destruct stall_cut as (I1 & I2 & I3 & _ & L & _). pose proof stall_F as PF. pose proof tol_range as T.
  unfold newton_guess. cbv zeta. pose proof (guess_form xL xR xL) as G.
  replace (10 * (xL - 1 / 2 * (xR + xL)) / (xR - xL)) with (-5) in G by (field; lra).
  pose proof (tanh_window (-5) ltac:(lra)) as W. set (t := 1 + tanh (-5)) in *.
  set (g := becker_guess weak_shock xL xR xL) in *.
  assert (Y : 1 / 590500 <= 1 - g <= 1 / 20) by lra. unfold xL. rewrite place_diff.
  assert (A1 : ln (g - 9 / 10) - ln (vL - 9 / 10) <= 0).
  { assert (ln (g - 9 / 10) <= ln (vL - 9 / 10)); [|lra]. left. apply ln_increasing; [lra|].
    assert (1 - vL < 1 / 590500) by (unfold vL, becker_tol; lra). lra. }
  assert (A2 : 3 <= ln (1 - g) - ln (1 - vL)).
  { rewrite <- (ln_exp 3).
    assert (exp 3 * (1 - vL) <= 1 - g).
    { replace 3 with (1 + 1 + 1) by lra. rewrite !exp_plus. pose proof exp_le_3. pose proof (exp_pos 1).
      set (q := exp 1) in *. assert (q * q <= 9) by nra. assert (q * q * q <= 27) by nra.
      assert (1 - vL <= 1 / 10 ^ 12) by (unfold vL, becker_tol; lra). assert (0 < 1 - vL) by lra. nra. }
    assert (ln (exp 3 * (1 - vL)) <= ln (1 - g)).
    { pose proof (exp_pos 3). assert (0 < exp 3 * (1 - vL)) by (apply Rmult_lt_0_compat; lra).
      destruct H as [H|H]; [left; apply ln_increasing; lra|rewrite H; lra]. }
    rewrite ln_mult in H0 by (try apply exp_pos; lra). lra. }
  set (l1 := ln (1 - g) - ln (1 - vL)) in *. set (l2 := ln (g - 9 / 10) - ln (vL - 9 / 10)) in *.
  replace (becker_factor weak_shock * (10 * l1 - 9 * l2) * ((1 - g) * (g - 9 / 10) / (becker_factor weak_shock * g)))
    with ((1 - g) * ((10 * l1 - 9 * l2) * (g - 9 / 10) / g)) by (field; lra).
  assert (B : 1 < (10 * l1 - 9 * l2) * (g - 9 / 10) / g).
  { apply Rmult_lt_reg_r with g; [lra|]. unfold Rdiv. rewrite Rmult_assoc, Rinv_l by lra. nra. }
  nra.
Qed.

(** Middle: it stays short of it. *)
Lemma newton_middle : newton_guess xL xR (1 / 2 * (xR + xL)) < 1 - 1 / 1000.
Proof.
  destruct stall_cut as (I1 & I2 & I3 & _ & L & _). pose proof stall_F as PF. pose proof tol_range as T.
  unfold newton_guess. cbv zeta. pose proof (guess_form xL xR (1 / 2 * (xR + xL))) as G.
  replace (10 * (1 / 2 * (xR + xL) - 1 / 2 * (xR + xL)) / (xR - xL)) with 0 in G by (field; lra).
  assert (T0 : tanh 0 = 0) by (unfold tanh, sinh; replace (exp (- 0)) with (exp 0) by (f_equal; ring); unfold Rdiv; ring).
  rewrite T0 in G. set (g := becker_guess weak_shock xL xR (1 / 2 * (xR + xL))) in *.
  assert (Eg : g = 19 / 20) by lra. rewrite Eg.
  replace (place weak_shock (19 / 20) - 1 / 2 * (xR + xL))
    with (1 / 2 * ((place weak_shock (19 / 20) - xL) + (place weak_shock (19 / 20) - xR))) by field.
  unfold xL, xR. rewrite !place_diff.
  replace (1 - vL) with (becker_tol * (1 / 10)) by (unfold vL; field).
  replace (1 - vR) with ((1 - becker_tol) * (1 / 10)) by (unfold vR; field).
  replace (vL - 9 / 10) with ((1 - becker_tol) * (1 / 10)) by (unfold vL; field).
  replace (vR - 9 / 10) with (becker_tol * (1 / 10)) by (unfold vR; field).
  rewrite !ln_mult by lra.
  replace (1 - 19 / 20) with (1 / 2 * (1 / 10)) by field. replace (19 / 20 - 9 / 10) with (1 / 2 * (1 / 10)) by field.
  rewrite !ln_mult by lra. pose proof ln_trillion as LT.
  assert (LH : ln (1 / 2) < 0) by (rewrite <- ln_1; apply ln_increasing; lra).
  assert (L1 : - (1 / 10) <= ln (1 - becker_tol)).
  { rewrite <- (ln_exp (- (1 / 10))). assert (exp (- (1 / 10)) < 1 - becker_tol); [|left; apply ln_increasing; [apply exp_pos|assumption]].
    rewrite exp_Ropp. pose proof (exp_ineq1 (1 / 10) ltac:(lra)). apply Rlt_trans with (/ (11 / 10)).
    - apply Rinv_lt_contravar; [apply Rmult_lt_0_compat; [lra|apply exp_pos]|lra].
    - unfold becker_tol. lra. }
  set (l0 := ln becker_tol) in *. set (l1 := ln (1 - becker_tol)) in *. set (h := ln (1 / 2)) in *. set (k := ln (1 / 10)).
  match goal with |- 19 / 20 + ?a < _ => replace a with ((2 * h - l0 - l1) / 2 * (1 / 400 * (20 / 19))) by (field; lra) end.
  lra.
Qed.

Lemma stall_point : exists x, xL < x < 1 / 2 * (xR + xL) /\ newton_guess xL xR x = 1 - stall_eta.
Proof.
  destruct stall_cut as (I1 & I2 & I3 & _ & L & _).
  assert (E0 : 0 < stall_eta < 1 / 1000) by (unfold stall_eta; lra).
  destruct (IVT (fun x => (1 - stall_eta) - newton_guess xL xR x) xL (1 / 2 * (xR + xL))) as (x & Hx & E).
  - intros x. apply (continuity_pt_minus (fun _ => 1 - stall_eta) (newton_guess xL xR)).
    + apply continuity_pt_const. intros ? ?. reflexivity.
    + apply continuity_newton. exact L.
  - lra.
  - pose proof newton_left. lra.
  - pose proof newton_middle. lra.
  - exists x. assert (E' : newton_guess xL xR x = 1 - stall_eta) by lra. split; [|exact E'].
    pose proof newton_left. pose proof newton_middle.
    split; [destruct (Req_dec x xL)|destruct (Req_dec x (1 / 2 * (xR + xL)))]; try lra; subst x; exfalso; rewrite ?H1 in E'; lra.
Qed.

Lemma quotient_below a c d : 0 < c -> a < d * c -> a / c < d.
Proof.
  intros H L. apply Rmult_lt_reg_r with c; [exact H|]. unfold Rdiv. rewrite Rmult_assoc, Rinv_l by lra. lra.
Qed.

Lemma ln_sixteen : 2 < ln 16.
Proof. replace 16 with (2 * 2 * (2 * 2)) by lra. rewrite !ln_mult by lra. pose proof ln_lt_2. lra. Qed.

Lemma ln_eta : - 60 <= ln stall_eta.
Proof.
  unfold stall_eta. rewrite ln_Rinv by (apply pow_lt; lra).
  assert (ln (10 ^ 20) <= 60); [|lra]. rewrite <- (ln_exp 60).
  assert (T : 10 < exp 3).
  { replace 3 with (1 + 1 + 1) by lra. rewrite !exp_plus. pose proof exp_one_lower. set (q := exp 1) in *.
    assert (244 / 100 * (244 / 100) < q * q) by nra. nra. }
  assert (E : exp 60 = exp 3 ^ 20).
  { replace 60 with (INR 20 * 3) by (simpl; lra). generalize 20%nat. induction n as [|n IH]; [rewrite Rmult_0_l; apply exp_0|].
    rewrite S_INR. replace ((INR n + 1) * 3) with (3 + INR n * 3) by ring. rewrite exp_plus, IH. reflexivity. }
  rewrite E. assert (P : 10 ^ 20 <= exp 3 ^ 20) by (apply pow_incr; lra).
  destruct P as [P|P]; [left; apply ln_increasing; [apply pow_lt; lra|exact P]|rewrite P; lra].
Qed.

Lemma C96_velocity_refuted_proof : exists b fuel x w v d,
  1 < k_gamma b /\ 0 < k_right b < k_left b /\ 0 < k_density b /\ 0 < k_mu b /\
  find_velocity b fuel x = Some w /\ psi b x v = Some (0, d) /\
  (k_left b - k_right b) / 10 ^ 6 < Rabs (w - v).
Proof.
  destruct stall_point as (x & Hx & N). destruct stall_cut as (I1 & I2 & I3 & C & L & LB).
  pose proof stall_F as PF. pose proof tol_range as T. set (F := becker_factor weak_shock) in *.
  assert (E0 : 0 < stall_eta) by (unfold stall_eta; apply Rinv_0_lt_compat, pow_lt; lra).
  assert (E1 : stall_eta <= / 10 ^ 20) by (unfold stall_eta; lra).
  unfold newton_guess in N. cbv zeta in N. fold F in N. pose proof (guess_form xL xR x) as G.
  pose proof (tanh_window (10 * (x - 1 / 2 * (xR + xL)) / (xR - xL))) as W.
  assert (Z : -5 <= 10 * (x - 1 / 2 * (xR + xL)) / (xR - xL) <= 0).
  { split.
    - apply Rmult_le_reg_r with (xR - xL); [lra|]. unfold Rdiv. rewrite Rmult_assoc, Rinv_l by lra. lra.
    - apply Rmult_le_reg_r with (xR - xL); [lra|]. unfold Rdiv. rewrite Rmult_assoc, Rinv_l by lra. lra. }
  specialize (W Z). clear Z. set (g := becker_guess weak_shock xL xR x) in *.
  assert (Y : 1 / 590500 <= 1 - g <= 1 / 20) by lra. clear W G.
  set (y := 1 - g) in *. assert (Eg : g = 1 - y) by (unfold y; ring).
  assert (Ig : 9 / 10 < g < 1) by lra.
  (* the residual of the guess *)
  set (f0 := place weak_shock g - x) in *.
  assert (Ef0 : f0 = (y - stall_eta) * (F * g) / (y * (g - 9 / 10))).
  { assert (f0 * (y * (g - 9 / 10) / (F * g)) = y - stall_eta) by lra. rewrite <- H. field. lra. }
  assert (Hp : 0 < y * (g - 9 / 10)) by (apply Rmult_lt_0_compat; lra).
  assert (Pg : 0 < F * g) by (apply Rmult_lt_0_compat; lra).
  assert (Lo : F < f0).
  { rewrite Ef0. apply Rmult_lt_reg_r with (y * (g - 9 / 10)); [exact Hp|]. unfold Rdiv. rewrite Rmult_assoc, Rinv_l by lra.
    rewrite Rmult_1_r. replace ((y - stall_eta) * (F * g)) with (F * ((y - stall_eta) * g)) by ring.
    apply Rmult_lt_compat_l; [exact PF|]. assert (stall_eta <= 1 / 10 * y) by lra. nra. }
  assert (Up : f0 < 20 * F).
  { rewrite Ef0. apply quotient_below; [exact Hp|]. replace (20 * F * (y * (g - 9 / 10))) with (F * (20 * (y * (g - 9 / 10)))) by ring.
    replace ((y - stall_eta) * (F * g)) with (F * ((y - stall_eta) * g)) by ring.
    apply Rmult_lt_compat_l; [exact PF|]. assert ((y - stall_eta) * g < y * g) by (apply Rmult_lt_compat_r; lra).
    assert (g <= 20 * (g - 9 / 10)) by lra. nra. }
  (* the root is further to the right *)
  assert (Rt : place weak_shock (1 - y / 16) < x).
  { assert (place weak_shock (1 - y / 16) - place weak_shock g < - (20 * F)).
    { rewrite place_diff. fold F. replace (1 - (1 - y / 16)) with (y / 16) by ring. fold y.
      unfold Rdiv at 1. rewrite ln_mult by lra. rewrite ln_Rinv by lra. pose proof ln_sixteen as L16.
      assert (ln (g - 9 / 10) < ln (1 - y / 16 - 9 / 10)) by (apply ln_increasing; lra).
      replace (- (20 * F)) with (F * (- 20)) by ring. apply Rmult_lt_compat_l; [exact PF|]. lra. }
    unfold f0 in Up. lra. }
  destruct (place_surjective weak_shock weak_good x) as (v & Iv & Ev).
  change (k_left weak_shock) with 1 in Iv. change (k_right weak_shock) with (9 / 10) in Iv.
  assert (Vv : v < 1 - y / 16).
  { destruct (Rlt_dec v (1 - y / 16)) as [|NV]; [assumption|]. exfalso.
    destruct (Req_dec v (1 - y / 16)) as [EQ|NE]; [rewrite EQ in Ev; lra|].
    assert (place weak_shock v < place weak_shock (1 - y / 16)); [|lra].
    apply (place_decreasing weak_shock weak_good); [change (k_right weak_shock) with (9 / 10)|idtac|change (k_left weak_shock) with 1]; lra. }
  (* the second residual *)
  set (u := 1 - stall_eta). assert (Iu : 9 / 10 < u < 1) by (unfold u; lra).
  set (f1 := place weak_shock u - x).
  assert (F1 : f1 < - (F / 10 ^ 6)).
  { pose proof (place_lipschitz weak_shock weak_good (1 - y / 16) u) as LP.
    change (k_left weak_shock) with 1 in LP. change (k_right weak_shock) with (9 / 10) in LP. fold F in LP.
    specialize (LP ltac:(lra) ltac:(unfold u; lra) ltac:(lra)).
    assert (1 / 10 ^ 8 <= u - (1 - y / 16)) by (unfold u; lra).
    replace (4 * F * (9 / 10) / ((1 - 9 / 10) * (1 - 9 / 10))) with (360 * F) in LP by field.
    assert (1 / 10 ^ 8 * (360 * F) <= (u - (1 - y / 16)) * (360 * F)) by (apply Rmult_le_compat_r; lra).
    unfold f1. lra. }
  assert (F2 : - (1200 * F) < f1).
  { assert (x < xR) by lra. assert (xR - place weak_shock u < 1200 * F); [|unfold f1; lra].
    unfold xR. rewrite place_diff. fold F.
    replace (1 - vR) with ((1 - becker_tol) * (1 / 10)) by (unfold vR; field).
    replace (vR - 9 / 10) with (becker_tol * (1 / 10)) by (unfold vR; field).
    replace (1 - u) with stall_eta by (unfold u; ring).
    pose proof ln_eta as LE. pose proof ln_trillion as LT.
    assert (N1 : ln ((1 - becker_tol) * (1 / 10)) < 0) by (rewrite <- ln_1; apply ln_increasing; lra).
    assert (N2 : ln (u - 9 / 10) < 0) by (rewrite <- ln_1; apply ln_increasing; lra).
    assert (N3 : -35 - 1 <= ln (becker_tol * (1 / 10))).
    { rewrite ln_mult by lra.
      assert (N4 : -1 <= ln (1 - becker_tol)).
      { rewrite <- (ln_exp (-1)). left. apply ln_increasing; [apply exp_pos|]. replace (-1) with (- (1)) by lra. rewrite exp_Ropp.
        pose proof exp_one_lower. apply Rlt_trans with (/ (244 / 100)); [apply Rinv_lt_contravar; [apply Rmult_lt_0_compat|]; lra|lra]. }
      assert (N5 : - 3 <= ln (1 / 10)).
      { replace (1 / 10) with (/ 10) by lra. rewrite ln_Rinv by lra. pose proof (ln_exp 3) as L3.
        assert (10 < exp 3).
        { replace 3 with (1 + 1 + 1) by lra. rewrite !exp_plus. pose proof exp_one_lower. set (q := exp 1) in *.
          assert (244 / 100 * (244 / 100) < q * q) by nra. nra. }
        assert (ln 10 < ln (exp 3)) by (apply ln_increasing; lra). lra. }
      lra. }
    replace (1200 * F) with (F * 1200) by ring. apply Rmult_lt_compat_l; [exact PF|]. lra. }
  set (d1 := - (F * u / ((1 - u) * (u - 9 / 10)))).
  assert (D1 : psi weak_shock x u = Some (f1, d1)).
  { destruct (psi_pos weak_shock x u Iu) as (d & E). pose proof (psi_some _ _ _ _ _ E) as (_ & _ & Ed).
    rewrite E. do 2 f_equal. exact Ed. }
  set (d0 := - (F * g / ((1 - g) * (g - 9 / 10)))).
  assert (D0 : psi weak_shock x g = Some (f0, d0)).
  { destruct (psi_pos weak_shock x g Ig) as (d & E). pose proof (psi_some _ _ _ _ _ E) as (_ & _ & Ed).
    rewrite E. do 2 f_equal. exact Ed. }
  assert (S0 : g - f0 / d0 = u).
  { unfold u. rewrite <- N. unfold d0. fold y. field. lra. }
  assert (N0 : d0 <> 0).
  { unfold d0. apply Rlt_not_eq, Ropp_lt_gt_0_contravar. fold y. apply Rdiv_lt_0_compat; assumption. }
  assert (Pu : 0 < F * u) by (apply Rmult_lt_0_compat; lra).
  assert (Hu : 0 < (1 - u) * (u - 9 / 10)) by (apply Rmult_lt_0_compat; lra).
  assert (N1 : d1 <> 0).
  { unfold d1. apply Rlt_not_eq, Ropp_lt_gt_0_contravar. apply Rdiv_lt_0_compat; assumption. }
  set (w := u - f1 / d1).
  assert (Sm : Rabs (w - u) < becker_tol * (1 / 2) * (9 / 10 + 1)).
  { replace (w - u) with (f1 * ((1 - u) * (u - 9 / 10)) / (F * u)) by (unfold w, d1; field; repeat split; lra).
    assert (Q : Rabs (f1 * ((1 - u) * (u - 9 / 10)) / (F * u)) = (- f1) * ((1 - u) * (u - 9 / 10)) / (F * u)).
    { rewrite Rabs_left; [field; split; lra|]. apply Rmult_lt_reg_r with (F * u); [exact Pu|]. unfold Rdiv. rewrite Rmult_assoc, Rinv_l by lra.
      assert (f1 < 0) by (assert (0 < F / 10 ^ 6) by (apply Rdiv_lt_0_compat; [exact PF|apply pow_lt; lra]); lra). nra. }
    rewrite Q. apply quotient_below; [exact Pu|].
    apply Rle_lt_trans with (1200 * F * (1 / 10 ^ 20 * (1 / 10))).
    - apply Rmult_le_compat; [lra|lra|lra|].
      apply Rmult_le_compat; unfold u; lra.
    - replace (becker_tol * (1 / 2) * (9 / 10 + 1) * (F * u)) with (F * (becker_tol * (19 / 20) * u)) by field.
      replace (1200 * F * (1 / 10 ^ 20 * (1 / 10))) with (F * (120 / 10 ^ 20)) by field.
      apply Rmult_lt_compat_l; [exact PF|]. unfold becker_tol, u. lra. }
  destruct (psi_pos weak_shock x v Iv) as (dv & Dv).
  exists weak_shock, 2%nat, x, w, v, dv.
  do 4 (split; [apply weak_good|]). split; [|split].
  - unfold find_velocity. rewrite C. destruct (Rle_dec x xL); [lra|]. destruct (Rle_dec xR x); [lra|]. cbv zeta. fold g. rewrite D0.
    assert (NB : (xR - xL) * becker_tol < F / 10 ^ 6).
    { apply Rle_lt_trans with (608 * F * becker_tol); [apply Rmult_le_compat_r; lra|]. unfold becker_tol. lra. }
    cbn [becker_loop]. change (k_left weak_shock) with 1. change (k_right weak_shock) with (9 / 10).
    rewrite (Rabs_right f0) by lra. destruct (Rlt_dec ((xR - xL) * becker_tol) f0); [|lra].
    destruct (Req_EM_T d0 0); [contradiction|]. rewrite S0.
    destruct (Rlt_dec (Rabs (u - g)) _) as [Q|_].
    { exfalso. rewrite Rabs_right in Q by (unfold u; lra). unfold becker_tol, u in Q. lra. }
    destruct (Rlt_dec u (9 / 10)); [lra|]. destruct (Rlt_dec 1 u); [lra|]. rewrite D1.
    destruct (Rlt_dec ((xR - xL) * becker_tol) (Rabs f1)) as [_|Q]; [|exfalso; rewrite Rabs_left in Q; lra].
    destruct (Req_EM_T d1 0); [contradiction|]. fold w.
    destruct (Rlt_dec (Rabs (w - u)) _); [reflexivity|contradiction].
  - rewrite Dv, Ev. do 2 f_equal. ring.
  - change (k_left weak_shock) with 1. change (k_right weak_shock) with (9 / 10).
    apply Rlt_le_trans with (w - v); [|apply Rle_abs].
    apply Rabs_def2 in Sm. unfold becker_tol, u in Sm. lra.
Qed.
