(** * Symmetry, witnesses and counterexamples for C23 and C24 *)
From Coq Require Import Reals Lra Psatz.
From Verif Require Import NewtonSpec Newton NewtonProofs NewtonSign.
Local Open Scope R_scope.

(** Flipping the sign of the function flips the sign argument. *)
Lemma candidate_sign eps p f d dd :
  newton_candidate eps 1 p f d dd = newton_candidate eps (-1) p (- f) (- d) (- dd).
Proof.
  unfold newton_candidate.
  replace (- d * - d - 4 * - f * - dd) with (d * d - 4 * f * dd) by ring.
  set (s := sqrt _). clearbody s.
  replace (- d + -1 * s) with (- (d + 1 * s)) by ring.
  rewrite Rabs_Ropp. f_equal. f_equal.
  destruct (Req_dec (d + 1 * s) 0) as [->|H].
  - rewrite Ropp_0. unfold Rdiv. rewrite Rinv_0. ring.
  - field. lra.
Qed.

Lemma newton_sign eps p1 p2 f1 f2 d1 d2 :
  quadratic_newton_step eps 1 p1 p2 f1 f2 d1 d2 =
  quadratic_newton_step eps (-1) p1 p2 (- f1) (- f2) (- d1) (- d2).
Proof.
  unfold quadratic_newton_step. rewrite !candidate_sign.
  set (L := 1 / (p2 - p1 + eps)).
  replace (- (((f2 - f1) * L - d1) * L)) with (((- f2 - - f1) * L - - d1) * L) by ring.
  replace (- ((d2 - (f2 - f1) * L) * L)) with ((- d2 - (- f2 - - f1) * L) * L) by ring.
  reflexivity.
Qed.

Lemma newton_left_end_exact' psi psi1 psi2 psi3 p1 p2 q1 q2 :
  p1 <= p2 -> smooth3 psi psi1 psi2 psi3 p1 p2 ->
  one_signed psi3 p1 p2 ->
  0 <= psi p1 -> psi p2 <= 0 -> (psi p2 = 0 -> psi1 p2 <= 0) ->
  quadratic_newton_step 0 (-1) p1 p2 (psi p1) (psi p2) (psi1 p1) (psi1 p2) = (q1, q2) ->
  forall x, p1 <= x <= q1 -> 0 <= psi x.
Proof.
  intros Hp D S H0 H2 Hz E.
  apply (newton_left_end_exact psi psi1 psi2 psi3 p1 p2 q1 q2 Hp); auto;
    try (intros x Hx; apply D; exact Hx).
  destruct S as [S|S]; [left; exact S|right; auto].
Qed.

Lemma newton_left_end_eps' eps M psi psi1 psi2 psi3 p1 p2 q1 q2 :
  0 <= eps -> p1 <= p2 -> smooth3 psi psi1 psi2 psi3 p1 p2 ->
  one_signed psi3 p1 p2 ->
  (forall x, p1 <= x <= p2 -> Rabs (psi1 x) <= M) ->
  0 <= psi p1 -> psi p2 <= 0 ->
  (psi1 p2 <= 0 \/ (psi p2 < 0 /\ psi p2 <= - eps * (p2 - p1 + eps))) ->
  quadratic_newton_step eps (-1) p1 p2 (psi p1) (psi p2) (psi1 p1) (psi1 p2) = (q1, q2) ->
  forall x, p1 <= x <= q1 -> - ((9 * M + 2 * (p2 - p1)) * eps) <= psi x.
Proof.
  intros He Hp D S HM H0 H2 Hz E.
  apply (newton_left_end eps psi psi1 psi2 psi3 p1 p2 He) with (q2 := q2); auto;
    try (intros x Hx; apply D; exact Hx).
  destruct S as [S|S]; [left; exact S|right; auto].
Qed.

(** ** The cubic a3 x^3 + a2 x^2 + a1 x + a0 *)
Definition cubic a0 a1 a2 a3 (x : R) := a0 + a1 * x + a2 * (x * x) + a3 * (x * x * x).
Definition cubic1 a1 a2 a3 (x : R) := a1 + 2 * a2 * x + 3 * a3 * (x * x).
Definition cubic2 a2 a3 (x : R) := 2 * a2 + 6 * a3 * x.

Lemma cubic_smooth a0 a1 a2 a3 a b :
  smooth3 (cubic a0 a1 a2 a3) (cubic1 a1 a2 a3) (cubic2 a2 a3) (fun _ => 6 * a3) a b.
Proof.
  intros x _. unfold cubic, cubic1, cubic2.
  assert (I : derivable_pt_lim (fun x => x) x 1) by apply derivable_pt_lim_id.
  assert (I2 : derivable_pt_lim (fun x => x * x) x (1 * x + x * 1))
    by (apply (derivable_pt_lim_mult (fun x => x) (fun x => x)); assumption).
  assert (I3 : derivable_pt_lim (fun x => x * x * x) x ((1 * x + x * 1) * x + x * x * 1))
    by (apply (derivable_pt_lim_mult (fun x => x * x) (fun x => x)); assumption).
  split; [|split].
  - replace (a1 + 2 * a2 * x + 3 * a3 * (x * x)) with
      (0 + a1 * 1 + a2 * (1 * x + x * 1) + a3 * ((1 * x + x * 1) * x + x * x * 1)) by ring.
    apply derivable_pt_lim_plus; [apply derivable_pt_lim_plus; [apply derivable_pt_lim_plus|]|].
    + apply derivable_pt_lim_const.
    + apply (derivable_pt_lim_scal (fun x => x)); assumption.
    + apply (derivable_pt_lim_scal (fun x => x * x)); assumption.
    + apply (derivable_pt_lim_scal (fun x => x * x * x)); assumption.
  - replace (2 * a2 + 6 * a3 * x) with (0 + (2 * a2) * 1 + (3 * a3) * (1 * x + x * 1)) by ring.
    apply derivable_pt_lim_plus; [apply derivable_pt_lim_plus|].
    + apply derivable_pt_lim_const.
    + apply (derivable_pt_lim_scal (fun x => x)); assumption.
    + apply (derivable_pt_lim_scal (fun x => x * x)); assumption.
  - cut (derivable_pt_lim (fun x => 2 * a2 + 6 * a3 * x) x (0 + 6 * a3 * 1)).
    { intros H. replace (0 + 6 * a3 * 1) with (6 * a3) in H by ring. exact H. }
    apply derivable_pt_lim_plus.
    + apply derivable_pt_lim_const.
    + apply (derivable_pt_lim_scal (fun x => x)); assumption.
Qed.

Lemma sqrt_of_square a x : 0 <= a -> x = a * a -> sqrt x = a.
Proof. intros Ha ->. apply sqrt_square. exact Ha. Qed.

(** 1 - x^2 on [0, 2]: the root is found in one step. *)
Lemma ex_step : quadratic_newton_step 0 (-1) 0 2 (cubic 1 0 (-1) 0 0) (cubic 1 0 (-1) 0 2)
  (cubic1 0 (-1) 0 0) (cubic1 0 (-1) 0 2) = (1, 1).
Proof.
  replace (cubic 1 0 (-1) 0 0) with 1 by (unfold cubic; ring).
  replace (cubic 1 0 (-1) 0 2) with (-3) by (unfold cubic; ring).
  replace (cubic1 0 (-1) 0 0) with 0 by (unfold cubic1; ring).
  replace (cubic1 0 (-1) 0 2) with (-4) by (unfold cubic1; ring).
  unfold quadratic_newton_step.
  assert (T1 : newton_candidate 0 (-1) 0 1 0
            (((-3 - 1) * (1 / (2 - 0 + 0)) - 0) * (1 / (2 - 0 + 0))) = 1).
  { unfold newton_candidate, mask_lt.
    replace (0 * 0 - 4 * 1 * (((-3 - 1) * (1 / (2 - 0 + 0)) - 0) * (1 / (2 - 0 + 0))))
      with (2 * 2) by field.
    rewrite (Rabs_right (2 * 2)), (sqrt_square 2) by lra.
    destruct (Rlt_dec _ _) as [C|_]; [exfalso; assert (X := Rabs_pos (0 + -1 * 2)); lra|field]. }
  assert (T2 : newton_candidate 0 (-1) 2 (-3) (-4)
            ((-4 - (-3 - 1) * (1 / (2 - 0 + 0))) * (1 / (2 - 0 + 0))) = 1).
  { unfold newton_candidate, mask_lt.
    replace (-4 * -4 - 4 * -3 * ((-4 - (-3 - 1) * (1 / (2 - 0 + 0))) * (1 / (2 - 0 + 0))))
      with (2 * 2) by field.
    rewrite (Rabs_right (2 * 2)), (sqrt_square 2) by lra.
    destruct (Rlt_dec _ _) as [C|_]; [exfalso; assert (X := Rabs_pos (-4 + -1 * 2)); lra|field]. }
  rewrite T1, T2. unfold clamp.
  rewrite (Rmax_right 0 1), (Rmin_right 2 1), Rmin_left, Rmax_left by lra. reflexivity.
Qed.

(** A zero of psi at the right end with positive slope: the guard against
    vanishing denominators keeps t_2 = p_2 and the left candidate is a root of
    an interpolant that lies above psi. *)
Lemma zero_right_refuted eps : 0 < eps <= 1 / 100 ->
  exists psi psi1 psi2 psi3 p1 p2 q1 q2,
    p1 < p2 /\ smooth3 psi psi1 psi2 psi3 p1 p2 /\
    (forall x, p1 <= x <= p2 -> 0 <= psi3 x) /\ 0 <= psi p1 /\ psi p2 <= 0 /\
    quadratic_newton_step eps (-1) p1 p2 (psi p1) (psi p2) (psi1 p1) (psi1 p2) = (q1, q2) /\
    psi q1 < - (1 / 10).
Proof.
  intros He.
  set (p := 1 - eps).
  set (a2 := (p - 1 / 3 - p * p * p) / (p * p)).
  assert (Hp : 99 / 100 <= p < 1) by (unfold p; lra).
  assert (Ea : a2 * (p * p) = p - 1 / 3 - p * p * p) by (unfold a2; field; nra).
  assert (Ha : - (35 / 100) <= a2 <= - (31 / 100)).
  { assert (98 / 100 <= p * p <= 1) by nra.
    assert (97 / 100 <= p * p * p <= 1) by nra. split; nra. }
  exists (cubic (1 / 3) (-1) a2 1), (cubic1 (-1) a2 1), (cubic2 a2 1), (fun _ => 6 * 1).
  exists 0, p, (1 / 2), p.
  assert (F1 : cubic (1 / 3) (-1) a2 1 0 = 1 / 3) by (unfold cubic; ring).
  assert (F2 : cubic (1 / 3) (-1) a2 1 p = 0) by (unfold cubic; lra).
  assert (G1 : cubic1 (-1) a2 1 0 = -1) by (unfold cubic1; ring).
  assert (G2 : 0 < cubic1 (-1) a2 1 p) by (unfold cubic1; nra).
  split; [lra|]. split; [apply cubic_smooth|]. split; [intros; lra|].
  split; [lra|]. split; [lra|]. split.
  - rewrite F1, F2, G1. set (d2 := cubic1 (-1) a2 1 p) in *. clearbody d2.
    unfold quadratic_newton_step.
    replace (p - 0 + eps) with 1 by (unfold p; ring).
    replace (1 / 1) with 1 by field.
    assert (T1 : newton_candidate eps (-1) 0 (1 / 3) (-1) (((0 - 1 / 3) * 1 - -1) * 1) = 1 / 2).
    { unfold newton_candidate, mask_lt.
      replace (-1 * -1 - 4 * (1 / 3) * (((0 - 1 / 3) * 1 - -1) * 1)) with (1 / 9) by field.
      rewrite (Rabs_right (1 / 9)) by lra.
      rewrite (sqrt_of_square (1 / 3) (1 / 9)) by lra.
      destruct (Rlt_dec _ _) as [C|_].
      - rewrite Rabs_left in C by lra. lra.
      - field. }
    assert (T2 : newton_candidate eps (-1) p 0 d2 ((d2 - (0 - 1 / 3) * 1) * 1) = p).
    { unfold newton_candidate, mask_lt. destruct (Rlt_dec _ _); [ring|].
      unfold Rdiv. ring. }
    rewrite T1, T2. unfold clamp.
    rewrite (Rmax_right 0 (1 / 2)), (Rmin_right p (1 / 2)) by lra.
    rewrite (Rmax_right 0 p), (Rmin_right p p) by lra.
    rewrite Rmin_left, Rmax_right by lra. reflexivity.
  - unfold cubic. nra.
Qed.

(** Even away from that situation the regularisation of the divided differences
    moves the left end slightly past the root: psi = 1 - x^2 on [0, 2]. *)
Lemma sign_eps_refuted eps : 0 < eps <= 1 / 100 ->
  exists psi psi1 psi2 psi3 p1 p2 q1 q2,
    p1 < p2 /\ smooth3 psi psi1 psi2 psi3 p1 p2 /\
    (forall x, p1 <= x <= p2 -> psi3 x = 0) /\ 0 < psi p1 /\ psi p2 < 0 /\
    (forall x, p1 < x -> psi1 x < 0) /\
    quadratic_newton_step eps (-1) p1 p2 (psi p1) (psi p2) (psi1 p1) (psi1 p2) = (q1, q2) /\
    psi q1 < 0.
Proof.
  intros He.
  exists (cubic 1 0 (-1) 0), (cubic1 0 (-1) 0), (cubic2 (-1) 0), (fun _ => 6 * 0), 0, 2.
  eexists. eexists.
  assert (F1 : cubic 1 0 (-1) 0 0 = 1) by (unfold cubic; ring).
  assert (F2 : cubic 1 0 (-1) 0 2 = -3) by (unfold cubic; ring).
  assert (G1 : cubic1 0 (-1) 0 0 = 0) by (unfold cubic1; ring).
  assert (G2 : cubic1 0 (-1) 0 2 = -4) by (unfold cubic1; ring).
  split; [lra|]. split; [apply cubic_smooth|]. split; [intros; ring|].
  split; [lra|]. split; [lra|]. split; [intros; unfold cubic1; lra|].
  rewrite F1, F2, G1, G2. unfold quadratic_newton_step.
  split; [reflexivity|].
  replace (2 - 0 + eps) with (2 + eps) by ring.
  set (L := 2 + eps). assert (HL : 2 < L) by (unfold L; lra).
  cut (1 < Rmin (clamp 0 2 (newton_candidate eps (-1) 0 1 0 (((-3 - 1) * (1 / L) - 0) * (1 / L))))
         (clamp 0 2 (newton_candidate eps (-1) 2 (-3) (-4) ((-4 - (-3 - 1) * (1 / L)) * (1 / L))))).
  { intros H. set (q := Rmin _ _) in *. unfold cubic. nra. }
  assert (Cl : forall t, 1 < t -> 1 < clamp 0 2 t).
  { intros t Ht. unfold clamp. apply Rmin_glb_lt; [lra|].
    eapply Rlt_le_trans; [exact Ht|apply Rmax_r]. }
  apply Rmin_glb_lt; apply Cl; unfold newton_candidate, mask_lt.
  - replace (0 * 0 - 4 * 1 * (((-3 - 1) * (1 / L) - 0) * (1 / L))) with (4 / L * (4 / L))
      by (field; lra).
    assert (H4 : 0 < 4 / L) by (apply Rdiv_lt_0_compat; lra).
    rewrite (Rabs_right (4 / L * (4 / L))) by nra. rewrite sqrt_square by lra.
    replace (0 + -1 * (4 / L)) with (- (4 / L)) by ring.
    rewrite Rabs_Ropp, Rabs_right by lra.
    assert (1 < 4 / L).
    { apply Rmult_lt_reg_r with L; [lra|]. unfold Rdiv. rewrite Rmult_assoc, Rinv_l by lra.
      unfold L; lra. }
    destruct (Rlt_dec (4 / L) eps) as [C|_]; [lra|].
    replace (0 - 2 * 1 / - (4 / L)) with (L / 2) by (field; lra). lra.
  - set (b := (-4 - (-3 - 1) * (1 / L)) * (1 / L)).
    assert (Hb : b * (L * L) = 4 - 4 * L) by (unfold b; field; lra).
    assert (Hb1 : -1 < b).
    { apply Rmult_lt_reg_r with (L * L); [nra|]. rewrite Hb. nra. }
    assert (Hb2 : b < 0).
    { apply Rmult_lt_reg_r with (L * L); [nra|]. rewrite Hb. lra. }
    set (disc := -4 * -4 - 4 * -3 * b).
    assert (Hd : 4 < disc) by (unfold disc; lra).
    assert (Hs := sqrt_abs_sq disc). assert (Hs0 := sqrt_pos (Rabs disc)).
    rewrite (Rabs_right disc) in * by lra.
    set (s := sqrt disc) in *. clearbody s.
    assert (H2 : 2 < s) by nra.
    destruct (Rlt_dec _ _) as [C|_].
    + rewrite Rabs_left in C by lra. lra.
    + assert (E : 2 * -3 / (-4 + -1 * s) * (4 + s) = 6) by (field; lra).
      set (z := 2 * -3 / (-4 + -1 * s)) in *. nra.
Qed.

(** The mirrored statement for the default sign argument +1. *)
Lemma newton_left_end_exact_plus psi psi1 psi2 psi3 p1 p2 q1 q2 :
  p1 <= p2 -> smooth3 psi psi1 psi2 psi3 p1 p2 -> one_signed psi3 p1 p2 ->
  psi p1 <= 0 -> 0 <= psi p2 -> (psi p2 = 0 -> 0 <= psi1 p2) ->
  quadratic_newton_step 0 1 p1 p2 (psi p1) (psi p2) (psi1 p1) (psi1 p2) = (q1, q2) ->
  forall x, p1 <= x <= q1 -> psi x <= 0.
Proof.
  intros Hp D S H0 H2 Hz E x Hx.
  rewrite newton_sign in E.
  cut (0 <= - psi x); [lra|].
  apply (newton_left_end_exact' (fun x => - psi x) (fun x => - psi1 x) (fun x => - psi2 x)
    (fun x => - psi3 x) p1 p2 q1 q2 Hp); try lra; try assumption.
  - intros y Hy. destruct (D y Hy) as (A & B & C).
    split; [|split]; apply (derivable_pt_lim_opp); assumption.
  - destruct S as [S|S]; [right|left]; intros y Hy; assert (X := S y Hy); lra.
Qed.

Lemma newton_iterable psi psi1 psi2 psi3 p1 p2 q1 q2 :
    p1 <= p2 -> smooth3 psi psi1 psi2 psi3 p1 p2 ->
    (forall x, p1 <= x <= p2 -> 0 <= psi3 x) ->
    0 <= psi p1 -> psi p2 <= 0 -> (psi p2 = 0 -> psi1 p2 <= 0) ->
    quadratic_newton_step 0 (-1) p1 p2 (psi p1) (psi p2) (psi1 p1) (psi1 p2) = (q1, q2) ->
    q1 = q2 \/ (psi q2 = 0 -> psi1 q2 <= 0).
Proof.
  intros Hp S S3 H0 H2 Hz E.
  apply (newton_right_end_exact psi psi1 psi2 psi3 p1 p2 q1 q2); try assumption;
    intros x Hx; apply (S x Hx).
Qed.
