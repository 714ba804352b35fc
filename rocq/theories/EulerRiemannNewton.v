(** * The Newton iteration of the Euler Riemann solver keeps the exact pressure in its bracket *)
From Coq Require Import Reals Lra Lia Arith Psatz.
From Verif Require Import RVec Simd SimdProofs Newton NewtonSpec NewtonProofs NewtonSign NewtonFinal EulerSystem PhysLib GasWaves SWRiemannProofs EulerRiemann EulerRiemannSpec EulerRiemannProofs.
Local Open Scope R_scope.

(** ** The right end of the bracket, exact arithmetic *)

Lemma right_candidate p2 z f2 d2 b :
  0 <= f2 -> 0 < d2 -> z <= p2 -> quad p2 f2 d2 b z <= 0 ->
  z <= newton_candidate 0 1 p2 f2 d2 b.
Proof.
  intros Hf Hd Hz Q. unfold newton_candidate, mask_lt.
  set (disc := d2 * d2 - 4 * f2 * b). set (s := sqrt (Rabs disc)).
  assert (S0 : 0 <= s) by apply sqrt_pos. assert (Ss : s * s = Rabs disc) by apply sqrt_abs_sq.
  assert (Pd : 0 < d2 + 1 * s) by lra.
  destruct (Rlt_dec (Rabs (d2 + 1 * s)) 0) as [C|_]; [pose proof (Rabs_pos (d2 + 1 * s)); lra|].
  unfold quad in Q. set (y := z - p2) in *. assert (Hy : y <= 0) by (unfold y; lra).
  assert (K : 2 * f2 + (d2 + s) * y <= 0).
  { destruct (Req_dec y 0) as [E|E]; [rewrite E in *; lra|].
    assert (Dn : 0 <= disc).
    { assert (4 * f2 * (f2 + d2 * y + b * (y * y)) <= 0) by nra.
      assert (4 * f2 * (f2 + d2 * y + b * (y * y)) = (2 * f2 + d2 * y) * (2 * f2 + d2 * y) - disc * (y * y)) by (unfold disc; ring).
      assert (0 <= (2 * f2 + d2 * y) * (2 * f2 + d2 * y)) by apply Rle_0_sqr.
      assert (0 < y * y) by nra.
      destruct (Rle_dec 0 disc); [assumption|]. exfalso. nra. }
    rewrite Rabs_right in Ss by lra.
    assert (P : (2 * f2 + (d2 + s) * y) * (2 * f2 + (d2 - s) * y) = 4 * f2 * (f2 + d2 * y + b * (y * y))).
    { transitivity ((2 * f2 + d2 * y) * (2 * f2 + d2 * y) - (s * s) * (y * y)); [ring|]. rewrite Ss. unfold disc. ring. }
    assert (4 * f2 * (f2 + d2 * y + b * (y * y)) <= 0) by nra.
    assert ((d2 + s) * y <= (d2 - s) * y) by nra.
    destruct (Rle_dec (2 * f2 + (d2 + s) * y) 0); [assumption|]. exfalso. nra. }
  assert (2 * f2 / (d2 + 1 * s) <= - y).
  { apply Rmult_le_reg_r with (d2 + 1 * s); [exact Pd|]. unfold Rdiv. rewrite Rmult_assoc, Rinv_l by lra. lra. }
  unfold y in *. lra.
Qed.

Lemma newton_right_end_plus psi psi1 psi2 psi3 p1 p2 q1 q2 z :
  p1 <= p2 -> smooth3 psi psi1 psi2 psi3 p1 p2 -> (forall x, p1 <= x <= p2 -> 0 <= psi3 x) ->
  0 <= psi p2 -> 0 < psi1 p2 -> p1 <= z <= p2 -> psi z <= 0 ->
  quadratic_newton_step 0 1 p1 p2 (psi p1) (psi p2) (psi1 p1) (psi1 p2) = (q1, q2) ->
  z <= q2.
Proof.
  intros Hp S S3 F2 D2 Hz Fz E.
  destruct (Req_dec p1 p2) as [Eq|Ne].
  { destruct (newton_shrinks 0 1 p1 p2 (psi p1) (psi p2) (psi1 p1) (psi1 p2) q1 q2 Hp E) as (A & B & _). lra. }
  unfold quadratic_newton_step in E. injection E as _ <-.
  eapply Rle_trans; [|apply Rmax_r].
  unfold clamp. apply Rmin_glb; [lra|]. eapply Rle_trans; [|apply Rmax_r].
  apply right_candidate; try lra.
  assert (Q : quad p2 (psi p2) (psi1 p2) ((psi1 p2 - (psi p2 - psi p1) / (p2 - p1)) / (p2 - p1)) z <= psi z).
  { apply (psi_ge_q122 psi psi1 psi2 psi3 p1 p2); try lra; try (intros x Hx; apply S; exact Hx); assumption. }
  replace ((psi1 p2 - (psi p2 - psi p1) * (1 / (p2 - p1 + 0))) * (1 / (p2 - p1 + 0)))
    with ((psi1 p2 - (psi p2 - psi p1) / (p2 - p1)) / (p2 - p1)) by (rewrite Rplus_0_r; field; lra).
  lra.
Qed.

(** ** The two branches of f as smooth functions *)

(** A smooth function that agrees with f and df on [a, b]. *)
Definition branch (g : R) (Z : edata) (a b : R) : Prop :=
  exists psi psi1 psi2 psi3, forall x, a <= x <= b ->
    (derivable_pt_lim psi x (psi1 x) /\ derivable_pt_lim psi1 x (psi2 x) /\ derivable_pt_lim psi2 x (psi3 x)) /\
    psi x = er_f g Z x /\ psi1 x = er_df g Z x /\ 0 <= psi3 x /\ 0 < psi1 x.

Lemma powr_affine_deriv a b e x : 0 < a * x + b ->
  derivable_pt_lim (fun t => powr (a * t + b) e) x (e * powr (a * x + b) (e - 1) * a).
Proof.
  intros H. apply (powr_comp_deriv (fun t => a * t + b)); [exact H|].
  apply (deriv_transfer (fun t => a * t + b) (fun t => b + t * a) x a a); [intros; ring|reflexivity|apply affine_deriv].
Qed.

(** c (A^e + d A^f) with A = a x + b *)
Lemma two_powers_deriv a b c e d f x : 0 < a * x + b ->
  derivable_pt_lim (fun t => c * (powr (a * t + b) e + d * powr (a * t + b) f)) x
    (c * (e * powr (a * x + b) (e - 1) * a + d * (f * powr (a * x + b) (f - 1) * a))).
Proof.
  intros H. apply (derivable_pt_lim_scal (fun t => powr (a * t + b) e + d * powr (a * t + b) f)).
  apply (derivable_pt_lim_plus (fun t => powr (a * t + b) e) (fun t => d * powr (a * t + b) f)).
  - apply powr_affine_deriv. exact H.
  - apply (derivable_pt_lim_scal (fun t => powr (a * t + b) f)). apply powr_affine_deriv. exact H.
Qed.

Lemma powr_half x : 0 < x -> powr x (1 / 2) = sqrt x.
Proof. intros H. rewrite powr_pos by exact H. replace (1 / 2) with (/ 2) by field. apply Rpower_sqrt. exact H. Qed.

Lemma shock_branch g rho u p a b : 1 < g -> 0 < rho -> 0 < p -> p <= a -> branch g (gas g rho u p) a b.
Proof.
  intros Hg Hr Hp Ha.
  set (A := fun x => (g + 1) * x + (g - 1) * p).
  set (c := sqrt (2 / rho) / (g + 1)). set (q := 2 * g * p).
  assert (Pq : 0 < q) by (unfold q; nra).
  assert (Pc : 0 < c) by (unfold c; apply Rdiv_lt_0_compat; [apply sqrt_lt_R0, Rdiv_lt_0_compat; lra|lra]).
  exists (fun x => c * (powr (A x) (1 / 2) + (- q) * powr (A x) (- (1 / 2)))),
    (fun x => (c * (g + 1) / 2) * (powr (A x) (- (1 / 2)) + q * powr (A x) (- (3 / 2)))),
    (fun x => - (c * (g + 1) * (g + 1) / 4) * (powr (A x) (- (3 / 2)) + 3 * q * powr (A x) (- (5 / 2)))),
    (fun x => 3 / 8 * (c * (g + 1) * (g + 1) * (g + 1)) * (powr (A x) (- (5 / 2)) + 5 * q * powr (A x) (- (7 / 2)))).
  intros x Hx. assert (PA : 0 < A x) by (unfold A; nra).
  split; [split; [|split]|split; [|split; [|split]]].
  - eapply deriv_transfer; [intros; reflexivity| |apply two_powers_deriv; exact PA].
    fold (A x). replace (1 / 2 - 1) with (- (1 / 2)) by field. replace (- (1 / 2) - 1) with (- (3 / 2)) by field. field.
  - eapply deriv_transfer; [intros; reflexivity| |apply two_powers_deriv; exact PA].
    fold (A x). replace (- (1 / 2) - 1) with (- (3 / 2)) by field. replace (- (3 / 2) - 1) with (- (5 / 2)) by field. field.
  - eapply deriv_transfer; [intros; reflexivity| |apply two_powers_deriv; exact PA].
    fold (A x). replace (- (3 / 2) - 1) with (- (5 / 2)) by field. replace (- (5 / 2) - 1) with (- (7 / 2)) by field. field.
  - rewrite f_above by lra. fold (A x).
    rewrite powr_opp, powr_half by exact PA.
    replace (2 / (rho * A x)) with (2 / rho * / A x) by (field; lra).
    rewrite sqrt_mult_alt by (apply Rlt_le, Rdiv_lt_0_compat; lra). rewrite sqrt_inv.
    pose proof (sqrt_lt_R0 (A x) PA) as Ps. pose proof (sqrt_sqrt (A x) ltac:(lra)) as Sq.
    unfold c. apply Rmult_eq_reg_r with (sqrt (A x) * (g + 1)); [|nra].
    replace (sqrt (2 / rho) / (g + 1) * (sqrt (A x) + - q * / sqrt (A x)) * (sqrt (A x) * (g + 1)))
      with (sqrt (2 / rho) * (sqrt (A x) * sqrt (A x) - q)) by (field; lra).
    rewrite Sq. replace ((x - p) * (sqrt (2 / rho) * / sqrt (A x)) * (sqrt (A x) * (g + 1)))
      with (sqrt (2 / rho) * ((x - p) * (g + 1))) by (field; lra).
    unfold A, q. ring.
  - unfold er_df, mask_ge, gas; cbn [ed_rho ed_u ed_p ed_a]. destruct (Rge_dec x p); [|lra]. fold (A x).
    replace (- (3 / 2)) with (- (1 / 2) + - (1)) by field. rewrite powr_plus by exact PA.
    rewrite (powr_opp (A x) 1), powr_1 by exact PA. rewrite powr_opp, powr_half by exact PA.
    replace (1 / 2 * rho * A x) with (/ (2 / rho) * A x) by (field; lra).
    assert (P2 : 0 < 2 / rho) by (apply Rdiv_lt_0_compat; lra).
    rewrite sqrt_mult_alt by (apply Rlt_le, Rinv_0_lt_compat; exact P2). rewrite sqrt_inv.
    pose proof (sqrt_lt_R0 _ P2). pose proof (sqrt_lt_R0 (A x) PA).
    replace (x + (g - 1) * (1 / (g + 1)) * p) with (A x / (g + 1)) by (unfold A; field; lra).
    unfold c. replace (x - p) with ((A x - q) / (g + 1)) by (unfold A, q; field; lra).
    field. repeat split; lra.
  - assert (0 < powr (A x) (- (5 / 2))) by (apply powr_gt0; exact PA).
    assert (0 < powr (A x) (- (7 / 2))) by (apply powr_gt0; exact PA).
    apply Rmult_le_pos.
    + clearbody c. apply Rmult_le_pos; [lra|]. repeat apply Rmult_le_pos; lra.
    + assert (0 < 5 * q * powr (A x) (- (7 / 2))) by (repeat apply Rmult_lt_0_compat; lra). lra.
  - assert (0 < powr (A x) (- (1 / 2))) by (apply powr_gt0; exact PA).
    assert (0 < powr (A x) (- (3 / 2))) by (apply powr_gt0; exact PA).
    apply Rmult_lt_0_compat.
    + apply Rdiv_lt_0_compat; [|lra]. apply Rmult_lt_0_compat; lra.
    + assert (0 < q * powr (A x) (- (3 / 2))) by (repeat apply Rmult_lt_0_compat; lra). lra.
Qed.

Lemma rare_branch g rho u p a b : 1 < g -> 0 < rho -> 0 < p -> 0 < a -> b <= p -> branch g (gas g rho u p) a b.
Proof.
  intros Hg Hr Hp Ha Hb.
  set (k := (g - 1) / (2 * g)). set (C := 2 * sound g rho p / (g - 1)).
  assert (Pa : 0 < sound g rho p) by (apply sound_pos; lra).
  assert (PC : 0 < C) by (unfold C; apply Rdiv_lt_0_compat; lra).
  assert (Pk : 0 < k < 1).
  { unfold k. split; [apply Rdiv_lt_0_compat; lra|]. apply Rmult_lt_reg_r with (2 * g); [lra|].
    unfold Rdiv. rewrite Rmult_assoc, Rinv_l by lra. lra. }
  set (D := fun c e x => c * powr (/ p * x + 0) e).
  assert (PD : forall c e x, 0 < x -> derivable_pt_lim (D c e) x (D (c * e / p) (e - 1) x)).
  { intros c e x Hx. unfold D.
    replace (c * e / p * powr (/ p * x + 0) (e - 1)) with (c * (e * powr (/ p * x + 0) (e - 1) * / p)) by (field; lra).
    apply (derivable_pt_lim_scal (fun t => powr (/ p * t + 0) e)). apply powr_affine_deriv.
    rewrite Rplus_0_r. apply Rmult_lt_0_compat; [apply Rinv_0_lt_compat|]; lra. }
  exists (fun x => D C k x - C), (D (C * k / p) (k - 1)), (D (C * k / p * (k - 1) / p) (k - 1 - 1)),
    (D (C * k / p * (k - 1) / p * (k - 1 - 1) / p) (k - 1 - 1 - 1)).
  intros x Hx.
  assert (PX : forall e, 0 < powr (/ p * x + 0) e).
  { intros e. apply powr_gt0. rewrite Rplus_0_r. apply Rmult_lt_0_compat; [apply Rinv_0_lt_compat|]; lra. }
  split; [split; [|split]|split; [|split; [|split]]].
  - replace (D (C * k / p) (k - 1) x) with (D (C * k / p) (k - 1) x - 0) by ring.
    apply (derivable_pt_lim_minus (D C k) (fun _ => C)); [apply PD; lra|apply derivable_pt_lim_const].
  - apply PD. lra.
  - apply PD. lra.
  - rewrite f_below by lra. fold k C. unfold D. replace (/ p * x + 0) with (x / p) by (field; lra). ring.
  - unfold er_df, mask_ge, gas; cbn [ed_rho ed_u ed_p ed_a]. destruct (Rge_dec x p) as [G|G].
    + assert (x = p) as -> by lra. unfold D. replace (/ p * p + 0) with 1 by (field; lra).
      rewrite powr_pos, Rpower_base_1 by lra.
      unfold C, k, sound.
      replace (1 / 2 * rho * ((g + 1) * p + (g - 1) * p)) with (rho * rho * (g * p / rho)) by (field; lra).
      assert (P1 : 0 < g * p / rho) by (apply Rdiv_lt_0_compat; nra).
      rewrite sqrt_mult_alt by nra. rewrite sqrt_square by lra.
      pose proof (sqrt_lt_R0 _ P1). pose proof (sqrt_sqrt (g * p / rho) ltac:(lra)) as Q.
      set (s := sqrt (g * p / rho)) in *.
      replace (p + (g - 1) * (1 / (g + 1)) * p - 1 / 2 * (p - p)) with (p + (g - 1) * (1 / (g + 1)) * p) by ring.
      assert (0 < p + (g - 1) * (1 / (g + 1)) * p).
      { assert (0 < 1 / (g + 1)) by (apply Rdiv_lt_0_compat; lra).
        assert (0 < (g - 1) * (1 / (g + 1)) * p) by (repeat apply Rmult_lt_0_compat; lra). lra. }
      apply Rmult_eq_reg_r with (rho * s * (g * p)); [|apply Rgt_not_eq; repeat apply Rmult_lt_0_compat; lra].
      replace ((p + (g - 1) * (1 / (g + 1)) * p) / ((p + (g - 1) * (1 / (g + 1)) * p) * (rho * s)) * (rho * s * (g * p)))
        with (g * p).
      2:{ match goal with HT : 0 < p + (g - 1) * (1 / (g + 1)) * p |- _ => set (T := p + (g - 1) * (1 / (g + 1)) * p) in *; clearbody T end.
          clearbody s. field. repeat split; lra. }
      replace (2 * s / (g - 1) * ((g - 1) / (2 * g)) / p * 1 * (rho * s * (g * p))) with (rho * (s * s)) by (field; lra).
      rewrite Q. field. lra.
    + unfold D. replace (/ p * x + 0) with (x / p) by (field; lra).
      replace ((- 1 - g) * (1 / 2) * (1 / g)) with (k - 1) by (unfold k; field; lra).
      unfold C, k. field. repeat split; lra.
  - unfold D. apply Rmult_le_pos; [|left; apply PX].
    replace (C * k / p * (k - 1) / p * (k - 1 - 1) / p) with (C * k * ((1 - k) * (2 - k)) / (p * p * p)) by (field; lra).
    apply Rmult_le_pos; [|apply Rlt_le, Rinv_0_lt_compat; repeat apply Rmult_lt_0_compat; lra].
    clearbody C k. repeat apply Rmult_le_pos; lra.
  - unfold D. apply Rmult_lt_0_compat; [|apply PX].
    apply Rdiv_lt_0_compat; [|lra]. apply Rmult_lt_0_compat; lra.
Qed.

(** phi on an interval without kinks. *)
Lemma phi_branch g di dj a b : branch g di a b -> branch g dj a b ->
  exists psi psi1 psi2 psi3, smooth3 psi psi1 psi2 psi3 a b /\
    forall x, a <= x <= b -> psi x = er_phi g di dj x /\ psi1 x = er_dphi g di dj x /\ 0 <= psi3 x /\ 0 < psi1 x.
Proof.
  intros (f & f1 & f2 & f3 & F) (h & h1 & h2 & h3 & H).
  exists (fun x => f x + h x + (ed_u dj - ed_u di)), (fun x => f1 x + h1 x), (fun x => f2 x + h2 x), (fun x => f3 x + h3 x).
  split.
  - intros x Hx. destruct (F x Hx) as ((A1 & A2 & A3) & _). destruct (H x Hx) as ((B1 & B2 & B3) & _).
    split; [|split].
    + replace (f1 x + h1 x) with (f1 x + h1 x + 0) by ring.
      apply (derivable_pt_lim_plus (fun x => f x + h x) (fun _ => ed_u dj - ed_u di)); [|apply derivable_pt_lim_const].
      apply (derivable_pt_lim_plus f h); assumption.
    + apply (derivable_pt_lim_plus f1 h1); assumption.
    + apply (derivable_pt_lim_plus f2 h2); assumption.
  - intros x Hx. destruct (F x Hx) as (_ & A1 & A2 & A3 & A4). destruct (H x Hx) as (_ & B1 & B2 & B3 & B4).
    split; [|split; [|split]].
    + unfold er_phi. rewrite A1, B1. ring.
    + unfold er_dphi. rewrite A2, B2. reflexivity.
    + lra.
    + lra.
Qed.

(** phi is strictly increasing on an interval without kinks. *)
Lemma phi_mono g di dj a b x y : branch g di a b -> branch g dj a b -> a <= x -> x < y -> y <= b ->
  er_phi g di dj x < er_phi g di dj y.
Proof.
  intros B1 B2 Hx Hxy Hy. destruct (phi_branch g di dj a b B1 B2) as (psi & psi1 & psi2 & psi3 & S & P).
  destruct (MVT_cor2 psi psi1 x y Hxy) as (c & E & Hc); [intros c Hc; apply S; lra|].
  destruct (P x ltac:(lra)) as (<- & _). destruct (P y ltac:(lra)) as (<- & _).
  destruct (P c ltac:(lra)) as (_ & _ & _ & Pc). nra.
Qed.

(** One step keeps the root in the bracket. *)
Lemma newton_bracket g di dj a b z p1 p2 q1 q2 :
  branch g di a b -> branch g dj a b -> er_phi g di dj z = 0 ->
  a <= p1 -> p1 <= z <= p2 -> p2 <= b ->
  quadratic_newton_step 0 1 p1 p2 (er_phi g di dj p1) (er_phi g di dj p2) (er_dphi g di dj p1) (er_dphi g di dj p2) = (q1, q2) ->
  a <= q1 /\ q1 <= z <= q2 /\ q2 <= b.
Proof.
  intros B1 B2 Z Ha Hz Hb E.
  destruct (phi_branch g di dj a b B1 B2) as (psi & psi1 & psi2 & psi3 & S & P).
  assert (S' : smooth3 psi psi1 psi2 psi3 p1 p2) by (intros x Hx; apply S; lra).
  assert (P' : forall x, p1 <= x <= p2 -> 0 <= psi3 x) by (intros x Hx; apply P; lra).
  assert (Zp : psi z = 0) by (destruct (P z ltac:(lra)) as (-> & _); exact Z).
  assert (F1 : psi p1 <= 0).
  { destruct (P p1 ltac:(lra)) as (-> & _). destruct (Req_dec p1 z) as [->|]; [lra|].
    rewrite <- Z. left. apply (phi_mono g di dj a b); try assumption; lra. }
  assert (F2 : 0 <= psi p2).
  { destruct (P p2 ltac:(lra)) as (-> & _). destruct (Req_dec p2 z) as [->|]; [lra|].
    rewrite <- Z. left. apply (phi_mono g di dj a b); try assumption; lra. }
  destruct (P p2 ltac:(lra)) as (E2 & E2' & _ & D2). destruct (P p1 ltac:(lra)) as (E1 & E1' & _ & _).
  rewrite <- E1, <- E2, <- E1', <- E2' in E.
  destruct (newton_shrinks 0 1 p1 p2 (psi p1) (psi p2) (psi1 p1) (psi1 p2) q1 q2 ltac:(lra) E) as (Q1 & Q2 & Q3).
  assert (zq2 : z <= q2).
  { apply (newton_right_end_plus psi psi1 psi2 psi3 p1 p2 q1 q2 z); try assumption; lra. }
  assert (q1z : q1 <= z).
  { assert (psi q1 <= 0).
    { apply (newton_left_end_exact_plus psi psi1 psi2 psi3 p1 p2 q1 q2); try assumption; try lra.
      right. exact P'. }
    destruct (Rle_dec q1 z) as [C|C]; [exact C|exfalso].
    assert (er_phi g di dj z < er_phi g di dj q1) by (apply (phi_mono g di dj a b); try assumption; lra).
    destruct (P q1 ltac:(lra)) as (Eq & _). lra. }
  lra.
Qed.
