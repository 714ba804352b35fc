(** * The wave speed estimate of the Euler equations is positive *)
From Coq Require Import Reals Arith Lra Psatz.
From Verif Require Import GasWaves RVec Simd Newton EulerSystem PhysSpec PhysLib SWRiemannProofs SWRiemannFinal EulerRiemann EulerRiemannSpec EulerRiemannProofs EulerRiemannFinal.
Local Open Scope R_scope.

(** a * stretch for a shock of pressure x. *)
Lemma shock_stretch g rho p x : 1 < g -> 0 < rho -> 0 < p -> p <= x ->
  sound g rho p * e_stretch g p x =
  ((g + 1) * x + (g - 1) * p) / 2 * sqrt (2 / (rho * ((g + 1) * x + (g - 1) * p))).
Proof.
  intros Hg Hr Hp Hx. unfold sound, e_stretch. rewrite <- sqrt_mult_alt.
  - rewrite pp_pos by (apply Rmult_le_pos; [lra|]; left; apply Rdiv_lt_0_compat; lra).
    set (B := (g + 1) * x + (g - 1) * p).
    assert (HB : 0 < B) by (unfold B; assert (0 < (g + 1) * x) by nra; assert (0 < (g - 1) * p) by nra; lra).
    rewrite <- (sqrt_square (B / 2)) at 1 by lra. rewrite <- sqrt_mult_alt by nra.
    f_equal. replace (B / 2 * (B / 2) * (2 / (rho * B))) with (B / (2 * rho)) by (field; lra).
    unfold B. field. lra.
  - apply Rlt_le, Rdiv_lt_0_compat; [nra|lra].
Qed.

Lemma stretch_pos g rho p x : 1 < g -> 0 < rho -> 0 < p -> 0 < sound g rho p * e_stretch g p x.
Proof.
  intros Hg Hr Hp. pose proof (sound_pos g rho p Hg Hr Hp). pose proof (e_stretch_ge_1 g p x Hg). nra.
Qed.

(** The velocity jump across a wave is smaller than the speed of its head
    relative to the fluid. *)
Lemma f_lt_stretch g rho u p x : 1 < g -> 0 < rho -> 0 < p -> 0 < x ->
  er_f g (gas g rho u p) x < sound g rho p * e_stretch g p x.
Proof.
  intros Hg Hr Hp Hx0. pose proof (stretch_pos g rho p x Hg Hr Hp) as S.
  destruct (Rle_dec x p) as [C|C].
  - rewrite f_below by lra. apply Rle_lt_trans with 0; [|exact S].
    assert (powr (x / p) ((g - 1) / (2 * g)) <= 1).
    { apply Rle_trans with (powr 1 ((g - 1) / (2 * g))).
      2:{ rewrite powr_pos, Rpower_base_1 by lra. lra. }
      apply powr_mono; [|split].
      - apply Rlt_le, Rdiv_lt_0_compat; lra.
      - apply Rdiv_lt_0_compat; lra.
      - apply Rmult_le_reg_r with p; [lra|]. unfold Rdiv. rewrite Rmult_assoc, Rinv_l by lra. lra. }
    pose proof (sound_pos g rho p Hg Hr Hp).
    assert (0 < 2 * sound g rho p / (g - 1)) by (apply Rdiv_lt_0_compat; lra). nra.
  - rewrite f_above by lra. rewrite shock_stretch by lra.
    set (B := (g + 1) * x + (g - 1) * p).
    assert (HB : 0 < B) by (unfold B; assert (0 < (g + 1) * x) by nra; assert (0 < (g - 1) * p) by nra; lra).
    apply Rmult_lt_compat_r.
    + apply sqrt_lt_R0. apply Rdiv_lt_0_compat; [lra|]. apply Rmult_lt_0_compat; lra.
    + unfold B. assert (0 <= (g - 1) * x) by (apply Rmult_le_pos; lra). assert (0 < (g - 1) * p) by (apply Rmult_lt_0_compat; lra). lra.
Qed.

(** The same for the term of the failsafe pressure s^2. *)
Lemma failsafe_lt_stretch g rho p m s : 1 < g -> 0 < rho -> 0 < p -> p <= m -> 0 < s ->
  (s * s - p) * sqrt (2 * m / (rho * ((g + 1) * m + (g - 1) * p))) < s * (sound g rho p * e_stretch g p (s * s)).
Proof.
  intros Hg Hr Hp Hm Hs. pose proof (stretch_pos g rho p (s * s) Hg Hr Hp) as S.
  set (x := sqrt _). assert (Hx : 0 <= x) by apply sqrt_pos.
  destruct (Rle_dec (s * s) p) as [C|C].
  - apply Rle_lt_trans with 0; [|apply Rmult_lt_0_compat; assumption].
    assert (0 <= (p - s * s) * x) by (apply Rmult_le_pos; lra). lra.
  - rewrite shock_stretch by lra. set (B := (g + 1) * (s * s) + (g - 1) * p).
    assert (Hss : 0 < s * s) by nra.
    assert (HB : 0 < B) by (unfold B; assert (0 < (g + 1) * (s * s)) by (apply Rmult_lt_0_compat; lra); assert (0 < (g - 1) * p) by nra; lra).
    assert (HA : 0 < (g + 1) * m + (g - 1) * p) by (assert (0 < (g + 1) * m) by nra; assert (0 < (g - 1) * p) by nra; lra).
    apply Rsqr_incrst_0.
    + unfold Rsqr.
      replace ((s * s - p) * x * ((s * s - p) * x)) with ((s * s - p) * (s * s - p) * (x * x)) by ring.
      set (y := sqrt (2 / (rho * B))).
      replace (s * (B / 2 * y) * (s * (B / 2 * y))) with (s * s * (B / 2 * (B / 2)) * (y * y)) by ring.
      unfold x, y. rewrite !sqrt_sqrt.
      2:{ apply Rlt_le, Rdiv_lt_0_compat; [lra|]. apply Rmult_lt_0_compat; lra. }
      2:{ apply Rlt_le, Rdiv_lt_0_compat; [lra|]. apply Rmult_lt_0_compat; lra. }
      replace (s * s * (B / 2 * (B / 2)) * (2 / (rho * B))) with (s * s * B / (2 * rho)) by (field; lra).
      set (A := (g + 1) * m + (g - 1) * p) in *.
      apply Rmult_lt_reg_r with (2 * rho * A); [repeat apply Rmult_lt_0_compat; lra|].
      replace ((s * s - p) * (s * s - p) * (2 * m / (rho * A)) * (2 * rho * A)) with ((s * s - p) * (s * s - p) * (4 * m)) by (field; lra).
      replace (s * s * B / (2 * rho) * (2 * rho * A)) with (s * s * B * A) by (field; lra).
      set (q := s * s) in *.
      assert (H1 : (q - p) * (q - p) <= q * q) by nra.
      assert (H2 : 2 * q < B) by (unfold B; assert (0 < (g - 1) * q) by (apply Rmult_lt_0_compat; lra); assert (0 < (g - 1) * p) by (apply Rmult_lt_0_compat; lra); lra).
      assert (H3 : 2 * m < A) by (unfold A; assert (0 <= (g - 1) * m) by (apply Rmult_le_pos; lra); assert (0 < (g - 1) * p) by (apply Rmult_lt_0_compat; lra); lra).
      apply Rle_lt_trans with (q * q * (4 * m)).
      * apply Rmult_le_compat_r; lra.
      * replace (q * q * (4 * m)) with (q * (2 * q) * (2 * m)) by ring.
        apply Rmult_gt_0_lt_compat; try lra; [|apply Rmult_lt_compat_l; lra].
        apply Rmult_lt_0_compat; lra.
    + apply Rmult_le_pos; lra.
    + apply Rmult_le_pos; [lra|]. apply Rmult_le_pos; [lra|apply sqrt_pos].
Qed.

Section Positive.
Variables (g ri ui pi rj uj pj : R).
Hypothesis Hg : 1 < g <= 5 / 3.
Hypothesis Hri : 0 < ri.
Hypothesis Hpi : 0 < pi.
Hypothesis Hrj : 0 < rj.
Hypothesis Hpj : 0 < pj.
Local Notation di := (gas g ri ui pi).
Local Notation dj := (gas g rj uj pj).
Local Notation head P := (sound g ri pi * e_stretch g pi P + sound g rj pj * e_stretch g pj P).

Lemma failsafe_head : ui - uj < head (er_p_star_failsafe g di dj).
Proof.
  unfold er_p_star_failsafe, gas. cbn [ed_rho ed_u ed_p ed_a].
  set (m := Rmax pi pj). assert (M1 : pi <= m) by apply Rmax_l. assert (M2 : pj <= m) by apply Rmax_r.
  set (xi := sqrt (2 * m / (ri * ((g + 1) * m + (g - 1) * pi)))).
  set (xj := sqrt (2 * m / (rj * ((g + 1) * m + (g - 1) * pj)))).
  assert (HA : forall p, 0 < p -> 0 < (g + 1) * m + (g - 1) * p).
  { intros p H. assert (0 < (g + 1) * m) by nra. assert (0 < (g - 1) * p) by (apply Rmult_lt_0_compat; lra). lra. }
  assert (Xi : 0 < xi) by (apply sqrt_lt_R0, Rdiv_lt_0_compat; [lra|apply Rmult_lt_0_compat; auto]).
  assert (Xj : 0 < xj) by (apply sqrt_lt_R0, Rdiv_lt_0_compat; [lra|apply Rmult_lt_0_compat; auto]).
  set (a := xi + xj). set (b := uj - ui). set (c := - pi * xi - pj * xj).
  assert (Pa : 0 < a) by (unfold a; lra).
  assert (Nc : c < 0) by (unfold c; assert (0 < pi * xi) by (apply Rmult_lt_0_compat; assumption);
    assert (0 < pj * xj) by (apply Rmult_lt_0_compat; assumption); lra).
  assert (Pac : 0 < - (a * c)) by (replace (- (a * c)) with (a * - c) by ring; apply Rmult_lt_0_compat; lra).
  assert (Dp : b * b < b * b - 4 * a * c) by lra.
  set (r := sqrt (b * b - 4 * a * c)).
  assert (B2 : 0 <= b * b) by nra.
  assert (Rr : r * r = b * b - 4 * a * c) by (apply sqrt_sqrt; lra).
  assert (R0 : 0 <= r) by apply sqrt_pos.
  assert (Rb : b < r) by (destruct (Rlt_dec b r); [assumption|exfalso; nra]).
  set (s := (- b + r) / (2 * a)).
  assert (Hs : 0 < s) by (apply Rdiv_lt_0_compat; lra).
  assert (Q : a * (s * s) + b * s + c = 0).
  { unfold s. replace (a * ((- b + r) / (2 * a) * ((- b + r) / (2 * a))) + b * ((- b + r) / (2 * a)) + c)
      with ((r * r - b * b + 4 * a * c) / (4 * a)) by (field; lra). rewrite Rr. field. lra. }
  pose proof (failsafe_lt_stretch g ri pi m s ltac:(lra) Hri Hpi M1 Hs) as Fi. fold xi in Fi.
  pose proof (failsafe_lt_stretch g rj pj m s ltac:(lra) Hrj Hpj M2 Hs) as Fj. fold xj in Fj.
  apply Rmult_lt_reg_l with s; [exact Hs|]. rewrite Rmult_plus_distr_l.
  replace (s * (ui - uj)) with ((s * s - pi) * xi + (s * s - pj) * xj); [lra|].
  unfold a, b, c in Q. lra.
Qed.

Lemma two_rarefaction_head : uj <= ui -> ui - uj < head (er_p_star_two_rarefaction g di dj).
Proof.
  intros Hu. set (P := er_p_star_two_rarefaction g di dj).
  set (k := (g - 1) / (2 * g)).
  assert (Pk : 0 < k) by (unfold k; apply Rdiv_lt_0_compat; lra).
  pose proof (sound_pos g ri pi ltac:(lra) Hri Hpi) as Ai. pose proof (sound_pos g rj pj ltac:(lra) Hrj Hpj) as Aj.
  set (ai := sound g ri pi) in *. set (aj := sound g rj pj) in *.
  set (num := ai + aj - (g - 1) * (1 / 2) * (uj - ui)).
  assert (Hnum : 0 < num) by (unfold num; assert (0 <= (g - 1) * (1 / 2) * (ui - uj)) by (apply Rmult_le_pos; lra); lra).
  set (q := powr (pi * (1 / pj)) (- ((g - 1) * (1 / 2)) * (1 / g))).
  assert (Hpp : 0 < pi * (1 / pj)) by (apply Rmult_lt_0_compat; [lra|apply Rdiv_lt_0_compat; lra]).
  assert (Pq : 0 < q) by (apply powr_gt0; exact Hpp).
  assert (Den : 0 < ai * q + aj) by nra.
  assert (EP : P = pj * powr (num / (ai * q + aj)) (2 * g * (1 / (g - 1)))).
  { unfold P, er_p_star_two_rarefaction, gas. cbn [ed_rho ed_u ed_p ed_a]. fold ai aj q num. rewrite pp_pos by lra. reflexivity. }
  assert (Hz : 0 < num / (ai * q + aj)) by (apply Rdiv_lt_0_compat; assumption).
  assert (HP : 0 < P) by (rewrite EP; apply Rmult_lt_0_compat; [lra|apply powr_gt0; exact Hz]).
  assert (Xj : powr (P / pj) k = num / (ai * q + aj)).
  { replace (P / pj) with (powr (num / (ai * q + aj)) (2 * g * (1 / (g - 1)))) by (rewrite EP; field; lra).
    rewrite powr_mult by exact Hz. replace (2 * g * (1 / (g - 1)) * k) with 1 by (unfold k; field; lra). apply powr_1, Hz. }
  assert (Xi : powr (P / pi) k = powr (P / pj) k * q).
  { unfold q. replace (- ((g - 1) * (1 / 2)) * (1 / g)) with (- k) by (unfold k; field; lra).
    rewrite powr_opp by exact Hpp. rewrite <- powr_inv by exact Hpp.
    rewrite <- powr_mult_base; [|apply Rdiv_lt_0_compat; lra|apply Rinv_0_lt_compat; exact Hpp].
    f_equal. field. lra. }
  pose proof (f_ge_rare g ri ui pi P Hg Hri Hpi HP) as Fi. pose proof (f_ge_rare g rj uj pj P Hg Hrj Hpj HP) as Fj.
  fold k ai in Fi. fold k aj in Fj. rewrite Xi, Xj in Fi. rewrite Xj in Fj.
  pose proof (f_lt_stretch g ri ui pi P ltac:(lra) Hri Hpi ltac:(lra)) as Gi. pose proof (f_lt_stretch g rj uj pj P ltac:(lra) Hrj Hpj ltac:(lra)) as Gj.
  fold ai in Gi. fold aj in Gj.
  assert (E : 2 * ai / (g - 1) * (num / (ai * q + aj) * q - 1) + 2 * aj / (g - 1) * (num / (ai * q + aj) - 1) = ui - uj).
  { replace (2 * ai / (g - 1) * (num / (ai * q + aj) * q - 1) + 2 * aj / (g - 1) * (num / (ai * q + aj) - 1))
      with (2 / (g - 1) * (num - (ai + aj))) by (field; lra). unfold num. field. lra. }
  lra.
Qed.

Lemma p_max_head : 0 <= er_phi_of_p_max g di dj -> ui - uj < head (Rmax pi pj).
Proof.
  intros H. rewrite phi_max_eq in H by lra. rewrite e_phi_eq in H.
  assert (0 < Rmax pi pj) by (pose proof (Rmax_l pi pj); lra).
  pose proof (f_lt_stretch g ri ui pi (Rmax pi pj) ltac:(lra) Hri Hpi ltac:(lra)).
  pose proof (f_lt_stretch g rj uj pj (Rmax pi pj) ltac:(lra) Hrj Hpj ltac:(lra)). lra.
Qed.

Lemma p_2_head : uj <= ui -> ui - uj < head (er_p_2 g di dj).
Proof.
  intros Hu. pose proof failsafe_head as F. pose proof (two_rarefaction_head Hu) as T.
  unfold er_p_2, mask_lt. cbn [gas ed_p].
  destruct (Rlt_dec _ 0) as [C|C].
  - unfold Rmin. destruct (Rle_dec _ _); assumption.
  - assert (Q := p_max_head ltac:(lra)). unfold Rmin at 1 4. unfold Rmin.
    repeat (destruct (Rle_dec _ _)); assumption.
Qed.

(** The estimate without Newton iterations never vanishes. *)
Lemma lambda_positive eps tol : 0 < er_compute eps tol 0 g di dj.
Proof.
  unfold er_compute, er_compute_lambda. set (P := er_p_2 g di dj).
  assert (L1 : er_lambda1_minus g di P = ui - sound g ri pi * e_stretch g pi P) by reflexivity.
  assert (L3 : er_lambda3_plus g dj P = uj + sound g rj pj * e_stretch g pj P) by reflexivity.
  rewrite L1, L3.
  pose proof (stretch_pos g ri pi P ltac:(lra) Hri Hpi) as Si. pose proof (stretch_pos g rj pj P ltac:(lra) Hrj Hpj) as Sj.
  rewrite <- pp_np. set (x := uj + _) in *. set (y := - (ui - _)).
  pose proof (pp_ge x). pose proof (pp_ge y).
  pose proof (Rmax_l (positive_part x) (positive_part y)). pose proof (Rmax_r (positive_part x) (positive_part y)).
  destruct (Rle_dec uj ui) as [C|C].
  - pose proof (p_2_head C) as Q. fold P in Q.
    destruct (Rlt_dec 0 x); [lra|]. unfold x, y in *. lra.
  - destruct (Rlt_dec 0 x); [lra|]. unfold x, y in *. lra.
Qed.
End Positive.

Lemma er_wavespeed_positive s eps tol dim U_i U_j n :
  1 < gamma s <= 5 / 3 -> dot dim n n = 1 ->
  0 < density U_i -> 0 < pressure s dim U_i -> 0 < density U_j -> 0 < pressure s dim U_j ->
  0 < er_wavespeed s eps tol 0 dim U_i U_j n.
Proof.
  intros Hg Hn Ri Pi Rj Pj. unfold er_wavespeed. rewrite !er_data_eq by assumption.
  apply lambda_positive; assumption.
Qed.
