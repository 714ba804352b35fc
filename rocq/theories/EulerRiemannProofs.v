(** * Proofs about the Euler Riemann solver *)
From Coq Require Import Reals Lra Lia Arith Psatz.
From Verif Require Import RVec Simd SimdProofs Newton NewtonProofs EulerSystem PhysLib GasWaves SWRiemannProofs EulerRiemann EulerRiemannSpec.
Local Open Scope R_scope.

(** The Riemann data of a primitive state. *)
Definition gas (g rho u p : R) : edata := {| ed_rho := rho; ed_u := u; ed_p := p; ed_a := sound g rho p |}.

(** The stretched speed of sound. *)
Definition e_stretch (g p ps : R) : R := sqrt (1 + (g + 1) * (1 / 2) * (1 / g) * positive_part ((ps - p) * (1 / p))).

Lemma e_stretch_ge_1 g p ps : 1 < g -> 1 <= e_stretch g p ps.
Proof.
  intros Hg. unfold e_stretch. rewrite <- sqrt_1 at 1. apply sqrt_le_1_alt.
  assert (0 <= (g + 1) * (1 / 2) * (1 / g)).
  { apply Rmult_le_pos; [lra|]. apply Rlt_le, Rdiv_lt_0_compat; lra. }
  pose proof (Rmult_le_pos _ _ H (pp_nonneg ((ps - p) * (1 / p)))). lra.
Qed.

Lemma e_stretch_below g p ps : 0 < p -> ps <= p -> e_stretch g p ps = 1.
Proof.
  intros Hp H. unfold e_stretch. rewrite pp_neg.
  - rewrite Rmult_0_r, Rplus_0_r. apply sqrt_1.
  - assert (0 < 1 / p) by (apply Rdiv_lt_0_compat; lra). nra.
Qed.

Lemma e_stretch_mono g p x y : 1 < g -> 0 < p -> x <= y -> e_stretch g p x <= e_stretch g p y.
Proof.
  intros Hg Hp H. unfold e_stretch. apply sqrt_le_1_alt.
  apply Rplus_le_compat_l, Rmult_le_compat_l.
  - apply Rmult_le_pos; [lra|]. apply Rlt_le, Rdiv_lt_0_compat; lra.
  - apply pp_mono. apply Rmult_le_compat_r; [apply Rlt_le, Rdiv_lt_0_compat; lra|lra].
Qed.

(** ** The function f *)

Lemma f_above g rho u p x : 1 < g -> 0 < rho -> 0 < p -> p <= x ->
  er_f g (gas g rho u p) x = (x - p) * sqrt (2 / (rho * ((g + 1) * x + (g - 1) * p))).
Proof.
  intros Hg Hr Hp Hx. unfold er_f, mask_ge, gas; cbn. destruct (Rge_dec x p); [|lra].
  f_equal. f_equal. field. assert (0 < (g + 1) * x) by nra. assert (0 < (g - 1) * p) by nra. repeat split; nra.
Qed.

Lemma f_below g rho u p x : 1 < g -> 0 < p -> x <= p ->
  er_f g (gas g rho u p) x = 2 * sound g rho p / (g - 1) * (powr (x / p) ((g - 1) / (2 * g)) - 1).
Proof.
  intros Hg Hp Hx. unfold er_f, mask_ge, gas; cbn. destruct (Rge_dec x p).
  - assert (x = p) as -> by lra. replace (p / p) with 1 by (field; lra).
    rewrite powr_pos, Rpower_base_1 by lra. ring.
  - replace (1 / 2 * (g - 1) / g) with ((g - 1) / (2 * g)) by (field; lra). field. lra.
Qed.

(** f is at least the rarefaction formula. *)
Lemma f_ge_rare g rho u p x : 1 < g <= 5 / 3 -> 0 < rho -> 0 < p -> 0 < x ->
  2 * sound g rho p / (g - 1) * (powr (x / p) ((g - 1) / (2 * g)) - 1) <= er_f g (gas g rho u p) x.
Proof.
  intros Hg Hr Hp Hx. destruct (Rle_dec x p) as [C|C]; [rewrite f_below; lra|].
  rewrite f_above by lra.
  assert (X1 : 1 <= x / p).
  { apply Rmult_le_reg_r with p; [lra|]. unfold Rdiv. rewrite Rmult_assoc, Rinv_l by lra. lra. }
  pose proof (rare_le_shock g ltac:(lra) (x / p) ltac:(lra) X1) as L. unfold rare_curve, shock_curve in L.
  assert (PA : 0 < sound g rho p).
  { apply sqrt_lt_R0. apply Rdiv_lt_0_compat; [nra|lra]. }
  apply Rmult_le_compat_l with (r := sound g rho p) in L; [|lra].
  match goal with |- ?l <= ?r => replace l with (sound g rho p * (2 / (g - 1) * (powr (x / p) ((g - 1) / (2 * g)) - 1))) by (field; lra) end.
  eapply Rle_trans; [exact L|]. apply Req_le.
  set (D := (g + 1) * (x / p) + (g - 1)).
  assert (PD : 0 < D) by (unfold D; nra).
  rewrite powr_opp by exact PD. rewrite (powr_pos D) by exact PD.
  replace (1 / 2) with (/ 2) by field. rewrite Rpower_sqrt by exact PD.
  unfold sound. rewrite <- sqrt_inv.
  replace (sqrt (g * p / rho) * ((x / p - 1) * (sqrt (2 / g) * sqrt (/ D))))
    with ((x / p - 1) * (sqrt (g * p / rho) * sqrt (2 / g) * sqrt (/ D))) by ring.
  assert (P1 : 0 <= g * p / rho) by (apply Rlt_le, Rdiv_lt_0_compat; nra).
  assert (P2 : 0 <= 2 / g) by (apply Rlt_le, Rdiv_lt_0_compat; lra).
  rewrite <- (sqrt_mult_alt (g * p / rho)) by exact P1.
  rewrite <- sqrt_mult_alt by (apply Rmult_le_pos; assumption).
  replace (g * p / rho * (2 / g) * / D) with (p * p * (2 / (rho * ((g + 1) * x + (g - 1) * p)))).
  2:{ unfold D. field. repeat split; try lra. assert (0 < (g + 1) * x) by nra. assert (0 < (g - 1) * p) by nra. lra. }
  rewrite (sqrt_mult_alt (p * p)), sqrt_square by nra. field. lra.
Qed.

Lemma shock_branch_mono g rho p x y : 1 < g -> 0 < rho -> 0 < p -> p <= x -> x < y ->
  (x - p) * sqrt (2 / (rho * ((g + 1) * x + (g - 1) * p))) <
  (y - p) * sqrt (2 / (rho * ((g + 1) * y + (g - 1) * p))).
Proof.
  intros Hg Hr Hp Hx Hxy.
  set (A := (g + 1) * x + (g - 1) * p). set (B := (g + 1) * y + (g - 1) * p).
  assert (PA : 0 < A) by (unfold A; nra). assert (AB : A < B) by (unfold A, B; nra).
  assert (QA : 0 < 2 / (rho * A)) by (apply Rdiv_lt_0_compat; [lra|nra]).
  assert (QB : 0 < 2 / (rho * B)) by (apply Rdiv_lt_0_compat; [lra|nra]).
  rewrite <- (sqrt_square (x - p)) by lra. rewrite <- (sqrt_square (y - p)) by lra.
  rewrite <- !sqrt_mult_alt by nra.
  apply sqrt_lt_1_alt. split; [apply Rmult_le_pos; [nra|lra]|].
  apply Rmult_lt_reg_r with (rho * A * B); [repeat apply Rmult_lt_0_compat; lra|].
  replace ((x - p) * (x - p) * (2 / (rho * A)) * (rho * A * B)) with (2 * ((x - p) * (x - p) * B)) by (field; lra).
  replace ((y - p) * (y - p) * (2 / (rho * B)) * (rho * A * B)) with (2 * ((y - p) * (y - p) * A)) by (field; lra).
  apply Rmult_lt_compat_l; [lra|].
  (* with s = x - p, t = y - p: s^2 ((g+1) t + 2 g p) < t^2 ((g+1) s + 2 g p) *)
  set (s := x - p) in *. set (t := y - p) in *.
  replace B with ((g + 1) * t + 2 * g * p) by (unfold B, t; ring).
  replace A with ((g + 1) * s + 2 * g * p) by (unfold A, s; ring).
  assert (0 <= s) by (unfold s; lra). assert (s < t) by (unfold s, t; lra).
  assert (Z : t * t * ((g + 1) * s + 2 * g * p) - s * s * ((g + 1) * t + 2 * g * p) =
    (t - s) * ((g + 1) * (s * t) + 2 * g * p * (s + t))) by ring.
  assert (0 < (t - s) * ((g + 1) * (s * t) + 2 * g * p * (s + t))).
  { apply Rmult_lt_0_compat; [lra|].
    assert (0 <= (g + 1) * (s * t)) by (apply Rmult_le_pos; [lra|]; apply Rmult_le_pos; lra).
    assert (0 < 2 * g * p * (s + t)) by (repeat apply Rmult_lt_0_compat; lra). lra. }
  lra.
Qed.

Lemma phi_max_eq g ri ui pi rj uj pj : 1 < g -> 0 < ri -> 0 < pi -> 0 < rj -> 0 < pj ->
  er_phi_of_p_max g (gas g ri ui pi) (gas g rj uj pj) = er_phi g (gas g ri ui pi) (gas g rj uj pj) (Rmax pi pj).
Proof.
  intros Hg Hri Hpi Hrj Hpj. unfold er_phi_of_p_max, er_phi.
  pose proof (Rmax_l pi pj). pose proof (Rmax_r pi pj).
  rewrite (f_above g ri), (f_above g rj) by assumption. cbn [gas ed_rho ed_u ed_p ed_a].
  assert (K : forall r p q, 0 < r -> 0 < p -> p <= q ->
    (q - p) / sqrt (1 / 2 * r * ((g + 1) * q + (g - 1) * p)) = (q - p) * sqrt (2 / (r * ((g + 1) * q + (g - 1) * p)))).
  { intros r p q Hr Hp Hq. unfold Rdiv at 1. f_equal. rewrite <- sqrt_inv. f_equal. field.
    assert (0 < (g + 1) * q + (g - 1) * p) by nra. lra. }
  rewrite !K by assumption. ring.
Qed.

(** ** The exact waves *)

Lemma sound_pos g rho p : 1 < g -> 0 < rho -> 0 < p -> 0 < sound g rho p.
Proof. intros. apply sqrt_lt_R0. apply Rdiv_lt_0_compat; [nra|lra]. Qed.

Lemma rarefaction_sound g rho p rhos ps : 1 < g -> 0 < rho -> 0 < p -> 0 < rhos -> 0 < ps ->
  ps / Rpower rhos g = p / Rpower rho g ->
  sound g rhos ps = sound g rho p * powr (ps / p) ((g - 1) / (2 * g)).
Proof.
  intros Hg Hr Hp Hrs Hps E.
  assert (X : 0 < ps / p) by (apply Rdiv_lt_0_compat; lra).
  assert (Q : Rpower (rhos / rho) g = ps / p).
  { unfold Rdiv at 1. rewrite <- Rpower_mult_distr; [|lra|apply Rinv_0_lt_compat; lra].
    assert (P1 : 0 < Rpower rhos g) by apply exp_pos. assert (P2 : 0 < Rpower rho g) by apply exp_pos.
    assert (Rpower (/ rho) g = / Rpower rho g) as ->.
    { pose proof (powr_inv rho g Hr) as I. rewrite !powr_pos in I by (try apply Rinv_0_lt_compat; lra). exact I. }
    apply Rmult_eq_reg_r with (p / Rpower rho g); [|apply Rgt_not_eq, Rdiv_lt_0_compat; lra].
    rewrite <- E at 1. field_simplify; [|lra|repeat split; lra]. field. lra. }
  assert (R : rhos = rho * Rpower (ps / p) (/ g)).
  { rewrite <- Q. rewrite Rpower_mult. rewrite Rinv_r by lra.
    rewrite Rpower_1 by (apply Rdiv_lt_0_compat; lra). field. lra. }
  assert (Pq : 0 < Rpower (ps / p) (/ g)) by apply exp_pos.
  unfold sound.
  replace (g * ps / rhos) with (g * p / rho * (Rpower (ps / p) ((g - 1) / (2 * g)) * Rpower (ps / p) ((g - 1) / (2 * g)))).
  - rewrite sqrt_mult_alt by (apply Rlt_le, Rdiv_lt_0_compat; nra).
    rewrite sqrt_square by (left; apply exp_pos). rewrite powr_pos by exact X. reflexivity.
  - rewrite <- Rpower_plus.
    replace ((g - 1) / (2 * g) + (g - 1) / (2 * g)) with (1 + - / g) by (field; lra).
    rewrite Rpower_plus, Rpower_1, Rpower_Ropp by exact X. rewrite R at 1. field. repeat split; lra.
Qed.

Lemma e_wave_speed g rho u p us ps sp : 1 < g -> 0 < rho -> 0 < p ->
  e_left_wave g rho u p us ps sp ->
  0 < ps /\ u - us = er_f g (gas g rho u p) ps /\ sp = u - sound g rho p * e_stretch g p ps.
Proof.
  intros Hg Hr Hp [(rhos & Hrs & [P1 P2] & E1 & E2 & ->)|(rhos & Hrs & P & Hsp & M & Mo & En)].
  - split; [exact P1|]. rewrite e_stretch_below, f_below by lra. split; [|ring].
    pose proof (rarefaction_sound g rho p rhos ps Hg Hr Hp Hrs P1 E1) as S.
    rewrite S in E2. 
    assert (0 < g - 1) by lra.
    apply Rmult_eq_reg_r with (g - 1); [|lra].
    apply (f_equal (fun z => z * (g - 1))) in E2.
    replace ((us + 2 * (sound g rho p * powr (ps / p) ((g - 1) / (2 * g))) / (g - 1)) * (g - 1))
      with (us * (g - 1) + 2 * (sound g rho p * powr (ps / p) ((g - 1) / (2 * g)))) in E2 by (field; lra).
    replace ((u + 2 * sound g rho p / (g - 1)) * (g - 1)) with (u * (g - 1) + 2 * sound g rho p) in E2 by (field; lra).
    replace (2 * sound g rho p / (g - 1) * (powr (ps / p) ((g - 1) / (2 * g)) - 1) * (g - 1))
      with (2 * sound g rho p * (powr (ps / p) ((g - 1) / (2 * g)) - 1)) by (field; lra).
    lra.
  - split; [lra|].
    set (v := u - sp). set (w := us - sp).
    assert (M1 : rho * v = rhos * w) by (unfold v, w; lra).
    assert (M2 : rho * v * (v - w) = ps - p).
    { assert (rho * u * v + p = us * (rhos * w) + ps) by (unfold v, w; lra).
      rewrite <- M1 in H. replace (v - w) with (u - us) by (unfold v, w; ring). lra. }
    set (A := (g + 1) * ps + (g - 1) * p). set (B := (g + 1) * p + (g - 1) * ps).
    assert (PA : 0 < A) by (unfold A; nra).
    assert (Vp : 0 < v) by (unfold v; lra).
    assert (E : v * B = w * A).
    { assert (H1 : v * energy g rho u p + u * p = w * energy g rhos us ps + us * ps) by (unfold v, w; lra).
      unfold energy in H1.
      assert (H2 : v * p + (g - 1) * (rho * v * (u * u) / 2 + u * p) =
                   w * ps + (g - 1) * (rhos * w * (us * us) / 2 + us * ps)).
      { apply (f_equal (fun z => z * (g - 1))) in H1.
        replace ((v * (p / (g - 1) + rho * u * u / 2) + u * p) * (g - 1))
          with (v * p + (g - 1) * (rho * v * (u * u) / 2 + u * p)) in H1 by (field; lra).
        replace ((w * (ps / (g - 1) + rhos * us * us / 2) + us * ps) * (g - 1))
          with (w * ps + (g - 1) * (rhos * w * (us * us) / 2 + us * ps)) in H1 by (field; lra).
        exact H1. }
      rewrite <- M1 in H2.
      assert (H3 : rho * v * (u * u) - rho * v * (us * us) = (ps - p) * (u + us)).
      { rewrite <- M2. unfold v, w. ring. }
      unfold A, B. assert (H4 : u - us = v - w) by (unfold v, w; ring).
      assert (H5 : v * p - w * ps + (g - 1) * ((ps - p) * (u + us) / 2 + u * p - us * ps) = 0) by (rewrite <- H3; lra).
      replace ((ps - p) * (u + us) / 2 + u * p - us * ps) with ((ps + p) * (u - us) / 2) in H5 by field.
      rewrite H4 in H5. lra. }
    assert (V2 : v * v = A / (2 * rho)).
    { assert (A * (v - w) = v * (2 * (ps - p))).
      { replace (A * (v - w)) with (v * A - w * A) by ring. rewrite <- E. unfold A, B. ring. }
      assert (rho * v * (v * (2 * (ps - p))) = A * (ps - p)).
      { rewrite <- H. rewrite <- M2. ring. }
      apply Rmult_eq_reg_r with (2 * rho * (ps - p)); [|nra].
      replace (A / (2 * rho) * (2 * rho * (ps - p))) with (A * (ps - p)) by (field; lra). rewrite <- H0. ring. }
    split.
    + rewrite f_above by lra. fold A.
      replace (u - us) with (v - w) by (unfold v, w; ring).
      assert (S : sqrt (2 / (rho * A)) = 1 / (rho * v)).
      { symmetry. apply sqrt_uniq; [apply Rlt_le, Rdiv_lt_0_compat; nra|].
        replace (1 / (rho * v) * (1 / (rho * v))) with (1 / (rho * rho * (v * v))) by (field; lra).
        rewrite V2. field. lra. }
      rewrite S, <- M2. field. lra.
    + assert (S : sound g rho p * e_stretch g p ps = v).
      { unfold sound, e_stretch. rewrite <- sqrt_mult_alt by (apply Rlt_le, Rdiv_lt_0_compat; nra).
        rewrite pp_pos.
        2:{ apply Rmult_le_pos; [lra|]. apply Rlt_le, Rdiv_lt_0_compat; lra. }
        symmetry. apply sqrt_uniq; [lra|]. rewrite V2. unfold A. field. lra. }
      rewrite S. unfold v. ring.
Qed.

Lemma f_velocity g rho u u' p x : er_f g (gas g rho u p) x = er_f g (gas g rho u' p) x.
Proof. reflexivity. Qed.

Lemma e_phi_eq g ri ui pi rj uj pj x :
  er_phi g (gas g ri ui pi) (gas g rj uj pj) x = er_f g (gas g ri ui pi) x + er_f g (gas g rj uj pj) x + uj - ui.
Proof. reflexivity. Qed.

(** ** The upper bounds of the pressure *)

Section Bounds.
  Variables (g ri ui pi rj uj pj ps : R).
  Hypothesis Hg : 1 < g <= 5 / 3.
  Hypothesis Hri : 0 < ri.
  Hypothesis Hpi : 0 < pi.
  Hypothesis Hrj : 0 < rj.
  Hypothesis Hpj : 0 < pj.
  Hypothesis Hps : 0 < ps.
  Let di := gas g ri ui pi.
  Let dj := gas g rj uj pj.
  Hypothesis Root : er_phi g di dj ps = 0.

  Lemma two_rarefaction_bound : ps <= er_p_star_two_rarefaction g di dj.
  Proof.
    set (k := (g - 1) / (2 * g)).
    assert (Pk : 0 < k) by (unfold k; apply Rdiv_lt_0_compat; lra).
    pose proof (f_ge_rare g ri ui pi ps Hg Hri Hpi Hps) as Fi.
    pose proof (f_ge_rare g rj uj pj ps Hg Hrj Hpj Hps) as Fj.
    fold k in Fi, Fj. change (er_f g (gas g ri ui pi) ps + er_f g (gas g rj uj pj) ps + uj - ui = 0) in Root.
    pose proof (sound_pos g ri pi ltac:(lra) Hri Hpi) as Ai. pose proof (sound_pos g rj pj ltac:(lra) Hrj Hpj) as Aj.
    set (ai := sound g ri pi) in *. set (aj := sound g rj pj) in *.
    (* x^k (ai (pi/pj)^-k + aj) <= numerator, x = ps / pj *)
    set (x := ps / pj).
    assert (Px : 0 < x) by (apply Rdiv_lt_0_compat; lra).
    set (q := powr (pi * (1 / pj)) (- ((g - 1) * (1 / 2)) * (1 / g))).
    assert (Pq : 0 < q).
    { apply powr_gt0. apply Rmult_lt_0_compat; [lra|]. apply Rdiv_lt_0_compat; lra. }
    assert (Xi : powr (ps / pi) k = powr x k * q).
    { unfold q. replace (- ((g - 1) * (1 / 2)) * (1 / g)) with (- k) by (unfold k; field; lra).
      rewrite powr_opp by (apply Rmult_lt_0_compat; [lra|apply Rdiv_lt_0_compat; lra]).
      rewrite <- powr_inv by (apply Rmult_lt_0_compat; [lra|apply Rdiv_lt_0_compat; lra]).
      rewrite <- powr_mult_base; [|exact Px|].
      - f_equal. unfold x. field. lra.
      - apply Rinv_0_lt_compat. apply Rmult_lt_0_compat; [lra|apply Rdiv_lt_0_compat; lra]. }
    rewrite Xi in Fi. fold x in Fj.
    assert (Den : 0 < ai * q + aj) by nra.
    assert (L : powr x k * (ai * q + aj) <= ai + aj - (g - 1) * (1 / 2) * (uj - ui)).
    { assert (2 / (g - 1) * (powr x k * (ai * q + aj) - (ai + aj)) <= ui - uj).
      { replace (2 / (g - 1) * (powr x k * (ai * q + aj) - (ai + aj)))
          with (2 * ai / (g - 1) * (powr x k * q - 1) + 2 * aj / (g - 1) * (powr x k - 1)) by (field; lra).
        lra. }
      apply Rmult_le_compat_l with (r := (g - 1) / 2) in H; [|lra].
      replace ((g - 1) / 2 * (2 / (g - 1) * (powr x k * (ai * q + aj) - (ai + aj))))
        with (powr x k * (ai * q + aj) - (ai + aj)) in H by (field; lra).
      lra. }
    unfold er_p_star_two_rarefaction, dj, di, gas. cbn [ed_rho ed_u ed_p ed_a].
    fold ai aj q.
    pose proof (pp_ge (ai + aj - (g - 1) * (1 / 2) * (uj - ui))) as PP.
    set (num := positive_part (ai + aj - (g - 1) * (1 / 2) * (uj - ui))) in *.
    assert (Xk : 0 < powr x k) by (apply powr_gt0; exact Px).
    assert (B : powr x k <= num / (ai * q + aj)).
    { apply Rmult_le_reg_r with (ai * q + aj); [exact Den|].
      unfold Rdiv. rewrite Rmult_assoc, Rinv_l by lra. lra. }
    apply Rle_trans with (pj * powr (powr x k) (2 * g * (1 / (g - 1)))).
    - rewrite powr_mult by exact Px.
      replace (k * (2 * g * (1 / (g - 1)))) with 1 by (unfold k; field; lra).
      rewrite powr_1 by exact Px. unfold x. right. field. lra.
    - apply Rmult_le_compat_l; [lra|]. apply powr_mono; [|lra].
      apply Rmult_le_pos; [lra|]. apply Rlt_le, Rdiv_lt_0_compat; lra.
  Qed.

  Lemma failsafe_bound : Rmax pi pj <= ps -> ps <= er_p_star_failsafe g di dj.
  Proof.
    intros Hm. pose proof (Rmax_l pi pj) as Ml. pose proof (Rmax_r pi pj) as Mr.
    change (er_f g (gas g ri ui pi) ps + er_f g (gas g rj uj pj) ps + uj - ui = 0) in Root. rewrite !f_above in Root by lra.
    unfold er_p_star_failsafe, di, dj, gas. cbn [ed_rho ed_u ed_p ed_a].
    set (m := Rmax pi pj) in *.
    set (s := sqrt ps). assert (Ps : 0 < s) by (apply sqrt_lt_R0; exact Hps).
    assert (Ss : s * s = ps) by (apply sqrt_sqrt; lra).
    assert (K : forall r p, 0 < r -> 0 < p -> p <= m ->
      (ps - p) * sqrt (2 * m / (r * ((g + 1) * m + (g - 1) * p))) <=
      s * ((ps - p) * sqrt (2 / (r * ((g + 1) * ps + (g - 1) * p))))).
    { intros r p Hr Hp Hpm.
      replace (s * ((ps - p) * sqrt (2 / (r * ((g + 1) * ps + (g - 1) * p)))))
        with ((ps - p) * (s * sqrt (2 / (r * ((g + 1) * ps + (g - 1) * p))))) by ring.
      apply Rmult_le_compat_l; [lra|]. unfold s. rewrite <- sqrt_mult_alt by lra.
      apply sqrt_le_1_alt.
      set (A := (g + 1) * m + (g - 1) * p). set (B := (g + 1) * ps + (g - 1) * p).
      assert (PA : 0 < A) by (unfold A; nra). assert (PB : 0 < B) by (unfold B; nra).
      apply Rmult_le_reg_r with (r * A * B); [repeat apply Rmult_lt_0_compat; lra|].
      replace (2 * m / (r * A) * (r * A * B)) with (2 * (m * B)) by (field; lra).
      replace (ps * (2 / (r * B)) * (r * A * B)) with (2 * (ps * A)) by (field; lra).
      apply Rmult_le_compat_l; [lra|]. unfold A, B.
      assert (0 <= (g - 1) * p * (ps - m)) by (apply Rmult_le_pos; [nra|lra]). lra. }
    pose proof (K ri pi Hri Hpi Ml) as Ki. pose proof (K rj pj Hrj Hpj Mr) as Kj.
    set (xi := sqrt (2 * m / (ri * ((g + 1) * m + (g - 1) * pi)))) in *.
    set (xj := sqrt (2 * m / (rj * ((g + 1) * m + (g - 1) * pj)))) in *.
    set (Fi := (ps - pi) * sqrt (2 / (ri * ((g + 1) * ps + (g - 1) * pi)))) in *.
    set (Fj := (ps - pj) * sqrt (2 / (rj * ((g + 1) * ps + (g - 1) * pj)))) in *.
    assert (Xi : 0 < xi).
    { apply sqrt_lt_R0. apply Rdiv_lt_0_compat; [lra|]. apply Rmult_lt_0_compat; [lra|nra]. }
    assert (Xj : 0 < xj).
    { apply sqrt_lt_R0. apply Rdiv_lt_0_compat; [lra|]. apply Rmult_lt_0_compat; [lra|nra]. }
    set (a := xi + xj). set (b := uj - ui). set (c := - pi * xi - pj * xj).
    assert (Pa : 0 < a) by (unfold a; lra).
    assert (Q : a * (s * s) + b * s + c <= 0).
    { assert (s * Fi + s * Fj + s * b = 0) by (unfold b; nra). unfold a, c. rewrite Ss. unfold b in *. lra. }
    assert (Nc : c <= 0) by (unfold c; nra).
    assert (Dp : 0 <= b * b - 4 * a * c) by nra.
    set (r := sqrt (b * b - 4 * a * c)).
    assert (Rr : r * r = b * b - 4 * a * c) by (apply sqrt_sqrt; exact Dp).
    assert (R0 : 0 <= r) by apply sqrt_pos.
    assert (S : s <= (- b + r) / (2 * a)).
    { apply Rmult_le_reg_r with (2 * a); [lra|].
      replace ((- b + r) / (2 * a) * (2 * a)) with (- b + r) by (field; lra).
      assert ((2 * a * s + b) * (2 * a * s + b) <= r * r) by (rewrite Rr; nra).
      destruct (Rle_dec (2 * a * s + b) r); [lra|]. exfalso. nra. }
    rewrite <- Ss. apply Rmult_le_compat; lra.
  Qed.

  Lemma below_max : 0 <= er_phi_of_p_max g di dj -> ps <= Rmax pi pj.
  Proof.
    intros H. unfold di, dj in *. rewrite phi_max_eq in H by lra. rewrite e_phi_eq in H. change (er_f g (gas g ri ui pi) ps + er_f g (gas g rj uj pj) ps + uj - ui = 0) in Root.
    destruct (Rle_dec ps (Rmax pi pj)) as [C|C]; [exact C|exfalso].
    pose proof (Rmax_l pi pj). pose proof (Rmax_r pi pj).
    rewrite !f_above in H, Root by lra.
    pose proof (shock_branch_mono g ri pi (Rmax pi pj) ps ltac:(lra) Hri Hpi H0 ltac:(lra)).
    pose proof (shock_branch_mono g rj pj (Rmax pi pj) ps ltac:(lra) Hrj Hpj H1 ltac:(lra)). lra.
  Qed.

  Lemma p_2_bound : ps <= er_p_star_failsafe g di dj -> ps <= er_p_2 g di dj.
  Proof.
    intros F. unfold er_p_2, mask_lt. pose proof two_rarefaction_bound.
    destruct (Rlt_dec (er_phi_of_p_max g di dj) 0) as [C|C].
    - apply Rmin_glb; assumption.
    - apply Rmin_glb; [|apply Rmin_glb; assumption]. apply below_max. lra.
  Qed.
End Bounds.
