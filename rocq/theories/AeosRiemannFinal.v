(** * The AEOS Riemann solver: final lemmas and examples *)
From Coq Require Import Reals Lra Lia Arith Psatz.
From Verif Require Import RVec Simd SimdProofs Newton NewtonProofs EulerSystem PhysSpec PhysLib GasWaves SWRiemannProofs SWRiemannFinal EulerRiemann EulerRiemannSpec EulerRiemannProofs EulerRiemannExist EulerRiemannFinal AeosSystem AeosRiemann AeosRiemannSpec AeosRiemannProofs.
Local Open Scope R_scope.

(** ** From the surrogate gas to the ideal gas: rho' = rho / (1 - b rho), p' = p + pinf *)

Lemma n_sound_eq b pinf g rho p : 0 < rho -> 0 < 1 - b * rho -> 0 < g -> 0 < p + pinf ->
  n_sound b pinf g rho p * (1 - b * rho) = sound g (rho / (1 - b * rho)) (p + pinf).
Proof.
  intros Hr Hx Hg Hp. unfold n_sound, sound. set (x := 1 - b * rho) in *. clearbody x.
  replace x with (sqrt (x * x)) at 2 by (apply sqrt_square; lra).
  rewrite <- sqrt_mult_alt.
  - f_equal. field. lra.
  - apply Rlt_le, Rdiv_lt_0_compat; nra.
Qed.

Lemma Rpower_inverse y g : 0 < y -> Rpower (/ y) g = / Rpower y g.
Proof. intros. unfold Rpower. rewrite ln_Rinv by assumption. rewrite <- exp_Ropp. f_equal. ring. Qed.

Lemma n_to_e b pinf q g rho u p us ps sp : 1 < g -> 0 < rho -> 0 < 1 - b * rho -> 0 < p + pinf ->
  n_left_wave b pinf q g rho u p us ps sp ->
  e_left_wave g (rho / (1 - b * rho)) u (p + pinf) us (ps + pinf) (u - (u - sp) * (1 - b * rho)).
Proof.
  intros Hg Hr Hx Hp [(rhos & Hs & Hxs & Hps & Hle & E1 & E2 & E3)|(rhos & Hs & Hxs & Hlt & Hsp & M & I & E)].
  - left. exists (rhos / (1 - b * rhos)).
    assert (Q : forall r, 0 < r -> 0 < 1 - b * r -> 1 / r - b = / (r / (1 - b * r))) by (intros; field; lra).
    rewrite !Q, !Rpower_inverse in E1 by (try apply Rdiv_lt_0_compat; assumption).
    split; [apply Rdiv_lt_0_compat; assumption|]. split; [lra|]. split; [exact E1|]. split.
    + rewrite <- !n_sound_eq by lra. unfold Rdiv in *. rewrite !Rmult_assoc in *. exact E2.
    + rewrite <- n_sound_eq by lra. rewrite E3. ring.
  - right. exists (rhos / (1 - b * rhos)).
    set (w := u - sp) in *. assert (Pw : 0 < w) by (unfold w; lra).
    set (ws := us - sp).
    assert (Mw : rho * w = rhos * ws) by (unfold w, ws; lra).
    assert (Pws : 0 < ws) by (apply Rmult_lt_reg_l with rhos; [lra|]; rewrite Rmult_0_r, <- Mw; nra).
    assert (Iw : ps = p + rho * w * (w - ws)).
    { assert (K : rho * u * w - rhos * us * ws = ps - p) by (unfold w, ws; lra).
      rewrite Rmult_assoc, (Rmult_assoc rhos), (Rmult_comm us), <- (Rmult_assoc rhos), <- Mw in K.
      unfold w, ws in *. lra. }
    assert (Er : rhos = rho * w / ws) by (rewrite Mw; field; lra).
    assert (Eu : u = sp + w) by (unfold w; ring). assert (Eus : us = sp + ws) by (unfold ws; ring).
    clearbody w ws. clear M I.
    subst u us rhos ps.
    assert (Hxs2 : 0 < ws - b * rho * w).
    { apply Rmult_lt_compat_r with (r := ws) in Hxs; [|lra].
      replace ((1 - b * (rho * w / ws)) * ws) with (ws - b * rho * w) in Hxs by (field; lra). lra. }
    split; [apply Rdiv_lt_0_compat; assumption|]. split; [lra|]. split.
    { assert (0 < w * (1 - b * rho)) by nra. lra. }
    split; [|split].
    + field. repeat split; lra.
    + field. repeat split; lra.
    + unfold n_energy, energy in *.
      match type of E with ?l = ?r => match goal with |- ?l2 = ?r2 =>
        assert (D : l2 - r2 = l - r) by (field; repeat split; lra) end end.
      lra.
Qed.

Lemma e_to_n b pinf q g rho u p us Ps sp' : 1 < g -> 0 <= b -> 0 < rho -> 0 < 1 - b * rho -> 0 < p + pinf ->
  e_left_wave g (rho / (1 - b * rho)) u (p + pinf) us Ps sp' ->
  n_left_wave b pinf q g rho u p us (Ps - pinf) (u - (u - sp') / (1 - b * rho)).
Proof.
  intros Hg Hb Hr Hx Hp [(r & Hs & Hps & E1 & E2 & E3)|(r & Hs & Hlt & Hsp & M & I & E)].
  - left. exists (r / (1 + b * r)).
    assert (Pb : 0 < 1 + b * r) by (pose proof (Rmult_le_pos b r Hb ltac:(lra)); lra).
    assert (X : 1 - b * (r / (1 + b * r)) = 1 / (1 + b * r)) by (field; lra).
    assert (Pr : 0 < r / (1 + b * r)) by (apply Rdiv_lt_0_compat; lra).
    assert (Px : 0 < 1 / (1 + b * r)) by (apply Rdiv_lt_0_compat; lra).
    assert (Rr : r / (1 + b * r) / (1 / (1 + b * r)) = r) by (field; lra).
    split; [exact Pr|]. split; [rewrite X; exact Px|]. split; [lra|]. split; [lra|].
    replace (Ps - pinf + pinf) with Ps by ring.
    split; [|split].
    + replace (1 / (r / (1 + b * r)) - b) with (/ r) by (field; lra).
      replace (1 / rho - b) with (/ (rho / (1 - b * rho))) by (field; lra).
      rewrite !Rpower_inverse by (try apply Rdiv_lt_0_compat; lra). exact E1.
    + rewrite !Rmult_assoc, !n_sound_eq; try lra; try (rewrite X; exact Px).
      rewrite X, Rr. replace (Ps - pinf + pinf) with Ps by ring. exact E2.
    + rewrite E3, <- n_sound_eq by lra. field. lra.
  - right. exists (r / (1 + b * r)).
    assert (Pb : 0 < 1 + b * r) by (pose proof (Rmult_le_pos b r Hb ltac:(lra)); lra).
    assert (X : 1 - b * (r / (1 + b * r)) = 1 / (1 + b * r)) by (field; lra).
    split; [apply Rdiv_lt_0_compat; lra|]. split; [rewrite X; apply Rdiv_lt_0_compat; lra|]. split; [lra|].
    set (x := 1 - b * rho) in *. set (R0 := rho / x) in *.
    assert (PR0 : 0 < R0) by (apply Rdiv_lt_0_compat; lra).
    assert (Er : rho = R0 / (1 + b * R0)) by (unfold R0, x; field; unfold x in *; lra).
    assert (Pb0 : 0 < 1 + b * R0) by (pose proof (Rmult_le_pos b R0 Hb ltac:(lra)); lra).
    assert (Ex : x = / (1 + b * R0)) by (unfold x; rewrite Er; field; lra).
    clearbody R0. clear X. clearbody x. subst x rho.
    set (w := u - sp') in *. assert (Pw : 0 < w) by (unfold w; lra).
    set (ws := us - sp').
    assert (Mw : R0 * w = r * ws) by (unfold w, ws; lra).
    assert (Pws : 0 < ws) by (apply Rmult_lt_reg_l with r; [lra|]; rewrite Rmult_0_r, <- Mw; nra).
    assert (Iw : Ps = p + pinf + R0 * w * (w - ws)).
    { assert (K : R0 * u * w - r * us * ws = Ps - (p + pinf)) by (unfold w, ws; lra).
      rewrite Rmult_assoc, (Rmult_assoc r), (Rmult_comm us), <- (Rmult_assoc r), <- Mw in K.
      unfold w, ws in *. lra. }
    assert (Err : r = R0 * w / ws) by (rewrite Mw; field; lra).
    assert (Eu : u = sp' + w) by (unfold w; ring). assert (Eus : us = sp' + ws) by (unfold ws; ring).
    clearbody w ws. clear M I. subst u us r Ps.
    assert (P2 : 0 < ws + b * (R0 * w)).
    { apply Rmult_lt_compat_r with (r := ws) in Pb; [|lra].
      replace ((1 + b * (R0 * w / ws)) * ws) with (ws + b * (R0 * w)) in Pb by (field; lra). lra. }
    split.
    { assert (0 < w / / (1 + b * R0)); [|lra]. apply Rdiv_lt_0_compat; [lra|apply Rinv_0_lt_compat; lra]. }
    split; [|split].
    + field. repeat split; lra.
    + field. repeat split; lra.
    + unfold n_energy, energy in *.
      match type of E with ?l = ?r => match goal with |- ?l2 = ?r2 =>
        assert (D : l2 - r2 = l - r) by (field; repeat split; lra) end end.
      lra.
Qed.

(** ** The computed speed *)

(** Riemann data of a surrogate gas. *)
Definition nasg (e : eos) (g rho u p : R) : adata :=
  {| ad_rho := rho; ad_u := u; ad_p := p; ad_gamma := g; ad_a := n_sound (interp_b e) (interp_pinf e) g rho p |}.

Lemma ar_stretch_ge_1 g x : 1 < g -> 1 <= sqrt (1 + 1 / 2 * (g + 1) / g * positive_part x).
Proof.
  intros Hg. rewrite <- sqrt_1 at 1. apply sqrt_le_1_alt.
  assert (0 < 1 / 2 * (g + 1) / g) by (apply Rdiv_lt_0_compat; lra).
  pose proof (pp_nonneg x). nra.
Qed.

Section Main.
  Variable e : eos.
  Variables (gi ri ui pi gj rj uj pj : R).
  Let b := interp_b e.
  Let pinf := interp_pinf e.
  Hypothesis Hgi : 1 < gi.
  Hypothesis Hgj : 1 < gj.
  Hypothesis Hri : 0 < ri.
  Hypothesis Hrj : 0 < rj.
  Hypothesis Hxi : 0 < 1 - b * ri.
  Hypothesis Hxj : 0 < 1 - b * rj.
  Hypothesis Hpi : 0 < pi + pinf.
  Hypothesis Hpj : 0 < pj + pinf.
  Let di := nasg e gi ri ui pi.
  Let dj := nasg e gj rj uj pj.
  Let Ri := ri / (1 - b * ri).
  Let Rj := rj / (1 - b * rj).
  Let Pi := pi + pinf.
  Let Pj := pj + pinf.

  Lemma PRi : 0 < Ri. Proof. apply Rdiv_lt_0_compat; assumption. Qed.
  Lemma PRj : 0 < Rj. Proof. apply Rdiv_lt_0_compat; assumption. Qed.

  Lemma n_sound_pos g rho p : 1 < g -> 0 < rho -> 0 < 1 - b * rho -> 0 < p + pinf -> 0 < n_sound b pinf g rho p.
  Proof.
    intros. unfold n_sound. apply sqrt_lt_R0. apply Rdiv_lt_0_compat; apply Rmult_lt_0_compat; lra.
  Qed.

  Lemma ar_lambda_ge P :
    - ar_compute_lambda e di dj P <= ui - n_sound b pinf gi ri pi * sqrt (1 + 1 / 2 * (gi + 1) / gi * positive_part ((P - pi) / Pi)) /\
    uj + n_sound b pinf gj rj pj * sqrt (1 + 1 / 2 * (gj + 1) / gj * positive_part ((P - pj) / Pj)) <= ar_compute_lambda e di dj P.
  Proof.
    unfold ar_compute_lambda.
    assert (L1 : ar_lambda1_minus e di P = ui - n_sound b pinf gi ri pi * sqrt (1 + 1 / 2 * (gi + 1) / gi * positive_part ((P - pi) / Pi))) by reflexivity.
    assert (L3 : ar_lambda3_plus e dj P = uj + n_sound b pinf gj rj pj * sqrt (1 + 1 / 2 * (gj + 1) / gj * positive_part ((P - pj) / Pj))) by reflexivity.
    rewrite <- L1, <- L3.
    pose proof (np_ge (ar_lambda1_minus e di P)). pose proof (pp_ge (ar_lambda3_plus e dj P)).
    match goal with |- - Rmax ?a ?b <= _ /\ _ => pose proof (Rmax_l a b); pose proof (Rmax_r a b) end. lra.
  Qed.

  Lemma ar_sound_speeds strict :
    - ar_compute e strict di dj <= ui - n_sound b pinf gi ri pi /\ uj + n_sound b pinf gj rj pj <= ar_compute e strict di dj.
  Proof.
    unfold ar_compute. destruct (ar_lambda_ge (ar_p_2 e strict di dj)) as [A B].
    set (P := ar_p_2 e strict di dj) in *. clearbody P.
    pose proof (ar_stretch_ge_1 gi ((P - pi) / Pi) Hgi). pose proof (ar_stretch_ge_1 gj ((P - pj) / Pj) Hgj).
    pose proof (n_sound_pos gi ri pi Hgi Hri Hxi Hpi). pose proof (n_sound_pos gj rj pj Hgj Hrj Hxj Hpj). split; nra.
  Qed.

  (** The exact solution in the variables of the ideal gas. *)
  Lemma n_fan_root q us ps sl sr : n_fan b pinf q gi ri ui pi gj rj uj pj us ps sl sr ->
    0 < ps + pinf /\
    er_f gi (gas gi Ri ui Pi) (ps + pinf) + er_f gj (gas gj Rj uj Pj) (ps + pinf) + uj - ui = 0 /\
    sl = ui - n_sound b pinf gi ri pi * e_stretch gi Pi (ps + pinf) /\
    sr = uj + n_sound b pinf gj rj pj * e_stretch gj Pj (ps + pinf).
  Proof.
    intros [L W].
    pose proof (n_to_e b pinf q gi ri ui pi us ps sl Hgi Hri Hxi Hpi L) as L'.
    pose proof (n_to_e b pinf q gj rj (- uj) pj (- us) ps (- sr) Hgj Hrj Hxj Hpj W) as W'.
    destruct (e_wave_speed gi Ri ui Pi us (ps + pinf) _ Hgi PRi Hpi L') as (P & F1 & S1).
    destruct (e_wave_speed gj Rj (- uj) Pj (- us) (ps + pinf) _ Hgj PRj Hpj W') as (_ & F2 & S2).
    split; [exact P|]. split; [|split].
    - rewrite (f_velocity gj Rj uj (- uj)). lra.
    - unfold Ri, Pi in S1. rewrite <- n_sound_eq in S1 by (try assumption; lra). fold Pi in S1.
      apply Rmult_eq_reg_r with (1 - b * ri); [|lra]. lra.
    - unfold Rj, Pj in S2. rewrite <- n_sound_eq in S2 by (try assumption; lra). fold Pj in S2.
      apply Rmult_eq_reg_r with (1 - b * rj); [|lra]. lra.
  Qed.

  Lemma alpha_i : ar_alpha_of e di = alpha_of gi Ri Pi.
  Proof.
    unfold ar_alpha_of, ar_alpha, alpha_of, Ri, Pi. rewrite <- n_sound_eq by (try assumption; lra). cbn [ad_a ad_rho ad_gamma di nasg].
    fold b pinf. unfold Rdiv. ring.
  Qed.

  Lemma alpha_j : ar_alpha_of e dj = alpha_of gj Rj Pj.
  Proof.
    unfold ar_alpha_of, ar_alpha, alpha_of, Rj, Pj. rewrite <- n_sound_eq by (try assumption; lra). cbn [ad_a ad_rho ad_gamma dj nasg].
    fold b pinf. unfold Rdiv. ring.
  Qed.

  Lemma Rmin_shift x y z : Rmin x y + z = Rmin (x + z) (y + z).
  Proof. unfold Rmin. destruct (Rle_dec x y), (Rle_dec (x + z) (y + z)); lra. Qed.

  Lemma Rmax_shift x y z : Rmax x y + z = Rmax (x + z) (y + z).
  Proof. unfold Rmax. destruct (Rle_dec x y), (Rle_dec (x + z) (y + z)); lra. Qed.

  (** The computed phi(p_max) is not below the exact value. *)
  Lemma phi_value g r u p x m : 1 < g -> 0 < r -> 0 < x -> 0 < p -> p <= m ->
    (m - p) / sqrt (1 / 2 * r / x * ((g + 1) * m + (g - 1) * p)) = er_f g (gas g (r / x) u p) m.
  Proof.
    intros Hg Hr Hx Hp Hm. assert (0 < r / x) by (apply Rdiv_lt_0_compat; lra). rewrite f_above by lra.
    assert (0 < (g + 1) * m + (g - 1) * p) by nra. unfold Rdiv at 1. rewrite <- sqrt_inv.
    f_equal. f_equal. field. repeat split; lra.
  Qed.

  Lemma phi_computed : 0 <= pinf ->
    er_f gi (gas gi Ri ui Pi) (Rmax Pi Pj) + er_f gj (gas gj Rj uj Pj) (Rmax Pi Pj) + uj - ui <= ar_phi_of_p_max e di dj /\
    (pinf = 0 -> ar_phi_of_p_max e di dj = er_f gi (gas gi Ri ui Pi) (Rmax Pi Pj) + er_f gj (gas gj Rj uj Pj) (Rmax Pi Pj) + uj - ui).
  Proof.
    intros Hinf. unfold ar_phi_of_p_max. cbn [ad_rho ad_u ad_p ad_gamma ad_a di dj nasg]. fold b pinf.
    rewrite Rmax_shift. fold Pi Pj.
    pose proof (Rmax_l Pi Pj) as Ml. pose proof (Rmax_r Pi Pj) as Mr. set (m := Rmax Pi Pj) in *.
    unfold Ri, Rj. rewrite <- (phi_value gi ri ui Pi (1 - b * ri) m Hgi Hri Hxi Hpi Ml).
    rewrite <- (phi_value gj rj uj Pj (1 - b * rj) m Hgj Hrj Hxj Hpj Mr).
    set (si := sqrt (1 / 2 * ri / (1 - b * ri) * ((gi + 1) * m + (gi - 1) * Pi))).
    set (sj := sqrt (1 / 2 * rj / (1 - b * rj) * ((gj + 1) * m + (gj - 1) * Pj))).
    assert (Psi : 0 < si).
    { apply sqrt_lt_R0. apply Rmult_lt_0_compat; [apply Rdiv_lt_0_compat; lra|]. unfold Pi in *. nra. }
    assert (Psj : 0 < sj).
    { apply sqrt_lt_R0. apply Rmult_lt_0_compat; [apply Rdiv_lt_0_compat; lra|]. unfold Pj in *. nra. }
    split.
    - assert (A : (m - Pi) / si <= (m - pi) / si) by (apply Rmult_le_compat_r; [apply Rlt_le, Rinv_0_lt_compat; lra|unfold Pi; lra]).
      assert (B : (m - Pj) / sj <= (m - pj) / sj) by (apply Rmult_le_compat_r; [apply Rlt_le, Rinv_0_lt_compat; lra|unfold Pj; lra]).
      lra.
    - intros E. replace (m - pi) with (m - Pi) by (unfold Pi; lra). replace (m - pj) with (m - Pj) by (unfold Pj; lra). reflexivity.
  Qed.

  Section Root.
    Variable z : R.
    Hypothesis Hz : 0 < z.
    Hypothesis Root : er_f gi (gas gi Ri ui Pi) z + er_f gj (gas gj Rj uj Pj) z + uj - ui = 0.

    Lemma root_sign m : Rmax Pi Pj <= m ->
      (er_f gi (gas gi Ri ui Pi) m + er_f gj (gas gj Rj uj Pj) m + uj - ui < 0 -> m <= z) /\
      (0 <= er_f gi (gas gi Ri ui Pi) m + er_f gj (gas gj Rj uj Pj) m + uj - ui -> z <= m).
    Proof.
      intros Hm. pose proof (Rmax_l Pi Pj) as Ml. pose proof (Rmax_r Pi Pj) as Mr. pose proof PRi. pose proof PRj.
      split; intros S.
      - destruct (Rle_dec m z) as [C|C]; [exact C|exfalso].
        (* f is below its value at m on the left of m *)
        assert (K : forall g r u p, 1 < g -> 0 < r -> 0 < p -> p <= m -> er_f g (gas g r u p) z <= er_f g (gas g r u p) m).
        { intros g r u p Hg Hr Hp Hpm. destruct (Rle_dec z p) as [D|D].
          - apply Rle_trans with 0; [|apply f_nonneg; assumption]. rewrite f_eq_rare by assumption.
            pose proof (alpha_pos g r p Hg Hr Hp).
            assert (powr (z / p) ((g - 1) / (2 * g)) <= 1); [|nra].
            assert (P1 : powr 1 ((g - 1) / (2 * g)) = 1) by (rewrite powr_pos by lra; unfold Rpower; rewrite ln_1, Rmult_0_r; apply exp_0).
            pose proof (div_le_1 z p ltac:(lra) ltac:(lra)). pose proof (expo_pos g Hg). unfold expo in *.
            rewrite <- P1 at 2. apply powr_mono; try lra.
            split; [apply Rdiv_lt_0_compat; lra|assumption].
          - rewrite !f_above by lra. apply Rlt_le, shock_branch_mono; lra. }
        pose proof (K gi Ri ui Pi Hgi PRi Hpi ltac:(lra)). pose proof (K gj Rj uj Pj Hgj PRj Hpj ltac:(lra)). lra.
      - destruct (Rle_dec z m) as [C|C]; [exact C|exfalso].
        rewrite !f_above in S, Root by (unfold Pi, Pj in *; lra).
        pose proof (shock_branch_mono gi Ri Pi m z Hgi PRi Hpi ltac:(lra) ltac:(lra)).
        pose proof (shock_branch_mono gj Rj Pj m z Hgj PRj Hpj ltac:(lra) ltac:(lra)). lra.
    Qed.

    (** Lower bounds of phi. *)
    Let Ai := alpha_of gi Ri Pi.
    Let Aj := alpha_of gj Rj Pj.

    Lemma PAi : 0 < Ai. Proof. exact (alpha_pos gi Ri Pi Hgi PRi Hpi). Qed.
    Lemma PAj : 0 < Aj. Proof. exact (alpha_pos gj Rj Pj Hgj PRj Hpj). Qed.

    Lemma failsafe_above : Rmax Pi Pj <= z -> z <= ar_p_star_failsafe e di dj + pinf.
    Proof.
      intros Hm. unfold ar_p_star_failsafe. cbn [ad_rho ad_u ad_p ad_gamma ad_a di dj nasg]. fold b pinf.
      rewrite Rmax_shift. fold Pi Pj.
      pose proof (failsafe2 gi Ri Pi gj Rj Pj ui uj z Hgi Hgj PRi Hpi PRj Hpj Root Hm) as F. cbv zeta in F.
      pose proof (Rmax_l Pi Pj) as Ml. pose proof (Rmax_r Pi Pj) as Mr. set (m := Rmax Pi Pj) in *.
      assert (Xi : sqrt (2 * (1 - b * ri) * m / (ri * ((gi + 1) * m + (gi - 1) * Pi))) = fs_x gi Ri Pi m).
      { unfold fs_x, Ri. f_equal. field. unfold Pi in *. repeat split; try lra. nra. }
      assert (Xj : sqrt (2 * (1 - b * rj) * m / (rj * ((gj + 1) * m + (gj - 1) * Pj))) = fs_x gj Rj Pj m).
      { unfold fs_x, Rj. f_equal. field. unfold Pj in *. repeat split; try lra. nra. }
      rewrite Xi, Xj. lra.
    Qed.

    Lemma SS_above : Rmax Pi Pj <= z -> z <= ar_p_star_SS_full e di dj + pinf.
    Proof.
      intros Hm. pose proof (failsafe_above Hm) as F. unfold ar_p_star_SS_full. rewrite alpha_i, alpha_j.
      cbn [ad_rho ad_u ad_p ad_gamma ad_a di dj nasg]. fold pinf. rewrite Rmin_shift. apply Rmin_glb; [|exact F].
      pose proof (Rmax_l Pi Pj) as Ml. pose proof (Rmax_r Pi Pj) as Mr.
      pose proof (f_ge_c_rare gi Ri ui Pi z Hgi PRi Hpi ltac:(lra)) as Li.
      pose proof (f_ge_c_rare gj Rj uj Pj z Hgj PRj Hpj ltac:(lra)) as Lj.
      fold Ai in Li |- *. fold Aj in Lj |- *. fold Pi Pj. fold (expo gi) in Li. fold (expo gj) in Lj.
      fold (expo (Rmin gi gj)).
      pose proof PAi. pose proof PAj. pose proof (ar_c_range gi). pose proof (ar_c_range gj).
      match goal with |- z <= ?a - pinf + pinf => replace (a - pinf + pinf) with a by ring end.
      apply above_bound; try assumption; try (apply Rmult_lt_0_compat; lra); lra.
    Qed.

    (** The side with the smaller and the side with the larger pressure. *)
    Lemma RS_between : Rmin Pi Pj <= z <= Rmax Pi Pj -> z <= ar_p_star_RS_full e di dj + pinf.
    Proof.
      intros Hm. unfold ar_p_star_RS_full, mask_lt, mask_ge. rewrite alpha_i, alpha_j.
      cbn [ad_rho ad_u ad_p ad_gamma ad_a di dj nasg]. fold pinf. rewrite Rmin_shift, Rmin_shift, Rmax_shift. fold Pi Pj.
      fold Ai Aj. pose proof PAi. pose proof PAj.
      destruct (Rlt_dec pi pj) as [C|C]; destruct (Rge_dec pi pj) as [C2|C2]; try lra.
      - assert (E1 : Rmin Pi Pj = Pi) by (apply Rmin_left; unfold Pi, Pj; lra).
        assert (E2 : Rmax Pi Pj = Pj) by (apply Rmax_right; unfold Pi, Pj; lra).
        rewrite E1, E2 in *.
        pose proof (f_ge_c_rare gi Ri ui Pi z Hgi PRi Hpi ltac:(lra)) as Li. fold Ai (expo gi) in Li.
        pose proof (f_eq_rare gj Rj uj Pj z Hgj Hpj ltac:(lra)) as Lj. fold Aj (expo gj) in Lj.
        pose proof (ar_c_range gi).
        assert (L : ar_c gi * Ai * (powr (z / Pi) (expo gi) - 1) + Aj * (powr (z / Pj) (expo gj) - 1) + (uj - ui) <= 0) by lra.
        assert (PA1 : 0 < ar_c gi * Ai) by (apply Rmult_lt_0_compat; lra).
        fold (expo (Rmax gi gj)) (expo (Rmin gi gj)).
        apply Rmin_glb; match goal with |- z <= ?a - pinf + pinf => replace (a - pinf + pinf) with a by ring end.
        + apply first_bound; try assumption; lra.
        + apply second_bound; try assumption; unfold Pi, Pj in *; try lra.
      - assert (E1 : Rmin Pi Pj = Pj) by (apply Rmin_right; unfold Pi, Pj; lra).
        assert (E2 : Rmax Pi Pj = Pi) by (apply Rmax_left; unfold Pi, Pj; lra).
        rewrite E1, E2 in *.
        pose proof (f_ge_c_rare gj Rj uj Pj z Hgj PRj Hpj ltac:(lra)) as Lj. fold Aj (expo gj) in Lj.
        pose proof (f_eq_rare gi Ri ui Pi z Hgi Hpi ltac:(lra)) as Li. fold Ai (expo gi) in Li.
        pose proof (ar_c_range gj).
        assert (L : ar_c gj * Aj * (powr (z / Pj) (expo gj) - 1) + Ai * (powr (z / Pi) (expo gi) - 1) + (uj - ui) <= 0) by lra.
        assert (PA1 : 0 < ar_c gj * Aj) by (apply Rmult_lt_0_compat; lra).
        rewrite (Rmax_comm gi gj), (Rmin_comm gi gj).
        fold (expo (Rmax gj gi)) (expo (Rmin gj gi)).
        apply Rmin_glb; match goal with |- z <= ?a - pinf + pinf => replace (a - pinf + pinf) with a by ring end.
        + apply first_bound; try assumption; lra.
        + apply second_bound; try assumption; unfold Pi, Pj in *; try lra.
    Qed.

    Lemma interpolated_bound : Rmin Pi Pj <= z -> z <= ar_p_star_interpolated e di dj + pinf.
    Proof.
      intros Hm. unfold ar_p_star_interpolated, mask_lt, mask_ge. rewrite alpha_i, alpha_j.
      cbn [ad_rho ad_u ad_p ad_gamma ad_a di dj nasg]. fold pinf. rewrite Rmin_shift, Rmax_shift. fold Pi Pj.
      fold Ai Aj. pose proof PAi. pose proof PAj. pose proof (ar_c_range gi). pose proof (ar_c_range gj).
      match goal with |- z <= ?a - pinf + pinf => replace (a - pinf + pinf) with a by ring end.
      assert (REXP : forall g1 g2, 1 < g1 -> 0 <= (Rmax g1 g2 - g1) / (2 * g1 * Rmax g1 g2)).
      { intros g1 g2 H3. pose proof (Rmax_l g1 g2). apply Rmult_le_pos; [lra|]. apply Rlt_le, Rinv_0_lt_compat. nra. }
      destruct (Rlt_dec pi pj) as [C|C]; destruct (Rge_dec pi pj) as [C2|C2]; try lra.
      - assert (E1 : Rmin Pi Pj = Pi) by (apply Rmin_left; unfold Pi, Pj; lra).
        assert (E2 : Rmax Pi Pj = Pj) by (apply Rmax_right; unfold Pi, Pj; lra).
        rewrite E1, E2 in *.
        pose proof (f_ge_c_rare gi Ri ui Pi z Hgi PRi Hpi ltac:(lra)) as Li. fold Ai (expo gi) in Li.
        assert (PA1 : 0 < ar_c gi * Ai) by (apply Rmult_lt_0_compat; lra).
        assert (PA2 : 0 < ar_c gj * Aj) by (apply Rmult_lt_0_compat; lra).
        fold (expo (Rmin gi gj)).
        destruct (Rle_dec z Pj) as [D|D].
        + pose proof (f_eq_rare gj Rj uj Pj z Hgj Hpj ltac:(lra)) as Lj. fold Aj (expo gj) in Lj.
          apply second_bound; try assumption; try (unfold Pi, Pj in *; lra). split; [exact PA2|nra].
        + pose proof (f_ge_c_rare gj Rj uj Pj z Hgj PRj Hpj ltac:(lra)) as Lj. fold Aj (expo gj) in Lj.
          apply above_interpolated; try assumption; try (unfold Pi, Pj in *; lra); [apply REXP; exact Hgi|nra].
      - assert (E1 : Rmin Pi Pj = Pj) by (apply Rmin_right; unfold Pi, Pj; lra).
        assert (E2 : Rmax Pi Pj = Pi) by (apply Rmax_left; unfold Pi, Pj; lra).
        rewrite E1, E2 in *.
        pose proof (f_ge_c_rare gj Rj uj Pj z Hgj PRj Hpj ltac:(lra)) as Lj. fold Aj (expo gj) in Lj.
        assert (PA1 : 0 < ar_c gi * Ai) by (apply Rmult_lt_0_compat; lra).
        assert (PA2 : 0 < ar_c gj * Aj) by (apply Rmult_lt_0_compat; lra).
        rewrite (Rmax_comm gi gj), (Rmin_comm gi gj).
        fold (expo (Rmin gj gi)).
        destruct (Rle_dec z Pi) as [D|D].
        + pose proof (f_eq_rare gi Ri ui Pi z Hgi Hpi ltac:(lra)) as Li. fold Ai (expo gi) in Li.
          apply second_bound; try assumption; try (unfold Pi, Pj in *; lra). split; [exact PA1|nra].
        + pose proof (f_ge_c_rare gi Ri ui Pi z Hgi PRi Hpi ltac:(lra)) as Li. fold Ai (expo gi) in Li.
          apply above_interpolated; try assumption; try (unfold Pi, Pj in *; lra); [apply REXP; exact Hgj|nra].
    Qed.

    Lemma ar_p_2_bound strict : 0 <= pinf -> (pinf = 0 \/ z <= Rmax Pi Pj) -> Rmin Pi Pj <= z -> z <= ar_p_2 e strict di dj + pinf.
    Proof.
      intros Hinf Hreg Hm. destruct (phi_computed Hinf) as [G1 G2].
      destruct (root_sign (Rmax Pi Pj) (Rle_refl _)) as [S1 S2].
      unfold ar_p_2, mask_lt. cbn [ad_p di dj nasg]. fold pinf. rewrite Rmax_shift. fold Pi Pj.
      pose proof (Rmax_l Pi Pj). pose proof (Rmax_r Pi Pj).
      destruct strict; cbn [negb]; destruct (Rlt_dec (ar_phi_of_p_max e di dj) 0) as [C|C].
      - apply SS_above. apply S1. lra.
      - assert (B : z <= Rmax Pi Pj) by (destruct Hreg as [E|E]; [apply S2; rewrite <- G2; lra|exact E]).
        rewrite Rmin_shift. apply Rmin_glb; [lra|apply RS_between; lra].
      - rewrite Rmin_shift. apply Rmin_glb; [apply interpolated_bound; exact Hm|apply failsafe_above; apply S1; lra].
      - assert (B : z <= Rmax Pi Pj) by (destruct Hreg as [E|E]; [apply S2; rewrite <- G2; lra|exact E]).
        rewrite Rmin_shift. apply Rmin_glb; [lra|apply interpolated_bound; exact Hm].
    Qed.
  End Root.

  Lemma ar_fan_bound q strict us ps sl sr xi : n_fan b pinf q gi ri ui pi gj rj uj pj us ps sl sr ->
    0 <= pinf -> (pinf = 0 \/ ps <= Rmax pi pj) -> sl <= xi <= sr -> Rabs xi <= ar_compute e strict di dj.
  Proof.
    intros F Hinf Hreg X. destruct (n_fan_root q us ps sl sr F) as (Pps & Z & S1 & S2).
    destruct (Rle_dec (ps + pinf) (Rmin Pi Pj)) as [C|C].
    - pose proof (Rmin_l Pi Pj). pose proof (Rmin_r Pi Pj).
      rewrite e_stretch_below in S1, S2 by (unfold Pi, Pj in *; lra).
      destruct (ar_sound_speeds strict). apply Rabs_le. lra.
    - assert (Hreg' : pinf = 0 \/ ps + pinf <= Rmax Pi Pj).
      { destruct Hreg as [E|E]; [left; exact E|right]. unfold Pi, Pj. rewrite <- Rmax_shift. lra. }
      pose proof (ar_p_2_bound (ps + pinf) Pps Z strict Hinf Hreg' ltac:(lra)) as HP.
      unfold ar_compute. destruct (ar_lambda_ge (ar_p_2 e strict di dj)) as [A B].
      set (P := ar_p_2 e strict di dj) in *. clearbody P.
      assert (M : forall g p, 1 < g -> 0 < p + pinf ->
        e_stretch g (p + pinf) (ps + pinf) <= sqrt (1 + 1 / 2 * (g + 1) / g * positive_part ((P - p) / (p + pinf)))).
      { intros g p Hg Hp. apply Rle_trans with (e_stretch g (p + pinf) (P + pinf)); [apply e_stretch_mono; lra|].
        unfold e_stretch. right. f_equal. f_equal. f_equal; [field; lra|]. f_equal. field. lra. }
      pose proof (M gi pi Hgi Hpi) as Mi. pose proof (M gj pj Hgj Hpj) as Mj. fold Pi in Mi. fold Pj in Mj.
      pose proof (n_sound_pos gi ri pi Hgi Hri Hxi Hpi). pose proof (n_sound_pos gj rj pj Hgj Hrj Hxj Hpj).
      apply Rabs_le. split; nra.
  Qed.

  Lemma ar_vacuum_bound strict sl sr xi : n_vacuum b pinf gi ri ui pi gj rj uj pj sl sr ->
    sl <= xi <= sr -> Rabs xi <= ar_compute e strict di dj.
  Proof. intros (V & -> & ->) X. destruct (ar_sound_speeds strict). apply Rabs_le. lra. Qed.

  Lemma n_exact_exists q : 0 <= b -> exists sl sr,
    (exists us ps, n_fan b pinf q gi ri ui pi gj rj uj pj us ps sl sr) \/ n_vacuum b pinf gi ri ui pi gj rj uj pj sl sr.
  Proof.
    intros Hb. destruct (exact_exists2 gi Ri ui Pi gj Rj uj Pj Hgi Hgj PRi Hpi PRj Hpj) as [V|(us & ps & sl & sr & L & W)].
    - exists (ui - n_sound b pinf gi ri pi), (uj + n_sound b pinf gj rj pj). right. split; [|split; reflexivity].
      unfold alpha_of, Ri, Rj, Pi, Pj in V. rewrite <- !n_sound_eq in V by (try assumption; lra).
      unfold Rdiv in *. rewrite !Rmult_assoc in *. exact V.
    - pose proof (e_to_n b pinf q gi ri ui pi us ps sl Hgi Hb Hri Hxi Hpi L) as L'.
      pose proof (e_to_n b pinf q gj rj (- uj) pj (- us) ps (- sr) Hgj Hb Hrj Hxj Hpj W) as W'.
      exists (ui - (ui - sl) / (1 - b * ri)), (- (- uj - (- uj - - sr) / (1 - b * rj))). left. exists us, (ps - pinf).
      split; [exact L'|]. unfold n_right_wave. rewrite Ropp_involutive. exact W'.
  Qed.
End Main.

(** ** States *)

Lemma surrogate_gamma_gas e dim U p g :
  n_gas (interp_b e) (interp_pinf e) (interp_q e) g (a_density U) (a_internal_energy dim U) p ->
  surrogate_gamma e dim U p = g.
Proof.
  intros (Hg & Hr & Hx & Hp & E). unfold surrogate_gamma. rewrite E. unfold n_energy.
  set (x := 1 - interp_b e * a_density U) in *. set (P := p + interp_pinf e) in *. clearbody x P.
  match goal with |- 1 + _ / ?d = _ => replace d with (P * x / (g - 1)) by (field; lra) end.
  field. lra.
Qed.

Lemma ar_data_eq e dim U p n g :
  n_gas (interp_b e) (interp_pinf e) (interp_q e) g (a_density U) (a_internal_energy dim U) p ->
  ar_data e dim U p n = nasg e g (a_density U) (normal_velocity dim n U) p.
Proof.
  intros H. unfold ar_data, nasg. rewrite (surrogate_gamma_gas e dim U p g H).
  f_equal. unfold normal_velocity. rewrite dot_comm. destruct H as (_ & H & _).
  change (density U) with (a_density U). change (momentum U) with (a_momentum U). field. lra.
Qed.

Lemma C38_wave_speed_proof s dim U_i U_j p_i p_j n g_i g_j us ps sl sr xi :
  let b := interp_b (a_eos s) in let pinf := interp_pinf (a_eos s) in let q := interp_q (a_eos s) in
  n_gas b pinf q g_i (a_density U_i) (a_internal_energy dim U_i) p_i ->
  n_gas b pinf q g_j (a_density U_j) (a_internal_energy dim U_j) p_j ->
  0 <= pinf ->
  n_fan b pinf q g_i (a_density U_i) (normal_velocity dim n U_i) p_i
        g_j (a_density U_j) (normal_velocity dim n U_j) p_j us ps sl sr ->
  (pinf = 0 \/ ps <= Rmax p_i p_j) ->
  sl <= xi <= sr ->
  Rabs xi <= ar_wavespeed s dim U_i U_j p_i p_j n.
Proof.
  cbv zeta. intros Gi Gj Hinf F C X. unfold ar_wavespeed.
  rewrite (ar_data_eq _ _ _ _ _ _ Gi), (ar_data_eq _ _ _ _ _ _ Gj).
  destruct Gi as (?&?&?&?&_). destruct Gj as (?&?&?&?&_).
  eapply ar_fan_bound; eassumption.
Qed.

Lemma C38_vacuum_proof s dim U_i U_j p_i p_j n g_i g_j sl sr xi :
  let b := interp_b (a_eos s) in let pinf := interp_pinf (a_eos s) in let q := interp_q (a_eos s) in
  n_gas b pinf q g_i (a_density U_i) (a_internal_energy dim U_i) p_i ->
  n_gas b pinf q g_j (a_density U_j) (a_internal_energy dim U_j) p_j ->
  n_vacuum b pinf g_i (a_density U_i) (normal_velocity dim n U_i) p_i
           g_j (a_density U_j) (normal_velocity dim n U_j) p_j sl sr ->
  sl <= xi <= sr ->
  Rabs xi <= ar_wavespeed s dim U_i U_j p_i p_j n.
Proof.
  cbv zeta. intros Gi Gj F X. unfold ar_wavespeed.
  rewrite (ar_data_eq _ _ _ _ _ _ Gi), (ar_data_eq _ _ _ _ _ _ Gj).
  destruct Gi as (?&?&?&?&_). destruct Gj as (?&?&?&?&_).
  eapply ar_vacuum_bound; eassumption.
Qed.

Lemma C38_characteristics_proof s dim U_i U_j p_i p_j n g_i g_j :
  let b := interp_b (a_eos s) in let pinf := interp_pinf (a_eos s) in let q := interp_q (a_eos s) in
  n_gas b pinf q g_i (a_density U_i) (a_internal_energy dim U_i) p_i ->
  n_gas b pinf q g_j (a_density U_j) (a_internal_energy dim U_j) p_j ->
  let lambda := ar_wavespeed s dim U_i U_j p_i p_j n in
  - lambda <= normal_velocity dim n U_i - n_sound b pinf g_i (a_density U_i) p_i /\
  normal_velocity dim n U_j + n_sound b pinf g_j (a_density U_j) p_j <= lambda.
Proof.
  cbv zeta. intros Gi Gj. unfold ar_wavespeed.
  rewrite (ar_data_eq _ _ _ _ _ _ Gi), (ar_data_eq _ _ _ _ _ _ Gj).
  destruct Gi as (?&?&?&?&_). destruct Gj as (?&?&?&?&_).
  apply ar_sound_speeds; assumption.
Qed.

Lemma C38_exact_exists_proof s dim U_i U_j p_i p_j n g_i g_j :
  let b := interp_b (a_eos s) in let pinf := interp_pinf (a_eos s) in let q := interp_q (a_eos s) in
  0 <= b ->
  n_gas b pinf q g_i (a_density U_i) (a_internal_energy dim U_i) p_i ->
  n_gas b pinf q g_j (a_density U_j) (a_internal_energy dim U_j) p_j ->
  exists sl sr,
    (exists us ps, n_fan b pinf q g_i (a_density U_i) (normal_velocity dim n U_i) p_i
                         g_j (a_density U_j) (normal_velocity dim n U_j) p_j us ps sl sr) \/
    n_vacuum b pinf g_i (a_density U_i) (normal_velocity dim n U_i) p_i
             g_j (a_density U_j) (normal_velocity dim n U_j) p_j sl sr.
Proof.
  cbv zeta. intros Hb Gi Gj. destruct Gi as (?&?&?&?&_). destruct Gj as (?&?&?&?&_).
  apply n_exact_exists; assumption.
Qed.

Lemma ar_wavespeed_nonneg s dim U_i U_j p_i p_j n : 0 <= ar_wavespeed s dim U_i U_j p_i p_j n.
Proof.
  unfold ar_wavespeed, ar_compute, ar_compute_lambda. apply Rle_trans with (2 := Rmax_l _ _). apply pp_nonneg.
Qed.

(** ** A liquid: pinf = 1, both pressures 0, two colliding streams *)

Definition ex_eos (b pinf : R) : eos :=
  {| eos_pressure := fun rho e => 2 * rho * e - 3 * pinf; eos_specific_internal_energy := fun rho p => (p + 3 * pinf) / (2 * rho);
     eos_speed_of_sound := fun rho e => sqrt (6 * (e - pinf / rho)); interp_b := b; interp_pinf := pinf; interp_q := 0 |}.

Definition ex_liquid (strict : bool) : aeos :=
  {| a_eos := ex_eos 0 1; a_reference_density := 1; a_relaxation_small := 10000; a_relaxation_large := 10000;
     compute_strict_bounds := strict |}.

(** Density 5/3, velocity u, pressure 0, gamma 3: internal energy 3/2 per volume. *)
Definition ex_water (u : R) : vec := mkstate 1 (5 / 3) (fun _ => 5 / 3 * u) (3 / 2 + 5 / 6 * u * u).

Lemma ex_water_values u : a_density (ex_water u) = 5 / 3 /\ normal_velocity 1 (fun _ => 1) (ex_water u) = u /\
  a_internal_energy 1 (ex_water u) = 3 / 2.
Proof.
  unfold ex_water, normal_velocity, a_internal_energy, a_density, a_momentum, a_total_energy, density, norm2, dot, rsum, momentum, mkstate; simpl.
  repeat split; field.
Qed.

Lemma ex_water_gas u : n_gas 0 1 0 3 (a_density (ex_water u)) (a_internal_energy 1 (ex_water u)) 0.
Proof.
  destruct (ex_water_values u) as (A & _ & C). rewrite A, C. unfold n_gas, n_energy. repeat split; lra.
Qed.

Lemma ex_water_fan : n_fan 0 1 0 3 (5 / 3) (2 / 5) 0 3 (5 / 3) (- (2 / 5)) 0 0 (6 / 5) (- (7 / 5)) (7 / 5).
Proof.
  split; unfold n_right_wave, n_left_wave; right; exists (15 / 7); unfold n_energy; repeat split; lra.
Qed.

Lemma C38_pinf_refuted_proof : forall strict, exists s dim U_i U_j p_i p_j n g_i g_j us ps sl sr,
  let b := interp_b (a_eos s) in let pinf := interp_pinf (a_eos s) in let q := interp_q (a_eos s) in
  compute_strict_bounds s = strict /\ 0 <= b /\ 0 <= pinf /\ dot dim n n = 1 /\
  n_gas b pinf q g_i (a_density U_i) (a_internal_energy dim U_i) p_i /\
  n_gas b pinf q g_j (a_density U_j) (a_internal_energy dim U_j) p_j /\
  n_fan b pinf q g_i (a_density U_i) (normal_velocity dim n U_i) p_i
        g_j (a_density U_j) (normal_velocity dim n U_j) p_j us ps sl sr /\
  ar_wavespeed s dim U_i U_j p_i p_j n < sr.
Proof.
  intros strict. exists (ex_liquid strict), 1%nat, (ex_water (2 / 5)), (ex_water (- (2 / 5))), 0, 0, (fun _ => 1), 3, 3, 0, (6 / 5), (- (7 / 5)), (7 / 5).
  cbv zeta. change (interp_b (a_eos (ex_liquid strict))) with 0. change (interp_pinf (a_eos (ex_liquid strict))) with 1.
  change (interp_q (a_eos (ex_liquid strict))) with 0.
  split; [reflexivity|]. split; [lra|]. split; [lra|]. split; [unfold dot, rsum; simpl; lra|].
  split; [apply ex_water_gas|]. split; [apply ex_water_gas|].
  unfold ar_wavespeed. rewrite (ar_data_eq (a_eos (ex_liquid strict)) 1 _ 0 (fun _ => 1) 3 (ex_water_gas (2 / 5))).
  rewrite (ar_data_eq (a_eos (ex_liquid strict)) 1 _ 0 (fun _ => 1) 3 (ex_water_gas (- (2 / 5)))).
  destruct (ex_water_values (2 / 5)) as (A1 & A2 & _). destruct (ex_water_values (- (2 / 5))) as (B1 & B2 & _).
  rewrite A1, A2, B1, B2. split; [exact ex_water_fan|].
  change (compute_strict_bounds (ex_liquid strict)) with strict.
  set (e := a_eos (ex_liquid strict)).
  set (di := nasg e 3 (5 / 3) (2 / 5) 0). set (dj := nasg e 3 (5 / 3) (- (2 / 5)) 0).
  (* p_2 is at most p_max + pinf = 1 *)
  assert (S5 : sqrt 5 <= 5 / 2).
  { replace (5 / 2) with (sqrt (25 / 4)) by (symmetry; apply sqrt_uniq; lra). apply sqrt_le_1_alt. lra. }
  assert (Q5 : 0 < sqrt 5) by (apply sqrt_lt_R0; lra).
  assert (PHI : 0 <= ar_phi_of_p_max e di dj).
  { unfold ar_phi_of_p_max. cbn [ad_rho ad_u ad_p ad_gamma ad_a di dj nasg]. change (interp_b e) with 0. change (interp_pinf e) with 1.
    rewrite Rmax_left by lra.
    replace (1 / 2 * (5 / 3) / (1 - 0 * (5 / 3)) * ((3 + 1) * (0 + 1) + (3 - 1) * (0 + 1))) with 5 by field.
    assert (2 / 5 <= (0 + 1 - 0) / sqrt 5); [|lra].
    apply Rmult_le_reg_r with (sqrt 5); [lra|]. unfold Rdiv at 2. rewrite Rmult_assoc, Rinv_l by lra. lra. }
  assert (P2 : ar_p_2 e strict di dj <= 1).
  { unfold ar_p_2, mask_lt. cbn [ad_p di dj nasg]. change (interp_pinf e) with 1.
    replace (Rmax 0 0 + 1) with 1 by (rewrite Rmax_left; lra).
    destruct strict; cbn [negb]; destruct (Rlt_dec _ 0); try lra; apply Rmin_l. }
  unfold ar_compute, ar_compute_lambda, ar_lambda1_minus, ar_lambda3_plus.
  set (P := ar_p_2 e strict di dj) in *. clearbody P.
  cbn [ad_rho ad_u ad_p ad_gamma ad_a di dj nasg]. change (interp_b e) with 0. change (interp_pinf e) with 1.
  assert (SQ : n_sound 0 1 3 (5 / 3) 0 * sqrt (1 + 1 / 2 * (3 + 1) / 3 * positive_part ((P - 0) / (0 + 1))) <= sqrt 3).
  { unfold n_sound. rewrite <- sqrt_mult_alt by lra. apply sqrt_le_1_alt.
    assert (positive_part ((P - 0) / (0 + 1)) <= 1); [|lra].
    replace 1 with (positive_part 1) at 2 by (apply pp_pos; lra). apply pp_mono. lra. }
  assert (S3 : sqrt 3 < 9 / 5).
  { replace (9 / 5) with (sqrt (81 / 25)) by (symmetry; apply sqrt_uniq; lra). apply sqrt_lt_1_alt. lra. }
  set (X := n_sound 0 1 3 (5 / 3) 0 * _) in *. clearbody X.
  assert (positive_part (- (2 / 5) + X) < 7 / 5) by (unfold positive_part, Rabs; destruct (Rcase_abs _); lra).
  assert (negative_part (2 / 5 - X) < 7 / 5) by (unfold negative_part, Rabs; destruct (Rcase_abs _); lra).
  apply Rmax_lub_lt; assumption.
Qed.

(** ** Symmetry *)

Definition a_mirror (d : adata) : adata :=
  {| ad_rho := ad_rho d; ad_u := - ad_u d; ad_p := ad_p d; ad_gamma := ad_gamma d; ad_a := ad_a d |}.

Lemma a_alpha_mirror e d : ar_alpha_of e (a_mirror d) = ar_alpha_of e d.
Proof. reflexivity. Qed.

Lemma a_lambda_mirror e di dj x : ar_compute_lambda e (a_mirror dj) (a_mirror di) x = ar_compute_lambda e di dj x.
Proof.
  unfold ar_compute_lambda.
  assert (L1 : ar_lambda1_minus e (a_mirror dj) x = - ar_lambda3_plus e dj x)
    by (unfold ar_lambda1_minus, ar_lambda3_plus, a_mirror; cbn [ad_u ad_rho ad_p ad_a ad_gamma]; ring).
  assert (L3 : ar_lambda3_plus e (a_mirror di) x = - ar_lambda1_minus e di x)
    by (unfold ar_lambda1_minus, ar_lambda3_plus, a_mirror; cbn [ad_u ad_rho ad_p ad_a ad_gamma]; ring).
  rewrite L1, L3, pp_np, np_pp. apply Rmax_comm.
Qed.

Lemma a_phi_mirror e di dj : ar_phi_of_p_max e (a_mirror dj) (a_mirror di) = ar_phi_of_p_max e di dj.
Proof. unfold ar_phi_of_p_max, a_mirror; cbn [ad_u ad_rho ad_p ad_a ad_gamma]. rewrite (Rmax_comm (ad_p dj)). ring. Qed.

Lemma a_failsafe_mirror e di dj : ar_p_star_failsafe e (a_mirror dj) (a_mirror di) = ar_p_star_failsafe e di dj.
Proof.
  unfold ar_p_star_failsafe, a_mirror; cbn [ad_u ad_rho ad_p ad_a ad_gamma]. rewrite (Rmax_comm (ad_p dj)).
  set (xi := sqrt (2 * _ * _ / (ad_rho di * _))). set (xj := sqrt (2 * _ * _ / (ad_rho dj * _))).
  replace (xj + xi) with (xi + xj) by ring. replace (- ad_u di - - ad_u dj) with (ad_u dj - ad_u di) by ring.
  replace (- (ad_p dj + interp_pinf e) * xj - (ad_p di + interp_pinf e) * xi)
    with (- (ad_p di + interp_pinf e) * xi - (ad_p dj + interp_pinf e) * xj) by ring. reflexivity.
Qed.

(** P_j (N / (A_i (P_i / P_j)^(-k) + A_j))^(1/k) does not depend on the order. *)
Lemma two_wave_symmetric N Ai Aj Pi Pj k : 0 <= N -> 0 < Ai -> 0 < Aj -> 0 < Pi -> 0 < Pj -> 0 < k ->
  Pi * powr (N / (Aj * powr (Pj / Pi) (- k) + Ai)) (1 / k) = Pj * powr (N / (Ai * powr (Pi / Pj) (- k) + Aj)) (1 / k).
Proof.
  intros HN HAi HAj HPi HPj Pk. replace (1 / k) with (/ k) by (field; lra).
  assert (Pq : forall x y, 0 < x -> 0 < y -> powr (x / y) (- k) = Rpower y k / Rpower x k).
  { intros x y Hx Hy. rewrite powr_pos by (apply Rdiv_lt_0_compat; assumption). unfold Rdiv at 1.
    rewrite <- Rpower_mult_distr by (try apply Rinv_0_lt_compat; assumption).
    rewrite Rpower_Ropp. unfold Rpower at 2. rewrite ln_Rinv by assumption.
    replace (- k * - ln y) with (k * ln y) by ring. fold (Rpower y k). field. apply Rgt_not_eq, exp_pos. }
  rewrite !Pq by assumption.
  set (X := Rpower Pi k). set (Y := Rpower Pj k).
  assert (HX : 0 < X) by apply exp_pos. assert (HY : 0 < Y) by apply exp_pos.
  assert (HXi : Rpower X (/ k) = Pi) by (unfold X; rewrite Rpower_mult, Rinv_r, Rpower_1; lra).
  assert (HYi : Rpower Y (/ k) = Pj) by (unfold Y; rewrite Rpower_mult, Rinv_r, Rpower_1; lra).
  destruct HN as [HN|HN].
  2: { rewrite <- HN. unfold Rdiv at 1 3. rewrite !Rmult_0_l. unfold powr.
       destruct (Rlt_dec 0 0) as [F|_]; [lra|]. destruct (Req_EM_T (/ k) 0) as [F|_]; [|ring].
       pose proof (Rinv_0_lt_compat k Pk). lra. }
  set (D := Ai * Y + Aj * X). assert (HD : 0 < D) by (unfold D; nra).
  replace (N / (Ai * (Y / X) + Aj)) with (N * X / D) by (unfold D in *; field; repeat split; apply Rgt_not_eq; lra).
  replace (N / (Aj * (X / Y) + Ai)) with (N * Y / D) by (unfold D in *; field; repeat split; apply Rgt_not_eq; lra).
  assert (G : forall Z, 0 < Z -> 0 < N * Z / D) by (intros; apply Rdiv_lt_0_compat; nra).
  rewrite !powr_pos by (apply G; assumption).
  rewrite <- HXi at 1. rewrite <- HYi at 1.
  rewrite !Rpower_mult_distr by auto. f_equal. field. lra.
Qed.

Lemma a_SS_mirror e di dj : 1 < ad_gamma di -> 1 < ad_gamma dj -> 0 < ar_alpha_of e di -> 0 < ar_alpha_of e dj ->
  0 < ad_p di + interp_pinf e -> 0 < ad_p dj + interp_pinf e ->
  ar_p_star_SS_full e (a_mirror dj) (a_mirror di) = ar_p_star_SS_full e di dj.
Proof.
  intros Gi Gj Ai Aj Pi Pj. unfold ar_p_star_SS_full. rewrite a_failsafe_mirror, !a_alpha_mirror.
  f_equal. f_equal. unfold a_mirror; cbn [ad_u ad_rho ad_p ad_a ad_gamma]. rewrite (Rmin_comm (ad_gamma dj)).
  replace (ar_c (ad_gamma dj) * ar_alpha_of e dj + ar_c (ad_gamma di) * ar_alpha_of e di - (- ad_u di - - ad_u dj)) with
    (ar_c (ad_gamma di) * ar_alpha_of e di + ar_c (ad_gamma dj) * ar_alpha_of e dj - (ad_u dj - ad_u di)) by ring.
  apply two_wave_symmetric; try assumption.
  - apply pp_nonneg.
  - apply Rmult_lt_0_compat; [apply ar_c_range|assumption].
  - apply Rmult_lt_0_compat; [apply ar_c_range|assumption].
  - apply (expo_pos (Rmin (ad_gamma di) (ad_gamma dj))). apply Rmin_glb_lt; assumption.
Qed.

Lemma a_RS_mirror e di dj : ad_p di <> ad_p dj ->
  ar_p_star_RS_full e (a_mirror dj) (a_mirror di) = ar_p_star_RS_full e di dj.
Proof.
  intros H. unfold ar_p_star_RS_full, mask_lt, mask_ge. rewrite !a_alpha_mirror.
  unfold a_mirror; cbn [ad_u ad_rho ad_p ad_a ad_gamma].
  rewrite (Rmin_comm (ad_p dj)), (Rmax_comm (ad_p dj)), (Rmin_comm (ad_gamma dj)), (Rmax_comm (ad_gamma dj)).
  replace (- ad_u di - - ad_u dj) with (ad_u dj - ad_u di) by ring.
  repeat match goal with |- context [Rlt_dec ?a ?b] => destruct (Rlt_dec a b) end;
    repeat match goal with |- context [Rge_dec ?a ?b] => destruct (Rge_dec a b) end; try lra; reflexivity.
Qed.

Lemma a_interpolated_mirror e di dj : ad_p di <> ad_p dj ->
  ar_p_star_interpolated e (a_mirror dj) (a_mirror di) = ar_p_star_interpolated e di dj.
Proof.
  intros H. unfold ar_p_star_interpolated, mask_lt, mask_ge. rewrite !a_alpha_mirror.
  unfold a_mirror; cbn [ad_u ad_rho ad_p ad_a ad_gamma].
  rewrite (Rmin_comm (ad_p dj)), (Rmax_comm (ad_p dj)), (Rmin_comm (ad_gamma dj)), (Rmax_comm (ad_gamma dj)).
  replace (- ad_u di - - ad_u dj) with (ad_u dj - ad_u di) by ring.
  repeat match goal with |- context [Rlt_dec ?a ?b] => destruct (Rlt_dec a b) end;
    repeat match goal with |- context [Rge_dec ?a ?b] => destruct (Rge_dec a b) end; try lra; reflexivity.
Qed.

Lemma ar_c_1 g : 1 < g <= 5 / 3 -> ar_c g = 1.
Proof.
  intros H. unfold ar_c.
  assert (A : 1 <= (3 * g + 11) / (6 * g + 6)).
  { apply Rmult_le_reg_r with (6 * g + 6); [lra|]. unfold Rdiv. rewrite Rmult_assoc, Rinv_l by lra. lra. }
  rewrite (Rmin_left 1) by (apply Rmin_glb; lra). rewrite Rmax_right by lra. apply sqrt_1.
Qed.

Lemma powr_base_1 a : powr 1 a = 1.
Proof. rewrite powr_pos by lra. unfold Rpower. rewrite ln_1, Rmult_0_r. apply exp_0. Qed.

(** Equal pressures and c = 1. *)
Lemma a_RS_tie e di dj : ad_p di = ad_p dj -> 0 < ad_p di + interp_pinf e ->
  ar_c (ad_gamma di) = 1 -> ar_c (ad_gamma dj) = 1 ->
  ar_p_star_RS_full e (a_mirror dj) (a_mirror di) = ar_p_star_RS_full e di dj.
Proof.
  intros H HP C1 C2. unfold ar_p_star_RS_full, mask_lt, mask_ge. rewrite !a_alpha_mirror.
  unfold a_mirror; cbn [ad_u ad_rho ad_p ad_a ad_gamma]. rewrite <- H.
  rewrite (Rmin_comm (ad_gamma dj)), (Rmax_comm (ad_gamma dj)).
  replace (- ad_u di - - ad_u dj) with (ad_u dj - ad_u di) by ring.
  rewrite (Rmin_left (ad_p di) (ad_p di)) by lra. rewrite (Rmax_left (ad_p di) (ad_p di)) by lra.
  replace ((ad_p di + interp_pinf e) / (ad_p di + interp_pinf e)) with 1 by (field; lra). rewrite !powr_base_1.
  destruct (Rlt_dec _ _); [lra|]. destruct (Rge_dec _ _); [|lra]. rewrite C1, C2, !Rmult_1_r, !Rmult_1_l.
  rewrite (Rplus_comm (ar_alpha_of e di)). reflexivity.
Qed.

Lemma a_interpolated_tie e di dj : ad_p di = ad_p dj -> 0 < ad_p di + interp_pinf e ->
  ar_c (ad_gamma di) = 1 -> ar_c (ad_gamma dj) = 1 ->
  ar_p_star_interpolated e (a_mirror dj) (a_mirror di) = ar_p_star_interpolated e di dj.
Proof.
  intros H HP C1 C2. unfold ar_p_star_interpolated, mask_lt, mask_ge. rewrite !a_alpha_mirror.
  unfold a_mirror; cbn [ad_u ad_rho ad_p ad_a ad_gamma]. rewrite <- H.
  rewrite (Rmin_comm (ad_gamma dj)), (Rmax_comm (ad_gamma dj)).
  replace (- ad_u di - - ad_u dj) with (ad_u dj - ad_u di) by ring.
  rewrite (Rmin_left (ad_p di) (ad_p di)) by lra. rewrite (Rmax_left (ad_p di) (ad_p di)) by lra.
  replace ((ad_p di + interp_pinf e) / (ad_p di + interp_pinf e)) with 1 by (field; lra). rewrite !powr_base_1.
  destruct (Rlt_dec _ _); [lra|]. destruct (Rge_dec _ _); [|lra]. rewrite C1, C2, !Rmult_1_r, !Rmult_1_l.
  rewrite (Rplus_comm (ar_alpha_of e di)). reflexivity.
Qed.

Lemma a_compute_mirror e strict di dj : 1 < ad_gamma di -> 1 < ad_gamma dj ->
  0 < ar_alpha_of e di -> 0 < ar_alpha_of e dj ->
  0 < ad_p di + interp_pinf e -> 0 < ad_p dj + interp_pinf e ->
  (ad_p di <> ad_p dj \/ (ad_gamma di <= 5 / 3 /\ ad_gamma dj <= 5 / 3) \/ (strict = true /\ interp_pinf e = 0)) ->
  ar_compute e strict (a_mirror dj) (a_mirror di) = ar_compute e strict di dj.
Proof.
  intros Gi Gj Ai Aj Pi Pj C. unfold ar_compute. rewrite a_lambda_mirror.
  destruct (Req_dec (ad_p di) (ad_p dj)) as [E|E].
  - destruct C as [C|[[C1 C2]|[-> Hinf]]]; [contradiction| |].
    + f_equal. unfold ar_p_2. rewrite a_phi_mirror, a_failsafe_mirror, a_SS_mirror by assumption.
      rewrite a_RS_tie, a_interpolated_tie by (try assumption; apply ar_c_1; split; assumption).
      unfold a_mirror; cbn [ad_p]. rewrite (Rmax_comm (ad_p dj)). reflexivity.
    + unfold ar_p_2. rewrite a_phi_mirror, a_SS_mirror by assumption. cbn [negb]. unfold mask_lt.
      destruct (Rlt_dec _ _); [reflexivity|].
      (* both candidates are at most p, the speed is that of p *)
      assert (K : forall P, P <= ad_p di -> ar_compute_lambda e di dj P = ar_compute_lambda e di dj (ad_p di)).
      { intros P HP. unfold ar_compute_lambda, ar_lambda1_minus, ar_lambda3_plus. rewrite <- E, Hinf in *.
        assert (Z : forall Q, Q <= ad_p di -> positive_part ((Q - ad_p di) / (ad_p di + 0)) = 0).
        { intros Q HQ. apply pp_neg. apply Rmult_le_reg_r with (ad_p di + 0); [lra|].
          unfold Rdiv. rewrite Rmult_assoc, Rinv_l by lra. lra. }
        rewrite !Z by lra. reflexivity. }
      assert (M : Rmax (ad_p di) (ad_p dj) + interp_pinf e = ad_p di) by (rewrite Rmax_left; lra).
      unfold a_mirror at 1 2. cbn [ad_p]. rewrite (Rmax_comm (ad_p dj)), M.
      rewrite (K (Rmin _ _)) by apply Rmin_l. symmetry. apply K, Rmin_l.
  - f_equal. unfold ar_p_2. rewrite a_phi_mirror, a_failsafe_mirror, a_SS_mirror by assumption.
    rewrite a_RS_mirror, a_interpolated_mirror by assumption.
    unfold a_mirror; cbn [ad_p]. rewrite (Rmax_comm (ad_p dj)). reflexivity.
Qed.

Lemma normal_velocity_opp dim n U : normal_velocity dim (fun k => - n k) U = - normal_velocity dim n U.
Proof.
  unfold normal_velocity. replace (dot dim (momentum U) (fun k => - n k)) with (- dot dim (momentum U) n); [unfold Rdiv; ring|].
  unfold dot. rewrite <- (Rmult_1_l (rsum _ _)), Ropp_mult_distr_l, <- rsum_scal. apply rsum_ext. intros. ring.
Qed.

Lemma C73_aeos_symmetric_proof s dim U_i U_j p_i p_j n g_i g_j :
  let b := interp_b (a_eos s) in let pinf := interp_pinf (a_eos s) in let q := interp_q (a_eos s) in
  n_gas b pinf q g_i (a_density U_i) (a_internal_energy dim U_i) p_i ->
  n_gas b pinf q g_j (a_density U_j) (a_internal_energy dim U_j) p_j ->
  (p_i <> p_j \/ (g_i <= 5 / 3 /\ g_j <= 5 / 3) \/ (compute_strict_bounds s = true /\ pinf = 0)) ->
  ar_wavespeed s dim U_j U_i p_j p_i (fun k => - n k) = ar_wavespeed s dim U_i U_j p_i p_j n.
Proof.
  cbv zeta. intros Gi Gj C. unfold ar_wavespeed.
  rewrite !(ar_data_eq _ _ _ _ _ _ Gi), !(ar_data_eq _ _ _ _ _ _ Gj), !normal_velocity_opp.
  match goal with |- ar_compute _ _ ?a ?b = ar_compute _ _ ?c ?d =>
    change a with (a_mirror d); change b with (a_mirror c) end.
  destruct Gi as (?&?&?&?&_). destruct Gj as (?&?&?&?&_).
  apply a_compute_mirror; try assumption.
  - rewrite alpha_i by assumption. apply alpha_pos; try assumption. apply Rdiv_lt_0_compat; assumption.
  - rewrite alpha_i by assumption. apply alpha_pos; try assumption. apply Rdiv_lt_0_compat; assumption.
Qed.

(** ** Equal pressures, gamma = 3 and interpolated bounds *)

Definition ex_gas : aeos :=
  {| a_eos := ex_eos 0 0; a_reference_density := 1; a_relaxation_small := 10000; a_relaxation_large := 10000;
     compute_strict_bounds := false |}.

(** Pressure 1, internal energy 1/2: density 300 (speed of sound 1/10) with velocity 21/8 ... *)
Definition ex_heavy : vec := mkstate 1 300 (fun _ => 300 * (21 / 8)) (1 / 2 + 150 * (21 / 8) * (21 / 8)).
(** ... and density 100/27 (speed of sound 9/10) at rest. *)
Definition ex_rest : vec := mkstate 1 (100 / 27) (fun _ => 0) (1 / 2).

Lemma ex_heavy_values : a_density ex_heavy = 300 /\ normal_velocity 1 (fun _ => 1) ex_heavy = 21 / 8 /\
  a_internal_energy 1 ex_heavy = 1 / 2.
Proof.
  unfold ex_heavy, normal_velocity, a_internal_energy, a_density, a_momentum, a_total_energy, density, norm2, dot, rsum, momentum, mkstate; simpl.
  repeat split; field.
Qed.

Lemma ex_rest_values : a_density ex_rest = 100 / 27 /\ normal_velocity 1 (fun _ => 1) ex_rest = 0 /\
  a_internal_energy 1 ex_rest = 1 / 2.
Proof.
  unfold ex_rest, normal_velocity, a_internal_energy, a_density, a_momentum, a_total_energy, density, norm2, dot, rsum, momentum, mkstate; simpl.
  repeat split; field.
Qed.

Lemma ex_heavy_gas : n_gas 0 0 0 3 (a_density ex_heavy) (a_internal_energy 1 ex_heavy) 1.
Proof. destruct ex_heavy_values as (A & _ & C). rewrite A, C. unfold n_gas, n_energy. repeat split; lra. Qed.

Lemma ex_rest_gas : n_gas 0 0 0 3 (a_density ex_rest) (a_internal_energy 1 ex_rest) 1.
Proof. destruct ex_rest_values as (A & _ & C). rewrite A, C. unfold n_gas, n_energy. repeat split; lra. Qed.

Section Tie.
  Let e := a_eos ex_gas.
  Let dh := nasg e 3 300 (21 / 8) 1.
  Let dr := nasg e 3 (100 / 27) 0 1.
  Let c := ar_c 3.
  Let k := 1 / ((3 - 1) / (2 * 3)).

  Lemma tie_c : 91 / 100 < c < 1.
  Proof.
    assert (C : c * c = 5 / 6).
    { unfold c. rewrite ar_c_square. rewrite (Rmin_left ((3 * 3 + 11) / (6 * 3 + 6))) by lra.
      rewrite (Rmin_right 1) by lra. rewrite Rmax_right by lra. lra. }
    pose proof (ar_c_range 3) as B. fold c in B. clearbody c. split; nra.
  Qed.

  Lemma tie_sound_h : n_sound 0 0 3 300 1 = 1 / 10.
  Proof. unfold n_sound. symmetry. apply sqrt_uniq; lra. Qed.

  Lemma tie_sound_r : n_sound 0 0 3 (100 / 27) 1 = 9 / 10.
  Proof. unfold n_sound. symmetry. apply sqrt_uniq; lra. Qed.

  Lemma tie_alpha_h : ar_alpha_of e dh = 1 / 10.
  Proof.
    unfold ar_alpha_of, ar_alpha. cbn [ad_rho ad_gamma ad_a dh nasg]. change (interp_b e) with 0. change (interp_pinf e) with 0.
    rewrite tie_sound_h. field.
  Qed.

  Lemma tie_alpha_r : ar_alpha_of e dr = 9 / 10.
  Proof.
    unfold ar_alpha_of, ar_alpha. cbn [ad_rho ad_gamma ad_a dr nasg]. change (interp_b e) with 0. change (interp_pinf e) with 0.
    rewrite tie_sound_r. field.
  Qed.

  Lemma tie_cube x : 0 < x -> powr x k = x * x * x.
  Proof.
    intros H. rewrite powr_pos by exact H. replace k with (INR 3) by (unfold k; simpl; field). rewrite Rpower_pow by exact H. ring.
  Qed.

  Lemma tie_tilde di dj ai aj : ad_p di = 1 -> ad_p dj = 1 -> ad_gamma di = 3 -> ad_gamma dj = 3 ->
    ar_alpha_of e di = ai -> ar_alpha_of e dj = aj -> ad_u dj - ad_u di = - (21 / 8) -> 0 < ai -> 0 < aj -> ai + aj = 1 ->
    let y := (c * aj + ai + 21 / 8) / c in ar_p_star_interpolated e di dj = y * y * y.
  Proof.
    intros P1 P2 G1 G2 A1 A2 D Hi Hj S. cbv zeta. unfold ar_p_star_interpolated, mask_lt, mask_ge.
    rewrite P1, P2, G1, G2, A1, A2, D. change (interp_pinf e) with 0.
    rewrite (Rmin_left 1), (Rmax_left 1), (Rmin_left 3), (Rmax_left 3) by lra.
    destruct (Rlt_dec 1 1); [lra|]. destruct (Rge_dec 1 1); [|lra]. fold c k.
    replace ((1 + 0) / (1 + 0)) with 1 by field. rewrite !powr_base_1. pose proof tie_c.
    rewrite pp_pos by nra.
    replace (c * aj + ai - - (21 / 8)) with (c * aj + ai + 21 / 8) by lra.
    replace (c * aj * 1 + c * ai * 1) with c by (replace aj with (1 - ai) by lra; ring).
    rewrite tie_cube by (apply Rdiv_lt_0_compat; nra). ring.
  Qed.

  Lemma tie_failsafe : ar_p_star_failsafe e dh dr = 64.
  Proof.
    unfold ar_p_star_failsafe. cbn [ad_rho ad_gamma ad_a ad_p ad_u dh dr nasg]. change (interp_b e) with 0. change (interp_pinf e) with 0.
    rewrite (Rmax_left 1) by lra.
    replace (sqrt (2 * (1 - 0 * 300) * (1 + 0) / (300 * ((3 + 1) * (1 + 0) + (3 - 1) * (1 + 0))))) with (1 / 30)
      by (apply sqrt_uniq; lra).
    replace (sqrt (2 * (1 - 0 * (100 / 27)) * (1 + 0) / (100 / 27 * ((3 + 1) * (1 + 0) + (3 - 1) * (1 + 0))))) with (3 / 10)
      by (apply sqrt_uniq; lra).
    replace (sqrt _) with (65 / 24) by (apply sqrt_uniq; lra). field.
  Qed.

  Lemma tie_p_2 di dj ai aj : ad_p di = 1 -> ad_p dj = 1 -> ad_gamma di = 3 -> ad_gamma dj = 3 ->
    ar_alpha_of e di = ai -> ar_alpha_of e dj = aj -> ad_u dj - ad_u di = - (21 / 8) -> 0 < ai -> 0 < aj -> ai + aj = 1 ->
    ar_p_star_failsafe e di dj = 64 ->
    let y := (c * aj + ai + 21 / 8) / c in ar_p_2 e false di dj = y * y * y /\ 1 < y < 4.
  Proof.
    intros P1 P2 G1 G2 A1 A2 D Hi Hj S F. pose proof (tie_tilde di dj ai aj P1 P2 G1 G2 A1 A2 D Hi Hj S) as T.
    cbv zeta in *. set (y := (c * aj + ai + 21 / 8) / c) in *. pose proof tie_c as C.
    assert (Y : y * c = c * aj + ai + 21 / 8) by (unfold y; field; lra).
    assert (B : 1 < y < 4).
    { clearbody y. assert (0 < c * aj) by (apply Rmult_lt_0_compat; lra).
      assert (c * aj <= aj) by (rewrite <- (Rmult_1_l aj) at 2; apply Rmult_le_compat_r; lra).
      split; apply Rmult_lt_reg_r with c; lra. }
    split; [|exact B]. unfold ar_p_2, mask_lt. cbn [negb].
    assert (PHI : ar_phi_of_p_max e di dj = - (21 / 8)).
    { unfold ar_phi_of_p_max. rewrite P1, P2. change (interp_pinf e) with 0. rewrite (Rmax_left 1) by lra.
      replace (1 + 0 - 1) with 0 by ring. unfold Rdiv. rewrite !Rmult_0_l. lra. }
    rewrite PHI, T, F. destruct (Rlt_dec _ _); [|lra]. apply Rmin_left.
    assert (y * y <= 16) by nra. nra.
  Qed.

  Lemma tie_lambda P : 1 <= P <= 64 -> ar_compute_lambda e dh dr P = 9 / 10 * sqrt (1 + 2 / 3 * (P - 1)).
  Proof.
    intros HP. unfold ar_compute_lambda, ar_lambda1_minus, ar_lambda3_plus.
    cbn [ad_rho ad_gamma ad_a ad_p ad_u dh dr nasg]. change (interp_b e) with 0. change (interp_pinf e) with 0.
    rewrite tie_sound_h, tie_sound_r. rewrite (pp_pos ((P - 1) / (1 + 0))) by lra.
    replace (1 + 1 / 2 * (3 + 1) / 3 * ((P - 1) / (1 + 0))) with (1 + 2 / 3 * (P - 1)) by field.
    assert (S : 0 <= sqrt (1 + 2 / 3 * (P - 1)) <= 7).
    { split; [apply sqrt_pos|]. replace 7 with (sqrt 49) by (symmetry; apply sqrt_uniq; lra). apply sqrt_le_1_alt. lra. }
    rewrite pp_pos by lra. unfold negative_part. rewrite Rabs_right by lra. rewrite Rmax_left by lra. lra.
  Qed.

  Lemma tie_differs : ar_compute e false dh dr < ar_compute e false (a_mirror dr) (a_mirror dh).
  Proof.
    unfold ar_compute. rewrite a_lambda_mirror.
    destruct (tie_p_2 dh dr (1 / 10) (9 / 10)) as [E1 B1]; try reflexivity; try exact tie_alpha_h; try exact tie_alpha_r; try exact tie_failsafe;
      try (cbn [ad_u dh dr nasg]; lra); try lra.
    destruct (tie_p_2 (a_mirror dr) (a_mirror dh) (9 / 10) (1 / 10)) as [E2 B2]; try reflexivity;
      try exact tie_alpha_h; try exact tie_alpha_r; try (rewrite a_failsafe_mirror; exact tie_failsafe);
      try (cbn [ad_u dh dr nasg a_mirror]; lra); try lra.
    rewrite E1, E2. clear E1 E2. pose proof tie_c as C.
    assert (L : (c * (9 / 10) + 1 / 10 + 21 / 8) / c < (c * (1 / 10) + 9 / 10 + 21 / 8) / c).
    { apply Rmult_lt_compat_r; [apply Rinv_0_lt_compat; lra|lra]. }
    set (y1 := (c * (9 / 10) + 1 / 10 + 21 / 8) / c) in *. set (y2 := (c * (1 / 10) + 9 / 10 + 21 / 8) / c) in *.
    clearbody y1 y2.
    assert (1 <= y1 * y1 <= 16) by nra. assert (1 <= y2 * y2 <= 16) by nra. assert (y1 * y1 < y2 * y2) by nra.
    rewrite !tie_lambda by nra. apply Rmult_lt_compat_l; [lra|]. apply sqrt_lt_1_alt. nra.
  Qed.
End Tie.

Lemma C73_aeos_tie_refuted_proof : exists s dim U_i U_j p_i p_j n g_i g_j,
  let b := interp_b (a_eos s) in let pinf := interp_pinf (a_eos s) in let q := interp_q (a_eos s) in
  n_gas b pinf q g_i (a_density U_i) (a_internal_energy dim U_i) p_i /\
  n_gas b pinf q g_j (a_density U_j) (a_internal_energy dim U_j) p_j /\
  ar_wavespeed s dim U_j U_i p_j p_i (fun k => - n k) <> ar_wavespeed s dim U_i U_j p_i p_j n.
Proof.
  exists ex_gas, 1%nat, ex_heavy, ex_rest, 1, 1, (fun _ => 1), 3, 3. cbv zeta.
  split; [exact ex_heavy_gas|]. split; [exact ex_rest_gas|].
  unfold ar_wavespeed.
  rewrite !(ar_data_eq (a_eos ex_gas) 1 ex_heavy 1 _ 3 ex_heavy_gas), !(ar_data_eq (a_eos ex_gas) 1 ex_rest 1 _ 3 ex_rest_gas).
  rewrite !normal_velocity_opp.
  destruct ex_heavy_values as (A1 & A2 & _). destruct ex_rest_values as (B1 & B2 & _). rewrite A1, A2, B1, B2.
  match goal with |- ar_compute _ _ ?a ?b <> ar_compute _ _ ?c ?d =>
    change a with (a_mirror d); change b with (a_mirror c) end.
  apply Rgt_not_eq. exact tie_differs.
Qed.

(** ** A gas with covolume 3/10: colliding streams of density 10/9 and pressure 1 *)

Definition ex_covolume : aeos :=
  {| a_eos := ex_eos (3 / 10) 0; a_reference_density := 1; a_relaxation_small := 10000; a_relaxation_large := 10000;
     compute_strict_bounds := true |}.

Definition ex_jet (u : R) : vec := mkstate 1 (10 / 9) (fun _ => 10 / 9 * u) (1 / 3 + 5 / 9 * u * u).

Lemma ex_jet_values u : a_density (ex_jet u) = 10 / 9 /\ normal_velocity 1 (fun _ => 1) (ex_jet u) = u /\
  a_internal_energy 1 (ex_jet u) = 1 / 3.
Proof.
  unfold ex_jet, normal_velocity, a_internal_energy, a_density, a_momentum, a_total_energy, density, norm2, dot, rsum, momentum, mkstate; simpl.
  repeat split; field.
Qed.

Lemma ex_jet_gas u : n_gas (3 / 10) 0 0 3 (a_density (ex_jet u)) (a_internal_energy 1 (ex_jet u)) 1.
Proof.
  destruct (ex_jet_values u) as (A & _ & C). rewrite A, C. unfold n_gas, n_energy. repeat split; lra.
Qed.

Lemma ex_jet_fan : n_fan (3 / 10) 0 0 3 (10 / 9) (2 / 5) 1 3 (10 / 9) (- (2 / 5)) 1 0 (11 / 5) (- (23 / 10)) (23 / 10).
Proof.
  split; unfold n_right_wave, n_left_wave; right; exists (30 / 23); unfold n_energy; repeat split; lra.
Qed.

Lemma ex_jet_vacuum : let a := n_sound (3 / 10) 0 3 (10 / 9) 1 in
  n_vacuum (3 / 10) 0 3 (10 / 9) (- (2)) 1 3 (10 / 9) 2 1 (- (2) - a) (2 + a).
Proof.
  cbv zeta. unfold n_vacuum. split; [|split; lra].
  assert (A : n_sound (3 / 10) 0 3 (10 / 9) 1 <= 3).
  { unfold n_sound. apply Rsqr_incr_0_var; [|lra]. rewrite Rsqr_sqrt by lra. unfold Rsqr. lra. }
  lra.
Qed.
