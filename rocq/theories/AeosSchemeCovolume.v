(** * Scheme with an arbitrary equation of state: the density stays below the maximal density *)
From Coq Require Import Reals List Arith Bool Lia Lra Psatz FunctionalExtensionality.
From Verif Require Import RVec Newton PhysSpec PhysLib EulerSystem EulerLimiter EulerSpeed EulerRiemannSpec EulerRiemannProofs AeosSystem AeosLimiter AeosRiemann AeosRiemannSpec AeosRiemannProofs AeosRiemannFinal
  AeosPrecompute Indicator SWScheme SchemeSpec SchemeProofs SchemeUpdate SchemeLimit SchemeFinal ScalarSchemeProofs
  EulerScheme EulerSchemeSpec EulerSchemeProofs AeosScheme AeosSchemeSpec AeosSchemeProofs.
From Verif Require Import Scheme.
Import ListNotations.
Local Open Scope R_scope.

Lemma powr_below_1 x a : 0 < x <= 1 -> 0 < a -> powr x a <= 1.
Proof.
  intros Hx Ha. rewrite powr_pos by lra. rewrite <- (Rpower_1 1) by lra.
  rewrite <- (Rpower_1 1) at 2 by lra. apply Rle_trans with (Rpower 1 a).
  - apply Rle_Rpower_l; lra.
  - unfold Rpower. rewrite !ln_1, !Rmult_0_r. lra.
Qed.

(** The mass that enters the fan between the signal of speed -lambda and the contact. *)
Lemma left_wave_mass b pinf q g rho u p us ps sp lam : 0 <= b -> 1 < g -> 0 < rho -> 0 < 1 - b * rho -> 0 < p + pinf ->
  n_left_wave b pinf q g rho u p us ps sp -> - lam <= sp ->
  b * rho * (lam + u) < lam + us /\ sp < us.
Proof.
  intros Hb Hg Hr Hx Hp [(rhos & Hs & Hxs & Hps & Hle & E1 & E2 & E3)|(rhos & Hs & Hxs & Hlt & Hsp & M & _ & _)] Hl.
  - assert (Q : forall r, 0 < r -> 0 < 1 - b * r -> 1 / r - b = / (r / (1 - b * r))) by (intros; field; lra).
    rewrite !Q, !Rpower_inverse in E1 by (try apply Rdiv_lt_0_compat; assumption).
    assert (R1 : 0 < rho / (1 - b * rho)) by (apply Rdiv_lt_0_compat; assumption).
    assert (R2 : 0 < rhos / (1 - b * rhos)) by (apply Rdiv_lt_0_compat; assumption).
    pose proof (rarefaction_sound g _ _ _ _ Hg R1 Hp R2 Hps E1) as S.
    assert (Hsp : 0 < n_sound b pinf g rho p) by (unfold n_sound; apply sqrt_lt_R0, Rdiv_lt_0_compat; apply Rmult_lt_0_compat; lra).
    rewrite <- !n_sound_eq in S by lra.
    assert (Px : 0 < (ps + pinf) / (p + pinf) <= 1).
    { split; [apply Rdiv_lt_0_compat; lra|]. apply Rmult_le_reg_r with (p + pinf); [lra|].
      unfold Rdiv. rewrite Rmult_assoc, Rinv_l; lra. }
    pose proof (powr_below_1 _ ((g - 1) / (2 * g)) Px ltac:(apply Rdiv_lt_0_compat; lra)) as Hy.
    set (y := powr _ _) in *. set (z := n_sound b pinf g rho p * (1 - b * rho)) in *.
    assert (Hz : 0 < z) by (apply Rmult_lt_0_compat; lra).
    assert (Hu : u <= us).
    { assert (z * y <= z * 1) by (apply Rmult_le_compat_l; lra).
      assert (2 * (n_sound b pinf g rhos ps * (1 - b * rhos)) / (g - 1) <= 2 * z / (g - 1)).
      { apply Rmult_le_compat_r; [left; apply Rinv_0_lt_compat; lra|]. rewrite S. lra. }
      unfold z in *. unfold Rdiv in *. rewrite !Rmult_assoc in *. lra. }
    split; [|lra].
    assert (0 < lam + u) by lra.
    assert (b * rho * (lam + u) < 1 * (lam + u)) by (apply Rmult_lt_compat_r; lra). lra.
  - assert (E : rho * (u - sp) = rhos * (us - sp)) by lra.
    assert (P : 0 < us - sp).
    { apply Rmult_lt_reg_l with rhos; [exact Hs|]. rewrite Rmult_0_r, <- E. apply Rmult_lt_0_compat; lra. }
    split; [|lra].
    assert (E2 : b * rho * (lam + u) = b * rho * (lam + sp) + b * (rho * (u - sp))) by ring.
    rewrite E2, E.
    assert (b * rho * (lam + sp) <= 1 * (lam + sp)) by (apply Rmult_le_compat_r; lra).
    assert (b * rhos * (us - sp) < 1 * (us - sp)) by (apply Rmult_lt_compat_r; lra).
    lra.
Qed.

Section Gas.
Variables (p : aparameters) (dim : nat).
Local Notation s := (ap_system p).
Local Notation e := (a_eos (ap_system p)).
Local Notation SY := (aeos_scheme p dim).
Local Notation cb := (interp_b (a_eos (ap_system p))).
Local Notation pinf := (interp_pinf (a_eos (ap_system p))).
Local Notation q := (interp_q (a_eos (ap_system p))).
Hypothesis Hinf : pinf = 0.
Hypothesis Hcb : 0 <= cb.

Lemma fan_mass u v n lam : aeos_gas e dim u -> aeos_gas e dim v ->
  ar_wavespeed s dim u v (eos_p p dim u) (eos_p p dim v) n <= lam ->
  0 < lam /\
  cb * (u 0%nat * (lam + normal_velocity dim n u) + v 0%nat * (lam - normal_velocity dim n v)) < 2 * lam.
Proof using Hinf Hcb.
  intros Hu Hv Hl. pose proof (gas_n p dim u Hu) as Gu. pose proof (gas_n p dim v Hv) as Gv.
  destruct (C38_exact_exists_proof s dim u v (eos_p p dim u) (eos_p p dim v) n _ _ Hcb Gu Gv) as (sl & sr & [(us & ps & F)|V]).
  - assert (B : forall xi, sl <= xi <= sr -> Rabs xi <= lam).
    { intros xi Hx. eapply Rle_trans; [|exact Hl].
      eapply (C38_wave_speed_proof s dim u v _ _ n _ _ us ps sl sr xi Gu Gv ltac:(lra) F (or_introl Hinf) Hx). }
    destruct F as [F1 F2].
    destruct Gu as (?&?&?&?&_). destruct Gv as (?&?&?&?&_).
    assert (W : forall x, sl <= x <= sr -> - lam <= x <= lam).
    { intros x Hx. pose proof (B x Hx). unfold Rabs in *. destruct (Rcase_abs x); lra. }
    unfold n_right_wave in F2.
    assert (Hord : sl < us /\ us < sr).
    { split.
      - destruct (left_wave_mass _ _ _ _ _ _ _ _ _ _ (- sl) Hcb H H0 H1 H2 F1 ltac:(lra)). lra.
      - destruct (left_wave_mass _ _ _ _ _ _ _ _ _ _ sr Hcb H3 H4 H5 H6 F2 ltac:(lra)). lra. }
    pose proof (W sl ltac:(lra)). pose proof (W sr ltac:(lra)).
    destruct (left_wave_mass _ _ _ _ _ _ _ _ _ _ lam Hcb H H0 H1 H2 F1 ltac:(lra)) as [A _].
    destruct (left_wave_mass _ _ _ _ _ _ _ _ _ _ lam Hcb H3 H4 H5 H6 F2 ltac:(lra)) as [A' _].
    unfold a_density in *. split; [lra|].
    set (x := normal_velocity dim n u) in *. set (y := normal_velocity dim n v) in *. lra.
  - pose proof (C38_characteristics_proof s dim u v (eos_p p dim u) (eos_p p dim v) n _ _ Gu Gv) as [C1 C2].
    destruct V as [V _]. destruct Gu as (?&?&?&?&_). destruct Gv as (?&?&?&?&_).
    assert (S1 : 0 < n_sound cb pinf (eos_g p dim u) (a_density u) (eos_p p dim u)).
    { unfold n_sound. apply sqrt_lt_R0, Rdiv_lt_0_compat; apply Rmult_lt_0_compat; lra. }
    assert (S2 : 0 < n_sound cb pinf (eos_g p dim v) (a_density v) (eos_p p dim v)).
    { unfold n_sound. apply sqrt_lt_R0, Rdiv_lt_0_compat; apply Rmult_lt_0_compat; lra. }
    assert (0 < 2 * n_sound cb pinf (eos_g p dim u) (a_density u) (eos_p p dim u) * (1 - cb * a_density u) / (eos_g p dim u - 1)).
    { apply Rdiv_lt_0_compat; [|lra]. repeat apply Rmult_lt_0_compat; lra. }
    assert (0 < 2 * n_sound cb pinf (eos_g p dim v) (a_density v) (eos_p p dim v) * (1 - cb * a_density v) / (eos_g p dim v - 1)).
    { apply Rdiv_lt_0_compat; [|lra]. repeat apply Rmult_lt_0_compat; lra. }
    set (x := normal_velocity dim n u) in *. set (y := normal_velocity dim n v) in *.
    unfold a_density in *. split; [lra|].
    assert (cb * u 0%nat * (lam + x) < 1 * (lam + x)) by (apply Rmult_lt_compat_r; lra).
    assert (cb * v 0%nat * (lam - y) < 1 * (lam - y)) by (apply Rmult_lt_compat_r; lra).
    lra.
Qed.

Definition mass_cone (w : R) (u : state nat) : Prop := cb * u 0%nat < w.

Lemma mass_add w u w' u' : mass_cone w u -> mass_cone w' u' -> mass_cone (w + w') (fun k => u k + u' k).
Proof using Type. unfold mass_cone. intros. lra. Qed.

Lemma mass_mul a w u : 0 < a -> mass_cone w u -> mass_cone (a * w) (fun k => a * u k).
Proof using Type. unfold mass_cone. intros Ha H. apply (Rmult_lt_compat_l a) in H; lra. Qed.

Section Old.
Variables (M : mesh) (nm : R) (old : (nat -> state nat) * PC nat SY) (d0 : nat -> nat -> R).
Hypothesis Hpat : symmetric_pattern M.
Hypothesis Hmass : positive_masses M.
Hypothesis Hnum : valid_numbering M.
Hypothesis Hdim : mesh_dimension M dim.
Hypothesis Hok : precomputed_ok p dim M old.
Hypothesis Hgas : forall i, active M i -> aeos_gas e dim (fst old i).
Local Notation d := (dij_matrix SY M nm old d0).

Lemma a_speed_positive i j : (i < n_rows M)%nat -> In j (neighbours M i) -> 0 < cnorm (c_ij M i j) ->
  0 < wave_viscosity SY M old i j.
Proof using Hinf Hcb Hpat Hok Hgas.
  intros Hi Hj Hc.
  pose proof (row_active M i j Hpat Hi Hj) as Ai. pose proof (col_active M i j Hpat Hi Hj) as Aj.
  unfold wave_viscosity. cbn [riemann_compute aeos_scheme]. rewrite (Hok i Ai), (Hok j Aj).
  apply Rmult_lt_0_compat; [exact Hc|].
  apply (fan_mass (fst old i) (fst old j) _ _ (Hgas i Ai) (Hgas j Aj) (Rle_refl _)).
Qed.

Lemma mass_one i j dd : (i < n_rows M)%nat -> In j (neighbours M i) ->
  wave_viscosity SY M old i j <= dd ->
  let T := 1 / 2 * (dd * (fst old i 0%nat + fst old j 0%nat)
   - (dot dim (a_flux dim (fst old j) (eos_p p dim (fst old j)) 0) (vec_of (c_ij M i j))
      - dot dim (a_flux dim (fst old i) (eos_p p dim (fst old i)) 0) (vec_of (c_ij M i j)))) in
  cb * T < dd \/ (dd = 0 /\ forall k,
    dot dim (a_flux dim (fst old j) (eos_p p dim (fst old j)) k) (vec_of (c_ij M i j)) = 0 /\
    dot dim (a_flux dim (fst old i) (eos_p p dim (fst old i)) k) (vec_of (c_ij M i j)) = 0).
Proof using Hinf Hcb Hpat Hdim Hok Hgas.
  intros Hi Hj Hw. cbv zeta.
  pose proof (row_active M i j Hpat Hi Hj) as Ai. pose proof (col_active M i j Hpat Hi Hj) as Aj.
  destruct (neighbours_columns M i j Hpat Hi Hj) as [Hjc _].
  set (c := c_ij M i j) in *. pose proof (cnorm_nonneg c) as Hc.
  destruct (Rle_lt_or_eq_dec 0 (cnorm c) Hc) as [Hp|Hz].
  - left. 
    assert (W : ar_wavespeed s dim (fst old i) (fst old j) (eos_p p dim (fst old i)) (eos_p p dim (fst old j)) (vec_of (cdiv c (cnorm c))) <= dd / cnorm c).
    { unfold wave_viscosity in Hw. cbn [riemann_compute aeos_scheme] in Hw. rewrite (Hok i Ai), (Hok j Aj) in Hw.
      apply Rmult_le_reg_l with (cnorm c); [exact Hp|]. replace (cnorm c * (dd / cnorm c)) with dd by (field; lra). exact Hw. }
    destruct (fan_mass (fst old i) (fst old j) _ _ (Hgas i Ai) (Hgas j Aj) W) as [L Q].
    pose proof (proj1 (proj1 (Hgas i Ai))) as Ri. pose proof (proj1 (proj1 (Hgas j Aj))) as Rj.
    unfold normal_velocity in Q.
    rewrite <- !dotp_dot, !dotp_cdiv, !dotp_dot in Q.
    unfold a_flux. cbn [Nat.eqb]. change (a_momentum (fst old i)) with (momentum (fst old i)).
    change (a_momentum (fst old j)) with (momentum (fst old j)).
    set (x := dot dim (momentum (fst old i)) (vec_of c)) in *. set (y := dot dim (momentum (fst old j)) (vec_of c)) in *.
    apply (Rmult_lt_compat_l (cnorm c / 2)) in Q; [|lra].
    unfold density in Q.
    replace (cnorm c / 2 * (2 * (dd / cnorm c))) with dd in Q by (field; lra).
    replace (cnorm c / 2 * (cb * (fst old i 0%nat * (dd / cnorm c + x / cnorm c / fst old i 0%nat) + fst old j 0%nat * (dd / cnorm c - y / cnorm c / fst old j 0%nat))))
      with (cb * (1 / 2 * (dd * (fst old i 0%nat + fst old j 0%nat) - (y - x)))) in Q by (field; repeat split; lra).
    exact Q.
  - assert (Hf : forall f, dot dim f (vec_of c) = 0).
    { intros f. rewrite <- dotp_dot. unfold dotp. apply lsum_zero. intros x _.
      rewrite (cnorm_zero c (eq_sym Hz)). ring. }
    rewrite !Hf.
    assert (Hd : 0 <= dd) by (eapply Rle_trans; [apply (wave_viscosity_nonneg SY M old i j (aeos_nonneg p dim))|exact Hw]).
    destruct (Rle_lt_or_eq_dec 0 dd Hd) as [Dp|Dz]; [left|right; split; [auto|intros; rewrite !Hf; auto]].
    pose proof (proj1 (proj2 (Hgas i Ai))). pose proof (proj1 (proj2 (Hgas j Aj))).
    assert (cb * fst old i 0%nat * dd < 1 * dd) by (apply Rmult_lt_compat_r; lra).
    assert (cb * fst old j 0%nat * dd < 1 * dd) by (apply Rmult_lt_compat_r; lra). lra.
Qed.

Lemma mass_pair i j : pairs_listed M -> (i < n_rows M)%nat -> In j (neighbours M i) ->
  mass_cone (d i j) (pair_state SY M old d dim (a_F p dim) i j) \/
  (d i j = 0 /\ forall k, pair_state SY M old d dim (a_F p dim) i j k = 0).
Proof using Hinf Hcb Hpat Hnum Hdim Hok Hgas.
  intros HP Hi Hj. destruct (neighbours_bound M i j Hpat Hi Hj) as [Hjb [Hij Hne]].
  pose proof (row_active M i j Hpat Hi Hj) as Ai. pose proof (col_active M i j Hpat Hi Hj) as Aj.
  assert (E := fun k => pair_flux p dim M nm old d0 Hok i j k Ai Aj).
  unfold mass_cone. rewrite E.
  destruct (dij_bounds SY M nm old d0 Hpat Hnum i j HP Hi Hj) as [_ [H|[Hs H]]].
  - pose proof (mass_one i j (d i j) Hi Hj H) as [Q|[Q1 Q2]]; [left; exact Q|right].
    split; [exact Q1|]. intros k. rewrite E. destruct (Q2 k) as [-> ->]. rewrite Q1. ring.
  - assert (N : forall f, dot dim f (vec_of (neg (c_ij M i j))) = - dot dim f (vec_of (c_ij M i j))).
    { intros f. rewrite <- !dotp_dot. unfold dotp. rewrite <- lsum_opp. apply lsum_ext. intros x _. rewrite nth_neg. ring. }
    pose proof (mass_one j i (d i j) Hjb Hij H) as Q. cbv zeta in Q. rewrite Hs in Q. destruct Q as [Q|[Q1 Q2]].
    + left. rewrite !N in Q. lra.
    + right. split; [exact Q1|]. intros k. rewrite E. destruct (Q2 k) as [X1 X2]. rewrite N in X1, X2.
      rewrite Q1. set (a := dot _ _ _) in *. set (b := dot _ _ _) in *. lra.
Qed.

Lemma step_covolume i tau new0 cfl : pairs_listed M -> 0 < nm -> 0 < cfl <= 1 -> 0 <= tau ->
  (forall t, In t (row_tau SY M nm cfl old d0) -> tau <= t) ->
  zero_row_sum M i -> active M i ->
  cb * low_order_update SY M old d tau new0 i 0%nat < 1.
Proof using Hinf Hcb Hpat Hmass Hnum Hdim Hok Hgas.
  intros HP Hnm Hcfl Ht HT Hz Ha. pose proof (proj1 (active_constrained M i) Ha) as [Hi Hc].
  pose proof (row_tau_bound SY M nm cfl old d0 tau Hpat Hmass Hnm (proj1 Hcfl) HT i Ha) as Hb.
  rewrite dij_diag in Hb by assumption. destruct (Hmass i Ha) as [Hm _].
  pose proof (Rmax_l (lsum (fun j => d i j) (neighbours M i)) (1000000 * nm)) as Hl.
  apply (low_order_cone SY M old d tau mass_cone mass_add mass_mul dim (a_F p dim) new0 i);
    try assumption; try apply aeos_central; try apply aeos_plain.
  - apply Rle_trans with (cfl * mass M i).
    + eapply Rle_trans; [|exact Hb]. apply Rmult_le_compat_l; [exact Ht|]. lra.
    + rewrite <- (Rmult_1_l (mass M i)) at 2. apply Rmult_le_compat_r; lra.
  - apply (Hgas i Ha).
  - intros j Hj. apply mass_pair; assumption.
Qed.
End Old.
End Gas.
