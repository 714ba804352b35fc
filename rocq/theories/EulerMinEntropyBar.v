(** * Proofs: the minimum entropy principle of the bar states *)
From Coq Require Import Reals List Arith Lia Lra Psatz FunctionalExtensionality.
From Verif Require Import RVec EulerSystem EulerLimiter EulerLimiterEntropy PhysSpec PhysLib EulerRiemann EulerRiemannSpec EulerRiemannProofs EulerRiemannFinal
  EulerScheme EulerSchemeSpec EulerMinEntropySpec SchemeProofs EulerSchemeProofs EulerMinEntropy.
From Verif Require Import Scheme.
Local Open Scope R_scope.

Section Bar.
Variables (s : euler) (dim : nat) (n : vec) (s0 : R).
Hypothesis Hg : 1 < gamma s.
Hypothesis Hn : dot dim n n = 1.
Hypothesis Hs0 : 0 <= s0.
Local Notation g := (gamma s).

Lemma s_flux_normal u k : 0 < density u -> dot dim (EulerSystem.flux s dim u k) n =
  let vn := dot dim (momentum u) n / density u in
  if Nat.eqb k 0 then density u * vn
  else if Nat.eqb k (Datatypes.S dim) then (total_energy dim u + pressure s dim u) * vn
  else momentum u (k - 1)%nat * vn + pressure s dim u * (if Nat.ltb (k - 1) dim then n (k - 1)%nat else 0).
Proof using.
  exact (flux_normal {| ep_system := s; ep_eps := 0; ep_big := 0; ep_riemann_tol := 0; ep_riemann_iterations := 0%nat;
    ep_tol := 0; ep_iterations := 0%nat; ep_relaxation := 0; ep_evc := 0 |} dim u n k).
Qed.

Variables (rho0 : R) (v0 : vec).
Hypothesis Hrho0 : 0 < rho0.
Definition G0 : R := g * powr rho0 (g - 1).
Definition H0 : R := (g - 1) * powr rho0 g.

Lemma H0_nonneg : 0 <= H0.
Proof using Hg Hrho0. unfold H0. pose proof (powr_gt0 rho0 g Hrho0). apply Rmult_le_pos; lra. Qed.

Lemma tangent0 rho : 0 < rho -> G0 * rho - H0 <= powr rho g.
Proof using Hg Hrho0.
  intros Hr. pose proof (powr_tangent g rho rho0 ltac:(lra) Hr Hrho0) as T. unfold G0, H0.
  assert (E : powr rho0 g = rho0 * powr rho0 (g - 1)).
  { replace g with (1 + (g - 1)) at 1 by ring. rewrite powr_plus, powr_1 by exact Hrho0. reflexivity. }
  rewrite E in *. lra.
Qed.

(** The functional. *)
Definition Phi (U : vec) : R :=
  total_energy dim U - dot dim v0 (momentum U) + (1 / 2 * norm2 dim v0 - s0 * G0) * density U.

Definition kap (u : vec) : R :=
  let w := vsub (vscal (/ density u) (momentum u)) v0 in norm2 dim w - dot dim w n * dot dim w n.

Lemma kap_nonneg u : 0 <= kap u.
Proof using Hn.
  unfold kap. cbv zeta. set (w := vsub _ _).
  assert (E : norm2 dim w - dot dim w n * dot dim w n = norm2 dim (vsub w (vscal (dot dim w n) n))).
  { replace (vsub w (vscal (dot dim w n) n)) with (vadd w (vscal (- dot dim w n) n))
      by (apply functional_extensionality; intros k; unfold vsub, vadd, vscal; ring).
    rewrite norm2_add, norm2_scal, dot_scal_r. unfold norm2 at 3. rewrite Hn. ring. }
  rewrite E. apply norm2_nonneg.
Qed.

Lemma Phi_fn u : 0 < density u ->
  Phi u = fn g s0 G0 (dot dim v0 n) (kap u) (density u) (normal_velocity dim n u) (pressure s dim u).
Proof using Hg.
  intros Hr. unfold Phi, fn, kap, normal_velocity. cbv zeta.
  assert (E1 : dot dim (vsub (vscal (/ density u) (momentum u)) v0) n = dot dim (momentum u) n / density u - dot dim v0 n).
  { rewrite dot_sub_l, dot_scal_l. field. lra. }
  assert (E2 : norm2 dim (vsub (vscal (/ density u) (momentum u)) v0) =
    norm2 dim (momentum u) / (density u * density u) - 2 * dot dim v0 (momentum u) / density u + norm2 dim v0).
  { replace (vsub (vscal (/ density u) (momentum u)) v0) with (vadd (vscal (/ density u) (momentum u)) (vscal (-1) v0))
      by (apply functional_extensionality; intros k; unfold vsub, vadd, vscal; ring).
    rewrite norm2_add, !norm2_scal, dot_scal_l, dot_scal_r, (dot_comm dim (momentum u) v0). field. lra. }
  rewrite E1, E2. unfold pressure, internal_energy. field. split; lra.
Qed.

Lemma Phi_flux u : 0 < density u ->
  Phi (fun k => dot dim (EulerSystem.flux s dim u k) n) =
  fn_flux g s0 G0 (dot dim v0 n) (kap u) (density u) (normal_velocity dim n u) (pressure s dim u).
Proof using Hg.
  intros Hr. unfold fn_flux. rewrite <- Phi_fn by exact Hr. unfold Phi, normal_velocity.
  set (w := fun k => dot dim (EulerSystem.flux s dim u k) n). set (vn := dot dim (momentum u) n / density u).
  assert (W0 : density w = density u * vn) by (unfold density at 1, w; rewrite s_flux_normal by exact Hr; reflexivity).
  assert (WE : total_energy dim w = (total_energy dim u + pressure s dim u) * vn).
  { unfold total_energy at 1. unfold w. rewrite s_flux_normal by exact Hr. cbn [Nat.eqb]. rewrite Nat.eqb_refl. reflexivity. }
  assert (WM : dot dim v0 (momentum w) = vn * dot dim v0 (momentum u) + pressure s dim u * dot dim v0 n).
  { rewrite <- !dot_scal_r, <- dot_add_r. apply rsum_ext. intros k Hk. f_equal.
    unfold momentum at 1. unfold w. rewrite s_flux_normal by exact Hr. cbn [Nat.eqb].
    destruct (Nat.eqb_spec k dim); [lia|]. rewrite Nat.sub_succ, Nat.sub_0_r. destruct (Nat.ltb_spec k dim); [|lia].
    unfold vadd, vscal. fold vn. ring. }
  rewrite W0, WE, WM. ring.
Qed.

Definition bar (u v : vec) (lam : R) : vec :=
  fun k => (u k + v k) / 2 - (dot dim (EulerSystem.flux s dim v k) n - dot dim (EulerSystem.flux s dim u k) n) / (2 * lam).

Lemma Phi_bar u v lam : lam <> 0 ->
  Phi (bar u v lam) = (Phi u + Phi v) / 2 -
    (Phi (fun k => dot dim (EulerSystem.flux s dim v k) n) - Phi (fun k => dot dim (EulerSystem.flux s dim u k) n)) / (2 * lam).
Proof using.
  intros Hl. unfold Phi.
  assert (E : dot dim v0 (momentum (bar u v lam)) = (dot dim v0 (momentum u) + dot dim v0 (momentum v)) / 2 -
    (dot dim v0 (momentum (fun k => dot dim (EulerSystem.flux s dim v k) n)) - dot dim v0 (momentum (fun k => dot dim (EulerSystem.flux s dim u k) n))) / (2 * lam)).
  { transitivity (dot dim v0 (vadd (vscal (1 / 2) (vadd (momentum u) (momentum v)))
       (vscal (- (1 / (2 * lam))) (vsub (momentum (fun k => dot dim (EulerSystem.flux s dim v k) n)) (momentum (fun k => dot dim (EulerSystem.flux s dim u k) n)))))).
    - apply rsum_ext. intros k _. f_equal. unfold momentum, bar, vadd, vscal, vsub. field. exact Hl.
    - rewrite dot_add_r, !dot_scal_r, dot_add_r. 
      replace (vsub (momentum (fun k => dot dim (EulerSystem.flux s dim v k) n)) (momentum (fun k => dot dim (EulerSystem.flux s dim u k) n))) with
        (vadd (momentum (fun k => dot dim (EulerSystem.flux s dim v k) n)) (vscal (-1) (momentum (fun k => dot dim (EulerSystem.flux s dim u k) n))))
        by (apply functional_extensionality; intros k; unfold vsub, vadd, vscal; ring).
      rewrite dot_add_r, dot_scal_r. field. exact Hl. }
  rewrite E. unfold total_energy, density, bar. field. exact Hl.
Qed.

Lemma mirror_fn G a kappa rho u p : fn g s0 G (- a) kappa rho (- u) p = fn g s0 G a kappa rho u p.
Proof using. unfold fn. ring. Qed.

Lemma mirror_flux G a kappa rho u p : fn_flux g s0 G (- a) kappa rho (- u) p = - fn_flux g s0 G a kappa rho u p.
Proof using. unfold fn_flux. rewrite mirror_fn. ring. Qed.

Lemma Phi_bar_nonneg u v lam : 0 < density u -> 0 < pressure s dim u -> 0 < density v -> 0 < pressure s dim v -> 0 < lam ->
  s0 * powr (density u) g <= pressure s dim u / (g - 1) -> s0 * powr (density v) g <= pressure s dim v / (g - 1) ->
  resolved s dim u v n lam -> 0 <= Phi (bar u v lam) + s0 * H0.
Proof using Hg Hn Hs0 Hrho0.
  intros Ru Pu Rv Pv Hl Su Sv HR. rewrite Phi_bar by lra. rewrite !Phi_flux, !Phi_fn by assumption.
  set (a := dot dim v0 n).
  set (ru := density u) in *. set (rv := density v) in *. set (pu := pressure s dim u) in *. set (pv := pressure s dim v) in *.
  set (nu := normal_velocity dim n u) in *. set (nv := normal_velocity dim n v) in *.
  pose proof (kap_nonneg u) as Ku. pose proof (kap_nonneg v) as Kv.
  enough (T : 0 <= lam * fn g s0 G0 a (kap u) ru nu pu + fn_flux g s0 G0 a (kap u) ru nu pu +
              (lam * fn g s0 G0 a (kap v) rv nv pv - fn_flux g s0 G0 a (kap v) rv nv pv) + 2 * lam * (s0 * H0)).
  { apply Rmult_le_reg_r with (2 * lam); [lra|]. rewrite Rmult_0_l.
    match goal with |- _ <= ?x => match type of T with _ <= ?y => replace x with y; [exact T|] end end. field. lra. }
  destruct HR as [(us & ps & sl & sr & (WL & WR) & L1 & L2)|(sl & sr & (V1 & V2 & V3) & L1 & L2)].
  - pose proof (half_wave g s0 G0 H0 a (kap u) Hg Hs0 Ku tangent0 ru nu pu us ps sl lam Ru Pu Su WL L1) as A.
    pose proof (half_wave g s0 G0 H0 (- a) (kap v) Hg Hs0 Kv tangent0 rv (- nv) pv (- us) ps (- sr) lam Rv Pv Sv WR ltac:(lra)) as B.
    rewrite mirror_fn, mirror_flux in B. lra.
  - fold ru rv pu pv nu nv in V1, V2, V3.
    pose proof (half_vacuum g s0 G0 H0 a (kap u) Hg Hs0 H0_nonneg Ku tangent0 ru nu pu lam Ru Pu Su ltac:(lra)) as A.
    pose proof (half_vacuum g s0 G0 H0 (- a) (kap v) Hg Hs0 H0_nonneg Kv tangent0 rv (- nv) pv lam Rv Pv Sv ltac:(lra)) as B.
    rewrite mirror_fn, mirror_flux in B.
    assert (0 <= s0 * H0) by (apply Rmult_le_pos; [exact Hs0|apply H0_nonneg]).
    assert (C : 0 <= s0 * H0 * (nv - 2 * sound g rv pv / (g - 1) - (nu + 2 * sound g ru pu / (g - 1)))) by (apply Rmult_le_pos; lra).
    lra.
Qed.
End Bar.

Lemma resolved_slow s dim n u v lam : 1 < gamma s -> 0 < density u -> 0 < pressure s dim u -> 0 < density v -> 0 < pressure s dim v ->
  resolved s dim u v n lam -> - lam < normal_velocity dim n u /\ normal_velocity dim n v < lam.
Proof.
  intros Hg Ru Pu Rv Pv HR.
  pose proof (sound_pos _ _ _ Hg Ru Pu) as S1. pose proof (sound_pos _ _ _ Hg Rv Pv) as S2.
  assert (K : forall rho u p us ps sp, 0 < rho -> 0 < p -> e_left_wave (gamma s) rho u p us ps sp -> sp < u).
  { intros rho x p us ps sp Hr Hp [(rhos & _ & _ & _ & _ & ->)|(rhos & _ & _ & H & _)]; [|exact H].
    pose proof (sound_pos _ _ _ Hg Hr Hp). lra. }
  destruct HR as [(us & ps & sl & sr & (WL & WR) & L1 & L2)|(sl & sr & (V1 & V2 & V3) & L1 & L2)].
  - apply K in WL; [|assumption..]. apply K in WR; [|assumption..]. lra.
  - lra.
Qed.

Lemma bar_density_pos s dim n u v lam : 1 < gamma s -> 0 < density u -> 0 < pressure s dim u -> 0 < density v -> 0 < pressure s dim v -> 0 < lam ->
  resolved s dim u v n lam -> 0 < density (bar s dim n u v lam).
Proof.
  intros Hg Ru Pu Rv Pv Hl HR. destruct (resolved_slow s dim n u v lam Hg Ru Pu Rv Pv HR) as [A B].
  unfold density at 1. unfold bar. rewrite !s_flux_normal by assumption. cbn [Nat.eqb].
  fold (normal_velocity dim n u) (normal_velocity dim n v). set (a := normal_velocity dim n u) in *. set (b := normal_velocity dim n v) in *.
  change (u 0%nat) with (density u). change (v 0%nat) with (density v).
  replace ((density u + density v) / 2 - (density v * b - density u * a) / (2 * lam)) with
    ((density u * (lam + a) + density v * (lam - b)) / (2 * lam)) by (field; lra).
  apply Rdiv_lt_0_compat; [|lra]. apply Rplus_lt_0_compat; apply Rmult_lt_0_compat; lra.
Qed.

Lemma C129_bar_proof : forall s dim U_i U_j n lambda s0,
  1 < gamma s -> dot dim n n = 1 -> 0 < lambda ->
  0 < density U_i -> 0 < pressure s dim U_i -> 0 < density U_j -> 0 < pressure s dim U_j ->
  resolved s dim U_i U_j n lambda ->
  0 <= s0 -> s0 <= entropy_of_gas s dim U_i -> s0 <= entropy_of_gas s dim U_j ->
  let B := fan_average s dim n U_i U_j lambda in
  0 < density B /\ s0 <= entropy_of_gas s dim B.
Proof.
  intros s dim u v n lam s0 Hg Hn Hl Ru Pu Rv Pv HR Hs0 Su Sv.
  assert (K : forall u, 0 < density u -> s0 <= entropy_of_gas s dim u -> s0 * powr (density u) (gamma s) <= pressure s dim u / (gamma s - 1)).
  { intros w Hw H. unfold entropy_of_gas in H. pose proof (powr_gt0 (density w) (gamma s) Hw) as Q. unfold pressure.
    replace ((gamma s - 1) * internal_energy dim w / (gamma s - 1)) with (internal_energy dim w) by (field; lra).
    apply (Rmult_le_compat_r (powr (density w) (gamma s))) in H; [|lra].
    unfold internal_energy. unfold Rdiv in H at 1. rewrite Rmult_assoc, Rinv_l, Rmult_1_r in H by lra.
    eapply Rle_trans; [exact H|]. right. field. lra. }
  change (fan_average s dim n u v lam) with (bar s dim n u v lam). cbv zeta.
  pose proof (bar_density_pos s dim n u v lam Hg Ru Pu Rv Pv Hl HR) as HB. split; [exact HB|].
  set (B := bar s dim n u v lam) in *.
  pose proof (Phi_bar_nonneg s dim n s0 Hg Hn Hs0 (density B) (vscal (/ density B) (momentum B)) HB u v lam Ru Pu Rv Pv Hl (K u Ru Su) (K v Rv Sv) HR) as P.
  fold B in P. unfold Phi, G0, H0 in P. rewrite dot_scal_l, norm2_scal in P.
  change (dot dim (momentum B) (momentum B)) with (norm2 dim (momentum B)) in P.
  assert (E : powr (density B) (gamma s) = density B * powr (density B) (gamma s - 1)).
  { replace (gamma s) with (1 + (gamma s - 1)) at 1 by ring. rewrite powr_plus, powr_1 by exact HB. reflexivity. }
  pose proof (powr_gt0 (density B) (gamma s - 1) HB) as Q. rewrite E in P.
  unfold entropy_of_gas. rewrite E.
  assert (Q' : 0 < density B * powr (density B) (gamma s - 1)) by (apply Rmult_lt_0_compat; assumption).
  apply Rmult_le_reg_r with (density B * powr (density B) (gamma s - 1)); [exact Q'|].
  unfold Rdiv at 1. rewrite Rmult_assoc, Rinv_l, Rmult_1_r by lra.
  set (q := powr (density B) (gamma s - 1)) in *. set (r := density B) in *. clearbody q r.
  replace (total_energy dim B - / r * norm2 dim (momentum B) +
    (1 / 2 * (/ r * / r * norm2 dim (momentum B)) - s0 * (gamma s * q)) * r + s0 * ((gamma s - 1) * (r * q)))
    with (total_energy dim B - norm2 dim (momentum B) / (2 * r) - s0 * (r * q)) in P by (field; lra). lra.
Qed.
