(** * The surrogate entropy bound of EulerAEOS::Limiter::limit in exact arithmetic *)
From Coq Require Import Reals List Bool Arith Lia Lra Psatz.
From Verif Require Import RVec Newton NewtonProofs NewtonSign EulerSystem AeosSystem EulerLimiter
  EulerLimiterProofs EulerLimiterEntropy AeosLimiter AeosLimiterProofs.
Import ListNotations.
Local Open Scope R_scope.

(** ** x^a (1 - b x)^d P(x) *)

Lemma covolume_deriv b x : derivable_pt_lim (fun y => 1 - b * y) x (- b).
Proof.
  replace (- b) with (0 - b * 1) by ring.
  apply (derivable_pt_lim_minus (fun _ => 1) (fun y => b * y)).
  - apply derivable_pt_lim_const.
  - apply (derivable_pt_lim_scal (fun y => y) b). apply derivable_pt_lim_id.
Qed.

Lemma pcp_deriv b a d (P : R -> R) P' x : 0 < x -> 0 < 1 - b * x ->
  derivable_pt_lim P x P' ->
  derivable_pt_lim (fun y => powr y a * powr (1 - b * y) d * P y) x
    (powr x (a - 1) * powr (1 - b * x) (d - 1) *
     (a * (1 - b * x) * P x - d * (b * x) * P x + x * (1 - b * x) * P')).
Proof.
  intros Hx Hc HP.
  assert (E : powr x (a - 1) * powr (1 - b * x) (d - 1) *
     (a * (1 - b * x) * P x - d * (b * x) * P x + x * (1 - b * x) * P') =
     ((a * powr x (a - 1)) * powr (1 - b * x) d + powr x a * ((d * powr (1 - b * x) (d - 1)) * (- b))) * P x
     + (powr x a * powr (1 - b * x) d) * P').
  { replace (powr x a) with (powr x (a - 1) * x).
    2:{ replace a with (a - 1 + 1) at 2 by ring. rewrite powr_plus, powr_1 by exact Hx. reflexivity. }
    replace (powr (1 - b * x) d) with (powr (1 - b * x) (d - 1) * (1 - b * x)).
    2:{ replace d with (d - 1 + 1) at 2 by ring. rewrite powr_plus, powr_1 by exact Hc. reflexivity. }
    ring. }
  rewrite E.
  apply (derivable_pt_lim_mult (fun y => powr y a * powr (1 - b * y) d) P); [|exact HP].
  apply (derivable_pt_lim_mult (fun y => powr y a) (fun y => powr (1 - b * y) d)).
  - apply powr_deriv. exact Hx.
  - apply (derivable_pt_lim_comp (fun y => 1 - b * y) (fun z => powr z d)).
    + apply covolume_deriv.
    + apply powr_deriv. exact Hc.
Qed.

(** ** h(rho) = rho^(g+1) (1 - b rho)^(1-g) and its derivatives *)

Section H.
  Variables b g : R.
  Definition h0 (x : R) : R := powr x (g + 1) * powr (1 - b * x) (1 - g) * 1.
  Definition h1 (x : R) : R := powr x g * powr (1 - b * x) (- g) * (g + 1 - 2 * (b * x)).
  Definition nn (x : R) : R := g * (g + 1 - 2 * (b * x)) - 2 * (b * x) * (1 - b * x).
  Definition h2 (x : R) : R := powr x (g - 1) * powr (1 - b * x) (- g - 1) * nn x.
  Definition h3 (x : R) : R := powr x (g - 1 - 1) * powr (1 - b * x) (- g - 1 - 1) * (g * (g * g - 1)).

  Lemma h0_deriv x : 0 < x -> 0 < 1 - b * x -> derivable_pt_lim h0 x (h1 x).
  Proof.
    intros Hx Hc. unfold h1.
    assert (X := pcp_deriv b (g + 1) (1 - g) (fun _ => 1) 0 x Hx Hc (derivable_pt_lim_const 1 x)).
    replace (g + 1 - 1) with g in X by ring. replace (1 - g - 1) with (- g) in X by ring.
    replace (g + 1 - 2 * (b * x)) with
      ((g + 1) * (1 - b * x) * 1 - (1 - g) * (b * x) * 1 + x * (1 - b * x) * 0) by ring.
    exact X.
  Qed.

  Lemma h1_deriv x : 0 < x -> 0 < 1 - b * x -> derivable_pt_lim h1 x (h2 x).
  Proof.
    intros Hx Hc. unfold h2.
    assert (D : derivable_pt_lim (fun y => g + 1 - 2 * (b * y)) x (- (2 * b))).
    { replace (- (2 * b)) with (0 - 2 * (b * 1)) by ring.
      apply (derivable_pt_lim_minus (fun _ => g + 1) (fun y => 2 * (b * y))).
      - apply derivable_pt_lim_const.
      - apply (derivable_pt_lim_scal (fun y => b * y) 2).
        apply (derivable_pt_lim_scal (fun y => y) b). apply derivable_pt_lim_id. }
    assert (X := pcp_deriv b g (- g) (fun y => g + 1 - 2 * (b * y)) _ x Hx Hc D).
    replace (nn x) with
      (g * (1 - b * x) * (g + 1 - 2 * (b * x)) - - g * (b * x) * (g + 1 - 2 * (b * x)) +
       x * (1 - b * x) * - (2 * b)) by (unfold nn; ring).
    exact X.
  Qed.

  Lemma nn_deriv x : derivable_pt_lim nn x (4 * b * (b * x) - 2 * b * (g + 1)).
  Proof.
    assert (E : forall y, nn y = quad 0 (g * (g + 1)) (- (2 * b * (g + 1))) (2 * b * b) y).
    { intros y. unfold nn, quad. ring. }
    apply (derivable_pt_lim_ext (quad 0 (g * (g + 1)) (- (2 * b * (g + 1))) (2 * b * b))).
    - intros y. symmetry. apply E.
    - replace (4 * b * (b * x) - 2 * b * (g + 1))
        with (- (2 * b * (g + 1)) + 2 * (2 * b * b) * (x - 0)) by ring.
      apply quad_deriv.
  Qed.

  Lemma h2_deriv x : 0 < x -> 0 < 1 - b * x -> derivable_pt_lim h2 x (h3 x).
  Proof.
    intros Hx Hc. unfold h3.
    assert (X := pcp_deriv b (g - 1) (- g - 1) nn _ x Hx Hc (nn_deriv x)).
    replace (g * (g * g - 1)) with
      ((g - 1) * (1 - b * x) * nn x - (- g - 1) * (b * x) * nn x +
       x * (1 - b * x) * (4 * b * (b * x) - 2 * b * (g + 1))) by (unfold nn; ring).
    exact X.
  Qed.

  Lemma h3_nonneg x : 1 < g -> 0 < x -> 0 < 1 - b * x -> 0 <= h3 x.
  Proof.
    intros Hg Hx Hc. unfold h3.
    assert (A := powr_gt0 x (g - 1 - 1) Hx). assert (B := powr_gt0 _ (- g - 1 - 1) Hc).
    apply Rmult_le_pos; [apply Rmult_le_pos; lra|]. nra.
  Qed.

  (** k(rho) = h(rho) / rho is convex *)
  Definition k0 (x : R) : R := powr x g * powr (1 - b * x) (1 - g) * 1.
  Definition k1 (x : R) : R := powr x (g - 1) * powr (1 - b * x) (- g) * (g - b * x).
  Definition k2 (x : R) : R := powr x (g - 1 - 1) * powr (1 - b * x) (- g - 1) * (g * (g - 1)).

  Lemma k0_deriv x : 0 < x -> 0 < 1 - b * x -> derivable_pt_lim k0 x (k1 x).
  Proof.
    intros Hx Hc. unfold k1.
    assert (X := pcp_deriv b g (1 - g) (fun _ => 1) 0 x Hx Hc (derivable_pt_lim_const 1 x)).
    replace (1 - g - 1) with (- g) in X by ring.
    replace (g - b * x) with
      (g * (1 - b * x) * 1 - (1 - g) * (b * x) * 1 + x * (1 - b * x) * 0) by ring.
    exact X.
  Qed.

  Lemma k1_deriv x : 0 < x -> 0 < 1 - b * x -> derivable_pt_lim k1 x (k2 x).
  Proof.
    intros Hx Hc. unfold k2.
    assert (D : derivable_pt_lim (fun y => g - b * y) x (- b)).
    { replace (- b) with (0 - b * 1) by ring.
      apply (derivable_pt_lim_minus (fun _ => g) (fun y => b * y)).
      - apply derivable_pt_lim_const.
      - apply (derivable_pt_lim_scal (fun y => y) b). apply derivable_pt_lim_id. }
    assert (X := pcp_deriv b (g - 1) (- g) (fun y => g - b * y) _ x Hx Hc D).
    replace (g * (g - 1)) with
      ((g - 1) * (1 - b * x) * (g - b * x) - - g * (b * x) * (g - b * x) +
       x * (1 - b * x) * - b) by ring.
    exact X.
  Qed.

  Lemma k2_nonneg x : 1 < g -> 0 < x -> 0 < 1 - b * x -> 0 <= k2 x.
  Proof.
    intros Hg Hx Hc. unfold k2.
    assert (A := powr_gt0 x (g - 1 - 1) Hx). assert (B := powr_gt0 _ (- g - 1) Hc).
    apply Rmult_le_pos; [apply Rmult_le_pos; lra|]. nra.
  Qed.

  Lemma h1_k x : 0 < x -> 0 < 1 - b * x -> h1 x = k0 x + x * k1 x.
  Proof.
    intros Hx Hc. unfold h1, k0, k1.
    replace (powr x g) with (powr x (g - 1) * x).
    2:{ replace g with (g - 1 + 1) at 2 by ring. rewrite powr_plus, powr_1 by exact Hx. reflexivity. }
    replace (powr (1 - b * x) (1 - g)) with (powr (1 - b * x) (- g) * (1 - b * x)).
    2:{ replace (1 - g) with (- g + 1) by ring. rewrite powr_plus, powr_1 by exact Hc. reflexivity. }
    ring.
  Qed.

  Lemma h0_k x : 0 < x -> h0 x = x * k0 x.
  Proof.
    intros Hx. unfold h0, k0. rewrite (powr_plus x g 1), powr_1 by exact Hx. ring.
  Qed.

End H.

(** A function with a nondecreasing derivative lies above its tangents. *)
Lemma convex_tangent (f f1 f2 : R -> R) x y :
  (forall z, Rmin x y <= z <= Rmax x y -> derivable_pt_lim f z (f1 z)) ->
  (forall z, Rmin x y <= z <= Rmax x y -> derivable_pt_lim f1 z (f2 z)) ->
  (forall z, Rmin x y <= z <= Rmax x y -> 0 <= f2 z) ->
  f y + f1 y * (x - y) <= f x.
Proof.
  intros D1 D2 S.
  destruct (Rtotal_order x y) as [H|[H|H]].
  - rewrite Rmin_left, Rmax_right in * by lra.
    destruct (MVT_cor2 f f1 x y H D1) as (c & E & Hc).
    assert (M : f1 c <= f1 y).
    { destruct (Req_dec c y) as [->|Hn]; [lra|].
      destruct (MVT_cor2 f1 f2 c y ltac:(lra)) as (c' & E' & Hc').
      { intros z Hz. apply D2. lra. }
      assert (0 <= f2 c') by (apply S; lra). nra. }
    nra.
  - subst. lra.
  - rewrite Rmin_right, Rmax_left in * by lra.
    destruct (MVT_cor2 f f1 y x H D1) as (c & E & Hc).
    assert (M : f1 y <= f1 c).
    { destruct (MVT_cor2 f1 f2 y c ltac:(lra)) as (c' & E' & Hc').
      { intros z Hz. apply D2. lra. }
      assert (0 <= f2 c') by (apply S; lra). nra. }
    nra.
Qed.

(** ** psi along the update *)

Section Lane.
  Variable s : aeos.
  Variable dim : nat.
  Variable L : alane.

  Let rU := a_density (al_U L).
  Let rP := a_density (al_P L).
  Let sm := as_min (al_b L).
  Let g := agamma_min (al_b L).
  Let b := interp_b (a_eos s).
  Let q := interp_q (a_eos s).
  Let pinf := interp_pinf (a_eos s).

  Let rho (t : R) := rU + t * rP.

  (** the same update without entropy bound, as an Euler lane *)
  Let L0 : lane := {| l_bounds := {| rho_min := 0; rho_max := 0; s_min := 0 |};
                      l_U := al_U L; l_P := al_P L; l_tmin := 0; l_tmax := 0 |}.

  Definition aA : R := qA dim L0 + (pinf * b - q) * (rU * rU) - pinf * rU.
  Definition aB : R := qB dim L0 + 2 * (pinf * b - q) * (rU * rP) - pinf * rP.
  Definition aC : R := qC dim L0 + (pinf * b - q) * (rP * rP).

  Definition ap0 (t : R) : R := quad 0 aA aB aC t - sm * h0 b g (rho t).
  Definition ap1 (t : R) : R := aB + 2 * aC * (t - 0) - sm * (h1 b g (rho t) * rP).
  Definition ap2 (t : R) : R := 2 * aC - sm * (h2 b g (rho t) * rP * rP).
  Definition ap3 (t : R) : R := 0 - sm * (h3 b g (rho t) * rP * rP * rP).

  Lemma a_internal_energy_eq t : a_internal_energy dim (a_along L t) = internal_energy dim (along L0 t).
  Proof. reflexivity. Qed.

  Lemma a_rho_shift t : rho t <> 0 ->
    rho t * (a_internal_energy dim (a_along L t) - rho t * q - pinf * (1 - b * rho t))
    = quad 0 aA aB aC t.
  Proof.
    intros H. rewrite a_internal_energy_eq.
    assert (E : rho t * internal_energy dim (along L0 t) = quad 0 (qA dim L0) (qB dim L0) (qC dim L0) t)
      by exact (rho_rho_e dim L0 t H).
    replace (rho t * (internal_energy dim (along L0 t) - rho t * q - pinf * (1 - b * rho t)))
      with (rho t * internal_energy dim (along L0 t) - rho t * (rho t * q + pinf * (1 - b * rho t))) by ring.
    rewrite E. unfold quad, aA, aB, aC, rho. ring.
  Qed.

  Lemma a_psi_ap0 t : 0 < rho t -> 0 < 1 - b * rho t -> a_psi s 0 dim L t = ap0 t.
  Proof.
    intros H Hc. unfold a_psi, ap0. cbv zeta.
    change (a_density (a_along L t)) with (rho t). fold b q pinf g sm.
    rewrite <- a_rho_shift by lra. unfold a_relax_small, h0.
    rewrite (powr_plus (rho t) g 1), powr_1 by exact H.
    replace (- (g - 1)) with (1 - g) by ring. ring.
  Qed.

  Lemma a_dpsi_ap1 t : 0 < rho t -> 0 < 1 - b * rho t -> a_dpsi s dim L t = ap1 t.
  Proof.
    intros H Hc. unfold a_dpsi, ap1. cbv zeta.
    change (a_density (a_along L t)) with (rho t).
    change (a_density (al_P L)) with rP. fold b q pinf g sm.
    set (e2 := {| gamma := 2; reference_density := 0; vacuum_state_relaxation_small := 0;
                  vacuum_state_relaxation_large := 0 |}).
    assert (E := dpsi_psi0 e2 dim L0 t H). unfold dpsi, psi0_1 in E. cbv zeta in E.
    change (density (along L0 t)) with (rho t) in E.
    change (s_min (l_bounds L0)) with 0 in E.
    change (density (l_P L0)) with rP in E.
    change (internal_energy_derivative dim (along L0 t)) with (a_internal_energy_derivative dim (a_along L t)) in E.
    change (internal_energy dim (along L0 t)) with (a_internal_energy dim (a_along L t)) in E.
    change (l_P L0) with (al_P L) in E.
    assert (X : powr (rho t / (1 - b * rho t)) g = powr (rho t) g * powr (1 - b * rho t) (- g)).
    { unfold Rdiv. rewrite powr_mult_base; [|exact H|apply Rinv_0_lt_compat; exact Hc].
      rewrite powr_inv by exact Hc. rewrite powr_opp by exact Hc. reflexivity. }
    rewrite X. unfold h1.
    set (de := dot (dim + 2) (a_internal_energy_derivative dim (a_along L t)) (al_P L)) in *.
    set (ie := a_internal_energy dim (a_along L t)) in *.
    set (w := powr (rho t) g * powr (1 - b * rho t) (- g)).
    replace (rho t * de + (ie - (2 * rho t * q + pinf * (1 - 2 * b * rho t)) -
      sm * w * (1 - b * rho t + g - b * rho t)) * rP)
      with ((rho t * de + (ie - (gamma e2 + 1) * 0 * powr (rho t) (gamma e2)) * rP) -
       (2 * rho t * q + pinf * (1 - 2 * b * rho t)) * rP - sm * w * (g + 1 - 2 * (b * rho t)) * rP) by ring.
    rewrite E. unfold aB, aC, rho. ring.
  Qed.

  Lemma comp_deriv f f1 t : derivable_pt_lim f (rho t) f1 ->
    derivable_pt_lim (fun u => f (rho u)) t (f1 * rP).
  Proof.
    intros H. apply (derivable_pt_lim_comp rho f); [apply affine_deriv|exact H].
  Qed.

  Lemma ap0_deriv t : 0 < rho t -> 0 < 1 - b * rho t -> derivable_pt_lim ap0 t (ap1 t).
  Proof.
    intros H Hc. unfold ap0, ap1.
    apply (derivable_pt_lim_minus (quad 0 aA aB aC) (fun t => sm * h0 b g (rho t))).
    - apply quad_deriv.
    - apply (derivable_pt_lim_scal (fun t => h0 b g (rho t)) sm).
      apply comp_deriv. apply h0_deriv; assumption.
  Qed.

  Lemma ap1_deriv t : 0 < rho t -> 0 < 1 - b * rho t -> derivable_pt_lim ap1 t (ap2 t).
  Proof.
    intros H Hc. unfold ap1, ap2.
    apply (derivable_pt_lim_minus (fun t => aB + 2 * aC * (t - 0)) (fun t => sm * (h1 b g (rho t) * rP))).
    - apply quad_deriv2.
    - apply (derivable_pt_lim_scal (fun t => h1 b g (rho t) * rP) sm).
      apply (derivable_pt_lim_scal_right (fun t => h1 b g (rho t)) t _ rP).
      apply comp_deriv. apply h1_deriv; assumption.
  Qed.

  Lemma ap2_deriv t : 0 < rho t -> 0 < 1 - b * rho t -> derivable_pt_lim ap2 t (ap3 t).
  Proof.
    intros H Hc. unfold ap2, ap3.
    apply (derivable_pt_lim_minus (fun t => 2 * aC) (fun t => sm * (h2 b g (rho t) * rP * rP))).
    - apply derivable_pt_lim_const.
    - apply (derivable_pt_lim_scal (fun t => h2 b g (rho t) * rP * rP) sm).
      apply (derivable_pt_lim_scal_right (fun t => h2 b g (rho t) * rP) t _ rP).
      apply (derivable_pt_lim_scal_right (fun t => h2 b g (rho t)) t _ rP).
      apply comp_deriv. apply h2_deriv; assumption.
  Qed.

  Lemma ap3_sign : 1 < g -> 0 <= sm ->
    (0 <= rP -> forall t, 0 < rho t -> 0 < 1 - b * rho t -> ap3 t <= 0) /\
    (rP <= 0 -> forall t, 0 < rho t -> 0 < 1 - b * rho t -> 0 <= ap3 t).
  Proof.
    intros Hg Hs.
    assert (K : forall t, 0 < rho t -> 0 < 1 - b * rho t -> 0 <= sm * h3 b g (rho t) * (rP * rP)).
    { intros t Ht Hc. assert (X := h3_nonneg b g (rho t) Hg Ht Hc).
      apply Rmult_le_pos; [apply Rmult_le_pos; lra|apply Rle_0_sqr]. }
    assert (E : forall t, ap3 t = - (sm * h3 b g (rho t) * (rP * rP)) * rP).
    { intros t. unfold ap3. ring. }
    split; intros HP t Ht Hc; rewrite E; specialize (K t Ht Hc); nra.
  Qed.

  (** psi(t_r) = 0 at the end of a bracket with psi(t_l) >= 0: not increasing *)
  Lemma a_dpsi_at_root tl tr :
    1 < g -> 0 <= sm -> tl < tr ->
    (forall x, Rmin (rho tl) (rho tr) <= x <= Rmax (rho tl) (rho tr) -> 0 < x /\ 0 < 1 - b * x) ->
    0 <= a_psi s 0 dim L tl -> a_psi s 0 dim L tr = 0 -> a_dpsi s dim L tr <= 0.
  Proof.
    intros Hg Hs Ht Hx Pl Pr.
    assert (Hl : 0 < rho tl /\ 0 < 1 - b * rho tl) by (apply Hx; split; [apply Rmin_l|apply Rmax_l]).
    assert (Hr : 0 < rho tr /\ 0 < 1 - b * rho tr) by (apply Hx; split; [apply Rmin_r|apply Rmax_r]).
    rewrite a_dpsi_ap1 by apply Hr. rewrite a_psi_ap0 in Pl by apply Hl. rewrite a_psi_ap0 in Pr by apply Hr.
    (* G = shift - s k *)
    unfold ap0 in Pl, Pr.
    rewrite <- a_rho_shift in Pl, Pr by (destruct Hl, Hr; lra).
    rewrite h0_k in Pl by apply Hl. rewrite h0_k in Pr by apply Hr.
    assert (T := internal_energy_tangent dim (along L0 tr) (along L0 tl) (proj1 Hr) (proj1 Hl)).
    assert (V : dot (dim + 2) (internal_energy_derivative dim (along L0 tr)) (vsub (along L0 tl) (along L0 tr))
              = (tl - tr) * dot (dim + 2) (internal_energy_derivative dim (along L0 tr)) (l_P L0)).
    { rewrite <- dot_scal_r. apply dot_ext; intros k Hk; [reflexivity|].
      unfold vsub, along, vadd, vscal. ring. }
    rewrite V in T. clear V.
    assert (Q := convex_tangent (k0 b g) (k1 b g) (k2 b g) (rho tl) (rho tr)
      (fun z Hz => k0_deriv b g z (proj1 (Hx z Hz)) (proj2 (Hx z Hz)))
      (fun z Hz => k1_deriv b g z (proj1 (Hx z Hz)) (proj2 (Hx z Hz)))
      (fun z Hz => k2_nonneg b g z Hg (proj1 (Hx z Hz)) (proj2 (Hx z Hz)))).
    rewrite <- a_dpsi_ap1 by apply Hr.
    unfold a_dpsi. cbv zeta.
    change (a_density (a_along L tr)) with (rho tr). change (a_density (al_P L)) with rP. fold b q pinf g sm.
    assert (X : as_min (al_b L) * powr (rho tr / (1 - b * rho tr)) g * (1 - b * rho tr + g - b * rho tr)
                = sm * (k0 b g (rho tr) + rho tr * k1 b g (rho tr))).
    { rewrite <- h1_k by apply Hr. unfold h1.
      replace (powr (rho tr / (1 - b * rho tr)) g) with (powr (rho tr) g * powr (1 - b * rho tr) (- g)).
      { unfold sm. ring. }
      unfold Rdiv. rewrite powr_mult_base; [|apply Hr|apply Rinv_0_lt_compat; apply Hr].
      rewrite powr_inv by apply Hr. rewrite powr_opp by apply Hr. reflexivity. }
    fold sm in X. rewrite X. clear X.
    rewrite !a_internal_energy_eq in *.
    change (a_internal_energy_derivative dim (a_along L tr)) with (internal_energy_derivative dim (along L0 tr)).
    change (al_P L) with (l_P L0).
    assert (RR : rho tl = rho tr + (tl - tr) * rP) by (unfold rho; ring).
    set (de := dot (dim + 2) (internal_energy_derivative dim (along L0 tr)) (l_P L0)) in *.
    set (el := internal_energy dim (along L0 tl)) in *. set (er := internal_energy dim (along L0 tr)) in *.
    set (kl := k0 b g (rho tl)) in *. set (kr := k0 b g (rho tr)) in *. set (kd := k1 b g (rho tr)) in *.
    destruct Hl as [Hl _]. destruct Hr as [Hr _]. clear Hx.
    set (rl := rho tl) in *. set (rr := rho tr) in *.
    clearbody de el er kl kr kd rl rr rP sm b q pinf.
    assert (E1 : er - rr * q - pinf * (1 - b * rr) = sm * kr).
    { apply Rmult_eq_reg_l with rr; lra. }
    assert (E2 : sm * kl <= el - rl * q - pinf * (1 - b * rl)).
    { apply Rmult_le_reg_l with rl; lra. }
    replace (rl - rr) with ((tl - tr) * rP) in Q by lra.
    assert (E3 : sm * (kr + kd * ((tl - tr) * rP)) <= sm * kl) by (apply Rmult_le_compat_l; lra).
    assert (E4 : 0 <= (tl - tr) * (de - q * rP + pinf * b * rP - sm * kd * rP)).
    { assert (Z : (tl - tr) * (de - q * rP + pinf * b * rP - sm * kd * rP) =
        (er + (tl - tr) * de - rl * q - pinf * (1 - b * rl)) - (er - rr * q - pinf * (1 - b * rr)) - sm * (kd * ((tl - tr) * rP))).
      { rewrite RR. ring. }
      rewrite Z. lra. }
    assert (E5 : de - q * rP + pinf * b * rP - sm * kd * rP <= 0) by nra.
    assert (E6 : rr * (de - q * rP + pinf * b * rP - sm * kd * rP) <= 0) by nra.
    replace (rr * de + (er - (2 * rr * q + pinf * (1 - 2 * b * rr)) - sm * (kr + rr * kd)) * rP)
      with (rr * (de - q * rP + pinf * b * rP - sm * kd * rP) +
            (er - rr * q - pinf * (1 - b * rr) - sm * kr) * rP) by ring.
    rewrite E1. lra.
  Qed.

End Lane.

(** ** The loop *)

Definition a_entropy_hyp (s : aeos) (dim : nat) (L : alane) : Prop :=
  a_density_hyp L /\ 0 < arho_min (al_b L) /\ 0 <= as_min (al_b L) /\
  1 < agamma_min (al_b L) /\ 0 <= interp_b (a_eos s) /\ interp_b (a_eos s) * arho_max (al_b L) < 1 /\
  0 <= a_psi s 0 dim L (al_tmin L).

Definition a_einv (s : aeos) (dim : nat) (x : alane * (R * R)) : Prop :=
  let '(L, (tl, tr)) := x in
  a_entropy_hyp s dim L /\
  al_tmin L <= tl /\ tl <= tr <= a_limit_density 0 L /\ 0 <= a_psi s 0 dim L tl.

Definition a_einv' (s : aeos) (dim : nat) (x : alane * (R * R)) : Prop :=
  a_einv s dim x /\
  let '(L, (tl, tr)) := x in tl = tr \/ a_psi s 0 dim L tr <= 0.

Lemma a_acc_einv s dim x : a_einv s dim x -> a_einv' s dim (a_acc1 s 0 dim x).
Proof.
  destruct x as [L [tl tr]]. intros (H & A & B & C). simpl. unfold a_einv', a_einv, mask_gt.
  destruct (Rgt_dec (a_psi s 0 dim L tr) 0) as [G|G].
  - split; [|left; reflexivity]. split; [exact H|]. split; [lra|]. split; lra.
  - split; [|right; lra]. split; [exact H|]. split; [lra|]. split; lra.
Qed.

Lemma a_good_density s dim L t : a_entropy_hyp s dim L -> al_tmin L <= t <= a_limit_density 0 L ->
  0 < a_density (a_along L t) /\ 0 < 1 - interp_b (a_eos s) * a_density (a_along L t).
Proof.
  intros (H1 & H2 & H3 & H4 & H5 & H6 & H7) Ht.
  assert (X := a_density_between 0 L t (Rle_refl 0) H1 Ht). split; [lra|].
  assert (interp_b (a_eos s) * a_density (a_along L t) <= interp_b (a_eos s) * arho_max (al_b L))
    by (apply Rmult_le_compat_l; lra). lra.
Qed.

Lemma a_newt_einv s dim x : a_einv' s dim x -> a_einv s dim (a_newt1 s 0 dim x).
Proof.
  destruct x as [L [tl tr]]. intros [(H & A & B & C) D].
  unfold a_newt1.
  destruct (quadratic_newton_step 0 (-1) tl tr (a_psi s 0 dim L tl) (a_psi s 0 dim L tr)
          (a_dpsi s dim L tl) (a_dpsi s dim L tr)) as [q1 q2] eqn:E.
  assert (NS : tl <= q1 /\ q1 <= q2 /\ q2 <= tr) by (eapply newton_shrinks; [|exact E]; lra).
  unfold a_einv. split; [exact H|]. split; [lra|]. split; [lra|].
  destruct (Req_dec tl tr) as [Heq|Hne].
  { replace q1 with tl by lra. exact C. }
  destruct D as [D|D]; [lra|].
  assert (P : forall t, tl <= t <= tr ->
    0 < a_density (a_along L t) /\ 0 < 1 - interp_b (a_eos s) * a_density (a_along L t)).
  { intros t Ht. apply (a_good_density s dim L t H). lra. }
  destruct H as (H1 & H2 & H3 & H4 & H5 & H6 & H7).
  assert (Z : a_psi s 0 dim L tr = 0 -> a_dpsi s dim L tr <= 0).
  { apply (a_dpsi_at_root s dim L tl tr H4 H3 ltac:(lra)); [|exact C].
    intros x Hx.
    assert (P1 := P tl ltac:(lra)). assert (P2 := P tr ltac:(lra)).
    rewrite !a_density_along in P1, P2.
    unfold Rmin, Rmax in Hx.
    destruct (Rle_dec (a_density (al_U L) + tl * a_density (al_P L)) (a_density (al_U L) + tr * a_density (al_P L)));
      (split; [lra|]); nra. }
  assert (Pq := P q1 ltac:(lra)). assert (Pl := P tl ltac:(lra)). assert (Pr := P tr ltac:(lra)).
  rewrite (a_psi_ap0 s dim L q1) by apply Pq.
  rewrite (a_psi_ap0 s dim L tl) in C by apply Pl.
  rewrite (a_psi_ap0 s dim L tr) in Z, D by apply Pr.
  rewrite (a_dpsi_ap1 s dim L tr) in Z by apply Pr.
  rewrite (a_psi_ap0 s dim L tl), (a_dpsi_ap1 s dim L tl) in E by apply Pl.
  rewrite (a_psi_ap0 s dim L tr), (a_dpsi_ap1 s dim L tr) in E by apply Pr.
  refine (newton_left_end_exact (ap0 s dim L) (ap1 s dim L) (ap2 s dim L) (ap3 s L)
    tl tr q1 q2 ltac:(lra) _ _ _ _ C E q1 ltac:(lra)).
  - intros x Hx. apply ap0_deriv; apply (P x Hx).
  - intros x Hx. apply ap1_deriv; apply (P x Hx).
  - intros x Hx. apply ap2_deriv; apply (P x Hx).
  - destruct (ap3_sign s L H4 H3) as [S1 S2].
    destruct (Rle_lt_dec 0 (a_density (al_P L))) as [Hp|Hp].
    + left. intros x Hx. apply S1; [exact Hp|apply (P x Hx)|apply (P x Hx)].
    + right. split; [|split; assumption].
      intros x Hx. apply S2; [lra|apply (P x Hx)|apply (P x Hx)].
Qed.

Lemma a_limit_entropy_psi s tol fuel dim lanes ts b :
  Forall (a_entropy_hyp s dim) lanes ->
  a_limit s 0 tol fuel dim lanes = (ts, b) ->
  Forall2 (fun L t => 0 <= a_psi s 0 dim L t) lanes ts.
Proof.
  intros H. apply (a_limit_inv s 0 tol fuel dim (a_einv s dim) (a_einv' s dim)).
  - apply a_acc_einv.
  - intros x. apply a_newt_einv.
  - intros L tl tr [(_ & _ & _ & X)|[(_ & _ & _ & X) _]]; exact X.
  - eapply Forall_impl; [|exact H]. intros L HL. unfold a_einv.
    assert (X := a_limit_density_range 0 L (proj1 (proj2 (proj1 HL)))).
    split; [exact HL|]. split; [lra|]. split; [lra|apply HL].
Qed.

(** psi >= 0 says that the surrogate entropy is at least s_min *)
Lemma a_psi_entropy s dim L t : 0 < a_density (a_along L t) ->
  0 < 1 - interp_b (a_eos s) * a_density (a_along L t) ->
  (0 <= a_psi s 0 dim L t <->
   as_min (al_b L) <= surrogate_specific_entropy (a_eos s) dim (a_along L t) (agamma_min (al_b L))).
Proof.
  intros H Hc. unfold a_psi, surrogate_specific_entropy. cbv zeta.
  set (r := a_density (a_along L t)) in *. set (b := interp_b (a_eos s)) in *.
  set (sh := a_internal_energy dim (a_along L t) - r * interp_q (a_eos s) - interp_pinf (a_eos s) * (1 - b * r)).
  set (sm := as_min (al_b L)). set (g := agamma_min (al_b L)).
  unfold a_relax_small. replace (1 + a_relaxation_small s * 0) with 1 by ring.
  replace (1 / r - b) with ((1 - b * r) * / r) by (field; lra).
  rewrite powr_mult_base by (auto using Rinv_0_lt_compat). rewrite powr_inv by exact H.
  replace (- (g - 1)) with (- g + 1) by ring. rewrite powr_plus, powr_1, powr_opp by exact Hc.
  assert (K := powr_gt0 r g H). assert (K' := powr_gt0 _ g Hc).
  set (k := powr r g) in *. set (c := 1 - b * r) in *. set (kc := powr c g) in *.
  clearbody k r sh sm c kc.
  assert (E : sh * (kc * / k) / c = sh * (kc / (k * c))) by (field; lra).
  rewrite E.
  assert (0 < k * c) by nra.
  split; intros X.
  - apply Rmult_le_reg_r with (k * c); [nra|].
    replace (sh * (kc / (k * c)) * (k * c)) with (sh * kc) by (field; lra).
    assert (Y : 0 <= r * (sh - sm * k * (/ kc * c))) by lra.
    assert (Z : 0 <= sh - sm * k * (/ kc * c)).
    { apply Rmult_le_reg_l with r; lra. }
    apply Rmult_le_compat_r with (r := kc) in Z; [|lra].
    replace ((sh - sm * k * (/ kc * c)) * kc) with (sh * kc - sm * (k * c)) in Z by (field; lra). lra.
  - apply Rmult_le_compat_r with (r := r * (k * c) * / kc) in X.
    2:{ apply Rmult_le_pos; [nra|]. left. apply Rinv_0_lt_compat. lra. }
    replace (sh * (kc / (k * c)) * (r * (k * c) * / kc)) with (r * sh) in X by (field; lra). lra.
Qed.
