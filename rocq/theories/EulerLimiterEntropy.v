(** * The entropy bound of Euler::Limiter::limit in exact arithmetic *)
From Coq Require Import Reals List Bool Arith Lia Lra Psatz.
From Verif Require Import RVec Newton NewtonProofs NewtonSign EulerSystem EulerLimiter EulerLimiterProofs.
Import ListNotations.
Local Open Scope R_scope.

(** ** Polynomial form of rho * rho e *)

Section Lane.
  Variable s : euler.
  Variable dim : nat.
  Variable L : lane.

  Let rU := density (l_U L).
  Let rP := density (l_P L).
  Let mU := momentum (l_U L).
  Let mP := momentum (l_P L).
  Let EU := total_energy dim (l_U L).
  Let EP := total_energy dim (l_P L).
  Let sm := s_min (l_bounds L).
  Let g := gamma s.

  Let rho (t : R) := rU + t * rP.

  Definition qA : R := rU * EU - 1 / 2 * norm2 dim mU.
  Definition qB : R := rU * EP + rP * EU - dot dim mU mP.
  Definition qC : R := rP * EP - 1 / 2 * norm2 dim mP.

  Definition psi0 (t : R) : R := quad 0 qA qB qC t - sm * powr (rho t) (g + 1).
  Definition psi0_1 (t : R) : R := qB + 2 * qC * (t - 0) - sm * ((g + 1) * powr (rho t) g * rP).
  Definition psi0_2 (t : R) : R := 2 * qC - sm * ((g + 1) * (g * powr (rho t) (g - 1) * rP) * rP).
  Definition psi0_3 (t : R) : R :=
    - (sm * ((g + 1) * (g * ((g - 1) * powr (rho t) (g - 1 - 1) * rP) * rP) * rP)).

  Lemma momentum_along t :
    norm2 dim (momentum (along L t)) = norm2 dim mU + 2 * t * dot dim mU mP + t * t * norm2 dim mP.
  Proof.
    change (momentum (along L t)) with (vadd mU (vscal t mP)).
    rewrite norm2_add, dot_scal_r, norm2_scal. ring.
  Qed.

  Lemma energy_along t : total_energy dim (along L t) = EU + t * EP.
  Proof. reflexivity. Qed.

  Lemma rho_rho_e t : rho t <> 0 ->
    rho t * internal_energy dim (along L t) = quad 0 qA qB qC t.
  Proof.
    intros H. unfold internal_energy. rewrite momentum_along, energy_along, density_along.
    change (density (l_U L) + t * density (l_P L)) with (rho t).
    replace (rho t * (EU + t * EP -
      1 / 2 * (norm2 dim mU + 2 * t * dot dim mU mP + t * t * norm2 dim mP) * (1 / rho t)))
      with (rho t * (EU + t * EP) -
      1 / 2 * (norm2 dim mU + 2 * t * dot dim mU mP + t * t * norm2 dim mP)) by (field; exact H).
    unfold quad, qA, qB, qC, rho. field.
  Qed.

  Lemma psi_psi0 t : 0 < rho t -> psi s 0 dim L t = psi0 t.
  Proof.
    intros H. unfold psi, psi0. cbv zeta. rewrite <- rho_rho_e by lra.
    rewrite density_along. change (density (l_U L) + t * density (l_P L)) with (rho t).
    unfold relax_small. rewrite powr_plus, powr_1 by exact H. unfold g, sm. ring.
  Qed.

  Lemma dot_derivative U P : dot (dim + 2) (internal_energy_derivative dim U) P =
    1 / 2 * norm2 dim (vscal (1 / density U) (momentum U)) * density P
    - dot dim (vscal (1 / density U) (momentum U)) (momentum P) + total_energy dim P.
  Proof.
    set (u := vscal (1 / density U) (momentum U)).
    unfold dot at 1. replace (dim + 2)%nat with (S (S dim)) by lia. 
    assert (X : forall n f, rsum (S n) f = f 0%nat + rsum n (fun k => f (S k))).
    { clear. induction n; intros f; simpl; [ring|]. simpl in IHn. rewrite IHn. ring. }
    rewrite X. simpl rsum.
    assert (Y : rsum dim (fun k => internal_energy_derivative dim U (S k) * P (S k))
                = - dot dim u (momentum P)).
    { unfold dot. replace (- rsum dim (fun k => u k * momentum P k))
        with (-1 * rsum dim (fun k => u k * momentum P k)) by ring.
      rewrite <- rsum_scal. apply rsum_ext. intros k Hk.
      unfold internal_energy_derivative, mkstate.
      replace (Nat.eqb (S k) 0) with false by reflexivity.
      replace (Nat.eqb (S k) (S dim)) with false by (symmetry; apply Nat.eqb_neq; lia).
      replace (S k - 1)%nat with k by lia. unfold momentum at 2. unfold u. ring. }
    rewrite Y. unfold internal_energy_derivative, mkstate. simpl Nat.eqb.
    rewrite Nat.eqb_refl. unfold u, total_energy, density. ring.
  Qed.

  (** rho * drho_e + rho_e * drho is the derivative of the polynomial *)
  Lemma dpsi_psi0 t : 0 < rho t -> dpsi s dim L t = psi0_1 t.
  Proof.
    intros H. unfold dpsi. cbv zeta. rewrite dot_derivative.
    change (density (along L t)) with (rho t).
    change (momentum (along L t)) with (vadd mU (vscal t mP)).
    unfold internal_energy. rewrite momentum_along, energy_along.
    change (density (along L t)) with (rho t).
    rewrite norm2_scal, dot_scal_l, dot_add_l, dot_scal_l, norm2_add, norm2_scal, dot_scal_r.
    fold mP. change (dot dim mP mP) with (norm2 dim mP).
    change (density (l_P L)) with rP. change (total_energy dim (l_P L)) with EP.
    unfold psi0_1, qB, qC. fold g sm.
    assert (Hr : rho t <> 0) by lra.
    unfold rho in *. field. exact Hr.
  Qed.

  Lemma psi0_deriv1 t : 0 < rho t -> derivable_pt_lim psi0 t (psi0_1 t).
  Proof.
    intros H. unfold psi0, psi0_1.
    apply (derivable_pt_lim_minus (quad 0 qA qB qC) (fun t => sm * powr (rho t) (g + 1))).
    - apply quad_deriv.
    - apply (derivable_pt_lim_scal (fun t => powr (rho t) (g + 1)) sm).
      apply (derivable_pt_lim_comp rho (fun x => powr x (g + 1))); [apply affine_deriv|].
      assert (X := powr_deriv (rho t) (g + 1) H). replace (g + 1 - 1) with g in X by ring. exact X.
  Qed.

  Lemma psi0_deriv2 t : 0 < rho t -> derivable_pt_lim psi0_1 t (psi0_2 t).
  Proof.
    intros H. unfold psi0_1, psi0_2.
    apply (derivable_pt_lim_minus (fun t => qB + 2 * qC * (t - 0))
             (fun t => sm * ((g + 1) * powr (rho t) g * rP))).
    - apply quad_deriv2.
    - apply (derivable_pt_lim_scal (fun t => (g + 1) * powr (rho t) g * rP) sm).
      apply (derivable_pt_lim_scal_right (fun t => (g + 1) * powr (rho t) g) t _ rP).
      apply (derivable_pt_lim_scal (fun t => powr (rho t) g) (g + 1)).
      apply (derivable_pt_lim_comp rho (fun x => powr x g)); [apply affine_deriv|].
      apply powr_deriv. exact H.
  Qed.

  Lemma psi0_deriv3 t : 0 < rho t -> derivable_pt_lim psi0_2 t (psi0_3 t).
  Proof.
    intros H. unfold psi0_2, psi0_3.
    match goal with |- derivable_pt_lim _ _ (- ?x) => replace (- x) with (0 - x) by ring end.
    apply (derivable_pt_lim_minus (fun t => 2 * qC)
             (fun t => sm * ((g + 1) * (g * powr (rho t) (g - 1) * rP) * rP))).
    - apply derivable_pt_lim_const.
    - apply (derivable_pt_lim_scal (fun t => (g + 1) * (g * powr (rho t) (g - 1) * rP) * rP) sm).
      apply (derivable_pt_lim_scal_right (fun t => (g + 1) * (g * powr (rho t) (g - 1) * rP)) t _ rP).
      apply (derivable_pt_lim_scal (fun t => g * powr (rho t) (g - 1) * rP) (g + 1)).
      apply (derivable_pt_lim_scal_right (fun t => g * powr (rho t) (g - 1)) t _ rP).
      apply (derivable_pt_lim_scal (fun t => powr (rho t) (g - 1)) g).
      apply (derivable_pt_lim_comp rho (fun x => powr x (g - 1))); [apply affine_deriv|].
      apply powr_deriv. exact H.
  Qed.

  Lemma psi0_3_sign : 1 < g -> 0 <= sm ->
    (0 <= rP -> forall t, 0 < rho t -> psi0_3 t <= 0) /\
    (rP <= 0 -> forall t, 0 < rho t -> 0 <= psi0_3 t).
  Proof.
    intros Hg Hs.
    assert (E : forall t, psi0_3 t = - (sm * (g + 1) * g * (g - 1) * powr (rho t) (g - 1 - 1) * (rP * rP)) * rP).
    { intros t. unfold psi0_3. ring. }
    assert (K : forall t, 0 < rho t -> 0 <= sm * (g + 1) * g * (g - 1) * powr (rho t) (g - 1 - 1) * (rP * rP)).
    { intros t Ht. assert (X := powr_gt0 (rho t) (g - 1 - 1) Ht).
      apply Rmult_le_pos; [|apply Rle_0_sqr]. repeat apply Rmult_le_pos; lra. }
    split; intros HP t Ht; rewrite E; specialize (K t Ht); nra.
  Qed.

End Lane.

(** ** x^g lies above its tangents *)

Lemma powr_tangent g x y : 1 <= g -> 0 < x -> 0 < y ->
  powr y g + g * powr y (g - 1) * (x - y) <= powr x g.
Proof.
  intros Hg Hx Hy.
  destruct (Rtotal_order x y) as [H|[H|H]].
  - destruct (MVT_cor2 (fun z => powr z g) (fun z => g * powr z (g - 1)) x y H) as (c & E & Hc).
    { intros z Hz. apply powr_deriv. lra. }
    assert (M := powr_mono c y (g - 1) ltac:(lra) ltac:(lra)).
    assert (g * powr c (g - 1) * (y - x) <= g * powr y (g - 1) * (y - x)).
    { apply Rmult_le_compat_r; [lra|]. apply Rmult_le_compat_l; lra. }
    lra.
  - subst. lra.
  - destruct (MVT_cor2 (fun z => powr z g) (fun z => g * powr z (g - 1)) y x H) as (c & E & Hc).
    { intros z Hz. apply powr_deriv. lra. }
    assert (M := powr_mono y c (g - 1) ltac:(lra) ltac:(lra)).
    assert (g * powr y (g - 1) * (x - y) <= g * powr c (g - 1) * (x - y)).
    { apply Rmult_le_compat_r; [lra|]. apply Rmult_le_compat_l; lra. }
    lra.
Qed.

(** ** internal_energy lies below its tangents *)

Lemma internal_energy_tangent dim U V : 0 < density U -> 0 < density V ->
  internal_energy dim V <=
  internal_energy dim U + dot (dim + 2) (internal_energy_derivative dim U) (vsub V U).
Proof.
  intros HU HV. rewrite dot_derivative.
  change (density (vsub V U)) with (density V - density U).
  change (momentum (vsub V U)) with (vsub (momentum V) (momentum U)).
  change (total_energy dim (vsub V U)) with (total_energy dim V - total_energy dim U).
  unfold internal_energy.
  rewrite norm2_scal, dot_scal_l, dot_sub_r. change (dot dim (momentum U) (momentum U)) with (norm2 dim (momentum U)).
  assert (N := norm2_nonneg dim (vsub (vscal (1 / density V) (momentum V)) (vscal (1 / density U) (momentum U)))).
  rewrite norm2_sub, !norm2_scal, dot_scal_l, dot_scal_r in N.
  rewrite (dot_comm dim (momentum V)) in N.
  set (a := density U) in *. set (b := density V) in *.
  set (nu := norm2 dim (momentum U)) in *. set (nv := norm2 dim (momentum V)) in *.
  set (d := dot dim (momentum U) (momentum V)) in *. clearbody a b nu nv d.
  set (eu := total_energy dim U). set (ev := total_energy dim V). clearbody eu ev.
  assert (K : 0 <= b * (1 / b * (1 / b) * nv - 2 * (1 / b * (1 / a * d)) + 1 / a * (1 / a) * nu))
    by (apply Rmult_le_pos; lra).
  replace (b * (1 / b * (1 / b) * nv - 2 * (1 / b * (1 / a * d)) + 1 / a * (1 / a) * nu))
    with (nv * (1 / b) - 2 * (1 / a * d) + b * (1 / a * (1 / a) * nu)) in K by (field; lra).
  replace (1 / 2 * (1 / a * (1 / a) * nu) * (b - a)) with
    (1 / 2 * (b * (1 / a * (1 / a) * nu)) - 1 / 2 * (1 / a * nu)) by (field; lra).
  lra.
Qed.

(** psi(t_r) = 0 at the end of a bracket with psi(t_l) >= 0: not increasing *)
Lemma dpsi_at_root s dim L tl tr :
  1 < gamma s -> 0 <= s_min (l_bounds L) -> tl < tr ->
  0 < density (along L tl) -> 0 < density (along L tr) ->
  0 <= psi s 0 dim L tl -> psi s 0 dim L tr = 0 -> dpsi s dim L tr <= 0.
Proof.
  intros Hg Hs Ht Hl Hr Pl Pr.
  set (g := gamma s) in *. set (sm := s_min (l_bounds L)) in *.
  unfold psi, dpsi in *. cbv zeta in *. unfold relax_small in *. fold g in Pl, Pr |- *. fold sm in Pl, Pr |- *.
  replace (1 + vacuum_state_relaxation_small s * 0) with 1 in * by ring.
  assert (T := internal_energy_tangent dim (along L tr) (along L tl) Hr Hl).
  assert (V : dot (dim + 2) (internal_energy_derivative dim (along L tr)) (vsub (along L tl) (along L tr))
              = (tl - tr) * dot (dim + 2) (internal_energy_derivative dim (along L tr)) (l_P L)).
  { rewrite <- dot_scal_r. apply dot_ext; intros k Hk; [reflexivity|].
    unfold vsub, along, vadd, vscal. ring. }
  rewrite V in T. clear V.
  assert (Q := powr_tangent g (density (along L tl)) (density (along L tr)) ltac:(lra) Hl Hr).
  assert (DD : density (along L tl) - density (along L tr) = (tl - tr) * density (l_P L)).
  { rewrite !density_along. ring. }
  rewrite DD in Q. clear DD.
  assert (PP : powr (density (along L tr)) g = powr (density (along L tr)) (g - 1) * density (along L tr)).
  { replace g with (g - 1 + 1) at 1 by ring. rewrite powr_plus, powr_1 by exact Hr. reflexivity. }
  set (rl := density (along L tl)) in *. set (rr := density (along L tr)) in *.
  set (el := internal_energy dim (along L tl)) in *. set (er := internal_energy dim (along L tr)) in *.
  set (de := dot (dim + 2) (internal_energy_derivative dim (along L tr)) (l_P L)) in *.
  set (rp := density (l_P L)) in *.
  set (k := powr rr (g - 1)) in *. set (yl := powr rl g) in *. set (yr := powr rr g) in *.
  clearbody rl rr el er de rp k yl yr sm g.
  (* er = sm yr ; el >= sm yl *)
  assert (E1 : er = sm * yr).
  { apply Rmult_eq_reg_l with rr; lra. }
  assert (E2 : sm * yl <= el).
  { apply Rmult_le_reg_l with rl; lra. }
  assert (E3 : sm * (yr + g * k * ((tl - tr) * rp)) <= sm * yl) by (apply Rmult_le_compat_l; lra).
  (* (tl - tr) (de - sm g k rp) >= 0 *)
  assert (E4 : de - sm * g * k * rp <= 0) by nra.
  assert (rr * (de - sm * g * k * rp) <= 0) by nra.
  assert (E5 : rr * de + (er - (g + 1) * sm * yr) * rp = rr * (de - sm * g * k * rp)).
  { rewrite E1, PP. ring. }
  lra.
Qed.

(** ** The loop *)

Definition entropy_hyp (s : euler) (dim : nat) (L : lane) : Prop :=
  density_hyp L /\ 0 < rho_min (l_bounds L) /\ 0 <= s_min (l_bounds L) /\
  0 <= psi s 0 dim L (l_tmin L).

Definition einv (s : euler) (dim : nat) (x : lane * (R * R)) : Prop :=
  let '(L, (tl, tr)) := x in
  entropy_hyp s dim L /\
  l_tmin L <= tl /\ tl <= tr <= limit_density 0 L /\ 0 <= psi s 0 dim L tl.

Definition einv' (s : euler) (dim : nat) (x : lane * (R * R)) : Prop :=
  einv s dim x /\
  let '(L, (tl, tr)) := x in tl = tr \/ psi s 0 dim L tr <= 0.

Lemma acc_einv s dim x : einv s dim x -> einv' s dim (acc1 s 0 dim x).
Proof.
  destruct x as [L [tl tr]]. intros (H & A & B & C). simpl. unfold einv', einv, mask_gt.
  destruct (Rgt_dec (psi s 0 dim L tr) 0) as [G|G].
  - split; [|left; reflexivity]. split; [exact H|]. split; [lra|]. split; lra.
  - split; [|right; lra]. split; [exact H|]. split; [lra|]. split; lra.
Qed.

Lemma newt_einv s dim x : 1 < gamma s -> einv' s dim x -> einv s dim (newt1 s 0 dim x).
Proof.
  intros Hg. destruct x as [L [tl tr]]. intros [(H & A & B & C) D].
  unfold newt1.
  destruct (quadratic_newton_step 0 (-1) tl tr (psi s 0 dim L tl) (psi s 0 dim L tr)
          (dpsi s dim L tl) (dpsi s dim L tr)) as [q1 q2] eqn:E.
  assert (NS : tl <= q1 /\ q1 <= q2 /\ q2 <= tr) by (eapply newton_shrinks; [|exact E]; lra).
  unfold einv. split; [exact H|]. split; [lra|]. split; [lra|].
  destruct (Req_dec tl tr) as [Heq|Hne].
  { replace q1 with tl by lra. exact C. }
  destruct D as [D|D]; [lra|].
  destruct H as (H1 & H2 & H3 & H4).
  assert (P : forall t, tl <= t <= tr -> 0 < density (along L t)).
  { intros t Ht. assert (X := density_between 0 L t (Rle_refl 0) H1 ltac:(lra)). lra. }
  assert (Z : psi s 0 dim L tr = 0 -> dpsi s dim L tr <= 0).
  { apply (dpsi_at_root s dim L tl tr Hg H3 ltac:(lra)); [apply P; lra|apply P; lra|exact C]. }
  rewrite (psi_psi0 s dim L q1) by (apply P; lra).
  rewrite (psi_psi0 s dim L tl) in C by (apply P; lra).
  rewrite (psi_psi0 s dim L tr) in Z, D by (apply P; lra).
  rewrite (dpsi_psi0 s dim L tr) in Z by (apply P; lra).
  rewrite (psi_psi0 s dim L tl), (psi_psi0 s dim L tr), (dpsi_psi0 s dim L tl), (dpsi_psi0 s dim L tr) in E
    by (apply P; lra).
  refine (newton_left_end_exact (psi0 s dim L) (psi0_1 s dim L) (psi0_2 s dim L) (psi0_3 s L)
    tl tr q1 q2 ltac:(lra) _ _ _ _ C E q1 ltac:(lra)).
  - intros x Hx. apply psi0_deriv1. apply (P x Hx).
  - intros x Hx. apply psi0_deriv2. apply (P x Hx).
  - intros x Hx. apply (psi0_deriv3 s dim L x). apply (P x Hx).
  - destruct (psi0_3_sign s L Hg H3) as [S1 S2].
    destruct (Rle_lt_dec 0 (density (l_P L))) as [Hp|Hp].
    + left. intros x Hx. apply S1; [exact Hp|apply (P x Hx)].
    + right. split; [|split; assumption].
      intros x Hx. apply S2; [lra|apply (P x Hx)].
Qed.

Lemma limit_entropy_psi s tol fuel dim lanes ts b :
  1 < gamma s ->
  Forall (entropy_hyp s dim) lanes ->
  limit s 0 tol fuel dim lanes = (ts, b) ->
  Forall2 (fun L t => 0 <= psi s 0 dim L t) lanes ts.
Proof.
  intros Hg H. apply (limit_inv s 0 tol fuel dim (einv s dim) (einv' s dim)).
  - apply acc_einv.
  - intros x. apply newt_einv. exact Hg.
  - intros L tl tr [(_ & _ & _ & X)|[(_ & _ & _ & X) _]]; exact X.
  - eapply Forall_impl; [|exact H]. intros L HL. unfold einv.
    assert (X := limit_density_range 0 L (proj1 (proj2 (proj1 HL)))).
    split; [exact HL|]. split; [lra|]. split; [lra|apply HL].
Qed.

(** psi >= 0 says that the specific entropy is at least s_min *)
Lemma psi_entropy s dim L t : 0 < density (along L t) ->
  (0 <= psi s 0 dim L t <-> s_min (l_bounds L) <= specific_entropy s dim (along L t)).
Proof.
  intros H. unfold psi, specific_entropy. cbv zeta.
  set (r := density (along L t)) in *. set (e := internal_energy dim (along L t)).
  set (sm := s_min (l_bounds L)).
  unfold relax_small. replace (1 + vacuum_state_relaxation_small s * 0) with 1 by ring.
  replace (1 / r) with (/ r) by (field; lra). rewrite powr_inv by exact H.
  assert (K := powr_gt0 r (gamma s) H). set (k := powr r (gamma s)) in *. clearbody k r e sm.
  split; intros X.
  - apply Rmult_le_reg_r with k; [lra|]. rewrite Rmult_assoc, Rinv_l by lra.
    apply Rmult_le_reg_l with r; lra.
  - apply Rmult_le_compat_r with (r := r * k) in X; [|nra].
    replace (e * / k * (r * k)) with (r * e) in X by (field; lra). lra.
Qed.
