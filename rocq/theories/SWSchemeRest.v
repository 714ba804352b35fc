(** * Lake at rest with dry rows: the limiter *)
From Coq Require Import Reals List Arith Bool Lia Lra Psatz.
From Verif Require Import RVec Simd Newton NewtonProofs EulerSystem EulerLimiter EulerLimiterBounds SWSystem PhysSpec PhysLib SWPhysProofs SWRiemann SWRiemannProofs
  SWLimiter SWLimiterSpec SWLimiterProofs SWLimiterFinal Indicator SWScheme SWSchemeSpec SchemeSpec SchemeProofs SchemeUpdate SchemeLimit SchemeFinal
  SWSchemeProofs SWSchemeDepth SWSchemeFinal.
From Verif Require Import Scheme.
Import ListNotations.
Local Open Scope R_scope.

(** ** limit() for water at rest and a vanishing bound *)

Lemma newton_zero eps t f2 d2 : 0 <= t -> fst (quadratic_newton_step eps (-1) 0 t 0 f2 0 d2) = 0.
Proof.
  intros Ht. unfold quadratic_newton_step. cbn [fst]. set (t2 := clamp 0 t (newton_candidate eps (-1) t _ _ _)).
  assert (E : newton_candidate eps (-1) 0 0 0 (((f2 - 0) * (1 / (t - 0 + eps)) - 0) * (1 / (t - 0 + eps))) = 0).
  { unfold newton_candidate. replace (2 * 0 / _) with 0 by (unfold Rdiv; ring). unfold mask_lt.
    destruct (Rlt_dec _ _); lra. }
  rewrite E. assert (C : clamp 0 t 0 = 0) by (unfold clamp; rewrite Rmax_left by lra; apply Rmin_right; exact Ht).
  rewrite C. apply Rmin_left. apply clamp_range. exact Ht.
Qed.

Lemma phase_zero eps tol psi dpsi L t y : 0 <= t -> psi L t <= 0 -> psi L 0 = 0 -> dpsi L 0 = 0 ->
  phase1 eps tol psi dpsi (L, (0, t)) y -> fst y = L /\ fst (snd y) = 0.
Proof.
  intros Ht H1 H2 H3 H.
  assert (A : acc1 psi (L, (0, t)) = (L, (0, t))).
  { simpl. unfold mask_gt. destruct (Rgt_dec _ _); [lra|reflexivity]. }
  destruct H as [[-> _]| ->]; rewrite A; [split; reflexivity|].
  unfold newt1. rewrite H2, H3. cbn [fst snd]. split; [reflexivity|]. apply newton_zero. exact Ht.
Qed.

Lemma at_rest_norm dim (L : wlane) : (forall k, (1 <= k <= dim)%nat -> wl_U L k = 0) ->
  norm2 dim (w_momentum (w_along L 0)) = 0.
Proof.
  intros H. unfold norm2, dot. rewrite (rsum_ext dim _ (fun _ => 0)); [apply rsum_0|].
  intros k Hk. unfold w_momentum, w_along, vadd, vscal. rewrite (H (Datatypes.S k)) by lia. ring.
Qed.

Lemma at_rest_dot dim (L : wlane) : (forall k, (1 <= k <= dim)%nat -> wl_U L k = 0) ->
  dot dim (w_momentum (wl_U L)) (w_momentum (wl_P L)) = 0.
Proof.
  intros H. unfold dot. rewrite (rsum_ext dim _ (fun _ => 0)); [apply rsum_0|].
  intros k Hk. unfold w_momentum. rewrite (H (Datatypes.S k)) by lia. ring.
Qed.

Lemma limit_at_rest p dim b U P : (forall k, (1 <= k <= dim)%nat -> U k = 0) ->
  (wp_on_kin p = false /\ wp_on_v2 p = false) \/ (wp_on_kin p = true /\ kin_max b = 0) \/ (wp_on_v2 p = true /\ v2_max b = 0) ->
  fst (sw_limit p dim b U P) = 0.
Proof.
  intros HU H. unfold sw_limit. set (L := {| wl_b := b; wl_U := U; wl_P := P; wl_tmin := 0; wl_tmax := 1 |}).
  destruct (w_limit _ _ _ _ _ _ _ _) as [ts ok] eqn:E. cbn [fst].
  apply w_limit_lanes in E. destruct E as (xs & F & ->).
  inversion F as [|a x l1 l2 R1 F2]; subst. inversion F2; subst. cbn [map hd].
  assert (DR := w_limit_depth_range (wp_eps p) (wp_tiny p) L ltac:(cbn; lra)). cbn [L wl_tmin wl_tmax] in DR.
  assert (HK : kin_max b = 0 -> forall t, psi_kin (wp_system p) (wp_eps p) dim L t <= 0).
  { intros Q t. unfold psi_kin. cbn [wl_b L]. rewrite Q. pose proof (norm2_nonneg dim (w_momentum (w_along L t))). lra. }
  assert (HV : v2_max b = 0 -> forall t, psi_v2 (wp_system p) (wp_eps p) dim L t <= 0).
  { intros Q t. unfold psi_v2. cbn [wl_b L]. rewrite Q. pose proof (norm2_nonneg dim (w_momentum (w_along L t))). lra. }
  assert (HU' : forall k, (1 <= k <= dim)%nat -> wl_U L k = 0) by exact HU.
  assert (K0 : kin_max b = 0 -> psi_kin (wp_system p) (wp_eps p) dim L 0 = 0 /\ dpsi_kin dim L 0 = 0).
  { intros Q. unfold psi_kin, dpsi_kin. rewrite at_rest_norm, at_rest_dot by exact HU'. cbn [wl_b L]. rewrite Q. split; ring. }
  assert (V0 : v2_max b = 0 -> psi_v2 (wp_system p) (wp_eps p) dim L 0 = 0 /\ dpsi_v2 dim L 0 = 0).
  { intros Q. unfold psi_v2, dpsi_v2. rewrite at_rest_norm, at_rest_dot by exact HU'. cbn [wl_b L]. rewrite Q. split; ring. }
  unfold lane_result, init1 in R1. change (wl_tmin L) with 0 in R1.
  destruct (wp_on_kin p), (wp_on_v2 p).
  - destruct R1 as ([Ly [u v]] & P1 & P2). cbn [flip1] in P2.
    assert (W0 : in_window (L, (0, w_limit_depth (wp_eps p) (wp_tiny p) L)))
      by (unfold in_window; change (wl_tmin L) with 0; lra).
    assert (W := phase1_window _ _ _ _ _ _ W0 P1). cbn [fst snd] in W. destruct W as (W1 & W2 & W3). subst Ly.
    unfold in_window in W1. change (wl_tmin L) with 0 in P2, W1.
    destruct H as [[H _]|[[_ H]|[_ H]]]; [discriminate| |].
    + apply phase_zero in P1; [|lra|apply HK; exact H|apply K0; exact H|apply K0; exact H]. cbn [fst snd] in P1. destruct P1 as [_ ->].
      assert (W0' : in_window (L, (0, 0))) by (unfold in_window; change (wl_tmin L) with 0; lra).
      assert (W := phase1_window _ _ _ _ _ _ W0' P2). destruct x as [Lx [a c]]. cbn [fst snd] in W. destruct W as (X1 & X2 & X3).
      subst Lx. unfold in_window in X1. change (wl_tmin L) with 0 in X1. cbn [fst snd]. lra.
    + apply phase_zero in P2; [apply P2|lra|apply HV; exact H|apply V0; exact H|apply V0; exact H].
  - destruct H as [[H _]|[[_ H]|[H _]]]; try discriminate.
    apply phase_zero in R1; [apply R1|lra|apply HK; exact H|apply K0; exact H|apply K0; exact H].
  - destruct H as [[_ H]|[[H _]|[_ H]]]; try discriminate.
    apply phase_zero in R1; [apply R1|lra|apply HV; exact H|apply V0; exact H|apply V0; exact H].
  - rewrite R1. reflexivity.
Qed.

(** ** Bounds of a lake at rest *)

Section Rest.
Variables (p : wparameters) (dim : nat) (Z : nat -> R) (M : mesh) (nm : R) (level : R).
Local Notation s := (wp_system p).
Local Notation eps := (wp_eps p).
Local Notation SY := (sw_scheme p dim Z).
Local Notation lake := (lake_at_rest s eps dim M Z level).
Variables (old : (nat -> state nat) * PC nat SY) (stages : list ((nat -> state nat) * PC nat SY * R)).
Variables (alpha : nat -> R) (d0 : nat -> nat -> R) (tau : R) (order : list nat).
Local Notation U := (fst old).
Local Notation d := (dij_matrix SY M nm old d0).
Hypothesis Hpat : symmetric_pattern M.
Hypothesis Hsum : forall i, active M i -> zero_row_sum M i.
Hypothesis Heps : 0 <= eps.
Hypothesis Hold : lake U.

Lemma lake_shift i k : (i < n_rows M)%nat -> (1 <= k <= dim)%nat -> affine_shift_i SY M old d tau i k = 0.
Proof.
  intros Hi Hk. unfold affine_shift_i. cbn [shallow_water sw_scheme]. unfold splus, smult.
  rewrite (lake_source p dim Z M level old tau i k Hold Hi) by lia.
  assert (E : forall l x, (forall j, In j l -> (j < n_rows M)%nat) ->
     fold_left (fun t j => fun k => t k + affine_shift nat SY (flux SY old i) (flux SY old j) (c_ij M i j) (d i j) k) l x k = x k).
  { induction l as [|j l IH]; intros x Hl; cbn [fold_left]; [reflexivity|]. rewrite IH by (intros; apply Hl; right; assumption).
    unfold flux. cbn [affine_shift flux_contribution sw_scheme]. unfold SWSystem.affine_shift.
    destruct (Hold i Hi) as (_ & _ & C). rewrite star_kappa, (C k Hk). ring. }
  rewrite E; [unfold szero; ring|]. intros j Hj. apply (col_bound M Hpat i j Hi Hj).
Qed.

Lemma lake_bar i j k : (i < n_rows M)%nat -> In j (columns M i) -> (1 <= k <= dim)%nat ->
  w_bar_of s eps dim (contribution p dim Z M nm old d0 tau i j) k = 0.
Proof.
  intros Hi Hj Hk. pose proof (col_bound M Hpat i j Hi Hj) as Hjb.
  destruct (lake_star p dim Z M level U i j Hold Hi Hjb) as [A A'].
  destruct (lake_star p dim Z M level U j i Hold Hjb Hi) as [B B'].
  unfold w_bar_of, contribution, w_bar_state. cbn [wc_ij wc_ji wc_c wc_shift].
  rewrite A', B', (lake_shift i k Hi Hk) by exact Hk.
  assert (C : contract dim (fadd (w_f s eps (star_state s eps (U i) (Z i) (Z j)))
      (fun k l => - w_f s eps (star_state s eps (U j) (Z j) (Z i)) k l))
      (vec_of (cdiv (c_ij M i j) (Rmax (d i j) (100 * nm)))) k = 0).
  { unfold contract, dot. rewrite (rsum_ext dim _ (fun _ => 0)); [apply rsum_0|]. intros l Hl.
    unfold fadd, vadd, w_f. replace (Nat.eqb k 0) with false by (symmetry; apply Nat.eqb_neq; lia).
    unfold w_momentum. rewrite (A' (Datatypes.S l)), (B' (Datatypes.S l)) by lia.
    unfold w_pressure. rewrite A, B, (Rmin_comm (U j 0%nat)). destruct (Nat.eqb l (k - 1)); ring. }
  rewrite C. ring.
Qed.

Lemma zero_momentum_kin (V : vec) : (forall k, (1 <= k <= dim)%nat -> V k = 0) ->
  kinetic_energy s eps dim V = 0 /\ mollified_v2 s eps dim V = 0.
Proof.
  intros H. assert (N : forall a, norm2 dim (vscal a (w_momentum V)) = 0).
  { intros a. unfold norm2, dot. rewrite (rsum_ext dim _ (fun _ => 0)); [apply rsum_0|].
    intros k Hk. unfold vscal, w_momentum. rewrite (H (Datatypes.S k)) by lia. ring. }
  unfold kinetic_energy, mollified_v2. rewrite !N. split; ring.
Qed.

Lemma lake_bounds i : (i < n_rows M)%nat ->
  kin_max (bounds_step4 SY M nm old d tau i) = 0 /\ v2_max (bounds_step4 SY M nm old d tau i) = 0.
Proof.
  intros Hi. rewrite bounds_stencil. set (l := w_stencil _ _ _ _ _ _).
  assert (E : kin_max (w_bounds l) = 0 /\ v2_max (w_bounds l) = 0 /\ 0 <= relaxation_denominator l).
  { unfold l, w_stencil.
    assert (G : forall cl x, (forall c, In c cl -> kinetic_energy s eps dim (w_bar_of s eps dim c) = 0 /\ mollified_v2 s eps dim (w_bar_of s eps dim c) = 0) ->
       kin_max (w_bounds x) = 0 -> v2_max (w_bounds x) = 0 -> 0 <= relaxation_denominator x ->
       let y := fold_left (w_step s eps dim) cl x in
       kin_max (w_bounds y) = 0 /\ v2_max (w_bounds y) = 0 /\ 0 <= relaxation_denominator y).
    { induction cl as [|c cl IH]; intros x Hc H1 H2 H3; cbv zeta; cbn [fold_left]; [auto|].
      destruct (Hc c (or_introl eq_refl)) as [C1 C2].
      apply IH; [intros; apply Hc; right; assumption| | |].
      - change (kin_max (w_bounds (w_step s eps dim x c))) with
          (Rmax (kin_max (w_bounds x)) (kinetic_energy s eps dim (w_bar_of s eps dim c))).
        rewrite C1, H1. apply Rmax_left. lra.
      - change (v2_max (w_bounds (w_step s eps dim x c))) with
          (Rmax (v2_max (w_bounds x)) (mollified_v2 s eps dim (w_bar_of s eps dim c))).
        rewrite C2, H2. apply Rmax_left. lra.
      - change (relaxation_denominator (w_step s eps dim x c)) with (relaxation_denominator x + Rabs 1).
        pose proof (Rabs_pos 1). lra. }
    apply G; try reflexivity; [|cbn; lra]. intros c Hc. apply in_map_iff in Hc. destruct Hc as (j & <- & Hj).
    apply zero_momentum_kin. intros k Hk. apply lake_bar; assumption. }
  destruct E as (E1 & E2 & E3). unfold w_get_bounds. cbn [kin_max v2_max]. rewrite E1, E2, !Rmult_0_r, !Rplus_0_l.
  assert (N : forall x, 0 <= 2 * Rabs x / (relaxation_denominator l + eps)).
  { intros x. unfold Rdiv. apply Rmult_le_pos; [pose proof (Rabs_pos x); lra|].
    destruct (Rle_lt_or_eq_dec 0 (relaxation_denominator l + eps)) as [Q|Q]; [lra|left; apply Rinv_0_lt_compat, Q|].
    rewrite <- Q, Rinv_0. lra. }
  rewrite !Rmin_left by apply N. split; reflexivity.
Qed.

Hypothesis Hopt : at_rest_options p M.
Hypothesis Horder : forall i, In i order -> (i < n_rows M)%nat.

Lemma lake_limit V P i : active M i -> (forall k, (1 <= k <= dim)%nat -> V k = 0) ->
  fst (limiter_limit nat SY (limiter_bounds_i SY M nm old d tau order i) V P) = 0.
Proof.
  intros Ha HV. pose proof (proj1 Ha) as Hi. cbn [limiter_limit sw_scheme]. apply limit_at_rest; [exact HV|].
  destruct (wp_on_v2 p) eqn:E.
  - right. right. split; [reflexivity|]. unfold limiter_bounds_i.
    destruct (discontinuous M); [|apply lake_bounds; exact Hi].
    apply (extend_pred SY M (fun b => v2_max b = 0)); try assumption.
    + intros a b HA HB. cbn [combine_bounds sw_scheme w_combine_bounds v2_max]. rewrite HA, HB. apply Rmax_left. lra.
    + intros j Hj. apply lake_bounds. exact (proj1 Hj).
  - destruct (wp_on_kin p) eqn:E'; [|left; split; reflexivity].
    right. left. split; [reflexivity|]. unfold limiter_bounds_i.
    destruct Hopt as [[O _]|[O|O]]; [congruence| |congruence].
    rewrite O. apply lake_bounds. exact Hi.
Qed.

(** ** The passes *)

Definition zero_limiter (l : nat -> nat -> R) : Prop :=
  forall i j, active M i -> In j (neighbours M i) -> l i j = 0.

Lemma zero_update l V i : zero_limiter l -> active M i ->
  forall k, high_order_update SY M old stages alpha d tau l V i k = V i k.
Proof.
  intros H Ha k. destruct (proj1 (active_constrained M i) Ha) as [Hi Hc].
  rewrite high_order_update_form by exact Hc. rewrite lsum_zero; [ring|].
  intros j Hj. unfold symmetrized. rewrite (H i j Ha Hj).
  destruct (neighbours_bound M i j Hpat Hi Hj) as [Hb [Hji _]].
  rewrite (H j i); [|apply active_constrained; split; [exact Hb|apply (neighbour_active M i j Hpat Hi Hj)]|exact Hji].
  rewrite Rmin_left by lra. ring.
Qed.

Lemma zero_passes n r : forall l lnext V,
  zero_limiter l -> ((n =? 2)%nat && (r =? 1)%nat = true -> zero_limiter lnext) ->
  (forall i, active M i -> forall k, (1 <= k <= dim)%nat -> V i k = 0) ->
  forall i, active M i -> forall k, passes SY M nm old stages alpha d tau order n r l lnext V i k = V i k.
Proof.
  induction r as [|r IH]; intros l lnext V Hl Hn HV i Ha k; [reflexivity|]. cbn [passes].
  replace (Datatypes.S r =? 1)%nat with (r =? 0)%nat in Hn by (destruct r; reflexivity).
  assert (L' : forall l1 l2, zero_limiter l1 ->
    zero_limiter (limit_next SY M nm old stages alpha d tau order l1 l2 (high_order_update SY M old stages alpha d tau l1 V))).
  { intros l1 l2 Z1 a b Ha' Hb'. unfold limit_next. destruct (proj1 (active_constrained M a) Ha') as [Hi Hc]. rewrite Hc.
    rewrite lake_limit; [ring|exact Ha'|]. intros x Hx. rewrite (zero_update l1 V a Z1 Ha'). apply HV; assumption. }
  assert (R1 : forall l1 l2, zero_limiter l1 -> ((n =? 2)%nat && (r =? 1)%nat = true -> zero_limiter l2) ->
     passes SY M nm old stages alpha d tau order n r l1 l2 (high_order_update SY M old stages alpha d tau l1 V) i k = V i k).
  { intros l1 l2 Z1 Z2. rewrite (IH l1 l2 _ Z1 Z2).
    - apply zero_update; assumption.
    - intros a Ha' x Hx. rewrite (zero_update l1 V a Z1 Ha'). apply HV; assumption.
    - exact Ha. }
  destruct ((n =? 2)%nat && (r =? 0)%nat) eqn:E.
  - apply R1; [apply Hn; reflexivity|]. intros Q. apply andb_true_iff in E, Q. destruct E as [_ E], Q as [_ Q].
    apply Nat.eqb_eq in E, Q. lia.
  - apply R1; [exact Hl|]. intros Q. apply andb_true_iff in Q. destruct Q as [_ Q]. apply Nat.eqb_eq in Q. subst r.
    cbn [Nat.eqb]. apply L'. exact Hl.
Qed.

Lemma rest_low new0 i k : active M i -> (k <= dim)%nat -> low_order_update SY M old d tau new0 i k = U i k.
Proof.
  intros Ha Hk. destruct (proj1 (active_constrained M i) Ha) as [Hi Hc].
  apply (lake_low_update p dim Z M level old d tau Hpat Hsum Hold new0 i k Hi Hc Hk).
Qed.

End Rest.

Lemma rest_update p dim Z M nm level (old : (nat -> state nat) * PC nat (sw_scheme p dim Z)) stages order n a0 d0 l0 ln0 new0 tau :
  symmetric_pattern M -> (forall i, active M i -> zero_row_sum M i) -> 0 <= wp_eps p ->
  lake_at_rest (wp_system p) (wp_eps p) dim M Z level (fst old) ->
  at_rest_options p M -> (forall i, In i order -> (i < n_rows M)%nat) ->
  forall i, active M i ->
  same_state dim (fst (hyperbolic_update (sw_scheme p dim Z) M nm order n a0 d0 l0 ln0 new0 old stages tau) i) (fst old i).
Proof.
  intros Hpat Hsum He Hold Hopt Ho i Ha k Hk. unfold hyperbolic_update, update. cbn [fst].
  assert (L : forall i, active M i -> forall k, (k <= dim)%nat ->
    low_order_update (sw_scheme p dim Z) M old (dij_matrix (sw_scheme p dim Z) M nm old d0) tau new0 i k = fst old i k).
  { intros j Hj x Hx. apply (rest_low p dim Z M nm level old d0 tau Hpat Hsum Hold new0 j x Hj Hx). }
  assert (R0 : forall i, active M i -> forall k, (1 <= k <= dim)%nat ->
    low_order_update (sw_scheme p dim Z) M old (dij_matrix (sw_scheme p dim Z) M nm old d0) tau new0 i k = 0).
  { intros j Hj x Hx. rewrite L by (assumption || lia). destruct (proj1 (active_constrained M j) Hj) as [Hjb _].
    destruct (Hold j Hjb) as (_ & _ & C). apply C, Hx. }
  rewrite (zero_passes p dim Z M nm level old stages (compute_alpha (sw_scheme p dim Z) M old a0) d0 tau order Hpat He Hold Hopt Ho n n); try assumption.
  - apply L; assumption.
  - intros a b Ha' Hb'. destruct (proj1 (active_constrained M a) Ha') as [Hi Hc]. rewrite Hc. unfold limit_first.
    apply (lake_limit p dim Z M nm level old d0 tau order Hpat He Hold Hopt Ho); [exact Ha'|]. apply R0. exact Ha'.
  - intros Q. apply andb_true_iff in Q. destruct Q as [Q1 Q2]. apply Nat.eqb_eq in Q1, Q2. lia.
Qed.

(** ** The verdict *)

Lemma lake_resolved s eps dim M Z level U : symmetric_pattern M -> lake_at_rest s eps dim M Z level U -> resolved s eps M Z U.
Proof.
  intros Hpat H i Hi. destruct (H i Hi) as (A & B & _). split; [exact B|].
  intros j Hj. pose proof (col_bound M Hpat i j Hi Hj) as Hb. destruct (H j Hb) as (A' & B' & _).
  assert (E : reconstructed Z U i j = Rmin (U i 0%nat) (U j 0%nat)).
  { unfold reconstructed. rewrite A, A'.
    destruct (Rle_lt_dec (Z i) (Z j)).
    + rewrite (Rmax_right (Z i)) by lra. destruct (Rle_lt_dec 0 (level - Z i)).
      * rewrite (Rmax_right 0 (level - Z i)) by lra.
        replace (level - Z i + Z i - Z j) with (level - Z j) by ring. symmetry. apply Rmin_right. apply Rmax_lub; lra.
      * rewrite (Rmax_left 0 (level - Z i)) by lra. rewrite !Rmax_left by lra. symmetry. apply Rmin_left. lra.
    + rewrite (Rmax_left (Z i)) by lra. destruct (Rle_lt_dec 0 (level - Z i)).
      * rewrite (Rmax_right 0 (level - Z i)) by lra. rewrite !Rmax_right by lra. symmetry.
        replace (level - Z i + Z i - Z i) with (level - Z i) by ring. apply Rmin_left. lra.
      * rewrite (Rmax_left 0 (level - Z i)) by lra. rewrite Rmax_left by lra. symmetry. apply Rmin_left. apply Rmax_l. }
  rewrite E. unfold Rmin. destruct (Rle_dec _ _); [destruct B as [B|B]|destruct B' as [B'|B']]; auto; right; tauto.
Qed.

Lemma rest_unflagged p dim Z M nm cfl level (old : (nat -> state nat) * PC nat (sw_scheme p dim Z)) stages alpha order n d0 new0 tau :
  symmetric_pattern M -> positive_masses M -> valid_numbering M -> pairs_listed M ->
  0 < nm -> 0 < wp_eps p -> 0 <= wp_big p -> 0 < wp_tiny p -> 0 <= wp_relaxation p <= 1 ->
  0 <= dry_state_relaxation_small (wp_system p) -> 0 <= dry_state_relaxation_large (wp_system p) ->
  (forall i, active M i -> mass M i <= measure_of_omega M) ->
  0 < cutoff_small (wp_system p) (wp_eps p) -> 0 <= tau -> 0 < cfl <= 1 ->
  (forall t, In t (row_tau (sw_scheme p dim Z) M nm cfl old d0) -> tau <= t) ->
  (forall i, active M i -> zero_row_sum M i) ->
  (forall i, active M i -> fast p dim Z M nm old d0 i) ->
  (forall i, In i order -> (i < n_rows M)%nat) ->
  lake_at_rest (wp_system p) (wp_eps p) dim M Z level (fst old) ->
  ~ violation (sw_scheme p dim Z) M nm order n alpha (dij_matrix (sw_scheme p dim Z) M nm old d0) new0 old stages tau.
Proof.
  intros Hpat Hmass Hnum Hpairs Hnm He Hbig Ht Hrel Hs Hl Hom Hcs Htau Hcfl Hstep Hsum Hf Ho Hold
    (Hn & i & j & Ha & Hj & Hne & Hfl).
  pose proof (lake_resolved _ _ _ _ _ _ _ Hpat Hold) as Hres.
  destruct (proj1 (active_constrained M i) Ha) as [Hi Hc].
  assert (R : depth_inside (limiter_bounds_i (sw_scheme p dim Z) M nm old (dij_matrix (sw_scheme p dim Z) M nm old d0) tau order i)
     (low_order_update (sw_scheme p dim Z) M old (dij_matrix (sw_scheme p dim Z) M nm old d0) tau new0 i)).
  { exact (final_inside p dim Z M nm cfl old d0 tau Hpat Hmass Hnum Hpairs Hnm He Hbig Hrel Hom Hcs Htau Hres Hcfl Hstep
      order 0 (fun _ => 0) (fun _ _ => 0) (fun _ _ => 0) new0 stages Ht ltac:(lia) Ho
      Hsum Hf i Ha). }
  assert (K : 0 <= kin_max (limiter_bounds_i (sw_scheme p dim Z) M nm old (dij_matrix (sw_scheme p dim Z) M nm old d0) tau order i) /\ 0 <= v2_max (limiter_bounds_i (sw_scheme p dim Z) M nm old (dij_matrix (sw_scheme p dim Z) M nm old d0) tau order i)).
  { unfold limiter_bounds_i.
    assert (B : forall i, active M i -> 0 <= kin_max (bounds_step4 (sw_scheme p dim Z) M nm old (dij_matrix (sw_scheme p dim Z) M nm old d0) tau i) /\ 0 <= v2_max (bounds_step4 (sw_scheme p dim Z) M nm old (dij_matrix (sw_scheme p dim Z) M nm old d0) tau i)).
    { intros k Hk. destruct (lake_bounds p dim Z M nm level old d0 tau Hpat ltac:(lra) Hold k (proj1 Hk)) as [-> ->]. lra. }
    destruct (discontinuous M); [|apply B; exact Ha].
    apply (extend_pred (sw_scheme p dim Z) M (fun b => 0 <= kin_max b /\ 0 <= v2_max b)); try assumption.
    intros a b [H1 H2] [H3 H4]. cbn [combine_bounds sw_scheme w_combine_bounds kin_max v2_max].
    pose proof (Rmax_l (kin_max a) (h_max b)). pose proof (Rmax_l (v2_max a) (v2_max b)). lra. }
  assert (Z0 : forall k, (1 <= k <= dim)%nat -> low_order_update (sw_scheme p dim Z) M old (dij_matrix (sw_scheme p dim Z) M nm old d0) tau new0 i k = 0).
  { intros k Hk. rewrite (rest_low p dim Z M nm level old d0 tau Hpat Hsum Hold new0 i k Ha) by lia.
    destruct (Hold i Hi) as (_ & _ & C). apply C, Hk. }
  revert Hfl. cbn [limiter_limit sw_scheme]. unfold sw_limit. cbn [snd].
  set (b := limiter_bounds_i _ _ _ _ _ _ _ _) in *. set (V := low_order_update _ _ _ _ _ _ _) in *.
  set (L := {| wl_b := b; wl_U := V; wl_P := _; wl_tmin := 0; wl_tmax := 1 |}).
  destruct (w_limit _ _ _ _ _ _ _ [L]) as [ts ok] eqn:E. cbn [snd]. intros ->.
  destruct R as (R1 & R2 & R3).
  enough (false = true) by discriminate.
  apply (w_limit_success _ _ _ _ _ _ _ _ _ _ (Rlt_le _ _ He) Ht Hs Hl) with (2 := E).
  constructor; [|constructor].
  assert (D0 : depth_at L 0 = V 0%nat) by (unfold depth_at; cbn [L wl_U]; ring).
  assert (N0 : norm2 dim (momentum_at L 0) = 0).
  { unfold norm2, dot. rewrite (rsum_ext dim _ (fun _ => 0)); [apply rsum_0|]. intros k Hk.
    unfold momentum_at. cbn [L wl_U]. rewrite (Z0 (Datatypes.S k)) by lia. ring. }
  assert (DP : 0 <= V 0%nat) by lra.
  unfold depth_call, depth_within, kinetic_within, velocity_within. rewrite D0, N0. cbn [L wl_b wl_tmin wl_tmax].
  repeat split; try lra; intros _.
  - rewrite Rmult_0_r. apply Rmult_le_pos; [apply K|exact DP].
  - apply Rmult_le_pos; [apply K|]. apply Rmult_le_pos; exact DP.
Qed.
