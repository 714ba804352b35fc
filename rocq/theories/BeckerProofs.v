(** * Proofs: the viscous shock of Becker *)
From Coq Require Import Reals Ranalysis5 Arith Lia Lra Psatz List FunctionalExtensionality.
From Verif Require Import RVec EulerSystem BalanceSpec BalanceProofs EulerInitialStates EulerInitialProofs EulerInitialFans Becker.
Import ListNotations.
Local Open Scope R_scope.

Definition good_becker (b : becker) : Prop :=
  1 < k_gamma b /\ 0 < k_right b < k_left b /\ 0 < k_density b /\ 0 < k_mu b.

Section Psi.
Variable b : becker.
Hypothesis G : good_becker b.
Let vl := k_left b.
Let vr := k_right b.
Let F := becker_factor b.

Lemma F_pos : 0 < F.
Proof.
  destruct G as (Hg & Hv & Hr & Hm). unfold F, becker_factor. fold vl in Hv |- *. fold vr in Hv.
  assert (0 < k_density b * vl * (75 / 100)) by (apply Rmult_lt_0_compat; [apply Rmult_lt_0_compat; lra|lra]).
  apply Rdiv_lt_0_compat; [|assumption]. apply Rmult_lt_0_compat; [apply Rdiv_lt_0_compat; lra|assumption].
Qed.

Lemma origin_between : vr < velocity_origin b < vl.
Proof.
  destruct G as (_ & Hv & _). fold vl vr in Hv. unfold velocity_origin. fold vl vr. split.
  - rewrite <- (sqrt_square vr) at 1 by lra. apply sqrt_lt_1_alt. nra.
  - rewrite <- (sqrt_square vl) at 2 by lra. apply sqrt_lt_1_alt. nra.
Qed.

(** The position as a function of the velocity. *)
Definition place (v : R) : R :=
  F * (vl / (vl - vr) * (ln (vl - v) - ln (vl - velocity_origin b))
       - vr / (vl - vr) * (ln (v - vr) - ln (velocity_origin b - vr))).

Lemma psi_pos x v : vr < v < vl -> exists d, psi b x v = Some (place v - x, d).
Proof.
  intros H. unfold psi. fold vl vr F. destruct (Rlt_dec v vl); [|lra]. destruct (Rlt_dec vr v); [|lra].
  eexists. reflexivity.
Qed.

Lemma psi_some x v f d : psi b x v = Some (f, d) ->
  vr < v < vl /\ f = place v - x /\ d = - (F * v / ((vl - v) * (v - vr))).
Proof.
  unfold psi. fold vl vr F. destruct (Rlt_dec v vl); [|discriminate]. destruct (Rlt_dec vr v); [|discriminate].
  intros E. injection E as E1 E2. split; [lra|]. split; [symmetry; exact E1|]. rewrite <- E2. field. lra.
Qed.

Lemma D_place v : vr < v < vl -> derivable_pt_lim place v (- (F * v / ((vl - v) * (v - vr)))).
Proof.
  intros H. unfold place. eapply D_eq.
  - apply D_scal. apply D_minus; apply D_scal.
    + apply D_minus; [|apply D_const].
      apply (D_comp ln (fun v => vl - v)); [apply D_minus; [apply D_const|apply D_id]|apply derivable_pt_lim_ln; lra].
    + apply D_minus; [|apply D_const].
      apply (D_comp ln (fun v => v - vr)); [apply D_minus; [apply D_id|apply D_const]|apply derivable_pt_lim_ln; lra].
  - field. lra.
Qed.

Lemma place_decreasing v w : vr < v -> v < w -> w < vl -> place w < place v.
Proof.
  intros H1 H2 H3. pose proof F_pos. destruct G as (_ & Hv & _). fold vl vr in Hv.
  unfold place. apply Rmult_lt_compat_l; [assumption|].
  assert (ln (vl - w) < ln (vl - v)) by (apply ln_increasing; lra).
  assert (ln (v - vr) < ln (w - vr)) by (apply ln_increasing; lra).
  assert (0 < vl / (vl - vr)) by (apply Rdiv_lt_0_compat; lra).
  assert (0 < vr / (vl - vr)) by (apply Rdiv_lt_0_compat; lra). nra.
Qed.

Lemma place_injective v w : vr < v < vl -> vr < w < vl -> place v = place w -> v = w.
Proof.
  intros H1 H2 E. destruct (Rtotal_order v w) as [L|[L|L]]; [|exact L|].
  - pose proof (place_decreasing v w ltac:(lra) L ltac:(lra)). lra.
  - pose proof (place_decreasing w v ltac:(lra) L ltac:(lra)). lra.
Qed.

(** Every position is reached. *)
Lemma place_low x : exists v, vr < v < vl /\ place v < x.
Proof.
  destruct G as (_ & Hv & _). fold vl vr in Hv. pose proof F_pos as PF. pose proof origin_between as O.
  set (cl := vl / (vl - vr)). assert (C1 : 0 < cl) by (apply Rdiv_lt_0_compat; lra).
  set (cr := vr / (vl - vr)). assert (C2 : 0 < cr) by (apply Rdiv_lt_0_compat; lra).
  set (o := velocity_origin b) in *.
  (* v >= o: the second logarithm is nonnegative *)
  set (d := Rmin ((vl - o) / 2) ((vl - o) / 2 * exp (x / (F * cl)))).
  assert (Pd : 0 < d).
  { apply Rmin_glb_lt; [lra|]. apply Rmult_lt_0_compat; [lra|apply exp_pos]. }
  assert (D1 : d <= (vl - o) / 2) by apply Rmin_l.
  assert (D2 : d <= (vl - o) / 2 * exp (x / (F * cl))) by apply Rmin_r.
  exists (vl - d). split; [lra|].
  unfold place. fold cl cr o. replace (vl - (vl - d)) with d by ring.
  assert (L1 : ln d - ln (vl - o) < x / (F * cl)).
  { assert (ln d <= ln ((vl - o) / 2 * exp (x / (F * cl)))).
    { destruct D2 as [D2|D2]; [left; apply ln_increasing; assumption|right; rewrite D2 at 1; reflexivity]. }
    rewrite ln_mult, ln_exp in H by (try apply exp_pos; lra).
    assert (ln ((vl - o) / 2) < ln (vl - o)) by (apply ln_increasing; lra). lra. }
  assert (L2 : 0 <= ln (vl - d - vr) - ln (o - vr)).
  { assert (ln (o - vr) <= ln (vl - d - vr)); [|lra]. left. apply ln_increasing; lra. }
  apply Rle_lt_trans with (F * (cl * (ln d - ln (vl - o)))).
  - apply Rmult_le_compat_l; [lra|]. assert (0 <= cr * (ln (vl - d - vr) - ln (o - vr))) by (apply Rmult_le_pos; lra). lra.
  - apply Rlt_le_trans with (F * (cl * (x / (F * cl)))).
    + apply Rmult_lt_compat_l; [lra|]. apply Rmult_lt_compat_l; lra.
    + right. field. lra.
Qed.

Lemma place_high x : exists v, vr < v < vl /\ x < place v.
Proof.
  destruct G as (_ & Hv & _). fold vl vr in Hv. pose proof F_pos as PF. pose proof origin_between as O.
  set (cl := vl / (vl - vr)). assert (C1 : 0 < cl) by (apply Rdiv_lt_0_compat; lra).
  set (cr := vr / (vl - vr)). assert (C2 : 0 < cr) by (apply Rdiv_lt_0_compat; lra).
  set (o := velocity_origin b) in *.
  set (d := Rmin ((o - vr) / 2) ((o - vr) / 2 * exp (- x / (F * cr)))).
  assert (Pd : 0 < d).
  { apply Rmin_glb_lt; [lra|]. apply Rmult_lt_0_compat; [lra|apply exp_pos]. }
  assert (D1 : d <= (o - vr) / 2) by apply Rmin_l.
  assert (D2 : d <= (o - vr) / 2 * exp (- x / (F * cr))) by apply Rmin_r.
  exists (vr + d). split; [lra|].
  unfold place. fold cl cr o. replace (vr + d - vr) with d by ring.
  assert (L1 : ln d - ln (o - vr) < - x / (F * cr)).
  { assert (ln d <= ln ((o - vr) / 2 * exp (- x / (F * cr)))).
    { destruct D2 as [D2|D2]; [left; apply ln_increasing; assumption|right; rewrite D2 at 1; reflexivity]. }
    rewrite ln_mult, ln_exp in H by (try apply exp_pos; lra).
    assert (ln ((o - vr) / 2) < ln (o - vr)) by (apply ln_increasing; lra). lra. }
  assert (L2 : 0 <= ln (vl - (vr + d)) - ln (vl - o)).
  { assert (ln (vl - o) <= ln (vl - (vr + d))); [|lra]. left. apply ln_increasing; lra. }
  apply Rlt_le_trans with (F * (- (cr * (ln d - ln (o - vr))))).
  - apply Rle_lt_trans with (F * (- (cr * (- x / (F * cr))))).
    + right. field. lra.
    + apply Rmult_lt_compat_l; [lra|]. apply Ropp_lt_contravar. apply Rmult_lt_compat_l; lra.
  - apply Rmult_le_compat_l; [lra|]. assert (0 <= cl * (ln (vl - (vr + d)) - ln (vl - o))) by (apply Rmult_le_pos; lra). lra.
Qed.

Lemma place_surjective x : { v | vr < v < vl /\ place v = x }.
Proof.
  assert (E : exists v, vr < v < vl /\ place v = x).
  { destruct (place_low x) as (v1 & B1 & L1). destruct (place_high x) as (v2 & B2 & L2).
    assert (L : v2 < v1).
    { destruct (Rtotal_order v1 v2) as [Z|[Z|Z]]; [|subst; lra|exact Z].
      pose proof (place_decreasing v1 v2 ltac:(lra) Z ltac:(lra)). lra. }
    destruct (IVT_interv (fun v => x - place v) v2 v1) as (v & Hv & Ev).
    - intros a Ha. apply continuity_pt_minus; [apply continuity_pt_const; intros ? ?; reflexivity|].
      eapply D_cont. apply D_place. lra.
    - exact L.
    - lra.
    - lra.
    - exists v. split; lra. }
  (* the solution is unique, so it can be chosen *)
  destruct (completeness (fun v => vr < v < vl /\ x <= place v)) as (s & Us & Ls).
  - exists vl. intros v Hv. lra.
  - destruct E as (v & H1 & H2). exists v. lra.
  - exists s. destruct E as (v & H1 & H2).
    assert (s = v); [|subst s; split; assumption].
    apply Rle_antisym.
    + apply Ls. intros w [Hw Hw']. apply Rnot_lt_le. intros L.
      pose proof (place_decreasing v w ltac:(lra) L ltac:(lra)). lra.
    + apply Us. split; [exact H1|lra].
Qed.

Definition vel (x : R) : R := proj1_sig (place_surjective x).
Lemma vel_in x : vr < vel x < vl.
Proof. exact (proj1 (proj2_sig (place_surjective x))). Qed.
Lemma vel_pos x : place (vel x) = x.
Proof. exact (proj2 (proj2_sig (place_surjective x))). Qed.
Lemma vel_decreasing x y : x < y -> vel y < vel x.
Proof.
  intros L. destruct (Rtotal_order (vel y) (vel x)) as [Z|[Z|Z]]; [exact Z| |].
  - pose proof (vel_pos x). pose proof (vel_pos y). rewrite Z in *. lra.
  - pose proof (vel_in x). pose proof (vel_in y).
    pose proof (place_decreasing _ _ (proj1 H) Z (proj2 H0)). rewrite !vel_pos in H1. lra.
Qed.

Lemma vel_continuous x : continuity_pt vel x.
Proof.
  intros eps He. pose proof (vel_in x) as I.
  set (e := Rmin eps (Rmin ((vel x - vr) / 2) ((vl - vel x) / 2))).
  assert (Pe : 0 < e) by (repeat apply Rmin_glb_lt; lra).
  assert (E1 : e <= eps) by apply Rmin_l.
  assert (E2 : e <= (vel x - vr) / 2) by (eapply Rle_trans; [apply Rmin_r|apply Rmin_l]).
  assert (E3 : e <= (vl - vel x) / 2) by (eapply Rle_trans; [apply Rmin_r|apply Rmin_r]).
  pose proof (place_decreasing (vel x - e) (vel x) ltac:(lra) ltac:(lra) ltac:(lra)) as P1.
  pose proof (place_decreasing (vel x) (vel x + e) ltac:(lra) ltac:(lra) ltac:(lra)) as P2.
  rewrite vel_pos in P1, P2.
  exists (Rmin (place (vel x - e) - x) (x - place (vel x + e))).
  split; [apply Rmin_glb_lt; lra|]. intros y [_ Hy]. simpl in *. unfold R_dist in *.
  apply Rabs_def2 in Hy.
  pose proof (Rmin_l (place (vel x - e) - x) (x - place (vel x + e))).
  pose proof (Rmin_r (place (vel x - e) - x) (x - place (vel x + e))).
  pose proof (vel_in y) as Iy.
  assert (vel y < vel x + e).
  { apply Rnot_le_lt. intros [L|L].
    - pose proof (place_decreasing (vel x + e) (vel y) ltac:(lra) L ltac:(lra)) as Z. rewrite vel_pos in Z. lra.
    - rewrite L, vel_pos in *. lra. }
  assert (vel x - e < vel y).
  { apply Rnot_le_lt. intros [L|L].
    - pose proof (place_decreasing (vel y) (vel x - e) ltac:(lra) L ltac:(lra)) as Z. rewrite vel_pos in Z. lra.
    - rewrite <- L, vel_pos in *. lra. }
  apply Rabs_def1; lra.
Qed.

Lemma D_vel x : derivable_pt_lim vel x (- ((vl - vel x) * (vel x - vr) / (F * vel x))).
Proof.
  pose proof (vel_in x) as I. pose proof F_pos as PF. destruct G as (_ & Hv & _). fold vl vr in Hv.
  set (v := vel x) in *. set (d := - (F * v / ((vl - v) * (v - vr)))).
  assert (Nd : d < 0).
  { unfold d. assert (0 < F * v / ((vl - v) * (v - vr))); [|lra].
    apply Rdiv_lt_0_compat; apply Rmult_lt_0_compat; lra. }
  replace (- ((vl - v) * (v - vr) / (F * v))) with (/ d) by (unfold d; field; repeat split; lra).
  pose proof (D_place v I) as DP. fold d in DP.
  intros eps He.
  (* the difference quotient of place is close to d *)
  set (e1 := Rmin (- d / 2) (eps * (d * d) / 2)).
  assert (Pe1 : 0 < e1) by (apply Rmin_glb_lt; [lra|]; assert (0 < d * d) by nra; nra).
  destruct (DP e1 Pe1) as (d1 & Hd1).
  destruct (vel_continuous x (RIneq.pos d1) (cond_pos d1)) as (d2 & Pd2 & Hd2).
  exists (mkposreal d2 Pd2). intros h Hh Hlt. simpl in Hlt.
  set (w := vel (x + h)).
  assert (W1 : Rabs (w - v) < d1).
  { specialize (Hd2 (x + h)). simpl in Hd2. unfold R_dist in Hd2. apply Hd2.
    split; [split; [exact Logic.I|lra]|]. replace (x + h - x) with h by ring. exact Hlt. }
  assert (W2 : w - v <> 0).
  { intros Z. assert (w = v) by lra. pose proof (vel_pos (x + h)) as A. fold w in A. pose proof (vel_pos x) as B. fold v in B.
    rewrite H in A. lra. }
  specialize (Hd1 (w - v) W2 W1). replace (v + (w - v)) with w in Hd1 by ring.
  assert (PW : place w = x + h) by apply vel_pos. assert (PV : place v = x) by apply vel_pos.
  rewrite PW, PV in Hd1. replace (x + h - x) with h in Hd1 by ring.
  change (Rabs ((w - v) / h - / d) < eps).
  set (q := h / (w - v)) in *.
  assert (Q0 : q <> 0) by (unfold q; unfold Rdiv; apply Rmult_integral_contrapositive_currified; [exact Hh|apply Rinv_neq_0_compat; exact W2]).
  replace ((w - v) / h) with (/ q) by (unfold q; field; split; assumption).
  assert (E1 : e1 <= - d / 2) by apply Rmin_l. assert (E2 : e1 <= eps * (d * d) / 2) by apply Rmin_r.
  apply Rabs_def2 in Hd1. destruct Hd1 as [Hd1 Hd1']. 
  assert (Q1 : q < d / 2) by lra.
  replace (/ q - / d) with ((d - q) * / (q * d)) by (field; lra).
  rewrite Rabs_mult. assert (QD : 0 < q * d) by nra.
  rewrite (Rabs_right (/ (q * d))) by (left; apply Rinv_0_lt_compat; exact QD).
  apply (Rmult_lt_reg_r (q * d)); [exact QD|]. rewrite Rmult_assoc, Rinv_l by lra.
  rewrite Rmult_1_r. apply Rlt_le_trans with (eps * (d * d) / 2).
  - apply Rabs_def1; lra.
  - assert (d * d / 2 <= q * d) by nra. nra.
Qed.
End Psi.
