(** * Proofs about thin films *)
From Coq Require Import Reals List Arith Bool Lia Lra.
From Verif Require Import RVec Simd Newton EulerSystem EulerLimiter SWSystem SWLimiter SWLimiterSpec SWThinSpec SWLimiterProofs.
Import ListNotations.
Local Open Scope R_scope.

Lemma threshold_eq s eps factor dim l hd h : (dim = 1 \/ dim = 2)%nat -> 0 < h -> hd = h ^ dim ->
  h_small (w_get_bounds s eps factor dim l hd) = film s h.
Proof.
  intros Hd Hh ->. unfold w_get_bounds, film. cbn [h_small]. destruct Hd as [-> | ->]; cbn [Nat.eqb].
  - replace (h ^ 1) with h by ring. ring.
  - replace (h ^ 2) with (h * h) by ring. rewrite sqrt_square by lra. ring.
Qed.

Lemma limit_depth_floor eps tiny L : 0 <= eps -> 0 < tiny -> depth_call L ->
  Rmin (depth_at L 0) (h_small (wl_b L)) <= depth_at L (w_limit_depth eps tiny L) /\
  (depth_at L 0 < h_small (wl_b L) -> depth_at L (wl_tmax L) < h_small (wl_b L) -> w_limit_depth eps tiny L = 0).
Proof.
  intros He Ht (T0 & T1 & Hm & Hw). unfold depth_within, depth_at, w_limit_depth, water_depth in *.
  rewrite T0 in *. rewrite Rmult_0_l, Rplus_0_r in *.
  set (hU := wl_U L 0%nat) in *. set (hP := wl_P L 0%nat) in *.
  set (hm := h_min (wl_b L)) in *. set (hM := h_max (wl_b L)) in *. set (hs := h_small (wl_b L)) in *.
  set (tmax := wl_tmax L) in *.
  assert (Ha := Rabs_pos hP).
  assert (HeM : 0 <= eps * hM) by (apply Rmult_le_pos; lra).
  set (D := Rabs hP + eps * hM + tiny) in *.
  assert (HD : 0 < D) by (unfold D; lra).
  assert (HD1 : Rabs hP <= D) by (unfold D; lra). clearbody D.
  set (den := 1 / D).
  assert (Hden : 0 < den) by (unfold den; apply Rdiv_lt_0_compat; lra).
  assert (HdP : forall c, 0 <= c -> c * den * Rabs hP <= c).
  { intros c Hc. assert (den * Rabs hP <= 1).
    { apply Rmult_le_reg_r with D; [exact HD|]. unfold den. field_simplify; lra. }
    rewrite Rmult_assoc. nra. }
  assert (HP : - Rabs hP <= hP <= Rabs hP).
  { split; [|apply Rle_abs]. assert (X := Rle_abs (- hP)). rewrite Rabs_Ropp in X. lra. }
  clearbody den.
  set (t1 := mask_lt hM (hU + tmax * hP) ((hM - hU) * den) tmax).
  assert (T2 : 0 <= t1 /\ (t1 <= tmax)).
  { unfold t1, mask_lt. destruct (Rlt_dec hM (hU + tmax * hP)) as [B|B]; [|lra].
    assert (0 <= (hM - hU) * den) by (apply Rmult_le_pos; lra).
    assert (X := HdP (hM - hU) ltac:(lra)). split; [assumption|].
    apply Rnot_lt_le. intros C.
    assert (0 < hP) by nra. rewrite Rabs_right in X by lra. nra. }
  clearbody t1. destruct T2 as [T2 T3].
  set (tilde := Rmax hs hm).
  assert (Hts : hs <= tilde) by apply Rmax_l. 
  assert (Htm : hm <= tilde) by apply Rmax_r. 
  set (m := Rmin hU hs).
  assert (Hm1 : m <= hU) by apply Rmin_l. assert (Hm2 : m <= hs) by apply Rmin_r. 
  assert (Sub : forall t t', 0 <= t' <= t -> m <= hU + t * hP -> m <= hU + t' * hP).
  { intros t t' A B. destruct (Rle_lt_dec 0 hP); nra. }
  split.
  - clear T0 Hw.
    assert (T4 : forall t2, t2 = mask_lt (hU + t1 * hP) tilde ((hU - tilde) * den) t1 ->
               t2 < 0 \/ (0 <= t2 /\ m <= hU + t2 * hP)).
    { clearbody tilde. intros t2 ->. unfold mask_lt. destruct (Rlt_dec _ _) as [B|B].
      - destruct (Rlt_le_dec ((hU - tilde) * den) 0) as [C|C]; [now left|right].
        split; [exact C|].
        assert (0 <= hU - tilde) by nra.
        assert (X := HdP (hU - tilde) ltac:(lra)).
        assert (hP < 0) by nra. rewrite Rabs_left in X by lra. nra.
      - right. lra. }
    destruct (T4 _ eq_refl) as [N|[P Q]].
    + set (t2 := mask_lt _ _ _ _) in *. clearbody t2.
      rewrite Rmax_right; [lra|]. eapply Rle_trans; [apply Rmin_l|lra].
    + set (t2 := mask_lt _ _ _ _) in *. clearbody t2.
      apply (Sub t2); [|exact Q]. rewrite Rmax_left.
      * split; [apply Rmin_glb; lra|apply Rmin_l].
      * apply Rmin_glb; lra.
  - intros A B.
    assert (C : hU + t1 * hP < tilde).
    { assert (hU + t1 * hP < hs); [|lra]. destruct (Rle_lt_dec 0 hP); nra. }
    unfold mask_lt. destruct (Rlt_dec (hU + t1 * hP) tilde) as [_|N]; [|contradiction].
    assert ((hU - tilde) * den < 0) by nra.
    apply Rmax_right. eapply Rle_trans; [apply Rmin_l|lra].
Qed.

Lemma floor_between L t t' m : m <= depth_at L 0 -> m <= depth_at L t -> 0 <= t' <= t -> m <= depth_at L t'.
Proof. unfold depth_at. intros A B H. destruct (Rle_lt_dec 0 (wl_P L 0%nat)); nra. Qed.

Lemma C126_thin_proof : forall s eps tiny tol on_kin on_v2 factor h dim lanes ts b,
  0 <= eps -> 0 < tiny -> (dim = 1 \/ dim = 2)%nat -> 0 < h ->
  Forall (fun L => depth_call L /\ exists l, wl_b L = w_get_bounds s eps factor dim l (h ^ dim)) lanes ->
  w_limit s eps tiny tol on_kin on_v2 dim lanes = (ts, b) ->
  Forall2 (fun L t =>
    Rmin (depth_at L 0) (film s h) <= depth_at L t /\
    (depth_at L 0 < film s h -> depth_at L (wl_tmax L) < film s h -> t = 0)) lanes ts.
Proof.
  intros s eps tiny tol on_kin on_v2 factor h dim lanes ts b He Ht Hd Hh. apply w_limit_forall.
  intros L x (HL & l & Hb) H.
  assert (E : h_small (wl_b L) = film s h) by (rewrite Hb; apply threshold_eq; auto).
  destruct (limit_depth_floor eps tiny L He Ht HL) as (A & B). rewrite E in A, B.
  assert (HL' := HL). destruct HL' as (T0 & T1 & _ & _).
  apply lane_result_window in H; [|lra]. rewrite T0 in H. split.
  - apply (floor_between L (w_limit_depth eps tiny L)); [apply Rmin_l|exact A|exact H].
  - intros C D. specialize (B C D). rewrite B in H. lra.
Qed.

(** A thin film next to deeper water. *)
Lemma C126_setting :
  let s := {| gravity := 10; manning_friction_coefficient := 0; reference_water_depth := 1;
              dry_state_relaxation_factor := 1 / 5; dry_state_relaxation_small := 1; dry_state_relaxation_large := 1 |} in
  let l := {| w_U_i := fun _ => 1 / 100; w_bounds := {| h_min := 0; h_max := 1; h_small := 0; kin_max := 1; v2_max := 1 |};
              h_relaxation_numerator := 1; kin_relaxation_numerator := 1; v2_relaxation_numerator := 1; relaxation_denominator := 1 |} in
  let L := {| wl_b := w_get_bounds s 0 0 1 l ((1 / 4) ^ 1); wl_U := fun _ => 1 / 100; wl_P := fun _ => 1 / 50; wl_tmin := 0; wl_tmax := 1 |} in
  depth_call L /\ film s (1 / 4) = 1 / 20 /\ depth_at L 0 < film s (1 / 4) /\ depth_at L 1 < film s (1 / 4).
Proof.
  cbv zeta. unfold depth_call, depth_within, depth_at, film, w_get_bounds. cbn [wl_tmin wl_tmax wl_b wl_U wl_P h_min h_max w_bounds h_relaxation_numerator relaxation_denominator reference_water_depth dry_state_relaxation_factor].
  rewrite !Rmult_0_r, Rabs_R1.
  repeat split; try lra.
  - apply Rmax_l.
  - apply Rmax_lub; lra.
  - apply Rmin_glb; lra.
Qed.
