(** * The shallow water limiter: the lemmas behind the theorems *)
From Coq Require Import Reals List Bool Arith Lia Lra Psatz Permutation.
From Verif Require Import RVec Simd SimdProofs Newton NewtonProofs NewtonSign EulerSystem EulerLimiter EulerLimiterProofs
  EulerLimiterBounds SWSystem SWLimiter SWLimiterSpec SWLimiterProofs.
Import ListNotations.
Local Open Scope R_scope.

(** ** Accumulation *)

(** The arguments of one call of accumulate(), source/shallow_water/limiter.h:270-276. *)
Record wcontrib := { wc_U : vec; wc_ij : vec; wc_ji : vec; wc_c : vec; wc_shift : vec }.

Definition w_step (s : shallow) (eps : R) (dim : nat) (l : wlimiter) (x : wcontrib) : wlimiter :=
  w_accumulate s eps dim l (wc_U x) (wc_ij x) (wc_ji x) (wc_c x) (wc_shift x).

(** reset() followed by accumulate() for all stencil entries,
    source/hyperbolic_module.template.h:689,785-794. *)
Definition w_stencil (s : shallow) (eps : R) (dim : nat) (big : R) (U_i : vec) (cs : list wcontrib) : wlimiter :=
  fold_left (w_step s eps dim) cs (w_reset big U_i).

Definition w_bar_of (s : shallow) (eps : R) (dim : nat) (x : wcontrib) : vec :=
  w_bar_state s eps dim (wc_ij x) (wc_ji x) (wc_c x) (wc_shift x).

Lemma w_step_comm s eps dim l x y :
  w_step s eps dim (w_step s eps dim l x) y = w_step s eps dim (w_step s eps dim l y) x.
Proof.
  unfold w_step, w_accumulate; cbn [w_U_i w_bounds h_min h_max h_small kin_max v2_max
    h_relaxation_numerator kin_relaxation_numerator v2_relaxation_numerator relaxation_denominator].
  f_equal; try apply Rplus_swap.
  f_equal; solve [apply Rmin_swap|apply Rmax_swap|reflexivity].
Qed.

Lemma w_stencil_perm s eps dim big U_i cs cs' : Permutation cs cs' ->
  w_stencil s eps dim big U_i cs = w_stencil s eps dim big U_i cs'.
Proof. intros H. apply fold_left_perm; [intros; apply w_step_comm|exact H]. Qed.

Lemma w_fold_bounds s eps dim cs : forall l,
  let r := w_bounds (fold_left (w_step s eps dim) cs l) in
  let b := w_bounds l in
  (h_min r <= h_min b /\ h_max b <= h_max r /\ kin_max b <= kin_max r /\ v2_max b <= v2_max r) /\
  (forall x, In x cs -> h_min r <= water_depth (w_bar_of s eps dim x) <= h_max r /\
     kinetic_energy s eps dim (w_bar_of s eps dim x) <= kin_max r /\
     mollified_v2 s eps dim (w_bar_of s eps dim x) <= v2_max r).
Proof.
  induction cs as [|c cs IH]; intros l; cbv zeta; simpl.
  - split; [lra|intros x []].
  - specialize (IH (w_step s eps dim l c)). cbv zeta in IH. destruct IH as [(A & B & C & D) F].
    change (h_min (w_bounds (w_step s eps dim l c))) with
      (Rmin (h_min (w_bounds l)) (water_depth (w_bar_of s eps dim c))) in A.
    change (h_max (w_bounds (w_step s eps dim l c))) with
      (Rmax (h_max (w_bounds l)) (water_depth (w_bar_of s eps dim c))) in B.
    change (kin_max (w_bounds (w_step s eps dim l c))) with
      (Rmax (kin_max (w_bounds l)) (kinetic_energy s eps dim (w_bar_of s eps dim c))) in C.
    change (v2_max (w_bounds (w_step s eps dim l c))) with
      (Rmax (v2_max (w_bounds l)) (mollified_v2 s eps dim (w_bar_of s eps dim c))) in D.
    assert (A1 := Rmin_l (h_min (w_bounds l)) (water_depth (w_bar_of s eps dim c))).
    assert (A2 := Rmin_r (h_min (w_bounds l)) (water_depth (w_bar_of s eps dim c))).
    assert (B1 := Rmax_l (h_max (w_bounds l)) (water_depth (w_bar_of s eps dim c))).
    assert (B2 := Rmax_r (h_max (w_bounds l)) (water_depth (w_bar_of s eps dim c))).
    assert (C1 := Rmax_l (kin_max (w_bounds l)) (kinetic_energy s eps dim (w_bar_of s eps dim c))).
    assert (C2 := Rmax_r (kin_max (w_bounds l)) (kinetic_energy s eps dim (w_bar_of s eps dim c))).
    assert (D1 := Rmax_l (v2_max (w_bounds l)) (mollified_v2 s eps dim (w_bar_of s eps dim c))).
    assert (D2 := Rmax_r (v2_max (w_bounds l)) (mollified_v2 s eps dim (w_bar_of s eps dim c))).
    split; [lra|].
    intros x [<-|Hx]; [|apply F; exact Hx].
    repeat split; lra.
Qed.

Lemma w_fold_den s eps dim cs : forall l,
  0 <= relaxation_denominator l -> 0 <= relaxation_denominator (fold_left (w_step s eps dim) cs l).
Proof.
  induction cs as [|c cs IH]; intros l H; simpl; [exact H|].
  apply IH. simpl. assert (X := Rabs_pos 1). lra.
Qed.

Lemma relax_lo r a n d : 0 <= r -> 0 <= a -> 0 <= n -> 0 < d -> Rmax ((1 - r) * a) (a - n / d) <= a.
Proof.
  intros Hr Ha Hn Hd. assert (0 <= n / d) by (apply Rmult_le_pos; [lra|left; apply Rinv_0_lt_compat; lra]).
  apply Rmax_lub; nra.
Qed.
Lemma relax_hi r a n d : 0 <= r -> 0 <= a -> 0 <= n -> 0 < d -> a <= Rmin ((1 + r) * a) (a + n / d).
Proof.
  intros Hr Ha Hn Hd. assert (0 <= n / d) by (apply Rmult_le_pos; [lra|left; apply Rinv_0_lt_compat; lra]).
  apply Rmin_glb; nra.
Qed.

Lemma w_relaxed_contains s eps factor dim l hd :
  0 < eps -> 0 <= factor -> 0 <= relaxation_denominator l ->
  let b := w_bounds l in
  0 <= h_min b -> 0 <= h_max b -> 0 <= kin_max b -> 0 <= v2_max b ->
  let r := w_get_bounds s eps factor dim l hd in
  h_min r <= h_min b /\ h_max b <= h_max r /\ kin_max b <= kin_max r /\ v2_max b <= v2_max r.
Proof.
  intros He Hf Hd b H1 H2 H3 H4 r.
  assert (R0 := relaxation_radius_nonneg dim hd).
  assert (Hr : 0 <= relaxation_radius dim hd * factor) by (apply Rmult_le_pos; lra).
  assert (P : forall x, 0 <= 2 * Rabs x) by (intros x; assert (X := Rabs_pos x); lra).
  unfold r, w_get_bounds; cbn [h_min h_max kin_max v2_max].
  repeat split; [apply relax_lo|apply relax_hi|apply relax_hi|apply relax_hi]; auto; lra.
Qed.

Lemma w_stencil_contains s eps dim big factor hd U_i cs :
  0 < eps -> 0 <= factor -> 0 <= big ->
  (forall c, In c cs -> 0 <= water_depth (w_bar_of s eps dim c)) ->
  let r := w_get_bounds s eps factor dim (w_stencil s eps dim big U_i cs) hd in
  forall c, In c cs ->
    h_min r <= water_depth (w_bar_of s eps dim c) <= h_max r /\
    kinetic_energy s eps dim (w_bar_of s eps dim c) <= kin_max r /\
    mollified_v2 s eps dim (w_bar_of s eps dim c) <= v2_max r.
Proof.
  intros He Hf Hb Hpos r c Hc.
  assert (F := w_fold_bounds s eps dim cs (w_reset big U_i)). cbv zeta in F.
  fold (w_stencil s eps dim big U_i cs) in F. destruct F as [(A & B & C & D) F].
  cbn [w_reset w_bounds h_min h_max kin_max v2_max] in A, B, C, D.
  assert (Hden := w_fold_den s eps dim cs (w_reset big U_i) ltac:(simpl; lra)).
  fold (w_stencil s eps dim big U_i cs) in Hden.
  assert (Hmin : 0 <= h_min (w_bounds (w_stencil s eps dim big U_i cs))).
  { clear - Hpos Hb. unfold w_stencil.
    assert (G : forall cs l, (forall c, In c cs -> 0 <= water_depth (w_bar_of s eps dim c)) ->
       0 <= h_min (w_bounds l) -> 0 <= h_min (w_bounds (fold_left (w_step s eps dim) cs l))).
    { clear. induction cs as [|c cs IH]; intros l H H0; simpl; [exact H0|].
      apply IH; [intros; apply H; now right|]. simpl. apply Rmin_glb; [exact H0|].
      apply H. now left. }
    apply G; [exact Hpos|simpl; exact Hb]. }
  assert (K := w_relaxed_contains s eps factor dim _ hd He Hf Hden Hmin B C D). cbv zeta in K.
  fold r in K. specialize (F c Hc). lra.
Qed.

Lemma w_combine_contains l r :
  let b := w_combine_bounds l r in
  (h_min b <= h_min l /\ h_max l <= h_max b /\ h_small b <= h_small l /\ kin_max l <= kin_max b /\ v2_max l <= v2_max b) /\
  (h_min b <= h_min r /\ h_max r <= h_max b /\ h_small b <= h_small r /\ v2_max r <= v2_max b).
Proof.
  cbv zeta. unfold w_combine_bounds; cbn [h_min h_max h_small kin_max v2_max].
  repeat split; solve [apply Rmin_l|apply Rmin_r|apply Rmax_l|apply Rmax_r].
Qed.

Lemma w_combine_loses : exists l r, kin_max (w_combine_bounds l r) < kin_max r /\
  0 < h_min l <= h_max l /\ 0 < h_min r <= h_max r /\ 0 < kin_max l /\ 0 < kin_max r.
Proof.
  exists {| h_min := 1; h_max := 2; h_small := 0; kin_max := 1; v2_max := 2 |},
         {| h_min := 1; h_max := 2; h_small := 0; kin_max := 5; v2_max := 10 |}.
  unfold w_combine_bounds; cbn [h_min h_max h_small kin_max v2_max].
  rewrite Rmax_right by lra. lra.
Qed.

(** ** The full update *)

Lemma acc1_full psi L a b : 0 < psi L b -> acc1 psi (L, (a, b)) = (L, (b, b)).
Proof. intros H. simpl. unfold mask_gt. destruct (Rgt_dec _ _); [reflexivity|lra]. Qed.

Lemma newt1_point eps psi dpsi L a : fst (newt1 eps psi dpsi (L, (a, a))) = L /\
  fst (snd (newt1 eps psi dpsi (L, (a, a)))) = a.
Proof.
  unfold newt1.
  destruct (quadratic_newton_step eps (-1) a a (psi L a) (psi L a) (dpsi L a) (dpsi L a)) as [q1 q2] eqn:E.
  apply newton_shrinks in E; [|lra]. simpl. split; [reflexivity|lra].
Qed.

Lemma phase1_full eps tol psi dpsi L a b y : 0 < psi L b ->
  phase1 eps tol psi dpsi (L, (a, b)) y -> fst y = L /\ fst (snd y) = b.
Proof.
  intros H [[-> _]| ->]; rewrite acc1_full by exact H.
  - split; reflexivity.
  - apply newt1_point.
Qed.

Lemma depth_limit_full eps tiny L : wl_tmin L <= wl_tmax L ->
  depth_within L (wl_tmax L) -> h_small (wl_b L) <= depth_at L (wl_tmax L) ->
  w_limit_depth eps tiny L = wl_tmax L.
Proof.
  intros HT [H1 H2] H3. unfold w_limit_depth, depth_at, water_depth in *.
  unfold mask_lt at 2 3.
  destruct (Rlt_dec (h_max (wl_b L)) _) as [N|_]; [lra|].
  unfold mask_lt. destruct (Rlt_dec _ (Rmax _ _)) as [N|_].
  - exfalso. assert (Rmax (h_small (wl_b L)) (h_min (wl_b L)) <= wl_U L 0%nat + wl_tmax L * wl_P L 0%nat)
      by (apply Rmax_lub; lra). lra.
  - rewrite Rmin_left by lra. apply Rmax_left. exact HT.
Qed.

Lemma Forall2_nth {A B} (P : A -> B -> Prop) l r k a :
  Forall2 P l r -> nth_error l k = Some a -> exists b, nth_error r k = Some b /\ P a b.
Proof.
  intros H. revert k. induction H as [|x y l r Hxy H IH]; intros k E; destruct k; simpl in *; try discriminate.
  - injection E as <-. exists y. auto.
  - apply IH. exact E.
Qed.

Lemma w_limit_full s eps tiny tol on_kin on_v2 dim lanes ts b k L :
  w_limit s eps tiny tol on_kin on_v2 dim lanes = (ts, b) ->
  nth_error lanes k = Some L ->
  on_kin || on_v2 = true ->
  wl_tmin L <= wl_tmax L ->
  depth_within L (wl_tmax L) -> h_small (wl_b L) <= depth_at L (wl_tmax L) ->
  (on_kin = true -> 0 < psi_kin s eps dim L (wl_tmax L)) ->
  (on_v2 = true -> 0 < psi_v2 s eps dim L (wl_tmax L)) ->
  nth_error ts k = Some (wl_tmax L).
Proof.
  intros E Hk Hon HT Hd Hs Kk Kv. apply w_limit_lanes in E. destruct E as (xs & A & ->).
  destruct (Forall2_nth _ _ _ _ _ A Hk) as (x & Hx & R1).
  rewrite (map_nth_error _ _ _ Hx). f_equal.
  assert (D := depth_limit_full eps tiny L HT Hd Hs).
  unfold lane_result, init1 in R1. rewrite D in R1.
  destruct on_kin, on_v2; try discriminate.
  - destruct R1 as ([Ly [a c]] & P1 & P2).
    apply phase1_full in P1; [|apply Kk; reflexivity]. cbn [fst snd] in P1. destruct P1 as [-> ->].
    cbn [flip1] in P2. apply phase1_full in P2; [|apply Kv; reflexivity]. apply P2.
  - apply phase1_full in R1; [|apply Kk; reflexivity]. apply R1.
  - apply phase1_full in R1; [|apply Kv; reflexivity]. apply R1.
Qed.

(** ** The bounds on the velocity and on the kinetic energy *)

Lemma depth_call_0 L t : depth_call L -> depth_within L t -> 0 <= depth_at L t.
Proof. intros (_ & _ & H & _) [A _]. lra. Qed.

Lemma v2_lane s tiny tol on_kin dim L x :
  0 < tiny -> depth_call L -> 0 <= v2_max (wl_b L) -> velocity_within dim L 0 ->
  (on_kin = true -> kinetic_within dim L 0) ->
  lane_result s 0 tiny tol on_kin true dim L x -> velocity_within dim L (fst (snd x)).
Proof.
  intros Ht HL HV H0 HK H.
  assert (DW := depth_limit_ok 0 tiny L (Rle_refl 0) Ht HL).
  assert (HL' := HL). destruct HL' as (T0 & T1 & Hm & Hw).
  assert (DR := w_limit_depth_range 0 tiny L ltac:(lra)). rewrite T0 in DR.
  assert (P0 : 0 <= psi_v2 s 0 dim L 0) by (rewrite psi_v2_spec; unfold velocity_within in H0; lra).
  cut (0 <= psi_v2 s 0 dim L (fst (snd x))).
  { rewrite psi_v2_spec. unfold velocity_within. lra. }
  destruct on_kin; simpl in H.
  - destruct H as (y & H1 & H2).
    unfold init1 in H1. rewrite T0 in H1.
    apply kin_phase in H1; [|lra|].
    + destruct H1 as (E1 & W & _). destruct y as [Ly [a c]]. cbn [fst snd] in *. subst Ly.
      cbn [flip1] in H2. rewrite T0 in H2.
      apply v2_phase in H2; [apply H2|lra|exact HV|apply (depth_call_0 L 0); assumption| |exact P0].
      apply (depth_call_0 L a); [exact HL|].
      apply (depth_between L (w_limit_depth 0 tiny L)); try assumption.
    + rewrite psi_kin_spec. specialize (HK eq_refl). unfold kinetic_within in HK. lra.
  - unfold init1 in H. rewrite T0 in H.
    apply v2_phase in H; [apply H|lra|exact HV|apply (depth_call_0 L 0); assumption| |exact P0].
    apply (depth_call_0 L); assumption.
Qed.

Lemma kin_lane s tiny tol on_v2 dim L x :
  0 < tiny -> depth_call L -> kinetic_within dim L 0 ->
  lane_result s 0 tiny tol true on_v2 dim L x -> kinetic_within dim L (fst (snd x)).
Proof.
  intros Ht HL HK H.
  assert (HL' := HL). destruct HL' as (T0 & T1 & Hm & Hw).
  assert (DR := w_limit_depth_range 0 tiny L ltac:(lra)). rewrite T0 in DR.
  assert (P0 : 0 <= psi_kin s 0 dim L 0) by (rewrite psi_kin_spec; unfold kinetic_within in HK; lra).
  cut (0 <= psi_kin s 0 dim L (fst (snd x))).
  { rewrite psi_kin_spec. unfold kinetic_within. lra. }
  destruct on_v2; simpl in H.
  - destruct H as (y & H1 & H2). unfold init1 in H1. rewrite T0 in H1.
    apply kin_phase in H1; [|lra|exact P0]. destruct H1 as (E1 & W & Hpos).
    destruct y as [Ly [a c]]. cbn [fst snd] in *. subst Ly. cbn [flip1] in H2.
    apply phase1_window in H2; [|simpl; lra]. destruct H2 as (A & B & C).
    destruct x as [Lx [u v]]. cbn [fst snd in_window] in *. subst Lx. apply Hpos. lra.
  - unfold init1 in H. rewrite T0 in H. apply kin_phase in H; [|lra|exact P0].
    destruct H as (E1 & W & Hpos). apply Hpos. lra.
Qed.

Lemma kin_largest s tiny tol dim L x t' :
  0 < tiny -> 0 <= tol < wl_tmax L -> depth_call L ->
  1 / 2 * norm2 dim (momentum_at L 0) < kin_max (wl_b L) * depth_at L 0 ->
  depth_within L (wl_tmax L) -> h_small (wl_b L) <= depth_at L (wl_tmax L) ->
  lane_result s 0 tiny tol true false dim L x ->
  fst (snd x) < t' <= wl_tmax L -> ~ kinetic_within dim L t'.
Proof.
  intros Ht Htol HL H0 Dw Hs H Hx HK.
  assert (HL' := HL). destruct HL' as (T0 & T1 & Hm & Hw).
  assert (P0 : 0 < psi_kin s 0 dim L 0) by (rewrite psi_kin_spec; lra).
  simpl in H. unfold init1 in H. rewrite T0, depth_limit_full in H by (assumption || lra).
  assert (HPk : 0 <= psi_kin s 0 dim L t') by (rewrite psi_kin_spec; unfold kinetic_within in HK; lra).
  destruct (Rlt_le_dec 0 (psi_kin s 0 dim L (wl_tmax L))) as [G|G].
  { apply phase1_full in H; [|exact G]. lra. }
  assert (Z := H). apply kin_phase in Z; [|lra|lra]. destruct Z as (_ & W & _).
  apply kin_phase_root in H; try assumption; try lra.
  2: { apply Rle_lt_trans with tol; [apply Rmax_lub; lra|lra]. }
  rewrite (psi_kin_poly s dim L) in H, HPk, P0. cbv zeta in H, HPk, P0.
  set (A := _ - _ : R) in H at 1.
  assert (HC : - (1 / 2) * norm2 dim (w_momentum (wl_P L)) <= 0)
    by (assert (X := norm2_nonneg dim (w_momentum (wl_P L))); lra).
  assert (0 < fst (snd x)).
  { destruct (Req_dec 0 (fst (snd x))) as [Q|Q]; [rewrite <- Q in H; unfold A in H; lra|lra]. }
  assert (N := after_root _ _ _ 0 (fst (snd x)) t' HC ltac:(lra) P0 H ltac:(lra)). lra.
Qed.

(** ** The success flag *)

Lemma filter_0 s eps : filter_dry_water_depth s eps 0 = 0.
Proof. unfold filter_dry_water_depth. destruct (Rlt_dec _ _); reflexivity. Qed.

Lemma w_depth_test_ok s eps L :
  0 <= eps -> 0 <= dry_state_relaxation_large s -> 0 <= h_min (wl_b L) -> depth_within L 0 ->
  w_depth_test s eps L = true.
Proof.
  intros He Hl Hm [A B]. unfold depth_at in *. rewrite Rmult_0_l, Rplus_0_r in A, B.
  unfold w_depth_test, water_depth.
  assert (R1 : 1 <= w_relax s eps) by (unfold w_relax; nra).
  rewrite !Rmax_left by nra. rewrite filter_0.
  destruct (Req_EM_T 0 0); [reflexivity|lra].
Qed.

Lemma psi_test_acc psi lower it :
  (forall L t_l t_r, In (L, (t_l, t_r)) it -> 0 <= psi L t_l) ->
  (forall L t_l t_r, In (L, (t_l, t_r)) it -> lower L t_l <= 0 /\ lower L t_r <= 0) ->
  w_psi_test psi lower (map (acc1 psi) it) = true.
Proof.
  intros H Hl. unfold w_psi_test. apply forallb_forall. intros x Hx. apply in_map_iff in Hx.
  destruct Hx as ([L [a b]] & <- & Hin). simpl.
  destruct (Hl _ _ _ Hin) as [L1 L2]. assert (P := H _ _ _ Hin).
  rewrite Rmin_left; [destruct (Req_EM_T 0 0); [reflexivity|lra]|].
  unfold mask_gt. destruct (Rgt_dec _ _); lra.
Qed.

Lemma filter_sq_nonneg s eps h : 0 <= filter_dry_water_depth s eps h * filter_dry_water_depth s eps h.
Proof. nra. Qed.

Lemma lower_v2_nonpos s eps L t : 0 <= eps -> 0 <= dry_state_relaxation_large s -> 0 <= v2_max (wl_b L) ->
  lower_v2 s eps L t <= 0.
Proof.
  intros He Hl HV. unfold lower_v2. set (f := filter_dry_water_depth _ _ _).
  assert (0 <= dry_state_relaxation_large s * eps) by nra.
  assert (0 <= dry_state_relaxation_large s * eps * (f * f) * v2_max (wl_b L)).
  { apply Rmult_le_pos; [apply Rmult_le_pos; [lra|nra]|lra]. }
  unfold w_relax. nra.
Qed.

Lemma lower_kin_nonpos s eps L t : 0 <= eps -> 0 <= dry_state_relaxation_large s -> 0 <= kin_max (wl_b L) ->
  0 <= depth_at L t -> lower_kin s eps L t <= 0.
Proof.
  intros He Hl HV Hd. unfold lower_kin.
  change (water_depth (w_along L t)) with (depth_at L t).
  set (f := filter_dry_water_depth _ _ _).
  assert (0 <= f) by (unfold f, filter_dry_water_depth; destruct (Rlt_dec _ _); lra).
  assert (0 <= dry_state_relaxation_large s * eps) by nra.
  assert (0 <= dry_state_relaxation_large s * eps * f * kin_max (wl_b L)).
  { apply Rmult_le_pos; [apply Rmult_le_pos; lra|lra]. }
  unfold w_relax. nra.
Qed.

Lemma psi_kin_nonneg s eps dim L t : 0 <= eps -> 0 <= dry_state_relaxation_small s -> 0 <= kin_max (wl_b L) ->
  0 <= depth_at L t -> kinetic_within dim L t -> 0 <= psi_kin s eps dim L t.
Proof.
  intros He Hs HK Hd H. unfold kinetic_within in H. unfold psi_kin.
  change (water_depth (w_along L t)) with (depth_at L t).
  change (norm2 dim (w_momentum (w_along L t))) with (norm2 dim (momentum_at L t)).
  assert (0 <= dry_state_relaxation_small s * eps * (kin_max (wl_b L) * depth_at L t)).
  { apply Rmult_le_pos; [nra|nra]. }
  unfold w_relax_small. nra.
Qed.

Lemma psi_v2_nonneg s eps dim L t : 0 <= eps -> 0 <= dry_state_relaxation_small s -> 0 <= v2_max (wl_b L) ->
  velocity_within dim L t -> 0 <= psi_v2 s eps dim L t.
Proof.
  intros He Hs HK H. unfold velocity_within in H. unfold psi_v2.
  change (water_depth (w_along L t)) with (depth_at L t).
  change (norm2 dim (w_momentum (w_along L t))) with (norm2 dim (momentum_at L t)).
  assert (0 <= dry_state_relaxation_small s * eps * (v2_max (wl_b L) * (depth_at L t * depth_at L t))).
  { apply Rmult_le_pos; [nra|nra]. }
  unfold w_relax_small. nra.
Qed.

Lemma w_limit_success s eps tiny tol on_kin on_v2 dim lanes ts b :
  0 <= eps -> 0 < tiny -> 0 <= dry_state_relaxation_small s -> 0 <= dry_state_relaxation_large s ->
  Forall (fun L => depth_call L /\ 0 <= kin_max (wl_b L) /\ 0 <= v2_max (wl_b L) /\
            (on_kin = true -> kinetic_within dim L 0) /\ (on_v2 = true -> velocity_within dim L 0)) lanes ->
  w_limit s eps tiny tol on_kin on_v2 dim lanes = (ts, b) -> b = true.
Proof.
  intros He Ht Hs Hl F. rewrite Forall_forall in F.
  unfold w_limit. change (map (fun L => (L, (wl_tmin L, w_limit_depth eps tiny L))) lanes)
    with (map (init1 eps tiny) lanes).
  rewrite !w_accept_map.
  assert (S0 : forallb (w_depth_test s eps) lanes = true).
  { apply forallb_forall. intros L HL. apply F in HL. destruct HL as ((_ & _ & Hm & Hd) & _).
    apply w_depth_test_ok; assumption. }
  rewrite S0.
  set (it := map (init1 eps tiny) lanes).
  assert (In0 : forall L a c, In (L, (a, c)) it -> In L lanes /\ a = 0 /\ c = w_limit_depth eps tiny L).
  { intros L a c HL. unfold it in HL. apply in_map_iff in HL. destruct HL as (L' & E & HL).
    injection E as -> <- <-. destruct (F L HL) as ((T0 & _) & _). auto. }
  assert (Tk : on_kin = true -> w_psi_test (psi_kin s eps dim) (lower_kin s eps) (map (acc1 (psi_kin s eps dim)) it) = true).
  { intros K. apply psi_test_acc; intros L a c HL; destruct (In0 L a c HL) as (HL' & -> & ->);
      destruct (F L HL') as (DC & HK & HV & A & B).
    - apply psi_kin_nonneg; auto. apply (depth_call_0 L 0 DC). apply DC.
    - split; apply lower_kin_nonpos; auto; apply depth_call_0; auto; [apply DC|].
      apply depth_limit_ok; assumption. }
  assert (Tv : forall it', on_v2 = true -> (forall L a c, In (L, (a, c)) it' -> In L lanes /\ a = 0) ->
     w_psi_test (psi_v2 s eps dim) (lower_v2 s eps) (map (acc1 (psi_v2 s eps dim)) it') = true).
  { intros it' K I'. apply psi_test_acc; intros L a c HL; destruct (I' L a c HL) as (HL' & ->);
      destruct (F L HL') as (DC & HK & HV & A & B).
    - apply psi_v2_nonneg; auto.
    - split; apply lower_v2_nonpos; auto. }
  destruct on_kin, on_v2; cbn [andb negb].
  - rewrite Tk by reflexivity. cbn [negb].
    rewrite ?w_accept_map, !w_flip_map.
    assert (P1 := phase_list eps tol (psi_kin s eps dim) (dpsi_kin dim) it).
    set (y := if w_within_tolerance tol _ then _ else _) in *.
    destruct (w_all_equal _); [intros E; injection E as _ <-; reflexivity|].
    rewrite Tv; [intros E; injection E as _ <-; reflexivity|reflexivity|].
    intros L a c HL. apply in_map_iff in HL. destruct HL as ([L' [u v]] & E & HL).
    simpl in E. injection E as -> <- _.
    assert (G : forall l r, Forall2 (phase1 eps tol (psi_kin s eps dim) (dpsi_kin dim)) l r ->
              forall L u v, In (L, (u, v)) r -> exists u' v', In (L, (u', v')) l).
    { clear. induction 1 as [|x z l r Hx H IH]; intros L u v Hin; [destruct Hin|].
      destruct Hin as [Ez|Hin].
      - destruct x as [Lx [p q]]. exists p, q. left.
        assert (fst z = Lx) by (destruct Hx as [[-> _]| ->]; reflexivity).
        subst z. simpl in *. congruence.
      - destruct (IH _ _ _ Hin) as (u' & v' & K). exists u', v'. now right. }
    destruct (G _ _ P1 _ _ _ HL) as (u' & v' & K).
    destruct (In0 _ _ _ K) as (A & _). split; [exact A|]. destruct (F L A) as ((T0 & _) & _). exact T0.
  - rewrite Tk by reflexivity. cbn [negb].
    destruct (w_all_equal _); intros E; injection E as _ <-; reflexivity.
  - rewrite ?w_accept_map. destruct (w_all_equal _); [intros E; injection E as _ <-; reflexivity|].
    rewrite Tv; [intros E; injection E as _ <-; reflexivity|reflexivity|].
    intros L a c HL. destruct (In0 _ _ _ HL) as (A & B & _). auto.
  - intros E; injection E as _ <-; reflexivity.
Qed.

(** A low-order water depth that exceeds the (slightly relaxed) upper bound by the dry
    state cutoff is reported. *)
Lemma w_limit_reports s eps tiny tol on_kin on_v2 dim lanes ts b L :
  w_limit s eps tiny tol on_kin on_v2 dim lanes = (ts, b) ->
  In L lanes ->
  let cutoff := reference_water_depth s * dry_state_relaxation_large s * eps in
  0 < cutoff ->
  (cutoff <= wl_U L 0%nat - w_relax s eps * h_max (wl_b L) \/
   cutoff <= h_min (wl_b L) - w_relax s eps * wl_U L 0%nat) ->
  b = false.
Proof.
  intros E HL cutoff Hc Hv.
  assert (T : w_depth_test s eps L = false).
  { unfold w_depth_test, water_depth.
    assert (N : forall x, cutoff <= x -> filter_dry_water_depth s eps (Rmax 0 x) <> 0).
    { intros x Hx. rewrite Rmax_right by lra. unfold filter_dry_water_depth. fold cutoff.
      destruct (Rlt_dec _ _) as [N|_]; [|lra]. rewrite Rabs_right in N by lra. lra. }
    destruct Hv as [Hv|Hv].
    - destruct (Req_EM_T (filter_dry_water_depth s eps (Rmax 0 (wl_U L 0%nat - w_relax s eps * h_max (wl_b L)))) 0)
        as [Z|_]; [exfalso; exact (N _ Hv Z)|reflexivity].
    - destruct (Req_EM_T (filter_dry_water_depth s eps (Rmax 0 (h_min (wl_b L) - w_relax s eps * wl_U L 0%nat))) 0)
        as [Z|_]; [exfalso; exact (N _ Hv Z)|apply andb_false_r]. }
  assert (S0 : forallb (w_depth_test s eps) lanes = false).
  { destruct (forallb (w_depth_test s eps) lanes) eqn:Q; [|reflexivity].
    rewrite forallb_forall in Q. apply Q in HL. congruence. }
  unfold w_limit in E. rewrite S0 in E.
  destruct on_kin, on_v2; cbn [andb negb] in E;
    repeat match type of E with context [if ?c then _ else _] =>
      match c with w_all_equal _ => destruct c | negb (w_psi_test _ _ _) => destruct c end end;
    injection E as _ <-; reflexivity.
Qed.

(** ** Counterexamples *)

(** Both velocity options disabled: the update is not applied at all. *)
Lemma w_disabled : forall s eps tiny tol dim lanes,
  fst (w_limit s eps tiny tol false false dim lanes) = map wl_tmin lanes.
Proof.
  intros. unfold w_limit. cbn [negb andb fst]. rewrite map_map. reflexivity.
Qed.

Definition ex_bounds : wbounds := {| h_min := 1; h_max := 3; h_small := 0; kin_max := 1; v2_max := 1 |}.
(** h_U = 1, q_U = 0, h_P = 0, q_P = 2 *)
Definition ex_wlane : wlane :=
  {| wl_b := ex_bounds; wl_U := mkwater 1 1 (fun _ => 0); wl_P := mkwater 1 0 (fun _ => 2);
     wl_tmin := 0; wl_tmax := 1 |}.
Definition ex_shallow : shallow :=
  {| gravity := 10; manning_friction_coefficient := 0; reference_water_depth := 1;
     dry_state_relaxation_factor := 1 / 5; dry_state_relaxation_small := 100;
     dry_state_relaxation_large := 10000 |}.

Lemma ex_depth_call : depth_call ex_wlane.
Proof.
  unfold depth_call, depth_within, depth_at, ex_wlane, ex_bounds, mkwater; simpl. lra.
Qed.

Lemma ex_velocity t : velocity_within 1 ex_wlane t <-> 4 * (t * t) <= 1.
Proof.
  unfold velocity_within, norm2, dot, momentum_at, depth_at, ex_wlane, ex_bounds, mkwater; simpl. split; lra.
Qed.

Lemma ex_depth_limit tiny : w_limit_depth 0 tiny ex_wlane = 1.
Proof.
  apply (depth_limit_full 0 tiny ex_wlane); unfold depth_within, depth_at, ex_wlane, ex_bounds, mkwater; simpl; lra.
Qed.

Lemma v2_not_largest tiny : 0 < tiny ->
  exists t, fst (w_limit ex_shallow 0 tiny (1 / 10000000000) false true 1 [ex_wlane]) = [t] /\
            0 < t < 1 / 4.
Proof.
  intros Ht.
  unfold w_limit. cbn [andb negb map]. rewrite ex_depth_limit.
  change (wl_tmin ex_wlane) with 0.
  assert (Pv : forall t, psi_v2 ex_shallow 0 1 ex_wlane t = 1 - 4 * (t * t)).
  { intros t. rewrite psi_v2_spec.
    unfold norm2, dot, momentum_at, depth_at, ex_wlane, ex_bounds, mkwater; simpl. lra. }
  assert (Dv : forall t, dpsi_v2 1 ex_wlane t = 8 * t).
  { intros t. unfold dpsi_v2, dot, w_momentum, water_depth, ex_wlane, ex_bounds, mkwater; simpl. lra. }
  rewrite w_accept_map. cbn [map acc1]. rewrite (Pv 1).
  unfold mask_gt. destruct (Rgt_dec (1 - 4 * (1 * 1)) 0) as [G|_]; [lra|].
  unfold w_all_equal. cbn [forallb]. destruct (Req_EM_T 0 1) as [E|_]; [lra|]. cbn [andb].
  unfold w_within_tolerance. cbn [forallb].
  destruct (Req_EM_T (Rmax 0 (1 - 0 - 1 / 10000000000)) 0) as [E|_].
  { rewrite Rmax_right in E by lra. lra. }
  cbn [andb]. rewrite w_newton_map. cbn [map newt1 fst snd]. rewrite !Pv, !Dv.
  eexists. split; [reflexivity|].
  unfold quadratic_newton_step. cbn [fst].
  replace ((1 - 4 * (1 * 1) - (1 - 4 * (0 * 0))) * (1 / (1 - 0 + 0))) with (-4) by field.
  replace ((8 * 1 - -4) * (1 / (1 - 0 + 0))) with 12 by field.
  replace ((-4 - 8 * 0) * (1 / (1 - 0 + 0))) with (-4) by field.
  unfold newton_candidate.
  replace (Rabs (8 * 0 * (8 * 0) - 4 * (1 - 4 * (0 * 0)) * -4)) with 16
    by (rewrite Rabs_right; lra).
  replace (Rabs (8 * 1 * (8 * 1) - 4 * (1 - 4 * (1 * 1)) * 12)) with 208
    by (rewrite Rabs_right; lra).
  assert (S4 : sqrt 16 = 4) by (replace 16 with (4 * 4) by ring; apply sqrt_square; lra).
  rewrite S4.
  assert (Hs := sqrt_sqrt 208 ltac:(lra)). assert (Hs0 := sqrt_pos 208).
  set (r := sqrt 208) in *. clearbody r.
  assert (Hr : 144 / 10 < r < 145 / 10) by (split; nra).
  unfold mask_lt.
  destruct (Rlt_dec (Rabs (8 * 0 + -1 * 4)) 0) as [G|_]; [assert (X := Rabs_pos (8 * 0 + -1 * 4)); lra|].
  destruct (Rlt_dec (Rabs (8 * 1 + -1 * r)) 0) as [G|_]; [assert (X := Rabs_pos (8 * 1 + -1 * r)); lra|].
  replace (2 * (1 - 4 * (0 * 0)) / (8 * 0 + -1 * 4)) with (- (1 / 2)) by field.
  assert (Z := Rdiv_mult_r (2 * (1 - 4 * (1 * 1))) (8 * 1 + -1 * r) ltac:(lra)).
  set (z := 2 * (1 - 4 * (1 * 1)) / (8 * 1 + -1 * r)) in *. clearbody z.
  assert (Hz : 9 / 10 < z < 94 / 100) by (split; nra).
  unfold clamp.
  rewrite (Rmax_right 0 (0 - - (1 / 2))) by lra. rewrite (Rmax_right 0 (1 - z)) by lra.
  rewrite (Rmin_right 1 (0 - - (1 / 2))) by lra. rewrite (Rmin_right 1 (1 - z)) by lra.
  rewrite Rmin_right by lra. lra.
Qed.

Lemma C28_full_update_accepted_proof s tiny tol on_kin on_v2 dim lanes ts success k L :
  w_limit s 0 tiny tol on_kin on_v2 dim lanes = (ts, success) ->
  nth_error lanes k = Some L ->
  on_kin || on_v2 = true ->
  wl_tmin L <= wl_tmax L ->
  let t := wl_tmax L in
  depth_within L t -> h_small (wl_b L) <= depth_at L t ->
  (on_kin = true -> 1 / 2 * norm2 dim (momentum_at L t) < kin_max (wl_b L) * depth_at L t) ->
  (on_v2 = true -> norm2 dim (momentum_at L t) < v2_max (wl_b L) * (depth_at L t * depth_at L t)) ->
  nth_error ts k = Some t.
Proof.
  intros E Hk Ho HT t Hd Hs K V. apply (w_limit_full s 0 tiny tol on_kin on_v2 dim lanes ts success k L); auto.
  - intros Q. rewrite psi_kin_spec. specialize (K Q). fold t. lra.
  - intros Q. rewrite psi_v2_spec. specialize (V Q). fold t. lra.
Qed.

Lemma C29_velocity_bound_proof s tiny tol on_kin dim lanes ts success :
  0 < tiny ->
  Forall (fun L => depth_call L /\ 0 <= v2_max (wl_b L) /\ velocity_within dim L 0 /\
                   (on_kin = true -> kinetic_within dim L 0)) lanes ->
  w_limit s 0 tiny tol on_kin true dim lanes = (ts, success) ->
  Forall2 (velocity_within dim) lanes ts.
Proof.
  intros Ht. apply w_limit_forall. intros L x (A & B & C & D) H.
  eapply v2_lane; eassumption.
Qed.

Lemma C66_kinetic_bound_proof s tiny tol on_v2 dim lanes ts success :
  0 < tiny ->
  Forall (fun L => depth_call L /\ kinetic_within dim L 0) lanes ->
  w_limit s 0 tiny tol true on_v2 dim lanes = (ts, success) ->
  Forall2 (kinetic_within dim) lanes ts.
Proof.
  intros Ht. apply w_limit_forall. intros L x (A & B) H. eapply kin_lane; eassumption.
Qed.

Lemma C66_kinetic_largest_proof s tiny tol dim lanes ts success k L t :
  0 < tiny ->
  w_limit s 0 tiny tol true false dim lanes = (ts, success) ->
  nth_error lanes k = Some L -> nth_error ts k = Some t ->
  0 <= tol < wl_tmax L -> depth_call L ->
  1 / 2 * norm2 dim (momentum_at L 0) < kin_max (wl_b L) * depth_at L 0 ->
  depth_within L (wl_tmax L) -> h_small (wl_b L) <= depth_at L (wl_tmax L) ->
  forall t', t < t' <= wl_tmax L -> ~ kinetic_within dim L t'.
Proof.
  intros Ht E Hk Hts Htol HL H0 Hd Hs t' Ht'.
  apply w_limit_lanes in E. destruct E as (xs & A & ->).
  destruct (Forall2_nth _ _ _ _ _ A Hk) as (x & Hx & R1).
  rewrite (map_nth_error _ _ _ Hx) in Hts. injection Hts as <-.
  eapply kin_largest; eassumption.
Qed.

Lemma C67_square_velocity_largest_refuted_proof : forall tiny, 0 < tiny ->
  exists s tol L t t',
    fst (w_limit s 0 tiny tol false true 1 [L]) = [t] /\
    depth_call L /\ velocity_within 1 L 0 /\
    t < 1 / 4 /\ 1 / 2 <= t' <= wl_tmax L /\
    depth_within L t' /\ h_small (wl_b L) <= depth_at L t' /\ velocity_within 1 L t'.
Proof.
  intros tiny Ht. destruct (v2_not_largest tiny Ht) as (t & E & B).
  exists ex_shallow, (1 / 10000000000), ex_wlane, t, (1 / 2).
  split; [exact E|]. split; [exact ex_depth_call|]. rewrite !ex_velocity.
  unfold depth_within, depth_at, ex_wlane, ex_bounds, mkwater; simpl. lra.
Qed.

Lemma C68_depth_only_refuted_proof : forall s eps tiny tol dim, exists L,
  fst (w_limit s eps tiny tol false false dim [L]) = [0] /\
  depth_call L /\ wl_tmax L = 1 /\ depth_within L 1 /\ h_small (wl_b L) <= depth_at L 1.
Proof.
  intros. exists ex_wlane. rewrite w_disabled. split; [reflexivity|]. split; [exact ex_depth_call|].
  unfold depth_within, depth_at, ex_wlane, ex_bounds, mkwater; simpl. lra.
Qed.
