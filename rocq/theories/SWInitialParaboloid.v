(** * Lemmas: paraboloid *)
From Coq Require Import Reals Arith Lia Lra Psatz List.
From Verif Require Import RVec EulerSystem EulerInitialStates BalanceSpec BalanceProofs EulerInitialProofs
  EulerInitialFans EulerInitialMore EulerInitialNoh WaterProofs SWInitialStates SWInitialSpec SWInitialProofs.
Import ListNotations.
Local Open Scope R_scope.

Lemma cont_Rmax f x : continuity_pt f x -> continuity_pt (fun s => Rmax (f s) 0) x.
Proof.
  intros C eps He. destruct (C eps He) as (d & Hd & H). exists d. split; [exact Hd|].
  intros s Hs. specialize (H s Hs). simpl in *. unfold R_dist in *. eapply Rle_lt_trans; [|exact H].
  unfold Rmax, Rabs. destruct (Rle_dec (f s) 0), (Rle_dec (f x) 0);
    repeat match goal with |- context [Rcase_abs ?u] => destruct (Rcase_abs u) end; lra.
Qed.

Section TwoD.
Variables g a h0 eta : R.
Hypothesis Hg : 0 < g.
Hypothesis Ha : 0 < a.
Hypothesis Hh : 0 < h0.

Definition pw : R := sqrt (2 * g * h0) / a.
Definition p_h (t : R) (x : vec) : R :=
  eta * h0 / (a * a) * (2 * x 0%nat * cos (pw * t) + 2 * x 1%nat * sin (pw * t))
  - - h0 * (1 - (x 0%nat * x 0%nat + x 1%nat * x 1%nat) / (a * a)).
Definition p_u (t : R) : vec := fun i => if Nat.eqb i 0 then - eta * pw * sin (pw * t) else eta * pw * cos (pw * t).

Lemma pw2 : pw * pw = 2 * g * h0 / (a * a).
Proof.
  unfold pw. assert (Q : sqrt (2 * g * h0) * sqrt (2 * g * h0) = 2 * g * h0) by (apply sqrt_sqrt; nra).
  transitivity (sqrt (2 * g * h0) * sqrt (2 * g * h0) / (a * a)); [field; lra|rewrite Q; reflexivity].
Qed.

Lemma norm2_2 x : norm2 2 x = x 0%nat * x 0%nat + x 1%nat * x 1%nat.
Proof. unfold norm2, dot. cbn [rsum]. ring. Qed.

Lemma paraboloid_state x t : veq 3 (paraboloid_2d g a h0 eta x t) (water_state (Rmax (p_h t x) 0) (p_u t)).
Proof.
  intros k Hk. unfold paraboloid_2d, paraboloid_bathymetry. cbn [Nat.eqb]. rewrite norm2_2. fold pw.
  fold (p_h t x). destruct k as [|[|[|k]]]; [reflexivity|reflexivity|reflexivity|lia].
Qed.

Definition p_ht (t : R) (x : vec) : R :=
  eta * h0 / (a * a) * (2 * pw * (x 1%nat * cos (pw * t) - x 0%nat * sin (pw * t))).
Definition p_hx (t : R) (x : vec) (j : nat) : R :=
  eta * h0 / (a * a) * (2 * (if Nat.eqb j 0 then cos (pw * t) else sin (pw * t))) - h0 * (2 * x j) / (a * a).

Lemma D_pw t : derivable_pt_lim (fun s => pw * s) t pw.
Proof. eapply D_eq; [apply D_scal, D_id|]. ring. Qed.

Lemma D_p_ht t x : derivable_pt_lim (fun s => p_h s x) t (p_ht t x).
Proof.
  unfold p_h. eapply D_eq; [apply D_minus; [apply D_scal; apply D_plus; apply D_scal; [apply D_cos, D_pw|apply D_sin, D_pw]|apply D_const]|].
  unfold p_ht. ring.
Qed.

Lemma D_p_hx t x j : (j < 2)%nat -> derivable_pt_lim (fun s => p_h t (along x j s)) 0 (p_hx t x j).
Proof.
  intros Hj. unfold p_h, Rdiv.
  pose proof (D_along x 0 j) as D0. pose proof (D_along x 1 j) as D1.
  eapply D_eq.
  { apply D_minus; [apply D_scal; apply D_plus; apply D_mult|].
    - apply D_scal. exact D0.
    - apply D_const.
    - apply D_scal. exact D1.
    - apply D_const.
    - apply D_scal. apply D_minus; [apply D_const|]. apply D_mult; [|apply D_const].
      apply D_plus; [exact (D_mult _ _ _ _ _ D0 D0)|exact (D_mult _ _ _ _ _ D1 D1)]. }
  cbv beta. rewrite !along_0. unfold p_hx. destruct j as [|[|j]]; [| |lia]; cbn [Nat.eqb]; field; lra.
Qed.

Lemma D_bath2 x j : (j < 2)%nat ->
  derivable_pt_lim (fun s => paraboloid_bathymetry 2 a h0 0 (along x j s)) 0 (h0 * (2 * x j) / (a * a)).
Proof.
  intros Hj. unfold paraboloid_bathymetry. cbn [Nat.eqb].
  apply D_near with (d := 1) (f := fun s => - h0 * (1 - (along x j s 0%nat * along x j s 0%nat + along x j s 1%nat * along x j s 1%nat) * / (a * a)));
    [lra|intros; rewrite norm2_2; reflexivity|].
  pose proof (D_along x 0 j) as D0. pose proof (D_along x 1 j) as D1.
  eapply D_eq.
  { apply D_scal. apply D_minus; [apply D_const|]. apply D_mult; [|apply D_const].
    apply D_plus; [exact (D_mult _ _ _ _ _ D0 D0)|exact (D_mult _ _ _ _ _ D1 D1)]. }
  cbv beta. rewrite !along_0. destruct j as [|[|j]]; [| |lia]; cbn [Nat.eqb]; field; lra.
Qed.

Lemma paraboloid_2d_exact :
  let W := fun t x => paraboloid_2d g a h0 eta x t in
  let z := paraboloid_bathymetry 2 a h0 0 in
  forall t x,
    (0 < W t x 0%nat -> solves_shallow_water g 2 z no_friction W t x) /\
    ((exists d, 0 < d /\ (forall s, Rabs (s - t) < d -> W s x 0%nat = 0) /\
        forall j s, (j < 2)%nat -> Rabs s < d -> W t (along x j s) 0%nat = 0) ->
     solves_shallow_water g 2 z no_friction W t x) /\
    0 <= W t x 0%nat /\ (forall n, no_jump 3 W n t x).
Proof.
  intros W z t x.
  assert (S0 : forall s y, veq 3 (W s y) (water_state (Rmax (p_h s y) 0) (p_u s))) by (intros; apply paraboloid_state).
  split; [|split; [|split]].
  - intros P. assert (PP : 0 < p_h t x).
    { rewrite (S0 t x 0%nat) in P by lia. unfold water_state in P. cbn [Nat.eqb] in P.
      unfold Rmax in P. destruct (Rle_dec _ _); lra. }
    assert (NX : forall j, (j < 2)%nat -> near 0 (fun s => 0 < p_h t (along x j s))).
    { intros j Hj. eapply near_pos; [apply D_p_hx; exact Hj|]. cbv beta. rewrite along_0. exact PP. }
    apply (water_solves_near g 2 z no_friction p_h (fun s y => p_u s) W t x (p_ht t x)
      (fun i => if Nat.eqb i 0 then - eta * pw * (cos (pw * t) * pw) else eta * pw * (- sin (pw * t) * pw))
      (p_hx t x) (fun j => h0 * (2 * x j) / (a * a)) (fun i j => 0)).
    + eapply near_mp; [eapply (near_pos (fun s => p_h s x)); [apply D_p_ht|exact PP]|].
      cbv beta. intros s Q k Hk. rewrite (S0 s x k Hk), Rmax_left by lra. reflexivity.
    + intros j Hj. eapply near_mp; [apply (NX j Hj)|]. cbv beta. intros s Q. split; [lra|].
      intros k Hk. rewrite (S0 t _ k Hk), Rmax_left by lra. reflexivity.
    + apply D_p_ht.
    + intros i Hi. unfold p_u. destruct (Nat.eqb i 0).
      * apply D_scal, D_sin, D_pw.
      * apply D_scal, D_cos, D_pw.
    + intros j Hj. apply D_p_hx; exact Hj.
    + intros j Hj. apply D_bath2; exact Hj.
    + intros i j Hi Hj. apply D_const.
    + cbn [rsum]. unfold p_u, p_ht, p_hx. cbn [Nat.eqb]. field. lra.
    + intros k Hk. cbn [rsum]. unfold no_friction.
      transitivity (p_h t x * (eta * (if Nat.eqb k 0 then cos (pw * t) else sin (pw * t)) * (2 * g * h0 / (a * a) - pw * pw))).
      * unfold p_hx. destruct k as [|[|k]]; [| |lia]; cbn [Nat.eqb]; field; lra.
      * rewrite pw2. ring.
  - intros (d & Hd & Dt & Dx).
    assert (Z : forall s y, W s y 0%nat = 0 -> veq 3 (W s y) (fun _ => 0)).
    { intros s y Q k Hk. rewrite (S0 s y k Hk). rewrite (S0 s y 0%nat) in Q by lia.
      unfold water_state in *. cbn [Nat.eqb] in Q. rewrite Q. destruct (Nat.eqb k 0); ring. }
    apply (dry_solves_near g 2 z no_friction W t x (fun j => h0 * (2 * x j) / (a * a))).
    + exists d. split; [exact Hd|]. intros s Hs. apply Z, Dt, Hs.
    + intros j Hj. exists d. split; [exact Hd|]. intros s Hs. apply Z, Dx; [exact Hj|]. rewrite Rminus_0_r in Hs. exact Hs.
    + intros j Hj. apply D_bath2; exact Hj.
    + reflexivity.
  - rewrite (S0 t x 0%nat) by lia. unfold water_state. cbn [Nat.eqb]. apply Rmax_r.
  - intros n. apply continuous_no_jump. intros k Hk.
    eapply continuity_pt_locally_ext with (a := 1) (f := fun s => water_state (Rmax (p_h t (vadd x (vscal s n))) 0) (p_u t) k);
      [lra|intros; rewrite (S0 _ _ k Hk); reflexivity|].
    assert (C : continuity_pt (fun s => Rmax (p_h t (vadd x (vscal s n))) 0) 0).
    { apply cont_Rmax. unfold p_h, vadd, vscal, Rdiv. 
      assert (L : forall i, continuity_pt (fun s => x i + s * n i) 0).
      { intros i. eapply D_cont. apply D_plus; [apply D_const|]. apply D_mult; [apply D_id|apply D_const]. }
      assert (K : forall c, continuity_pt (fun _ : R => c) 0) by (intros; apply continuity_pt_const; intros ? ?; reflexivity).
      assert (M : forall f h, continuity_pt f 0 -> continuity_pt h 0 -> continuity_pt (fun s => f s * h s) 0)
        by (intros; apply (continuity_pt_mult f h); assumption).
      assert (P : forall f h, continuity_pt f 0 -> continuity_pt h 0 -> continuity_pt (fun s => f s + h s) 0)
        by (intros; apply (continuity_pt_plus f h); assumption).
      assert (N : forall f h, continuity_pt f 0 -> continuity_pt h 0 -> continuity_pt (fun s => f s - h s) 0)
        by (intros; apply (continuity_pt_minus f h); assumption).
      apply N; [apply M; [apply K|]|apply M; [apply K|]].
      - apply P; (apply M; [apply M; [apply K|apply L]|apply K]).
      - apply N; [apply K|]. apply M; [apply P; apply M; apply L|apply K]. }
    unfold water_state. destruct (Nat.eqb k 0); [exact C|].
    apply (continuity_pt_mult _ (fun _ => p_u t (k - 1)%nat)); [exact C|apply continuity_pt_const; intros ? ?; reflexivity].
Qed.
End TwoD.

Lemma C98_paraboloid_2d_proof g radius height eta : 0 < g -> 0 < radius -> 0 < height ->
  let W := fun t x => paraboloid_2d g radius height eta x t in
  let z := paraboloid_bathymetry 2 radius height 0 in
  forall t x,
    (0 < W t x 0%nat -> solves_shallow_water g 2 z no_friction W t x) /\
    ((exists d, 0 < d /\ (forall s, Rabs (s - t) < d -> W s x 0%nat = 0) /\
        forall j s, (j < 2)%nat -> Rabs s < d -> W t (along x j s) 0%nat = 0) ->
     solves_shallow_water g 2 z no_friction W t x) /\
    0 <= W t x 0%nat /\ (forall n, no_jump 3 W n t x).
Proof. intros Hg Ha Hh. apply (paraboloid_2d_exact g radius height eta); assumption. Qed.

Section OneD.
Variables g k a h0 len B : R.
Hypothesis Hg : 0 < g.
Hypothesis Ha : 0 < a.
Hypothesis Hh : 0 < h0.
Hypothesis Hk : k * k * (a * a) <= 8 * g * h0.

Definition qp : R := sqrt (8 * g * h0) / a.
Definition qs : R := sqrt (qp * qp - k * k) / 2.
Definition q_h (t y : R) : R :=
  h0 - h0 / (a * a) * ((y - 5 / 10 * len) * (y - 5 / 10 * len)) +
  (a * a * B * B / (8 * g * g * h0) * exp (- k * t)
     * ((1 / 4 * k * k - qs * qs) * cos (2 * qs * t) - qs * k * sin (2 * qs * t))
   + - (B * B / (4 * g)) * exp (- k * t)
   + - (B / g) * exp (- (1) / 2 * k * t) * ((qs * cos (qs * t) + 1 / 2 * k * sin (qs * t)) * (y - 1 / 2 * len))).
Definition q_v (t : R) : R := B * exp (- (1) / 2 * k * t) * sin (qs * t).

Lemma paraboloid_1d_state x t : veq 2 (paraboloid_1d g k a h0 len B x t)
  (water_state (Rmax (q_h t (x 0%nat)) 0) (vel0 (q_v t))).
Proof. intros j Hj. destruct j as [|[|j]]; [reflexivity|reflexivity|lia]. Qed.

Lemma qp2 : qp * qp = 8 * g * h0 / (a * a).
Proof.
  unfold qp. assert (Q : sqrt (8 * g * h0) * sqrt (8 * g * h0) = 8 * g * h0) by (apply sqrt_sqrt; nra).
  transitivity (sqrt (8 * g * h0) * sqrt (8 * g * h0) / (a * a)); [field; lra|rewrite Q; reflexivity].
Qed.
Lemma qs2 : qs * qs = 2 * g * h0 / (a * a) - k * k / 4.
Proof.
  assert (A2 : 0 < a * a) by nra.
  assert (P : 0 <= qp * qp - k * k).
  { rewrite qp2. assert (k * k <= 8 * g * h0 / (a * a)); [|lra].
    apply (Rmult_le_reg_r (a * a)); [exact A2|]. unfold Rdiv. rewrite (Rmult_assoc (8 * g * h0)), Rinv_l by lra. lra. }
  unfold qs. pose proof (sqrt_sqrt _ P) as Q.
  transitivity (sqrt (qp * qp - k * k) * sqrt (qp * qp - k * k) / 4); [field|].
  rewrite Q, qp2. field. lra.
Qed.

Lemma D_lin c t : derivable_pt_lim (fun s => c * s) t c.
Proof. eapply D_eq; [apply D_scal, D_id|]. ring. Qed.

Lemma D_q_v t : derivable_pt_lim q_v t
  (B * exp (- (1) / 2 * k * t) * (qs * cos (qs * t)) - k / 2 * q_v t).
Proof.
  unfold q_v. eapply D_eq; [apply D_mult; [apply D_scal, D_exp, D_lin|apply D_sin, D_lin]|]. cbv beta. field.
Qed.

Definition q_hx (t y : R) : R :=
  - (h0 / (a * a)) * (2 * (y - 5 / 10 * len)) - B / g * exp (- (1) / 2 * k * t) * (qs * cos (qs * t) + 1 / 2 * k * sin (qs * t)).

Lemma D_q_hx t y : derivable_pt_lim (fun y => q_h t y) y (q_hx t y).
Proof.
  assert (D : forall c, derivable_pt_lim (fun y => y - c) y 1).
  { intros c. eapply D_eq; [apply D_minus; [apply D_id|apply D_const]|]. ring. }
  unfold q_h. eapply D_eq.
  { apply D_plus; [apply D_minus; [apply D_const|apply D_scal; exact (D_mult _ _ _ _ _ (D _) (D _))]|].
    apply D_plus; [apply D_const|]. apply D_scal. apply D_scal. apply D. }
  unfold q_hx. cbv beta. field; lra.
Qed.

Lemma exp_split t : exp (- k * t) = exp (- (1) / 2 * k * t) * exp (- (1) / 2 * k * t).
Proof. rewrite <- exp_plus. f_equal. field. Qed.

Lemma D_q_ht t y : derivable_pt_lim (fun s => q_h s y) t (- q_v t * q_hx t y).
Proof.
  set (E := exp (- (1) / 2 * k * t)). set (C := cos (qs * t)). set (Sn := sin (qs * t)).
  unfold q_h. eapply D_eq.
  { apply D_plus; [apply D_const|]. apply D_plus; [apply D_plus|].
    - apply D_mult.
      + apply D_scal, D_exp, D_lin.
      + apply D_minus; apply D_scal; [apply D_cos, D_lin|apply D_sin, D_lin].
    - apply D_scal, D_exp, D_lin.
    - apply D_mult; [apply D_scal, D_exp, D_lin|]. apply D_mult; [|apply D_const].
      apply D_plus; apply D_scal; [apply D_cos, D_lin|apply D_sin, D_lin]. }
  cbv beta. unfold q_v, q_hx. rewrite exp_split. fold E C Sn.
  replace (2 * qs * t) with (2 * (qs * t)) by ring. rewrite cos_2a_sin, sin_2a. fold C Sn.
  assert (CS : C * C = 1 - Sn * Sn) by (pose proof (sin2_cos2 (qs * t)) as Z; unfold Rsqr in Z; fold C Sn in Z; lra).
  assert (Q := qs2).
  assert (Q' : a * a * (qs * qs) = 2 * g * h0 - a * a * (k * k) / 4) by (rewrite Q; field; lra).
  assert (HA : a * a * (4 * (qs * qs) + k * k) = 8 * g * h0) by lra.
  (* the factor a^2 / (8 g h0) is 1 / (4 qs^2 + k^2) *)
  set (P := 4 * (qs * qs) + k * k) in *.
  assert (PP : P <> 0). { intros Z. rewrite Z in HA. nra. }
  assert (F1 : a * a * B * B / (8 * g * g * h0) = B * B / (g * P)).
  { replace (8 * g * g * h0) with (a * a * P * g) by (rewrite HA; ring). field. repeat split; lra. }
  assert (F2 : h0 / (a * a) = P / (8 * g)).
  { replace (P / (8 * g)) with (a * a * P / (8 * g * (a * a))) by (field; lra). rewrite HA. field; lra. }
  rewrite F1, F2. unfold P. unfold P in PP. field. split; lra.
Qed.

Lemma paraboloid_1d_solves F t x :
  let W := fun t x => paraboloid_1d g k a h0 len B x t in
  0 < W t x 0%nat -> F (W t x) 0%nat = - k * W t x 1%nat ->
  solves_shallow_water g 1 (paraboloid_bathymetry 1 a h0 len) F W t x.
Proof.
  intros W P HF.
  assert (S0 : forall s y, veq 2 (W s y) (water_state (Rmax (q_h s (y 0%nat)) 0) (vel0 (q_v s)))) by (intros; apply paraboloid_1d_state).
  assert (PP : 0 < q_h t (x 0%nat)).
  { rewrite (S0 t x 0%nat) in P by lia. unfold water_state in P. cbn [Nat.eqb] in P.
    unfold Rmax in P. destruct (Rle_dec _ _); lra. }
  set (Z := fun y : R => h0 / (a * a) * ((y - 5 / 10 * len) * (y - 5 / 10 * len))).
  assert (DZ : derivable_pt_lim Z (x 0%nat) (h0 / (a * a) * (2 * (x 0%nat - 5 / 10 * len)))).
  { unfold Z. assert (D : forall c, derivable_pt_lim (fun y => y - c) (x 0%nat) 1).
    { intros c. eapply D_eq; [apply D_minus; [apply D_id|apply D_const]|]. ring. }
    eapply D_eq; [apply D_scal; exact (D_mult _ _ _ _ _ (D _) (D _))|]. cbv beta. ring. }
  apply (water_line g 1 _ F q_h (fun s y => q_v s) Z W t x _ _ _ 0 _ (le_n 1)) with (5 := D_q_v t) (4 := D_q_ht t (x 0%nat)) (6 := D_q_hx t (x 0%nat)) (8 := DZ).
  - reflexivity.
  - eapply near_mp; [eapply (near_pos (fun s => q_h s (x 0%nat))); [apply D_q_ht|exact PP]|].
    cbv beta. intros s Q j Hj. rewrite (S0 s x j Hj), Rmax_left by lra. reflexivity.
  - eapply near_mp; [eapply (near_pos (fun y => q_h t y)); [apply D_q_hx|exact PP]|].
    cbv beta. intros y Q. split; [lra|]. intros p <- j Hj. rewrite (S0 t p j Hj), Rmax_left by lra. reflexivity.
  - apply D_const.
  - ring.
  - rewrite HF, (S0 t x 1%nat) by lia. unfold water_state. cbn [Nat.eqb Nat.sub]. rewrite Rmax_left by lra.
    unfold vel0. cbn [Nat.eqb]. unfold q_hx, q_v. field. lra.
  - intros j Hj. lia.
Qed.
End OneD.

Lemma C98_paraboloid_1d_proof g k radius height len speed : 0 < g -> 0 < radius -> 0 < height ->
  k * k * (radius * radius) <= 8 * g * height ->
  let W := fun t x => paraboloid_1d g k radius height len speed x t in
  let z := paraboloid_bathymetry 1 radius height len in
  forall t x,
    (0 < W t x 0%nat -> solves_shallow_water g 1 z (linear_friction k) W t x) /\
    ((exists d, 0 < d /\ (forall s, Rabs (s - t) < d -> W s x 0%nat = 0) /\
        forall s, Rabs s < d -> W t (along x 0 s) 0%nat = 0) ->
     solves_shallow_water g 1 z (linear_friction k) W t x) /\
    0 <= W t x 0%nat /\ no_jump 2 W e0 t x.
Proof.
  intros Hg Ha Hh Hk W z t x.
  assert (S0 : forall s y, veq 2 (W s y) (water_state (Rmax (q_h g k radius height len speed s (y 0%nat)) 0) (vel0 (q_v g k radius height speed s))))
    by (intros; apply paraboloid_1d_state).
  split; [|split; [|split]].
  - intros P. apply paraboloid_1d_solves; try assumption. reflexivity.
  - intros (d & Hd & Dt & Dx).
    assert (Z : forall s y, W s y 0%nat = 0 -> veq 2 (W s y) (fun _ => 0)).
    { intros s y Q j Hj. rewrite (S0 s y j Hj). rewrite (S0 s y 0%nat) in Q by lia.
      unfold water_state in *. cbn [Nat.eqb] in Q. rewrite Q. destruct (Nat.eqb j 0); ring. }
    apply (dry_solves_near g 1 z _ W t x (fun j => height / (radius * radius) * (2 * (x 0%nat - 5 / 10 * len)))).
    + exists d. split; [exact Hd|]. intros s Hs. apply Z, Dt, Hs.
    + intros j Hj. exists d. split; [exact Hd|]. intros s Hs. apply Z. replace j with 0%nat by lia.
      apply Dx. rewrite Rminus_0_r in Hs. exact Hs.
    + intros j Hj. replace j with 0%nat by lia.
      assert (D : forall c, derivable_pt_lim (fun y => y - c) (x 0%nat) 1).
      { intros c. eapply D_eq; [apply D_minus; [apply D_id|apply D_const]|]. ring. }
      eapply D_eq; [apply (D_first (fun y => height / (radius * radius) * ((y - 5 / 10 * len) * (y - 5 / 10 * len))) x 0)|].
      * apply D_scal; exact (D_mult _ _ _ _ _ (D _) (D _)).
      * cbv beta. cbn [Nat.eqb]. ring.
    + intros j Hj. replace j with 0%nat by lia. unfold linear_friction.
      rewrite (Z t x) by (first [lia|apply Dt; rewrite Rminus_eq_0, Rabs_R0; exact Hd]). ring.
  - rewrite (S0 t x 0%nat) by lia. unfold water_state. cbn [Nat.eqb]. apply Rmax_r.
  - apply continuous_no_jump. intros j Hj.
    set (Y := fun s => Rmax (q_h g k radius height len speed t (x 0%nat + s)) 0).
    eapply continuity_pt_locally_ext with (a := 1) (f := fun s => water_state (Y s) (vel0 (q_v g k radius height speed t)) j);
      [lra|intros; rewrite (S0 _ _ j Hj), shift_e0; reflexivity|].
    assert (C : continuity_pt Y 0).
    { apply cont_Rmax. eapply D_cont. apply (D_comp (q_h g k radius height len speed t) (fun s => x 0%nat + s)).
      - apply D_plus; [apply D_const|apply D_id].
      - apply D_q_hx; assumption. }
    unfold water_state. destruct (Nat.eqb j 0); [exact C|].
    apply (continuity_pt_mult Y (fun _ => vel0 (q_v g k radius height speed t) (j - 1)%nat)); [exact C|apply continuity_pt_const; intros ? ?; reflexivity].
Qed.

Lemma same_force g dim z F G W t x k : (k < dim)%nat ->
  solves_shallow_water g dim z F W t x -> solves_shallow_water g dim z G W t x -> F (W t x) k = G (W t x) k.
Proof.
  intros Hk (dz & D1 & B1) (dz' & D2 & B2).
  assert (HS : (S k < dim + 1)%nat) by lia. pose proof (balance_unique _ _ _ _ _ _ _ _ (S k) HS B1 B2) as E. cbn [Nat.eqb] in E.
  replace (S k - 1)%nat with k in E by lia.
  assert (dz k = dz' k) by (eapply uniqueness_limite; [apply D1|apply D2]; exact Hk). rewrite H in E. apply (Rplus_eq_reg_l (- g * W t x 0%nat * dz' k)). exact E.
Qed.

Lemma C98_manning_iff_proof g k radius height len speed : 0 < g -> 0 < radius -> 0 < height -> 0 <= k ->
  k * k * (radius * radius) <= 8 * g * height ->
  let W := fun t x => paraboloid_1d g k radius height len speed x t in
  let z := paraboloid_bathymetry 1 radius height len in
  forall t x, 0 < W t x 0%nat ->
    (solves_shallow_water g 1 z (manning_force g k 1) W t x <->
     k = 0 \/ W t x 1%nat = 0 \/ g * k * (Rabs (W t x 1%nat) / W t x 0%nat) = powr (W t x 0%nat) (4 / 3)).
Proof.
  intros Hg Ha Hh Hk0 Hk W z t x P.
  set (h := W t x 0%nat) in *. set (q := W t x 1%nat).
  assert (M : manning_force g k 1 (W t x) 0%nat = - g * (k * k) * (Rabs q / h) * q / powr h (4 / 3)).
  { unfold manning_force. cbn [rsum]. fold h q. replace (0 + q * q) with (Rsqr q) by (unfold Rsqr; ring). rewrite sqrt_Rsqr_abs. reflexivity. }
  assert (PW : 0 < powr h (4 / 3)) by (apply powr_gt; exact P). set (w := powr h (4 / 3)) in *.
  assert (E : forall A, (- g * (k * k) * A * q / w = - k * q) <-> (k = 0 \/ q = 0 \/ g * k * A = w)).
  { intros A. split.
    - intros Q. destruct (Req_dec k 0) as [Kz|Kz]; [left; exact Kz|]. destruct (Req_dec q 0) as [Qz|Qz]; [right; left; exact Qz|].
      right; right. assert (Q2 : - g * (k * k) * A * q = - k * q * w).
      { rewrite <- Q. field. lra. }
      apply (Rmult_eq_reg_l (- k * q)); [|apply Rmult_integral_contrapositive_currified; lra]. lra.
    - intros [->|[->|Q]]; [field; lra|field; lra|].
      replace (- g * (k * k) * A * q) with (- k * q * (g * k * A)) by ring. rewrite Q. field. lra. }
  split.
  - intros S1. apply E. rewrite <- M.
    rewrite (same_force g 1 z (manning_force g k 1) (linear_friction k) W t x 0 ltac:(lia) S1).
    + reflexivity.
    + apply paraboloid_1d_solves; try assumption. reflexivity.
  - intros C. apply paraboloid_1d_solves; try assumption. change (manning_force g k 1 (W t x) 0%nat = - k * q). rewrite M. apply E. exact C.
Qed.

Lemma C98_manning_refuted_proof : exists g n radius height len speed t x,
  0 < g /\ 0 < n /\ 0 < radius /\ 0 < height /\ n * n * (radius * radius) < 8 * g * height /\
  let W := fun t x => paraboloid_1d g n radius height len speed x t in
  0 < W t x 0%nat /\
  ~ solves_shallow_water g 1 (paraboloid_bathymetry 1 radius height len) (manning_force g n 1) W t x.
Proof.
  set (s := qs 1 1 1 1). set (t := PI / 2 / s).
  assert (HK : 1 * 1 * (1 * 1) <= 8 * 1 * 1) by lra.
  assert (S2 : s * s = 7 / 4) by (unfold s; etransitivity; [apply qs2; lra|lra]).
  assert (SP : 0 < s).
  { unfold s, qs. apply Rdiv_lt_0_compat; [|lra]. apply sqrt_lt_R0. replace (qp 1 1 1 * qp 1 1 1) with (8 * 1 * 1 / (1 * 1)) by (symmetry; apply (qp2 1 1 1 1); lra). lra. }
  assert (TP : 0 < t) by (unfold t; pose proof PI_RGT_0; apply Rdiv_lt_0_compat; lra).
  assert (ST : s * t = PI / 2) by (unfold t; field; lra).
  set (x := (fun _ => 0) : vec).
  set (W := fun t x => paraboloid_1d 1 1 1 1 0 (1 / 2) x t).
  set (e := exp (- (1) / 2 * 1 * t)).
  assert (E1 : 0 < e < 1).
  { split; [apply exp_pos|]. unfold e. pose proof (exp_increasing (- (1) / 2 * 1 * t) 0 ltac:(lra)) as Q. rewrite exp_0 in Q. exact Q. }
  assert (Hh : q_h 1 1 1 1 0 (1 / 2) t 0 = 1 - e * e / 64).
  { unfold q_h. fold s. rewrite exp_split. fold e. replace (2 * s * t) with PI by lra. rewrite ST, cos_PI, sin_PI, cos_PI2, sin_PI2.
    replace (s * s) with (7 / 4) by lra. field. }
  assert (Hv : q_v 1 1 1 1 (1 / 2) t = e / 2).
  { unfold q_v. fold s e. rewrite ST, sin_PI2. field. }
  assert (HB : 63 / 64 <= 1 - e * e / 64 <= 1) by nra.
  set (h := 1 - e * e / 64) in *.
  assert (W0 : W t x 0%nat = h).
  { unfold W. rewrite (paraboloid_1d_state 1 1 1 1 0 (1 / 2) x t 0%nat) by lia. unfold water_state. cbn [Nat.eqb].
    change (x 0%nat) with 0. rewrite Hh. apply Rmax_left. lra. }
  assert (W1 : W t x 1%nat = h * (e / 2)).
  { unfold W. rewrite (paraboloid_1d_state 1 1 1 1 0 (1 / 2) x t 1%nat) by lia. unfold water_state, vel0. cbn [Nat.eqb Nat.sub].
    change (x 0%nat) with 0. rewrite Hh, Hv. rewrite Rmax_left by lra. reflexivity. }
  exists 1, 1, 1, 1, 0, (1 / 2), t, x. do 5 (split; [lra|]). cbv zeta. fold W. split; [rewrite W0; lra|].
  intros SW. pose proof (C98_manning_iff_proof 1 1 1 1 0 (1 / 2) ltac:(lra) ltac:(lra) ltac:(lra) ltac:(lra) HK t x) as I.
  cbv zeta in I. fold W in I. rewrite W0 in I. apply I in SW; [|lra].
  rewrite W1 in SW. destruct SW as [Z|[Z|Z]]; [lra|nra|].
  rewrite Rabs_right in Z by nra. replace (1 * 1 * (h * (e / 2) / h)) with (e / 2) in Z by (field; lra).
  rewrite powr_pos in Z by lra.
  assert (L : Rpower h 2 <= Rpower h (4 / 3)).
  { unfold Rpower. assert (LN : ln h <= 0).
    { destruct (Req_dec h 1) as [->|N]; [rewrite ln_1; lra|]. assert (h < 1) by lra. pose proof (ln_increasing h 1 ltac:(lra) H) as K. rewrite ln_1 in K. lra. }
    destruct (Req_dec (ln h) 0) as [Q|Q]; [rewrite Q, !Rmult_0_r; lra|].
    left. apply exp_increasing. nra. }
  replace (Rpower h 2) with (h * h) in L.
  2:{ replace 2 with (1 + 1) by ring. rewrite Rpower_plus, Rpower_1 by lra. reflexivity. }
  nra.
Qed.
