(** * Proofs: the profile of Becker solves the compressible Navier-Stokes equations *)
From Coq Require Import Reals Ranalysis5 Arith Lia Lra Psatz List FunctionalExtensionality.
From Verif Require Import RVec EulerSystem BalanceSpec BalanceProofs EulerInitialStates EulerInitialProofs EulerInitialFans Becker BeckerProofs.
Import ListNotations.
Local Open Scope R_scope.

Section Profile.
Variable b : becker.
Hypothesis G : good_becker b.
Variable dim : nat.
Hypothesis Hd : (1 <= dim)%nat.

Definition b_rho v := k_density b * k_left b / v.
Definition b_e v := 1 / (2 * k_gamma b) * ((k_gamma b + 1) / (k_gamma b - 1) * k_left b * k_right b - v * v).
Definition b_E v := b_rho v * (b_e v + 1 / 2 * (k_velocity b + v) * (k_velocity b + v)).

Lemma becker_state_eq v k : (k < dim + 2)%nat ->
  becker_state b dim v k = if Nat.eqb k 0 then b_rho v else if Nat.eqb k (S dim) then b_E v
                           else if Nat.eqb k 1 then b_rho v * (k_velocity b + v) else 0.
Proof using Hd.
  intros Hk. unfold becker_state, expand_state. destruct (Nat.eqb_spec k 0); [reflexivity|].
  destruct (Nat.eqb_spec k (S dim)); [reflexivity|].
  destruct (Nat.eqb_spec k 1) as [->|]; [reflexivity|]. destruct (Nat.leb_spec k 1); [lia|reflexivity].
Qed.

Lemma b_mom_sum v : rsum dim (fun i => becker_state b dim v (S i) * becker_state b dim v (S i))
  = b_rho v * (k_velocity b + v) * (b_rho v * (k_velocity b + v)).
Proof using Hd.
  rewrite <- (rsum_vel1 dim (b_rho v * (k_velocity b + v)) Hd). apply rsum_ext. intros i Hi.
  rewrite !becker_state_eq by lia. unfold vel1. cbn [Nat.eqb]. destruct (Nat.eqb_spec i dim); [lia|].
  destruct (Nat.eqb_spec i 0); ring.
Qed.

Lemma b_rho_pos v : 0 < v -> 0 < b_rho v.
Proof using G.
  intros H. destruct G as (Hg & Hv & Hr & Hm). unfold b_rho. apply Rdiv_lt_0_compat; [apply Rmult_lt_0_compat; lra|lra].
Qed.

Lemma b_gas_energy v : 0 < v -> gas_energy dim (becker_state b dim v) = b_e v.
Proof using G Hd.
  intros H. pose proof (b_rho_pos v H). unfold gas_energy. rewrite b_mom_sum, !becker_state_eq by lia.
  cbn [Nat.eqb]. rewrite Nat.eqb_refl. unfold b_E. field. lra.
Qed.

Lemma b_pressure v : 0 < v -> gas_pressure (k_gamma b) dim (becker_state b dim v) = (k_gamma b - 1) * b_rho v * b_e v.
Proof using G Hd.
  intros H. pose proof (b_rho_pos v H). unfold gas_pressure. rewrite b_mom_sum, !becker_state_eq by lia.
  cbn [Nat.eqb]. rewrite Nat.eqb_refl. unfold b_E. field. lra.
Qed.

Let vl := k_left b.
Let vr := k_right b.
Let m0 := k_density b * vl.

(** The slope of the profile as a function of the velocity. *)
Definition b_slope v := - ((vl - v) * (v - vr) / (becker_factor b * v)).

Variable v : R -> R.
Hypothesis Hin : forall x, vr < v x < vl.
Hypothesis HD : forall x, derivable_pt_lim v x (b_slope (v x)).

Definition b_field : field := fun t x => becker_state b dim (v (becker_position b x t)).
Definition b_g (t : R) (y : vec) (i : nat) : vec :=
  fun j => if Nat.eqb i 0 then if Nat.eqb j 0 then b_slope (v (becker_position b y t)) else 0 else 0.
Definition b_q (t : R) (y : vec) : vec :=
  fun j => if Nat.eqb j 0 then - v (becker_position b y t) * b_slope (v (becker_position b y t)) / k_gamma b else 0.

Lemma b_stress t y mu lambda i j : (i < dim)%nat -> (j < dim)%nat ->
  viscous_stress mu lambda dim (b_g t y) i j =
  if Nat.eqb i j then if Nat.eqb i 0 then (4 / 3 * mu + lambda) * b_slope (v (becker_position b y t))
                      else (lambda - 2 / 3 * mu) * b_slope (v (becker_position b y t)) else 0.
Proof using Hd.
  intros Hi Hj. unfold viscous_stress, b_g.
  set (d := b_slope _).
  assert (E : rsum dim (fun l => if Nat.eqb l 0 then if Nat.eqb l 0 then d else 0 else 0) = d).
  { etransitivity; [|apply (rsum_delta dim (fun _ => d) 0); lia]. apply rsum_ext. intros l Hl.
    destruct l; cbn [Nat.eqb]; ring. }
  rewrite E. destruct (Nat.eqb_spec i j).
  - subst j. destruct (Nat.eqb_spec i 0); field.
  - destruct (Nat.eqb_spec i 0), (Nat.eqb_spec j 0); try lia; ring.
Qed.

(** The flux in the direction of the wave is an affine function of the state. *)
Definition b_const (k : nat) : R :=
  if Nat.eqb k 0 then m0
  else
    let c := m0 * ((k_gamma b + 1) / (2 * k_gamma b)) * (vl + vr) in
    if Nat.eqb k (S dim) then k_velocity b * c + m0 * (k_velocity b * k_velocity b / 2) + m0 * ((k_gamma b + 1) / (k_gamma b - 1) * vl * vr / 2)
    else if Nat.eqb k 1 then m0 * k_velocity b + c else 0.

Lemma b_flux t y k : (k < dim + 2)%nat ->
  viscous_flux (k_gamma b) (k_mu b) 0 (4 / 3 * k_gamma b * k_mu b) dim (b_field t y) (b_g t y) (b_q t y) k 0
  = k_velocity b * b_field t y k + b_const k.
Proof using G Hd Hin.
  intros Hk. unfold viscous_flux.
  pose proof (Hin (becker_position b y t)) as I. unfold b_field. set (w := v (becker_position b y t)) in *.
  destruct G as (Hg & Hv & Hr & Hm). fold vl vr in Hv.
  assert (Pw : 0 < w) by lra. pose proof (b_rho_pos w Pw) as PR.
  assert (HF : becker_factor b <> 0) by (pose proof (F_pos b G); lra).
  assert (N1 : Nat.eqb 1 (S dim) = false) by (apply Nat.eqb_neq; lia).
  unfold gas_flux. rewrite b_pressure by exact Pw.
  destruct (Nat.eqb_spec k 0) as [->|K0].
  - unfold b_const. rewrite !becker_state_eq by lia. cbn [Nat.eqb]. destruct dim; [lia|]. cbn [Nat.eqb].
    unfold b_rho. fold vl. fold m0. field. lra.
  - destruct (Nat.eqb_spec k (S dim)) as [->|K1].
    + rewrite (rsum_ext dim _ (fun i => (if Nat.eqb i 0 then 1 else 0) * ((k_velocity b + w) * (4 / 3 * k_mu b * b_slope w)))).
      2: { intros i Hi. rewrite b_stress by lia. rewrite !becker_state_eq by lia. cbn [Nat.eqb].
           destruct (Nat.eqb_spec i dim); [lia|]. fold w. destruct (Nat.eqb_spec i 0); [field; lra|ring]. }
      rewrite (rsum_ext dim _ (fun i => if Nat.eqb i 0 then (k_velocity b + w) * (4 / 3 * k_mu b * b_slope w) else 0))
        by (intros i _; destruct (Nat.eqb i 0); ring).
      assert (RD : rsum dim (fun i => if Nat.eqb i 0 then (k_velocity b + w) * (4 / 3 * k_mu b * b_slope w) else 0)
                   = (k_velocity b + w) * (4 / 3 * k_mu b * b_slope w)).
      { etransitivity; [|apply (rsum_delta dim (fun _ => (k_velocity b + w) * (4 / 3 * k_mu b * b_slope w)) 0); lia].
        apply rsum_ext. intros i _. destruct i; cbn [Nat.eqb]; ring. }
      rewrite RD. unfold b_q. fold w. unfold b_const. rewrite !becker_state_eq by lia. rewrite N1. cbn [Nat.eqb]. rewrite Nat.eqb_refl.
      unfold b_slope, b_E, b_rho, b_e, m0, becker_factor. fold vl vr. field. repeat split; lra.
    + unfold b_const. destruct (Nat.eqb_spec k 0); [lia|]. destruct (Nat.eqb_spec k (S dim)); [lia|].
      rewrite b_stress by lia. fold w. rewrite !becker_state_eq by lia. rewrite N1. cbn [Nat.eqb].
      destruct (Nat.eqb_spec k 0); [lia|].
      destruct (Nat.eqb_spec k (S dim)); [lia|].
      destruct (Nat.eqb_spec k 1) as [->|K2].
      * cbn [Nat.eqb Nat.sub]. unfold b_slope, b_rho, b_e, m0, becker_factor. fold vl vr. field. repeat split; lra.
      * destruct (Nat.eqb_spec (k - 1) 0); [lia|]. field. lra.
Qed.

Definition b_dstate (w : R) (k : nat) : R :=
  if Nat.eqb k 0 then - m0 / (w * w)
  else if Nat.eqb k (S dim) then - m0 / (w * w) * (b_e w + 1 / 2 * (k_velocity b + w) * (k_velocity b + w))
                                 + b_rho w * (- w / k_gamma b + (k_velocity b + w))
  else if Nat.eqb k 1 then - m0 / (w * w) * (k_velocity b + w) + b_rho w
  else 0.

Lemma D_b_rho w : 0 < w -> derivable_pt_lim b_rho w (- m0 / (w * w)).
Proof using.
  intros H. unfold b_rho. fold vl. fold m0. eapply D_eq; [apply D_div; [lra|apply D_const|apply D_id]|]. cbv beta. field. lra.
Qed.

Lemma D_b_e w : derivable_pt_lim b_e w (- w / k_gamma b).
Proof using G.
  destruct G as (Hg & _). unfold b_e. eapply D_eq; [apply D_scal; apply D_minus; [apply D_const|apply D_mult; apply D_id]|].
  cbv beta. field. lra.
Qed.

Lemma D_b_state w k : 0 < w -> (k < dim + 2)%nat ->
  derivable_pt_lim (fun w => becker_state b dim w k) w (b_dstate w k).
Proof using G Hd.
  intros Hw Hk.
  apply (D_near (fun w => if Nat.eqb k 0 then b_rho w else if Nat.eqb k (S dim) then b_E w
                           else if Nat.eqb k 1 then b_rho w * (k_velocity b + w) else 0) _ w _ 1).
  - lra.
  - intros s _. symmetry. apply becker_state_eq. exact Hk.
  - unfold b_dstate. destruct (Nat.eqb k 0); [apply D_b_rho; exact Hw|].
    assert (D1 : derivable_pt_lim (fun w => k_velocity b + w) w 1)
      by (eapply D_eq; [apply D_plus; [apply D_const|apply D_id]|ring]).
    destruct (Nat.eqb k (S dim)).
    + unfold b_E. eapply D_eq.
      * apply D_mult; [apply D_b_rho; exact Hw|]. apply D_plus; [apply D_b_e|]. apply D_mult; [|exact D1].
        apply D_mult; [apply D_const|exact D1].
      * cbv beta. field. destruct G as (Hg & _). lra.
    + destruct (Nat.eqb k 1); [|apply D_const].
      eapply D_eq; [apply D_mult; [apply D_b_rho; exact Hw|exact D1]|]. cbv beta. ring.
Qed.

Lemma position_along t y j s : becker_position b (along y j s) t = becker_position b y t + (if Nat.eqb j 0 then s else 0).
Proof using. unfold becker_position. rewrite along_first. destruct (Nat.eqb j 0); ring. Qed.

Lemma D_v_along t y j : (j < dim)%nat ->
  derivable_pt_lim (fun s => v (becker_position b (along y j s) t)) 0
    (if Nat.eqb j 0 then b_slope (v (becker_position b y t)) else 0).
Proof using HD.
  intros Hj. set (x := becker_position b y t).
  apply (D_near (fun s => v (x + (if Nat.eqb j 0 then s else 0))) _ 0 _ 1).
  - lra.
  - intros s _. symmetry. rewrite position_along. reflexivity.
  - destruct (Nat.eqb j 0); [|apply D_const].
    eapply D_eq.
    + apply (D_comp v (fun s => x + s)); [apply D_plus; [apply D_const|apply D_id]|]. cbv beta. rewrite Rplus_0_r. apply HD.
    + ring.
Qed.

Lemma b_solves t x : solves_navier_stokes (k_gamma b) (k_mu b) 0 (4 / 3 * k_gamma b * k_mu b) dim b_field t x.
Proof using G Hd Hin HD.
  assert (Pv : forall x, 0 < v x) by (intros y; pose proof (Hin y); destruct G as (_ & Hv & _); fold vl vr in Hv; lra).
  exists (b_g t), (b_q t). split; [|split].
  - intros y i j Hi Hj.
    apply (D_near (fun s => if Nat.eqb i 0 then k_velocity b + v (becker_position b (along y j s) t) else 0) _ 0 _ 1).
    + lra.
    + intros s _. symmetry. unfold b_field. pose proof (Pv (becker_position b (along y j s) t)) as P.
      set (w := v _) in *. pose proof (b_rho_pos w P). rewrite !becker_state_eq by lia. cbn [Nat.eqb].
      destruct (Nat.eqb_spec i dim); [lia|]. destruct (Nat.eqb_spec i 0); [field; lra|]. field. lra.
    + unfold b_g. destruct (Nat.eqb i 0); [|apply D_const].
      eapply D_eq; [apply D_plus; [apply D_const|apply D_v_along; exact Hj]|]. destruct (Nat.eqb j 0); ring.
  - intros y j Hj.
    apply (D_near (fun s => b_e (v (becker_position b (along y j s) t))) _ 0 _ 1).
    + lra.
    + intros s _. symmetry. unfold b_field. apply b_gas_energy. apply Pv.
    + eapply D_eq; [apply (D_comp b_e (fun s => v (becker_position b (along y j s) t))); [apply D_v_along; exact Hj|apply D_b_e]|].
      cbv beta. rewrite along_0. unfold b_q. destruct G as (Hg & _). destruct (Nat.eqb j 0); field; lra.
  - exists (fun k => - (k_velocity b * (b_dstate (v (becker_position b x t)) k * b_slope (v (becker_position b x t))))).
    exists (fun k j => if Nat.eqb j 0 then k_velocity b * (b_dstate (v (becker_position b x t)) k * b_slope (v (becker_position b x t))) else 0).
    intros k Hk. split; [|split].
    + set (w := v (becker_position b x t)). unfold b_field. eapply D_eq.
      * apply (D_comp (fun w => becker_state b dim w k) (fun s => v (becker_position b x s))).
        -- apply (D_comp v (fun s => becker_position b x s)).
           ++ unfold becker_position. apply D_minus; [apply D_const|apply D_scal; apply D_id].
           ++ apply HD.
        -- apply D_b_state; [apply Pv|exact Hk].
      * fold w. ring.
    + intros j Hj. destruct (Nat.eqb_spec j 0) as [->|J0].
      * apply (D_near (fun s => k_velocity b * b_field t (along x 0 s) k + b_const k) _ 0 _ 1).
        -- lra.
        -- intros s _. symmetry. apply b_flux. exact Hk.
        -- eapply D_eq.
           ++ apply D_plus; [|apply D_const]. apply D_scal. unfold b_field.
              apply (D_comp (fun w => becker_state b dim w k) (fun s => v (becker_position b (along x 0 s) t))).
              ** apply D_v_along. lia.
              ** cbv beta. rewrite along_0. apply D_b_state; [apply Pv|exact Hk].
           ++ cbn [Nat.eqb]. ring.
      * apply (D_near (fun _ => viscous_flux (k_gamma b) (k_mu b) 0 (4 / 3 * k_gamma b * k_mu b) dim
                 (b_field t x) (b_g t x) (b_q t x) k j) _ 0 _ 1).
        -- lra.
        -- intros s _. symmetry. unfold b_field, b_g, b_q.
           assert (E : becker_position b (along x j s) t = becker_position b x t).
           { rewrite position_along. destruct (Nat.eqb_spec j 0); [lia|ring]. }
           rewrite E. reflexivity.
        -- apply D_const.
    + cbv beta.
      set (c := k_velocity b * _).
      assert (RD : rsum dim (fun i => if Nat.eqb i 0 then c else 0) = c).
      { etransitivity; [|apply (rsum_delta dim (fun _ => c) 0); lia]. apply rsum_ext. intros i _. destruct i; cbn [Nat.eqb]; ring. }
      rewrite RD. ring.
Qed.
End Profile.

(** Limits at infinity. *)
Lemma vel_limits b (G : good_becker b) eps : 0 < eps ->
  exists X, forall x, (X < x -> vel b G x < k_right b + eps) /\ (x < - X -> k_left b - eps < vel b G x).
Proof.
  intros He. pose proof G as (_ & Hv & _).
  set (e := Rmin eps ((k_left b - k_right b) / 2)).
  assert (Pe : 0 < e) by (apply Rmin_glb_lt; lra).
  assert (E1 : e <= eps) by apply Rmin_l. assert (E2 : e <= (k_left b - k_right b) / 2) by apply Rmin_r.
  exists (Rmax (place b (k_right b + e)) (- place b (k_left b - e))). intros x.
  pose proof (Rmax_l (place b (k_right b + e)) (- place b (k_left b - e))).
  pose proof (Rmax_r (place b (k_right b + e)) (- place b (k_left b - e))).
  pose proof (vel_in b G x) as I. pose proof (vel_pos b G x) as PV. split; intros L.
  - destruct (Rlt_dec (vel b G x) (k_right b + e)) as [Z|Z]; [lra|]. exfalso.
    destruct (Req_dec (vel b G x) (k_right b + e)) as [Q|Q]; [rewrite Q in PV; lra|].
    pose proof (place_decreasing b G (k_right b + e) (vel b G x) ltac:(lra) ltac:(lra) ltac:(lra)). lra.
  - destruct (Rlt_dec (k_left b - e) (vel b G x)) as [Z|Z]; [lra|]. exfalso.
    destruct (Req_dec (vel b G x) (k_left b - e)) as [Q|Q]; [rewrite Q in PV; lra|].
    pose proof (place_decreasing b G (vel b G x) (k_left b - e) ltac:(lra) ltac:(lra) ltac:(lra)). lra.
Qed.

Lemma C96_becker_proof b dim : (1 <= dim)%nat ->
  1 < k_gamma b -> 0 < k_right b < k_left b -> 0 < k_density b -> 0 < k_mu b ->
  exists v : R -> R,
    (forall x, k_right b < v x < k_left b /\ exists d, psi b x (v x) = Some (0, d)) /\
    (forall x w d, psi b x w = Some (0, d) -> w = v x) /\
    (forall x y, x < y -> v y < v x) /\
    (forall eps, 0 < eps -> exists X, forall x, (X < x -> v x < k_right b + eps) /\ (x < - X -> k_left b - eps < v x)) /\
    (forall t x, solves_navier_stokes (k_gamma b) (k_mu b) 0 (4 / 3 * k_gamma b * k_mu b) dim
       (fun t x => becker_state b dim (v (becker_position b x t))) t x) /\
    (forall x, 0 < becker_state b dim (v x) 0%nat) /\
    (k_left b < (k_gamma b + 1) / (k_gamma b - 1) * k_right b ->
     forall x, 0 < gas_energy dim (becker_state b dim (v x))).
Proof.
  intros Hd Hg Hv Hr Hm. assert (G : good_becker b) by (repeat split; lra || assumption).
  exists (vel b G). split; [|split; [|split; [|split; [|split; [|split]]]]].
  - intros x. split; [apply vel_in|]. destruct (psi_pos b x (vel b G x) (vel_in b G x)) as (d & E).
    exists d. rewrite E, vel_pos. do 2 f_equal. ring.
  - intros x w d E. apply psi_some in E. destruct E as (I & E & _).
    apply (place_injective b G); [exact I|apply vel_in|]. rewrite vel_pos. lra.
  - intros x y L. apply vel_decreasing. exact L.
  - apply vel_limits.
  - intros t x. apply (b_solves b G dim Hd (vel b G)); [apply vel_in|]. intros y. apply D_vel.
  - intros x. rewrite becker_state_eq by lia. apply b_rho_pos; [exact G|]. pose proof (vel_in b G x). lra.
  - intros HR x. pose proof (vel_in b G x) as I. rewrite b_gas_energy by (try assumption; lra). unfold b_e.
    apply Rmult_lt_0_compat; [apply Rdiv_lt_0_compat; lra|]. set (w := vel b G x) in *.
    set (q := (k_gamma b + 1) / (k_gamma b - 1)) in *.
    assert (w * w < k_left b * k_left b) by nra.
    assert (k_left b * k_left b < q * k_left b * k_right b) by nra. lra.
Qed.

(** ** The root finder *)
Lemma tanh_bound y : -1 < tanh y < 1.
Proof.
  unfold tanh, sinh, cosh. pose proof (exp_pos y). pose proof (exp_pos (- y)).
  replace ((exp y - exp (- y)) / 2 / ((exp y + exp (- y)) / 2)) with ((exp y - exp (- y)) / (exp y + exp (- y))) by (field; lra).
  split.
  - apply Rmult_lt_reg_r with (exp y + exp (- y)); [lra|]. unfold Rdiv. rewrite Rmult_assoc, Rinv_l; lra.
  - apply Rmult_lt_reg_r with (exp y + exp (- y)); [lra|]. unfold Rdiv. rewrite Rmult_assoc, Rinv_l; lra.
Qed.

Lemma tol_range : 0 < becker_tol < 1 / 10.
Proof. unfold becker_tol. lra. Qed.

(** Mean value estimate of the inverse. *)
Lemma place_lipschitz b (G : good_becker b) v w : k_right b < v -> v < w -> w < k_left b ->
  (w - v) * (4 * becker_factor b * k_right b / ((k_left b - k_right b) * (k_left b - k_right b))) <= place b v - place b w.
Proof.
  intros H1 H2 H3. pose proof (F_pos b G) as PF. destruct G as (Hg & Hv & _).
  set (F := becker_factor b) in *. set (vl := k_left b) in *. set (vr := k_right b) in *.
  destruct (MVT_cor2 (place b) (fun c => - (F * c / ((vl - c) * (c - vr)))) v w H2) as (c & Ec & Hc).
  - intros c Hc. apply D_place. fold vl vr. lra.
  - replace (place b v - place b w) with (- (place b w - place b v)) by ring. rewrite Ec.
    replace (- (- (F * c / ((vl - c) * (c - vr))) * (w - v))) with ((w - v) * (F * c / ((vl - c) * (c - vr)))) by (field; lra).
    apply Rmult_le_compat_l; [lra|].
    assert (P1 : 0 < (vl - c) * (c - vr)) by (apply Rmult_lt_0_compat; lra).
    assert (P2 : 0 < (vl - vr) * (vl - vr)) by (apply Rmult_lt_0_compat; lra).
    assert (Q : 4 * ((vl - c) * (c - vr)) <= (vl - vr) * (vl - vr)) by (pose proof (Rle_0_sqr (vl + vr - 2 * c)) as SQ; unfold Rsqr in SQ; lra).
    apply Rmult_le_reg_r with ((vl - vr) * (vl - vr)); [exact P2|].
    unfold Rdiv at 1. rewrite Rmult_assoc, Rinv_l by lra.
    apply Rmult_le_reg_r with ((vl - c) * (c - vr)); [exact P1|].
    replace (F * c / ((vl - c) * (c - vr)) * ((vl - vr) * (vl - vr)) * ((vl - c) * (c - vr)))
      with (F * c * ((vl - vr) * (vl - vr))) by (field; lra).
    assert (A1 : F * vr * (4 * ((vl - c) * (c - vr))) <= F * vr * ((vl - vr) * (vl - vr)))
      by (apply Rmult_le_compat_l; [apply Rmult_le_pos; lra|exact Q]).
    assert (A2 : F * vr * ((vl - vr) * (vl - vr)) <= F * c * ((vl - vr) * (vl - vr)))
      by (apply Rmult_le_compat_r; [lra|apply Rmult_le_compat_l; lra]).
    lra.
Qed.

Lemma ln_trillion : ln (1 - becker_tol) - ln becker_tol <= 32.
Proof.
  pose proof tol_range as [T0 T1].
  assert (A : ln (1 - becker_tol) <= 0) by (rewrite <- ln_1; left; apply ln_increasing; lra).
  assert (B : - 32 <= ln becker_tol); [|lra].
  rewrite <- (ln_exp (-32)). left. apply ln_increasing; [apply exp_pos|].
  unfold becker_tol. replace (-32) with (- (32)) by lra. rewrite exp_Ropp.
  unfold Rdiv. rewrite Rmult_1_l. apply Rinv_lt_contravar; [apply Rmult_lt_0_compat; [lra|apply exp_pos]|].
  assert (E : 5 / 4 < exp (1 / 4)) by (pose proof (exp_ineq1 (1 / 4) ltac:(lra)); lra).
  assert (E4 : 244 / 100 < exp 1).
  { replace 1 with (1 / 4 + 1 / 4 + (1 / 4 + 1 / 4)) at 1 by lra. rewrite !exp_plus.
    assert (25 / 16 < exp (1 / 4) * exp (1 / 4)) by nra. nra. }
  assert (E2 : 59 / 10 < exp 2) by (replace 2 with (1 + 1) at 1 by lra; rewrite exp_plus; nra).
  assert (E3 : 348 / 10 < exp 4) by (replace 4 with (2 + 2) at 1 by lra; rewrite exp_plus; nra).
  assert (E5 : 1211 < exp 8) by (replace 8 with (4 + 4) at 1 by lra; rewrite exp_plus; nra).
  assert (E6 : 1000000 < exp 16) by (replace 16 with (8 + 8) at 1 by lra; rewrite exp_plus; nra).
  replace 32 with (16 + 16) by lra; rewrite exp_plus.
  apply Rle_lt_trans with (1000000 * 1000000); [lra|]. nra.
Qed.

Lemma becker_cut_eq b (G : good_becker b) :
  let vL := (1 - becker_tol) * k_left b + becker_tol * k_right b in
  let vR := becker_tol * k_left b + (1 - becker_tol) * k_right b in
  k_right b < vR /\ vR < vL /\ vL < k_left b /\
  becker_cut b = Some (place b vL, place b vR, (place b vR - place b vL) * becker_tol) /\
  place b vL < place b vR /\
  place b vR - place b vL <= 32 * becker_factor b * (k_left b + k_right b) / (k_left b - k_right b).
Proof.
  pose proof tol_range as [T0 T1]. pose proof G as (_ & Hv & _). intros vL vR.
  set (e := becker_tol) in *. set (vl := k_left b) in *. set (vr := k_right b) in *.
  assert (I1 : vr < vR) by (unfold vR; nra). assert (I3 : vL < vl) by (unfold vL; nra).
  assert (I2 : vR < vL) by (unfold vL, vR; nra).
  repeat split; try assumption.
  - unfold becker_cut. fold e vl vr. fold vL vR.
    destruct (psi_pos b 0 vL ltac:(fold vl vr; lra)) as (d1 & ->).
    destruct (psi_pos b 0 vR ltac:(fold vl vr; lra)) as (d2 & ->). do 2 f_equal; [f_equal|]; ring.
  - apply place_decreasing; fold vl vr; assumption.
  - unfold place. fold vl vr. set (o := velocity_origin b).
    replace (vl - vR) with ((1 - e) * (vl - vr)) by (unfold vR; ring).
    replace (vl - vL) with (e * (vl - vr)) by (unfold vL; ring).
    replace (vR - vr) with (e * (vl - vr)) by (unfold vR; ring).
    replace (vL - vr) with ((1 - e) * (vl - vr)) by (unfold vL; ring).
    rewrite !ln_mult by lra. pose proof ln_trillion as L. fold e in L. pose proof (F_pos b G) as PF.
    set (F := becker_factor b) in *. set (l1 := ln (1 - e)) in *. set (l0 := ln e) in *.
    match goal with |- ?a <= _ => replace a with (F * (vl + vr) / (vl - vr) * (l1 - l0)) by (field; lra) end.
    replace (32 * F * (vl + vr) / (vl - vr)) with (F * (vl + vr) / (vl - vr) * 32) by (field; lra).
    apply Rmult_le_compat_l; [|exact L]. left. apply Rdiv_lt_0_compat; [apply Rmult_lt_0_compat; lra|lra].
Qed.

Lemma becker_loop_spec b norm x fuel : forall v fdf w, psi b x v = Some fdf ->
  becker_loop b norm x fuel v fdf = Some w ->
  (exists f d, psi b x w = Some (f, d) /\ Rabs f <= norm) \/
  (exists v f d, psi b x v = Some (f, d) /\ w = v - f / d /\ Rabs (w - v) < becker_tol * (1 / 2) * (k_right b + k_left b)).
Proof.
  induction fuel as [|fuel IH]; intros v [f d] w E; cbn [becker_loop]; destruct (Rlt_dec norm (Rabs f)) as [L|L].
  - discriminate.
  - intros H. injection H as <-. left. exists f, d. split; [exact E|lra].
  - destruct (Req_EM_T d 0); [discriminate|]. destruct (Rlt_dec _ _) as [S|S].
    + intros H. injection H as <-. right. exists v, f, d. split; [exact E|]. split; [reflexivity|exact S].
    + set (v' := if Rlt_dec _ _ then _ else _). destruct (psi b x v') as [fdf'|] eqn:E'; [|discriminate].
      apply IH. exact E'.
  - intros H. injection H as <-. left. exists f, d. split; [exact E|lra].
Qed.

Lemma C96_velocity_proof b fuel x w v d :
  1 < k_gamma b -> 0 < k_right b < k_left b -> 0 < k_density b -> 0 < k_mu b ->
  find_velocity b fuel x = Some w -> psi b x v = Some (0, d) ->
  let delta := / 10 ^ 12 * (1 / 2) * (k_right b + k_left b) in
  (Rabs (w - v) <= 8 / 10 ^ 12 * (k_left b + k_right b) * (k_left b - k_right b) / k_right b /\ k_right b <= w <= k_left b) \/
  (exists v0 f d0, psi b x v0 = Some (f, d0) /\ w = v0 - f / d0 /\ Rabs (w - v0) < delta /\
     k_right b - delta < w < k_left b + delta).
Proof.
  intros Hg Hv Hr Hm E Ev delta. assert (G : good_becker b) by (repeat split; lra || assumption).
  pose proof (becker_cut_eq b G) as C. cbv zeta in C. destruct C as (I1 & I2 & I3 & C & L12 & LB).
  pose proof tol_range as [T0 T1]. pose proof (F_pos b G) as PF.
  apply psi_some in Ev. destruct Ev as (Iv & Ev & _). assert (Pv : place b v = x) by lra. clear Ev d.
  set (e := becker_tol) in *. set (vl := k_left b) in *. set (vr := k_right b) in *.
  set (vL := (1 - e) * vl + e * vr) in *. set (vR := e * vl + (1 - e) * vr) in *. set (F := becker_factor b) in *.
  assert (E12 : / 10 ^ 12 = e) by (unfold e, becker_tol; lra).
  assert (Dl : delta = e * (1 / 2) * (vr + vl)) by (unfold delta; rewrite E12; reflexivity).
  replace (8 / 10 ^ 12) with (8 * e) by (unfold e, becker_tol; lra).
  assert (KB : e * (vl - vr) <= 8 * e * (vl + vr) * (vl - vr) / vr).
  { apply Rmult_le_reg_r with vr; [lra|]. replace (8 * e * (vl + vr) * (vl - vr) / vr * vr) with (8 * e * (vl + vr) * (vl - vr)) by (field; lra).
    assert (vr <= 8 * (vl + vr)) by lra. assert (0 < e * (vl - vr)) by (apply Rmult_lt_0_compat; lra). nra. }
  unfold find_velocity in E. rewrite C in E.
  destruct (Rle_dec x (place b vL)) as [X1|X1].
  { injection E as <-. left. split; [|fold vl; lra]. fold vl. eapply Rle_trans; [|exact KB].
    assert (vL <= v).
    { apply Rnot_lt_le. intros Z. pose proof (place_decreasing b G v vL ltac:(fold vr; lra) Z ltac:(fold vl; lra)). lra. }
    rewrite Rabs_right by lra. unfold vL in H. lra. }
  destruct (Rle_dec (place b vR) x) as [X2|X2].
  { injection E as <-. left. split; [|fold vr; lra]. fold vr. eapply Rle_trans; [|exact KB].
    assert (v <= vR).
    { apply Rnot_lt_le. intros Z. pose proof (place_decreasing b G vR v ltac:(fold vr; lra) Z ltac:(fold vl; lra)). lra. }
    rewrite Rabs_left1 by lra. unfold vR in H. lra. }
  cbv zeta in E. destruct (psi b x _) as [fdf|] eqn:E0 in E; [|discriminate].
  destruct (becker_loop_spec _ _ _ _ _ _ _ E0 E) as [(f & d & Ew & Hf)|(v0 & f & d & Ew & Hw & Hs)].
  - left. apply psi_some in Ew. destruct Ew as (Iw & Ef & _). fold vl vr in Iw. split; [|lra].
    assert (B : Rabs (w - v) * (4 * F * vr / ((vl - vr) * (vl - vr))) <= Rabs f).
    { destruct (Rtotal_order w v) as [Z|[Z|Z]].
      - pose proof (place_lipschitz b G w v ltac:(fold vr; lra) Z ltac:(fold vl; lra)) as Q. fold vl vr F in Q.
        rewrite Rabs_left by lra. rewrite Rabs_right by nra || (rewrite Ef, <- Pv;
          pose proof (place_decreasing b G w v ltac:(fold vr; lra) Z ltac:(fold vl; lra)); lra). lra.
      - subst w. rewrite Rminus_diag_eq, Rabs_R0, Rmult_0_l by reflexivity. apply Rabs_pos.
      - pose proof (place_lipschitz b G v w ltac:(fold vr; lra) Z ltac:(fold vl; lra)) as Q. fold vl vr F in Q.
        pose proof (place_decreasing b G v w ltac:(fold vr; lra) Z ltac:(fold vl; lra)).
        rewrite Rabs_right by lra. rewrite Rabs_left by lra. lra. }
    assert (P2 : 0 < (vl - vr) * (vl - vr)) by (apply Rmult_lt_0_compat; lra).
    assert (PK : 0 < 4 * F * vr / ((vl - vr) * (vl - vr))).
    { apply Rdiv_lt_0_compat; [apply Rmult_lt_0_compat; lra|exact P2]. }
    apply Rmult_le_reg_r with (4 * F * vr / ((vl - vr) * (vl - vr))); [exact PK|].
    eapply Rle_trans; [exact B|]. eapply Rle_trans; [exact Hf|].
    apply Rle_trans with (32 * F * (vl + vr) / (vl - vr) * e); [apply Rmult_le_compat_r; lra|].
    right. field. lra.
  - right. exists v0, f, d. split; [exact Ew|]. split; [exact Hw|].
    fold e vl vr in Hs. rewrite <- Dl in Hs. split; [exact Hs|].
    apply psi_some in Ew. destruct Ew as (Iw & _). fold vl vr in Iw. apply Rabs_def2 in Hs. lra.
Qed.

(** The default parameters, source/euler/initial_state_becker_solution.h:59-83. *)
Definition ex_becker : becker :=
  {| k_gamma := 14 / 10; k_velocity := 2 / 10; k_left := 1; k_right := 7 / 27; k_density := 1; k_mu := 1 / 100 |}.

Lemma ex_becker_good : good_becker ex_becker.
Proof. unfold good_becker, ex_becker; simpl. lra. Qed.

Lemma ex_becker_velocity : exists x v d, find_velocity ex_becker 0 x = Some 1 /\ psi ex_becker x v = Some (0, d).
Proof.
  pose proof (becker_cut_eq ex_becker ex_becker_good) as C. cbv zeta in C. destruct C as (_ & _ & _ & C & _).
  set (x := place ex_becker _) in C. exists x, (vel ex_becker ex_becker_good x).
  destruct (psi_pos ex_becker x _ (vel_in ex_becker ex_becker_good x)) as (d & E). exists d. split.
  - unfold find_velocity. rewrite C. destruct (Rle_dec x x); [reflexivity|lra].
  - rewrite E, vel_pos. do 2 f_equal. ring.
Qed.
