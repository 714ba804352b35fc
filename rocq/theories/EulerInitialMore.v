(** * Proofs: rarefaction, Leblanc shock tube, Noh problem, smooth wave, ramp up *)
From Coq Require Import Reals Arith Lia Lra Psatz List FunctionalExtensionality.
From Verif Require Import RVec EulerSystem BalanceSpec BalanceProofs EulerInitialStates EulerInitialProofs EulerInitialFans.
Import ListNotations.
Local Open Scope R_scope.

(** The age of the fan times the difference of the velocities on its two sides. *)
Lemma rare_t0_width gamma : 1 < gamma -> 0 < rare_t0 gamma ->
  rare_t0 gamma * (r_u gamma (r_b gamma) - r_c gamma) = 1 / 5.
Proof.
  intros Hg T0. pose proof (r_c_pos gamma Hg) as C0. pose proof (r_c2 gamma Hg) as C2. pose proof (r_q_pos gamma Hg) as Q0.
  assert (D : p_u (rare_right_state gamma) - p_u (rare_left_state gamma) = r_u gamma (r_b gamma) - r_c gamma).
  { assert (EL : rare_left_state gamma = {| p_rho := 3; p_u := r_c gamma; p_p := 1; p_c := r_c gamma |}).
    { unfold rare_left_state, rare_sound, r_c. rewrite Rmult_1_r. reflexivity. }
    assert (S : rare_sound gamma (1 / 2) (powr (1 / 2 / 3) gamma * 1) = r_c gamma * r_q gamma).
    { assert (Q2 : powr (1 / 2 / 3) gamma = r_q gamma * r_q gamma / 6).
      { unfold r_q. rewrite <- powr_plus by lra. replace (1 / 2 / 3) with (1 / 6) by field.
        replace gamma with (((gamma - 1) / 2 + (gamma - 1) / 2) + 1) at 1 by field.
        rewrite powr_plus, powr_1 by lra. field. }
      unfold rare_sound. rewrite Q2, Rmult_1_r.
      replace (gamma * (r_q gamma * r_q gamma / 6) / (1 / 2)) with ((r_c gamma * r_q gamma) * (r_c gamma * r_q gamma)).
      - apply sqrt_square. apply Rmult_le_pos; lra.
      - replace (r_c gamma * r_q gamma * (r_c gamma * r_q gamma)) with (r_c gamma * r_c gamma * (r_q gamma * r_q gamma)) by ring.
        rewrite C2. field. }
    unfold rare_right_state, rare_right. rewrite EL. cbn [p_rho p_u p_p p_c]. rewrite S.
    unfold r_u, r_b. field. lra. }
  rewrite <- D. unfold rare_t0 in *. set (d := p_u (rare_right_state gamma) - p_u (rare_left_state gamma)) in *.
  assert (d <> 0). { intros Z. rewrite Z in T0. unfold Rdiv in T0. rewrite Rinv_0 in T0. lra. }
  field. exact H.
Qed.

Lemma C90_rarefaction_proof dim gamma : (1 <= dim)%nat -> 1 < gamma ->
  let W := fun t x => rarefaction dim gamma x t in
  exists T0 b, 0 < T0 /\ 0 < b /\
  forall t x, - T0 < t ->
    (0 < W t x 0%nat /\ gas_pressure gamma dim (W t x) = powr (W t x 0%nat / 3) gamma) /\
    (x 0%nat <= 0 -> W t x 0%nat = 3 /\ W t x 1%nat = 3 * sqrt (gamma * 1 / 3)) /\
    (b * (T0 + t) <= x 0%nat ->
       W t x 0%nat = 1 / 2 /\ T0 * (W t x 1%nat / W t x 0%nat - sqrt (gamma * 1 / 3)) = 1 / 5) /\
    (forall k, (2 <= k <= dim)%nat -> W t x k = 0) /\
    (x 0%nat <> 0 -> x 0%nat <> b * (T0 + t) -> solves_euler gamma dim W t x) /\
    no_jump (dim + 2) W e0 t x.
Proof.
  intros Hd Hg W. exists (rare_t0 gamma), (r_b gamma).
  pose proof (r_c_pos gamma Hg) as C0. pose proof (r_c2 gamma Hg) as C2.
  pose proof (r_q_pos gamma Hg) as Q0. pose proof (r_b_pos gamma Hg) as B0.
  assert (T0 : 0 < rare_t0 gamma).
  { unfold rare_t0. apply Rdiv_lt_0_compat; [lra|].
    unfold rare_right_state, rare_right. cbn [p_u].
    assert (EL : rare_left_state gamma = {| p_rho := 3; p_u := r_c gamma; p_p := 1; p_c := r_c gamma |}).
    { unfold rare_left_state, rare_sound, r_c. rewrite Rmult_1_r. reflexivity. }
    rewrite EL. cbn [p_rho p_u p_p p_c].
    assert (S : rare_sound gamma (1 / 2) (powr (1 / 2 / 3) gamma * 1) < r_c gamma).
    { unfold rare_sound, r_c. apply sqrt_lt_1_alt.
      assert (P6 : powr (1 / 2 / 3) gamma < 1 / 6).
      { replace gamma with (((gamma - 1) / 2 + (gamma - 1) / 2) + 1) by field.
        replace (1 / 2 / 3) with (1 / 6) by field.
        rewrite !powr_plus, powr_1 by lra. fold (r_q gamma). nra. }
      assert (P0 : 0 < powr (1 / 2 / 3) gamma) by (apply powr_gt; lra). nra. }
    assert (0 < 2 * (r_c gamma - rare_sound gamma (1 / 2) (powr (1 / 2 / 3) gamma * 1)) / (gamma - 1)).
    { apply Rdiv_lt_0_compat; lra. }
    lra. }
  split; [exact T0|]. split; [exact B0|]. intros t x Ht.
  set (T := rare_t0 gamma + t). assert (HT : 0 < T) by (unfold T; lra).
  pose proof (rarefaction_state gamma Hg dim x t Hd ltac:(fold T; lra)) as E. fold T in E. cbv zeta in E.
  set (c := clamp 0 (r_b gamma) (x 0%nat / T)) in *.
  assert (Cin : 0 <= c <= r_b gamma) by (apply clamp_in; lra).
  assert (Wp : 0 < r_w gamma c) by (apply r_w_pos; assumption).
  assert (Rp : 0 < r_rho gamma c) by (unfold r_rho; pose proof (powr_gt (r_w gamma c) (2 / (gamma - 1)) Wp); lra).
  destruct (gas_state_facts gamma dim _ _ _ _ Hd ltac:(lra) Rp E) as (F1 & F2 & F3 & F4).
  change (rarefaction dim gamma x t) with (W t x) in *.
  refine (conj (conj _ _) (conj _ (conj _ (conj F4 (conj _ _))))).
  - rewrite F1. exact Rp.
  - rewrite F3, F1. apply r_isentropic; assumption.
  - intros Hx. assert (c = 0) as CE.
    { apply clamp_lo; [lra|]. unfold Rdiv. pose proof (Rinv_0_lt_compat T HT). nra. }
    rewrite F2, F1, CE. unfold r_rho, r_u. rewrite (r_w_0 gamma Hg).
    rewrite powr_pos by lra. unfold Rpower. rewrite ln_1, Rmult_0_r, exp_0.
    split; [ring|]. replace (gamma * 1 / 3) with (gamma / 3) by field. unfold r_c. field. lra.
  - intros Hx. assert (c = r_b gamma) as CE.
    { apply clamp_hi; [lra|]. apply (Rmult_le_reg_r T); [exact HT|].
      unfold Rdiv. rewrite Rmult_assoc, Rinv_l by lra. fold T in Hx. lra. }
    split.
    + rewrite F1, CE. unfold r_rho. rewrite (r_w_b gamma Hg). unfold r_q. rewrite powr_mult by lra.
      replace ((gamma - 1) / 2 * (2 / (gamma - 1))) with 1 by (field; lra). rewrite powr_1 by lra. field.
    + rewrite F2, F1, CE. rewrite CE in Rp. replace (gamma * 1 / 3) with (gamma / 3) by field. fold (r_c gamma).
      rewrite <- (rare_t0_width gamma Hg T0). f_equal. field. lra.
  - intros N0 Nb. fold T in Nb.
    assert (XT : x 0%nat = (x 0%nat / T) * T) by (field; lra).
    set (chi := x 0%nat / T) in *.
    destruct (Rlt_dec chi 0) as [L|L]; [|destruct (Rlt_dec chi (r_b gamma)) as [L2|L2]].
    + apply (fan_solves gamma dim (rare_t0 gamma) (fun _ => r_rho gamma 0) (fun _ => r_u gamma 0) (fun _ => r_p gamma 0)
        (chi - 1) 0 W t x 0 0 0); try apply D_const; try (fold T; fold chi; try split; lra); try exact Hd; try (cbv beta zeta; ring).
      intros s y Hs Hy. split.
      * unfold r_rho. rewrite (r_w_0 gamma Hg). pose proof (powr_gt 1 (2 / (gamma - 1)) Rlt_0_1). lra.
      * pose proof (rarefaction_state gamma Hg dim y s Hd Hs) as E'. cbv zeta in E'.
        rewrite clamp_lo in E' by lra. exact E'.
    + assert (Pc : 0 < chi).
      { destruct (Rtotal_order chi 0) as [?|[Z|?]]; [lra| |lra]. exfalso. apply N0. rewrite XT, Z. ring. }
      assert (CE : c = chi) by (apply clamp_id; lra).
      assert (Wc : 0 < r_w gamma chi) by (apply r_w_pos; lra).
      pose proof (r_speed gamma Hg chi) as SP. pose proof (r_p_eq gamma Hg chi Wc) as PE.
      apply (fan_solves gamma dim (rare_t0 gamma) (r_rho gamma) (r_u gamma) (r_p gamma) 0 (r_b gamma) W t x
        (- (r_rho gamma chi * (2 / ((gamma + 1) * r_c gamma) / r_w gamma chi))) (2 / (gamma + 1))
        (- (r_p gamma chi * (2 * gamma / ((gamma + 1) * r_c gamma) / r_w gamma chi)))
        ltac:(lra) Hd HT (conj Pc L2)); fold T; fold chi.
      * intros s y Hs Hy. split.
        -- unfold r_rho. assert (0 < r_w gamma (y 0%nat / (rare_t0 gamma + s))) by (apply r_w_pos; lra).
           pose proof (powr_gt _ (2 / (gamma - 1)) H). lra.
        -- pose proof (rarefaction_state gamma Hg dim y s Hd Hs) as E'. cbv zeta in E'.
           rewrite clamp_id in E' by lra. exact E'.
      * apply D_r; assumption.
      * apply D_ru; assumption.
      * apply D_rp; assumption.
      * rewrite SP. field. repeat split; lra.
      * rewrite SP. replace (r_p gamma chi) with (r_rho gamma chi * (r_w gamma chi * r_w gamma chi) / 3) by (rewrite <- PE; field).
        apply (Rmult_eq_reg_r (r_c gamma)); [|lra]. rewrite Rmult_0_l.
        transitivity (r_rho gamma chi * r_w gamma chi * (2 / (gamma + 1)) * (r_c gamma * r_c gamma - gamma / 3));
          [field; repeat split; lra|]. rewrite C2. ring.
      * rewrite SP. field. repeat split; lra.
    + assert (Pc : r_b gamma < chi).
      { destruct (Rtotal_order chi (r_b gamma)) as [?|[Z|?]]; [lra| |lra]. exfalso. apply Nb. rewrite XT, Z. reflexivity. }
      apply (fan_solves gamma dim (rare_t0 gamma) (fun _ => r_rho gamma (r_b gamma)) (fun _ => r_u gamma (r_b gamma))
        (fun _ => r_p gamma (r_b gamma)) (r_b gamma) (chi + 1) W t x 0 0 0); try apply D_const; try (fold T; fold chi; try split; lra); try exact Hd; try (cbv beta zeta; ring).
      intros s y Hs Hy. split.
      * unfold r_rho. rewrite (r_w_b gamma Hg). pose proof (powr_gt (r_q gamma) (2 / (gamma - 1)) (proj1 Q0)). lra.
      * pose proof (rarefaction_state gamma Hg dim y s Hd Hs) as E'. cbv zeta in E'.
        rewrite clamp_hi in E' by lra. exact E'.
  - apply (clamp_no_jump gamma dim T 0 (r_b gamma) (r_rho gamma) (r_u gamma) (r_p gamma) W t x HT).
    + intros y. apply (rarefaction_state gamma Hg dim y t Hd). exact HT.
    + cbv zeta. fold c. split; [|split].
      * eapply D_cont. apply D_r; assumption.
      * eapply D_cont. apply D_ru; assumption.
      * eapply D_cont. apply D_rp; assumption.
Qed.

(** ** Leblanc shock tube *)
Lemma limit_below_ext m (W F : field) n t x d : 0 < d ->
  (forall s, - d < s < 0 -> veq m (W t (vadd x (vscal s n))) (F t (vadd x (vscal s n)))) ->
  no_jump m F n t x -> limit_below m W n t x (F t x).
Proof.
  intros Hd E [L _] eps He. destruct (L eps He) as (d' & Pd & Q).
  exists (Rmin d d'). split; [apply Rmin_glb_lt; assumption|]. intros s Hs k Hk.
  pose proof (Rmin_l d d'). pose proof (Rmin_r d d').
  rewrite (E s ltac:(lra) k Hk). apply Q; [lra|exact Hk].
Qed.
Lemma limit_above_ext m (W F : field) n t x d : 0 < d ->
  (forall s, 0 < s < d -> veq m (W t (vadd x (vscal s n))) (F t (vadd x (vscal s n)))) ->
  no_jump m F n t x -> limit_above m W n t x (F t x).
Proof.
  intros Hd E [_ L] eps He. destruct (L eps He) as (d' & Pd & Q).
  exists (Rmin d d'). split; [apply Rmin_glb_lt; assumption|]. intros s Hs k Hk.
  pose proof (Rmin_l d d'). pose proof (Rmin_r d d').
  rewrite (E s ltac:(lra) k Hk). apply Q; [lra|exact Hk].
Qed.

Definition lb_gas (dim : nat) (rho u p : R) : vec := gas_state (5 / 3) dim rho (vel1 u) p.
Definition lb_rho chi := (3 / 4 - 3 / 4 * chi) ^ 3.
Definition lb_u chi := 3 / 4 * (1 / 3 + chi).
Definition lb_p chi := 1 / 15 * (3 / 4 - 3 / 4 * chi) ^ 5.

Lemma leblanc_state dim x t : (1 <= dim)%nat -> 0 < t ->
  let chi := x 0%nat / t in
  (chi <= - 1 / 3 -> veq (dim + 2) (leblanc dim x t) (lb_gas dim 1 0 (1 / 15))) /\
  (- 1 / 3 < chi < leblanc_rarefaction_speed -> veq (dim + 2) (leblanc dim x t) (lb_gas dim (lb_rho chi) (lb_u chi) (lb_p chi))) /\
  (leblanc_rarefaction_speed <= chi < leblanc_contact_velocity ->
     veq (dim + 2) (leblanc dim x t) (lb_gas dim (54079335349316249 / 10 ^ 18) leblanc_contact_velocity (51557792765096996 / 10 ^ 20))) /\
  (leblanc_contact_velocity <= chi < leblanc_shock_speed ->
     veq (dim + 2) (leblanc dim x t) (lb_gas dim (39999980604299963 / 10 ^ 19) leblanc_contact_velocity (51557792765096996 / 10 ^ 20))) /\
  (leblanc_shock_speed <= chi -> veq (dim + 2) (leblanc dim x t) (lb_gas dim (1 / 1000) 0 (2 / 3 * (1 / 10 ^ 10)))).
Proof.
  intros Hd Ht chi.
  assert (K : forall rho u p,
    veq (dim + 2) (mkstate dim rho (fun i => if Nat.eqb i 0 then rho * u else 0) (p / (5 / 3 - 1) + 1 / 2 * rho * u * u))
      (lb_gas dim rho u p)).
  { intros rho u p k Hk. unfold mkstate, lb_gas, gas_state. destruct (Nat.eqb k 0); [reflexivity|].
    destruct (Nat.eqb k (S dim)).
    - rewrite rsum_vel1 by exact Hd. field.
    - unfold vel1. destruct (Nat.eqb (k - 1) 0); ring. }
  assert (XT : x 0%nat = chi * t) by (unfold chi; field; lra).
  assert (O : leblanc_rarefaction_speed < leblanc_contact_velocity < leblanc_shock_speed)
    by (unfold leblanc_rarefaction_speed, leblanc_contact_velocity, leblanc_shock_speed; lra).
  assert (O1 : - 1 / 3 < leblanc_rarefaction_speed) by (unfold leblanc_rarefaction_speed; lra).
  unfold leblanc. fold chi. change ((3 / 4 - 3 / 4 * chi) ^ 3) with (lb_rho chi).
  change (3 / 4 * (1 / 3 + chi)) with (lb_u chi). change (1 / 15 * (3 / 4 - 3 / 4 * chi) ^ 5) with (lb_p chi).
  cbv zeta. rewrite XT. clearbody chi.
  set (rs := leblanc_rarefaction_speed) in *. set (cv := leblanc_contact_velocity) in *. set (ss := leblanc_shock_speed) in *.
  clearbody rs cv ss.
  assert (LE : forall a, a <= chi -> a * t <= chi * t) by (intros; apply Rmult_le_compat_r; lra).
  assert (LT : forall a, a < chi -> a * t < chi * t) by (intros; apply Rmult_lt_compat_r; lra).
  assert (LE' : forall a, chi <= a -> chi * t <= a * t) by (intros; apply Rmult_le_compat_r; lra).
  assert (LT' : forall a, chi < a -> chi * t < a * t) by (intros; apply Rmult_lt_compat_r; lra).
  refine (conj _ (conj _ (conj _ (conj _ _)))); intros H;
    repeat match goal with |- context [if ?c then _ else _] => destruct c as [?Q|?Q] end;
    try (exfalso; first
      [ match goal with Q : ~ _ |- _ => apply Q end; solve [apply LE'; lra|apply LT'; lra]
      | match goal with Q : ~ chi * t <= _ |- _ => apply Q; apply LE'; lra end
      | match goal with Q : ~ chi * t < _ |- _ => apply Q; apply LT'; lra end
      | match goal with Q : chi * t <= ?a * t |- _ => pose proof (LT a ltac:(lra)); lra end
      | match goal with Q : chi * t < ?a * t |- _ => pose proof (LE a ltac:(lra)); lra end ]; fail);
    try apply K.
  intros k Hk. rewrite (K _ _ _ k Hk). f_equal. field.
Qed.

Lemma gas_jump_within tol gamma dim s Ul Ur rl ul pl rr ur pr :
  gamma <> 1 -> 0 < rl -> 0 < rr -> (1 <= dim)%nat -> 0 <= tol ->
  veq (dim + 2) Ul (gas_state gamma dim rl (vel1 ul) pl) ->
  veq (dim + 2) Ur (gas_state gamma dim rr (vel1 ur) pr) ->
  Rabs (rr * ur - rl * ul - s * (rr - rl)) <= tol ->
  Rabs ((rr * ur * ur + pr) - (rl * ul * ul + pl) - s * (rr * ur - rl * ul)) <= tol ->
  Rabs (ur * (gamma / (gamma - 1) * pr + rr / 2 * (ur * ur)) - ul * (gamma / (gamma - 1) * pl + rl / 2 * (ul * ul))
    - s * ((pr / (gamma - 1) + rr / 2 * (ur * ur)) - (pl / (gamma - 1) + rl / 2 * (ul * ul)))) <= tol ->
  jump_within tol dim (dim + 2) (gas_flux gamma dim) e0 s Ul Ur.
Proof.
  intros Hg Pl Pr Hd Ht El Er J1 J2 J3 k Hk. rewrite !dot_e0 by exact Hd.
  rewrite (gas_flux_veq gamma dim _ _ k 0 Hk ltac:(lia) El), (gas_flux_veq gamma dim _ _ k 0 Hk ltac:(lia) Er).
  rewrite !gas_flux_primitive by (assumption || lia). rewrite (El k Hk), (Er k Hk).
  unfold primitive_flux, gas_state. rewrite !rsum_vel1 by exact Hd.
  destruct (Nat.eqb_spec k 0) as [->|K0]; [exact J1|].
  destruct (Nat.eqb_spec k (S dim)) as [->|K1]; [unfold vel1; cbn [Nat.eqb]; exact J3|].
  unfold vel1. cbn [Nat.eqb]. destruct (Nat.eqb_spec k 1) as [->|K2].
  - cbn [Nat.eqb Nat.sub]. exact J2.
  - destruct (Nat.eqb_spec (k - 1) 0); [lia|].
    match goal with |- Rabs ?a <= _ => replace a with 0 by ring end. rewrite Rabs_R0. exact Ht.
Qed.

Lemma lb_fan_no_jump dim t x : 0 < t ->
  no_jump (dim + 2) (fun s y => lb_gas dim (lb_rho (y 0%nat / s)) (lb_u (y 0%nat / s)) (lb_p (y 0%nat / s))) e0 t x.
Proof.
  intros Ht. apply continuous_no_jump. intros k Hk.
  apply (continuity_pt_comp (fun s => vadd x (vscal s e0) 0%nat / t)
    (fun c => lb_gas dim (lb_rho c) (lb_u c) (lb_p c) k)).
  - eapply D_cont. apply D_div; [lra| |apply D_const]. unfold vadd, vscal, e0. cbn [Nat.eqb].
    apply D_plus; [apply D_const|apply D_mult; [apply D_id|apply D_const]].
  - set (c := vadd x (vscal 0 e0) 0%nat / t). apply gas_state_cont.
    + eapply D_cont. apply D_pow. apply D_minus; [apply D_const|apply D_scal; apply D_id].
    + eapply D_cont. apply D_scal. apply D_plus; [apply D_const|apply D_id].
    + eapply D_cont. apply D_scal. apply D_pow. apply D_minus; [apply D_const|apply D_scal; apply D_id].
Qed.
Lemma constant_no_jump m U n t x : no_jump m (fun _ _ => U) n t x.
Proof. apply continuous_no_jump. intros k Hk. apply continuity_pt_const. intros ? ?; reflexivity. Qed.

Lemma shift_e0 x s : vadd x (vscal s e0) 0%nat = x 0%nat + s.
Proof. unfold vadd, vscal, e0. cbn [Nat.eqb]. ring. Qed.

Lemma C91_leblanc_proof dim : (1 <= dim)%nat ->
  let W := fun t x => leblanc dim x t in
  exists r c s, - 1 / 3 < r < c /\ c < s /\
  forall t x, 0 < t ->
    (x 0%nat < - (1 / 3) * t -> W t x 0%nat = 1 /\ W t x 1%nat = 0 /\ gas_pressure (5 / 3) dim (W t x) = 1 / 15) /\
    (s * t < x 0%nat -> W t x 0%nat = 1 / 1000 /\ W t x 1%nat = 0 /\ gas_pressure (5 / 3) dim (W t x) = 2 / 3 / 10 ^ 10) /\
    (x 0%nat <> - (1 / 3) * t -> x 0%nat <> r * t -> x 0%nat <> c * t -> x 0%nat <> s * t ->
       solves_euler (5 / 3) dim W t x) /\
    (x 0%nat = - (1 / 3) * t -> no_jump (dim + 2) W e0 t x) /\
    (forall v, v = r \/ v = c \/ v = s -> x 0%nat = v * t -> exists Ul Ur,
       limit_below (dim + 2) W e0 t x Ul /\ limit_above (dim + 2) W e0 t x Ur /\
       jump_within (1 / 10 ^ 15) dim (dim + 2) (gas_flux (5 / 3) dim) e0 v Ul Ur) /\
    (x 0%nat = r * t -> exists Ul Ur,
       limit_below (dim + 2) W e0 t x Ul /\ limit_above (dim + 2) W e0 t x Ur /\
       forall k, (k < dim + 2)%nat -> Rabs (Ul k - Ur k) <= 1 / 10 ^ 15).
Proof.
  intros Hd W. exists leblanc_rarefaction_speed, leblanc_contact_velocity, leblanc_shock_speed.
  set (rs := leblanc_rarefaction_speed). set (cv := leblanc_contact_velocity). set (ss := leblanc_shock_speed).
  assert (O : - 1 / 3 < rs < cv /\ cv < ss).
  { unfold rs, cv, ss, leblanc_rarefaction_speed, leblanc_contact_velocity, leblanc_shock_speed; lra. }
  assert (O1 : rs < 1) by (unfold rs, leblanc_rarefaction_speed; lra).
  split; [apply O|]. split; [apply O|]. intros t x Ht.
  assert (ST : forall y s, 0 < s -> let chi := y 0%nat / s in _) by (intros y s Hs; exact (leblanc_state dim y s Hd Hs)).
  cbv zeta in ST. fold rs cv ss in ST.
  set (pre := 54079335349316249 / 10 ^ 18) in *. set (post := 39999980604299963 / 10 ^ 19) in *.
  set (cp := 51557792765096996 / 10 ^ 20) in *.
  assert (Pp : 0 < pre) by (unfold pre; lra). assert (Po : 0 < post) by (unfold post; lra).
  set (chi := x 0%nat / t).
  assert (XT : x 0%nat = chi * t) by (unfold chi; field; lra).
  assert (CHI : forall v, x 0%nat = v * t -> chi = v) by (intros v E; unfold chi; rewrite E; field; lra).
  (* points on the line *)
  assert (LINE : forall s, vadd x (vscal s e0) 0%nat / t = chi + s / t).
  { intros s. rewrite shift_e0. unfold chi. field. lra. }
  assert (BELOW : forall a v s, a < v -> - ((v - a) * t) < s < 0 -> a < v + s / t < v).
  { intros a v s Ha Hs. split.
    - apply (Rmult_lt_reg_r t); [lra|]. replace ((v + s / t) * t) with (v * t + s) by (field; lra). lra.
    - apply (Rmult_lt_reg_r t); [lra|]. replace ((v + s / t) * t) with (v * t + s) by (field; lra). lra. }
  assert (ABOVE : forall b v s, v < b -> 0 < s < (b - v) * t -> v < v + s / t < b).
  { intros b v s Ha Hs. split.
    - apply (Rmult_lt_reg_r t); [lra|]. replace ((v + s / t) * t) with (v * t + s) by (field; lra). lra.
    - apply (Rmult_lt_reg_r t); [lra|]. replace ((v + s / t) * t) with (v * t + s) by (field; lra). lra. }
  set (fan := fun s (y : vec) => lb_gas dim (lb_rho (y 0%nat / s)) (lb_u (y 0%nat / s)) (lb_p (y 0%nat / s))).
  assert (FX : forall v, chi = v -> fan t x = lb_gas dim (lb_rho v) (lb_u v) (lb_p v)).
  { intros v <-. reflexivity. }
  assert (G1 : 1 < 5 / 3) by lra.
  refine (conj _ (conj _ (conj _ (conj _ (conj _ _))))).
  - intros H. assert (chi < - (1 / 3)) by (apply (Rmult_lt_reg_r t); lra).
    pose proof (proj1 (ST x t Ht) ltac:(fold chi; lra)) as E.
    destruct (gas_state_facts (5 / 3) dim _ 1 0 (1 / 15) Hd ltac:(lra) ltac:(lra) E) as (F1 & F2 & F3 & _).
    repeat split; [exact F1|transitivity (1 * 0); [exact F2|ring]|exact F3].
  - intros H. assert (ss < chi) by (apply (Rmult_lt_reg_r t); lra).
    pose proof (proj2 (proj2 (proj2 (proj2 (ST x t Ht)))) ltac:(fold chi; lra)) as E.
    destruct (gas_state_facts (5 / 3) dim _ (1 / 1000) 0 (2 / 3 * (1 / 10 ^ 10)) Hd ltac:(lra) ltac:(lra) E) as (F1 & F2 & F3 & _).
    repeat split; [exact F1|transitivity (1 / 1000 * 0); [exact F2|ring]|].
    transitivity (2 / 3 * (1 / 10 ^ 10)); [exact F3|field].
  - intros N1 N2 N3 N4. rewrite XT in N1, N2, N3, N4.
    assert (M1 : chi <> - (1 / 3)) by (intros Z; apply N1; rewrite Z; reflexivity).
    assert (M2 : chi <> rs) by (intros Z; apply N2; rewrite Z; reflexivity).
    assert (M3 : chi <> cv) by (intros Z; apply N3; rewrite Z; reflexivity).
    assert (M4 : chi <> ss) by (intros Z; apply N4; rewrite Z; reflexivity).
    assert (CONST : forall a b rho u p, 0 < rho -> a < chi < b ->
      (forall s y, 0 < s -> a < y 0%nat / s < b -> veq (dim + 2) (W s y) (lb_gas dim rho u p)) ->
      solves_euler (5 / 3) dim W t x).
    { intros a b rho u p Hr Hab HW.
      apply (fan_solves (5 / 3) dim 0 (fun _ => rho) (fun _ => u) (fun _ => p) a b W t x 0 0 0); try apply D_const;
        try rewrite Rplus_0_l; try exact Hd; try exact Ht; try exact Hab; try lra; try (cbv beta; ring).
      intros s y Hs Hy. rewrite Rplus_0_l in Hs, Hy. split; [exact Hr|]. apply HW; assumption. }
    destruct (Rlt_dec chi (- (1 / 3))) as [L1|L1].
    { apply (CONST (chi - 1) (- (1 / 3)) 1 0 (1 / 15)); [lra|lra|].
      intros s y Hs Hy. apply (proj1 (ST y s Hs)). lra. }
    destruct (Rlt_dec chi rs) as [L2|L2].
    { assert (P : 0 < 3 / 4 - 3 / 4 * chi) by lra.
      apply (fan_solves (5 / 3) dim 0 lb_rho lb_u lb_p (- (1 / 3)) rs W t x
        (3 * (3 / 4 - 3 / 4 * chi) ^ 2 * (- (3 / 4))) (3 / 4) (1 / 15 * (5 * (3 / 4 - 3 / 4 * chi) ^ 4 * (- (3 / 4)))));
        rewrite ?Rplus_0_l; fold chi; try exact Hd; try exact Ht; try lra.
      - intros s y Hs Hy. rewrite Rplus_0_l in *. split.
        + unfold lb_rho. apply pow_lt. lra.
        + apply (proj1 (proj2 (ST y s Hs))). lra.
      - eapply D_eq; [apply D_pow; apply D_minus; [apply D_const|apply D_scal; apply D_id]|]. cbv beta. simpl. ring.
      - eapply D_eq; [apply D_scal; apply D_plus; [apply D_const|apply D_id]|]. field.
      - eapply D_eq; [apply D_scal; apply D_pow; apply D_minus; [apply D_const|apply D_scal; apply D_id]|]. cbv beta. simpl. ring.
      - unfold lb_rho, lb_u. field.
      - unfold lb_rho, lb_u. field.
      - unfold lb_p, lb_u. field. }
    destruct (Rlt_dec chi cv) as [L3|L3].
    { apply (CONST rs cv pre cv cp); [exact Pp|lra|]. intros s y Hs Hy. apply (proj1 (proj2 (proj2 (ST y s Hs)))). lra. }
    destruct (Rlt_dec chi ss) as [L4|L4].
    { apply (CONST cv ss post cv cp); [exact Po|lra|]. intros s y Hs Hy. apply (proj1 (proj2 (proj2 (proj2 (ST y s Hs))))). lra. }
    apply (CONST ss (chi + 1) (1 / 1000) 0 (2 / 3 * (1 / 10 ^ 10))); [lra|lra|].
    intros s y Hs Hy. apply (proj2 (proj2 (proj2 (proj2 (ST y s Hs))))). lra.
  - intros E. apply CHI in E.
    assert (V : veq (dim + 2) (W t x) (lb_gas dim 1 0 (1 / 15))) by (apply (proj1 (ST x t Ht)); fold chi; lra).
    assert (V' : veq (dim + 2) (fan t x) (lb_gas dim 1 0 (1 / 15))).
    { rewrite (FX _ E). intros k Hk. unfold lb_rho, lb_u, lb_p.
      replace ((3 / 4 - 3 / 4 * - (1 / 3)) ^ 3) with 1 by field.
      replace (3 / 4 * (1 / 3 + - (1 / 3))) with 0 by field.
      replace (1 / 15 * (3 / 4 - 3 / 4 * - (1 / 3)) ^ 5) with (1 / 15) by field. reflexivity. }
    split.
    + assert (L : limit_below (dim + 2) W e0 t x (lb_gas dim 1 0 (1 / 15))).
      { apply (limit_below_ext (dim + 2) W (fun _ _ => lb_gas dim 1 0 (1 / 15)) e0 t x t Ht); [|apply constant_no_jump].
        intros s Hs. apply (proj1 (ST _ t Ht)). rewrite LINE, E.
        assert (s / t <= 0) by (unfold Rdiv; pose proof (Rinv_0_lt_compat t Ht); nra). lra. }
      intros eps He. destruct (L eps He) as (d & Pd & Q). exists d. split; [exact Pd|].
      intros s Hs k Hk. rewrite (V k Hk). apply Q; assumption.
    + assert (L : limit_above (dim + 2) W e0 t x (fan t x)).
      { apply (limit_above_ext (dim + 2) W fan e0 t x ((rs - - (1 / 3)) * t)); [apply Rmult_lt_0_compat; lra| |apply lb_fan_no_jump; exact Ht].
        intros s Hs. pose proof (ABOVE rs (- (1 / 3)) s ltac:(lra) Hs) as AB.
        apply (proj1 (proj2 (ST _ t Ht))). rewrite LINE, E. lra. }
      intros eps He. destruct (L eps He) as (d & Pd & Q). exists d. split; [exact Pd|].
      intros s Hs k Hk. rewrite (V k Hk), <- (V' k Hk). apply Q; assumption.
  - intros v [-> | [-> | ->]] E; apply CHI in E.
    + exists (fan t x), (lb_gas dim pre cv cp). split; [|split].
      * apply (limit_below_ext (dim + 2) W fan e0 t x ((rs - - (1 / 3)) * t)); [apply Rmult_lt_0_compat; lra| |apply lb_fan_no_jump; exact Ht].
        intros s Hs. pose proof (BELOW (- (1 / 3)) rs s ltac:(lra) Hs) as AB.
        apply (proj1 (proj2 (ST _ t Ht))). rewrite LINE, E. lra.
      * apply (limit_above_ext (dim + 2) W (fun _ _ => lb_gas dim pre cv cp) e0 t x ((cv - rs) * t)); [apply Rmult_lt_0_compat; lra| |apply constant_no_jump].
        intros s Hs. pose proof (ABOVE cv rs s ltac:(lra) Hs) as AB.
        apply (proj1 (proj2 (proj2 (ST _ t Ht)))). rewrite LINE, E. lra.
      * rewrite (FX _ E). assert (PR : 0 < lb_rho rs) by (unfold lb_rho; apply pow_lt; lra).
        apply (gas_jump_within _ _ dim _ _ _ (lb_rho rs) (lb_u rs) (lb_p rs) pre cv cp); try (intros k Hk; reflexivity); try lra; try assumption;
          unfold lb_rho, lb_u, lb_p, rs, cv, pre, cp, leblanc_rarefaction_speed, leblanc_contact_velocity; apply Rabs_le; split; lra.
    + exists (lb_gas dim pre cv cp), (lb_gas dim post cv cp). split; [|split].
      * apply (limit_below_ext (dim + 2) W (fun _ _ => lb_gas dim pre cv cp) e0 t x ((cv - rs) * t)); [apply Rmult_lt_0_compat; lra| |apply constant_no_jump].
        intros s Hs. pose proof (BELOW rs cv s ltac:(lra) Hs) as AB.
        apply (proj1 (proj2 (proj2 (ST _ t Ht)))). rewrite LINE, E. lra.
      * apply (limit_above_ext (dim + 2) W (fun _ _ => lb_gas dim post cv cp) e0 t x ((ss - cv) * t)); [apply Rmult_lt_0_compat; lra| |apply constant_no_jump].
        intros s Hs. pose proof (ABOVE ss cv s ltac:(lra) Hs) as AB.
        apply (proj1 (proj2 (proj2 (proj2 (ST _ t Ht))))). rewrite LINE, E. lra.
      * apply (gas_jump_within _ _ dim _ _ _ pre cv cp post cv cp); try (intros k Hk; reflexivity); try lra; try assumption;
          unfold cv, pre, post, cp, leblanc_contact_velocity; apply Rabs_le; split; lra.
    + exists (lb_gas dim post cv cp), (lb_gas dim (1 / 1000) 0 (2 / 3 * (1 / 10 ^ 10))). split; [|split].
      * apply (limit_below_ext (dim + 2) W (fun _ _ => lb_gas dim post cv cp) e0 t x ((ss - cv) * t)); [apply Rmult_lt_0_compat; lra| |apply constant_no_jump].
        intros s Hs. pose proof (BELOW cv ss s ltac:(lra) Hs) as AB.
        apply (proj1 (proj2 (proj2 (proj2 (ST _ t Ht))))). rewrite LINE, E. lra.
      * apply (limit_above_ext (dim + 2) W (fun _ _ => lb_gas dim (1 / 1000) 0 (2 / 3 * (1 / 10 ^ 10))) e0 t x t Ht); [|apply constant_no_jump].
        intros s Hs. assert (0 <= s / t) by (unfold Rdiv; pose proof (Rinv_0_lt_compat t Ht); nra).
        apply (proj2 (proj2 (proj2 (proj2 (ST _ t Ht))))). rewrite LINE, E. lra.
      * apply (gas_jump_within _ _ dim _ _ _ post cv cp (1 / 1000) 0 (2 / 3 * (1 / 10 ^ 10))); try (intros k Hk; reflexivity); try lra; try assumption;
          unfold cv, ss, post, cp, leblanc_contact_velocity, leblanc_shock_speed; apply Rabs_le; split; lra.
  - intros E. apply CHI in E. exists (fan t x), (lb_gas dim pre cv cp). split; [|split].
    + apply (limit_below_ext (dim + 2) W fan e0 t x ((rs - - (1 / 3)) * t)); [apply Rmult_lt_0_compat; lra| |apply lb_fan_no_jump; exact Ht].
      intros s Hs. pose proof (BELOW (- (1 / 3)) rs s ltac:(lra) Hs) as AB.
      apply (proj1 (proj2 (ST _ t Ht))). rewrite LINE, E. lra.
    + apply (limit_above_ext (dim + 2) W (fun _ _ => lb_gas dim pre cv cp) e0 t x ((cv - rs) * t)); [apply Rmult_lt_0_compat; lra| |apply constant_no_jump].
      intros s Hs. pose proof (ABOVE cv rs s ltac:(lra) Hs) as AB.
      apply (proj1 (proj2 (proj2 (ST _ t Ht)))). rewrite LINE, E. lra.
    + intros k Hk. rewrite (FX _ E). unfold lb_gas, gas_state. rewrite !rsum_vel1 by exact Hd.
      destruct (Nat.eqb k 0); [|destruct (Nat.eqb k (S dim)); [|unfold vel1; destruct (Nat.eqb (k - 1) 0)]];
        try (match goal with |- Rabs ?a <= _ => replace a with 0 by ring end; rewrite Rabs_R0; lra);
        unfold lb_rho, lb_u, lb_p, rs, cv, pre, cp, leblanc_rarefaction_speed, leblanc_contact_velocity; apply Rabs_le; split; lra.
Qed.
