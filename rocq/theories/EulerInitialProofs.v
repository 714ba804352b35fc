(** * Proofs: the analytic solutions of the Euler equations *)
From Coq Require Import Reals Arith Lia Lra Psatz List FunctionalExtensionality.
From Verif Require Import RVec EulerSystem BalanceSpec BalanceProofs EulerInitialStates.
Import ListNotations.
Local Open Scope R_scope.

(** ** Isentropic vortex *)
Section Vortex.
  Variables gamma M beta : R.
  Hypothesis Hg : 1 < gamma.
  Hypothesis Hb : (gamma - 1) / (2 * gamma) * (beta / (2 * PI)) * (beta / (2 * PI)) * exp 1 < 1.

  Let c := beta / (2 * PI).
  Let kappa := (gamma - 1) / (2 * gamma).
  Let fac (a b : R) := c * exp (1 / 2 - 1 / 2 * (a * a + b * b)).
  Let T (a b : R) := 1 - kappa * fac a b * fac a b.
  Let rho (a b : R) := powr (T a b) (1 / (gamma - 1)).
  Let p (a b : R) := powr (rho a b) gamma.

  Lemma kappa_pos : 0 < kappa.
  Proof using Hg. unfold kappa. apply Rdiv_lt_0_compat; lra. Qed.

  Lemma T_pos a b : 0 < T a b.
  Proof using Hg Hb.
    unfold T, fac.
    assert (E : exp (1 / 2 - 1 / 2 * (a * a + b * b)) * exp (1 / 2 - 1 / 2 * (a * a + b * b)) <= exp 1).
    { rewrite <- exp_plus. assert (L : 1 / 2 - 1 / 2 * (a * a + b * b) + (1 / 2 - 1 / 2 * (a * a + b * b)) <= 1).
      { pose proof (Rle_0_sqr a) as A. pose proof (Rle_0_sqr b) as B. unfold Rsqr in A, B. lra. }
      destruct L as [L|L]; [left; now apply exp_increasing|rewrite L; right; reflexivity]. }
    set (e := exp (1 / 2 - 1 / 2 * (a * a + b * b))) in *.
    assert (K : kappa * c * c * (e * e) <= kappa * c * c * exp 1).
    { apply Rmult_le_compat_l; [|exact E].
      pose proof kappa_pos. pose proof (Rle_0_sqr c) as C. unfold Rsqr in C.
      rewrite Rmult_assoc. apply Rmult_le_pos; lra. }
    fold kappa c in Hb. replace (kappa * (c * e) * (c * e)) with (kappa * c * c * (e * e)) by ring. lra.
  Qed.

  Lemma rho_pos a b : 0 < rho a b.
  Proof using Hg Hb. apply powr_gt, T_pos. Qed.

  Lemma p_rho_T a b : p a b = rho a b * T a b.
  Proof using Hg Hb.
    pose proof (T_pos a b) as P. unfold p. rewrite (powr_pos (rho a b)) by apply rho_pos.
    unfold rho. rewrite powr_pos by exact P. rewrite Rpower_mult.
    rewrite <- (Rpower_1 (T a b)) at 3 by exact P. rewrite <- Rpower_plus. f_equal. field. lra.
  Qed.

  Variables (A B : R -> R) (s0 a' b' : R).
  Hypothesis DA : derivable_pt_lim A s0 a'.
  Hypothesis DB : derivable_pt_lim B s0 b'.
  Let f0 := fac (A s0) (B s0).
  Let f' := - f0 * (A s0 * a' + B s0 * b').

  Lemma D_fac : derivable_pt_lim (fun s => fac (A s) (B s)) s0 f'.
  Proof using DA DB.
    unfold fac. eapply D_eq.
    - apply D_scal, D_exp, D_minus; [apply D_const|]. apply D_scal, D_plus; apply D_mult; eassumption.
    - unfold f', f0, fac. field.
  Qed.

  Lemma D_T : derivable_pt_lim (fun s => T (A s) (B s)) s0 (- 2 * kappa * f0 * f').
  Proof using DA DB.
    eapply D_eq.
    - apply (D_minus (fun _ => 1) (fun s => kappa * fac (A s) (B s) * fac (A s) (B s))); [apply D_const|].
      apply (D_mult (fun s => kappa * fac (A s) (B s)) (fun s => fac (A s) (B s)));
        [apply (D_scal kappa (fun s => fac (A s) (B s))); exact D_fac|exact D_fac].
    - unfold f0. ring.
  Qed.

  Lemma D_rho : derivable_pt_lim (fun s => rho (A s) (B s)) s0
    (1 / (gamma - 1) * rho (A s0) (B s0) / T (A s0) (B s0) * (- 2 * kappa * f0 * f')).
  Proof using DA DB Hg Hb. apply (D_powr (1 / (gamma - 1)) (fun s => T (A s) (B s))); [apply T_pos|exact D_T]. Qed.

  Lemma D_p : derivable_pt_lim (fun s => p (A s) (B s)) s0 (- rho (A s0) (B s0) * f0 * f').
  Proof using DA DB Hg Hb.
    eapply D_eq; [apply (D_powr gamma (fun s => rho (A s) (B s))); [apply rho_pos|exact D_rho]|].
    fold (p (A s0) (B s0)). rewrite p_rho_T. pose proof (T_pos (A s0) (B s0)). pose proof (rho_pos (A s0) (B s0)).
    unfold kappa. field. repeat split; lra.
  Qed.

  Lemma D_u : derivable_pt_lim (fun s => M - fac (A s) (B s) * B s) s0 (- (f' * B s0 + f0 * b')).
  Proof using DA DB.
    eapply D_eq; [apply (D_minus (fun _ => M) (fun s => fac (A s) (B s) * B s)); [apply D_const|]|].
    - apply (D_mult (fun s => fac (A s) (B s)) B); [exact D_fac|exact DB].
    - unfold f0; ring.
  Qed.
  Lemma D_v : derivable_pt_lim (fun s => fac (A s) (B s) * A s) s0 (f' * A s0 + f0 * a').
  Proof using DA DB. apply (D_mult (fun s => fac (A s) (B s)) A); [exact D_fac|exact DA]. Qed.
End Vortex.

Definition vortex_fac (beta a b : R) := beta / (2 * PI) * exp (1 / 2 - 1 / 2 * (a * a + b * b)).
Definition vortex_T (gamma beta a b : R) :=
  1 - (gamma - 1) / (2 * gamma) * vortex_fac beta a b * vortex_fac beta a b.
Definition vortex_rho (gamma M beta : R) (t : R) (x : vec) : R :=
  powr (vortex_T gamma beta (x 0%nat - M * t) (x 1%nat)) (1 / (gamma - 1)).
Definition vortex_p (gamma M beta : R) (t : R) (x : vec) : R := powr (vortex_rho gamma M beta t x) gamma.
Definition vortex_u (M beta : R) (t : R) (x : vec) : vec := fun i =>
  match i with
  | 0%nat => M - vortex_fac beta (x 0%nat - M * t) (x 1%nat) * x 1%nat
  | 1%nat => vortex_fac beta (x 0%nat - M * t) (x 1%nat) * (x 0%nat - M * t)
  | _ => 0
  end.

Lemma isentropic_vortex_state dim gamma M beta : (dim = 2 \/ dim = 3)%nat ->
  exists W : field, (forall t x, isentropic_vortex dim gamma M beta x t = Some (W t x)) /\
    forall t x, veq (dim + 2) (W t x)
      (gas_state gamma dim (vortex_rho gamma M beta t x) (vortex_u M beta t x) (vortex_p gamma M beta t x)).
Proof.
  intros [-> | ->].
  - eexists (fun t x => _). split; [intros; unfold isentropic_vortex; reflexivity|].
    intros t x k Hk. unfold gas_state, tensor.
    destruct k as [|[|[|[|k]]]]; [reflexivity|reflexivity|reflexivity| |lia].
    cbn [nth Nat.eqb rsum vortex_u]. fold (vortex_fac beta (x 0%nat - M * t) (x 1%nat)).
    fold (vortex_T gamma beta (x 0%nat - M * t) (x 1%nat)). fold (vortex_rho gamma M beta t x).
    fold (vortex_p gamma M beta t x). unfold Rdiv; ring.
  - eexists (fun t x => _). split; [intros; unfold isentropic_vortex; reflexivity|].
    intros t x k Hk. unfold gas_state, tensor.
    destruct k as [|[|[|[|[|k]]]]]; [reflexivity|reflexivity|reflexivity| | |lia].
    + cbn [nth Nat.eqb Nat.sub vortex_u]. ring.
    + cbn [nth Nat.eqb rsum vortex_u]. fold (vortex_fac beta (x 0%nat - M * t) (x 1%nat)).
      fold (vortex_T gamma beta (x 0%nat - M * t) (x 1%nat)). fold (vortex_rho gamma M beta t x).
      fold (vortex_p gamma M beta t x). unfold Rdiv; ring.
Qed.

Lemma C88_vortex_proof dim gamma M beta : (dim = 2 \/ dim = 3)%nat -> 1 < gamma ->
  (gamma - 1) / (2 * gamma) * (beta / (2 * PI)) * (beta / (2 * PI)) * exp 1 < 1 ->
  exists W : field, (forall t x, isentropic_vortex dim gamma M beta x t = Some (W t x)) /\
    forall t x, 0 < W t x 0%nat /\ 0 < gas_pressure gamma dim (W t x) /\
      gas_pressure gamma dim (W t x) = powr (W t x 0%nat) gamma /\
      solves_euler gamma dim W t x.
Proof.
  intros Hd Hg Hb. destruct (isentropic_vortex_state dim gamma M beta Hd) as (W & HW & HS).
  exists W. split; [exact HW|]. intros t x.
  assert (Rp : forall t x, 0 < vortex_rho gamma M beta t x).
  { intros. unfold vortex_rho. apply powr_gt. apply (T_pos gamma beta Hg Hb). }
  assert (W0 : W t x 0%nat = vortex_rho gamma M beta t x) by (rewrite HS by lia; reflexivity).
  assert (Wp : gas_pressure gamma dim (W t x) = vortex_p gamma M beta t x).
  { rewrite (gas_pressure_veq gamma dim _ _ (HS t x)). apply gas_state_pressure; [lra|apply Rp]. }
  split; [rewrite W0; apply Rp|]. split; [rewrite Wp; apply powr_gt, Rp|].
  split; [rewrite Wp, W0; reflexivity|].
  set (a := x 0%nat - M * t). set (b := x 1%nat). set (f := vortex_fac beta a b).
  set (r := vortex_rho gamma M beta t x).
  set (dd := fun (v : R -> R -> R) (j : nat) => match j with 0%nat => v 1 0 | 1%nat => v 0 1 | _ => v 0 0 end).
  set (f1 := fun a' b' => - f * (a * a' + b * b')).
  set (dr := fun a' b' => 1 / (gamma - 1) * r / vortex_T gamma beta a b
                          * (- 2 * ((gamma - 1) / (2 * gamma)) * f * f1 a' b')).
  set (dp := fun a' b' => - r * f * f1 a' b').
  set (du := fun i a' b' => match i with 0%nat => - (f1 a' b' * b + f * b') | 1%nat => f1 a' b' * a + f * a' | _ => 0 end).
  assert (DA : forall j, (j < dim)%nat -> derivable_pt_lim (fun s => along x j s 0%nat - M * t) 0 (dd (fun a' _ => a') j)).
  { intros j Hj. unfold along. destruct j as [|[|j]]; cbn [Nat.eqb];
    (eapply D_eq; [apply D_minus; [apply D_plus; [apply D_const|apply D_mult; [apply D_id|apply D_const]]|apply D_const]|unfold dd; ring]). }
  assert (DB : forall j, (j < dim)%nat -> derivable_pt_lim (fun s => along x j s 1%nat) 0 (dd (fun _ b' => b') j)).
  { intros j Hj. unfold along. destruct j as [|[|j]]; cbn [Nat.eqb];
    (eapply D_eq; [apply D_plus; [apply D_const|apply D_mult; [apply D_id|apply D_const]]|unfold dd; ring]). }
  assert (DTA : derivable_pt_lim (fun s => x 0%nat - M * s) t (- M)).
  { eapply D_eq; [apply D_minus; [apply D_const|apply D_scal, D_id]|ring]. }
  assert (DTB : derivable_pt_lim (fun s => x 1%nat) t 0) by apply D_const.
  assert (A0 : forall j, along x j 0 = x) by (intros; apply along_0).
  apply (euler_primitive gamma dim (vortex_rho gamma M beta) (vortex_p gamma M beta) (vortex_u M beta) W t x 1
    (dr (- M) 0) (dp (- M) 0) (fun i => du i (- M) 0) (dd dr) (dd dp) (fun i j => dd (du i) j)); try lra.
  - intros s _. split; [apply Rp|apply HS].
  - intros j s _ _. split; [apply Rp|apply HS].
  - apply (D_rho gamma beta Hg Hb (fun s => x 0%nat - M * s) (fun s => x 1%nat) t (- M) 0 DTA DTB).
  - apply (D_p gamma beta Hg Hb (fun s => x 0%nat - M * s) (fun s => x 1%nat) t (- M) 0 DTA DTB).
  - intros i Hi. destruct i as [|[|i]]; cbn [vortex_u]; unfold du.
    + apply (D_u M beta (fun s => x 0%nat - M * s) (fun s => x 1%nat) t (- M) 0 DTA DTB).
    + apply (D_v beta (fun s => x 0%nat - M * s) (fun s => x 1%nat) t (- M) 0 DTA DTB).
    + apply D_const.
  - intros j Hj. eapply D_eq; [apply (D_rho gamma beta Hg Hb _ _ 0 _ _ (DA j Hj) (DB j Hj))|].
    rewrite A0. destruct j as [|[|j]]; reflexivity.
  - intros j Hj. eapply D_eq; [apply (D_p gamma beta Hg Hb _ _ 0 _ _ (DA j Hj) (DB j Hj))|].
    rewrite A0. destruct j as [|[|j]]; reflexivity.
  - intros i j Hi Hj. destruct i as [|[|i]]; cbn [vortex_u]; unfold du.
    + eapply D_eq; [apply (D_u M beta _ _ 0 _ _ (DA j Hj) (DB j Hj))|].
      rewrite A0. destruct j as [|[|j]]; reflexivity.
    + eapply D_eq; [apply (D_v beta _ _ 0 _ _ (DA j Hj) (DB j Hj))|].
      rewrite A0. destruct j as [|[|j]]; reflexivity.
    + eapply D_eq; [apply D_const|]. destruct j as [|[|j]]; reflexivity.
  - fold r. pose proof (T_pos gamma beta Hg Hb a b) as PT. fold (vortex_fac beta a b) in PT. fold f in PT.
    change (0 < vortex_T gamma beta a b) in PT.
    unfold dd, dr, du, f1. destruct Hd as [-> | ->]; cbn [rsum vortex_u]; fold a b f; field; lra.
  - intros k Hk. fold r.
    destruct Hd as [-> | ->]; destruct k as [|[|[|k]]]; try lia;
      unfold dd, dp, du, f1; cbn [rsum vortex_u]; fold a b f; ring.
  - fold r. assert (PE : vortex_p gamma M beta t x = r * vortex_T gamma beta a b)
      by apply (p_rho_T gamma beta Hg Hb a b).
    rewrite PE. unfold dd, dp, du, f1. destruct Hd as [-> | ->]; cbn [rsum vortex_u]; fold a b f; ring.
Qed.

(** ** One-dimensional states *)
Definition vel1 (u : R) : vec := fun i => if Nat.eqb i 0 then u else 0.

Lemma rsum_vel1 dim u : (1 <= dim)%nat -> rsum dim (fun i => vel1 u i * vel1 u i) = u * u.
Proof.
  intros H. rewrite (rsum_ext dim _ (fun i => if Nat.eqb 0 i then u * u else 0)).
  - rewrite (rsum_delta dim (fun _ => u * u)) by lia. reflexivity.
  - intros i _. unfold vel1. destruct i; cbn [Nat.eqb]; ring.
Qed.

Lemma dot_e0 dim (f : vec) : (1 <= dim)%nat -> dot dim f e0 = f 0%nat.
Proof.
  intros H. unfold dot. rewrite (rsum_ext dim _ (fun i => if Nat.eqb 0 i then f i else 0)).
  - rewrite rsum_delta by lia. reflexivity.
  - intros i _. unfold e0. destruct i; cbn [Nat.eqb]; ring.
Qed.

Lemma from_initial_1d s dim rho u p : (1 <= dim)%nat ->
  veq (dim + 2) (from_initial_state s dim 1 (tensor [rho; u; p])) (gas_state (gamma s) dim rho (vel1 u) p).
Proof.
  intros H k Hk. unfold from_initial_state, from_primitive_state, gas_state, norm2, momentum, dot.
  rewrite rsum_vel1 by exact H.
  assert (Q : rsum dim (fun k0 => expand_state dim 1 (tensor [rho; u; p]) (S k0)
                        * expand_state dim 1 (tensor [rho; u; p]) (S k0)) = u * u).
  { rewrite <- (rsum_vel1 dim u H). apply rsum_ext. intros i Hi.
    unfold expand_state, vel1. cbn [Nat.eqb]. destruct (Nat.eqb_spec i dim); [lia|].
    destruct i as [|i]; reflexivity. }
  rewrite Q. unfold expand_state. rewrite Nat.eqb_refl. cbn [Nat.eqb].
  destruct (Nat.eqb_spec k 0) as [->|K0].
  { destruct (Nat.eqb_spec 0 (S dim)); [lia|]. reflexivity. }
  destruct (Nat.eqb_spec k (S dim)) as [->|K1].
  { unfold tensor; cbn [nth]. unfold Rdiv; ring. }
  destruct (Nat.leb_spec k dim); [|lia]. unfold tensor, vel1.
  destruct k as [|[|k]]; [lia| |]; cbn [Nat.leb Nat.sub Nat.eqb nth]; ring.
Qed.

Lemma gas_jump gamma dim s Ul Ur rl ul pl rr ur pr :
  (1 <= dim)%nat -> gamma <> 1 -> 0 < rl -> 0 < rr ->
  veq (dim + 2) Ul (gas_state gamma dim rl (vel1 ul) pl) ->
  veq (dim + 2) Ur (gas_state gamma dim rr (vel1 ur) pr) ->
  rr * ur - rl * ul = s * (rr - rl) ->
  (rr * ur * ur + pr) - (rl * ul * ul + pl) = s * (rr * ur - rl * ul) ->
  ur * (gamma / (gamma - 1) * pr + rr / 2 * (ur * ur)) - ul * (gamma / (gamma - 1) * pl + rl / 2 * (ul * ul))
    = s * ((pr / (gamma - 1) + rr / 2 * (ur * ur)) - (pl / (gamma - 1) + rl / 2 * (ul * ul))) ->
  jump_condition dim (dim + 2) (gas_flux gamma dim) e0 s Ul Ur.
Proof.
  intros Hd Hg Pl Pr El Er J1 J2 J3 k Hk. rewrite !dot_e0 by exact Hd.
  rewrite (gas_flux_veq gamma dim _ _ k 0 Hk ltac:(lia) El), (gas_flux_veq gamma dim _ _ k 0 Hk ltac:(lia) Er).
  rewrite (El k Hk), (Er k Hk).
  rewrite !gas_flux_primitive by (assumption || lia). unfold primitive_flux, gas_state.
  rewrite !rsum_vel1 by exact Hd.
  destruct (Nat.eqb_spec k 0) as [->|K0]; [exact J1|].
  destruct (Nat.eqb_spec k (S dim)) as [->|K1]; [exact J3|].
  unfold vel1. cbn [Nat.eqb].
  destruct (Nat.eqb_spec (k - 1) 0) as [Z|Z]; destruct (Nat.eqb_spec k 1) as [Y|Y]; try lia.
  - exact J2.
  - ring.
Qed.

(** A field that is locally constant solves the equations. *)
Lemma constant_solves gamma dim (W : field) t x d rho u p :
  gamma <> 1 -> 0 < rho -> 0 < d ->
  (forall s, Rabs (s - t) < d -> veq (dim + 2) (W s x) (gas_state gamma dim rho u p)) ->
  (forall j s, (j < dim)%nat -> Rabs s < d -> veq (dim + 2) (W t (along x j s)) (gas_state gamma dim rho u p)) ->
  solves_euler gamma dim W t x.
Proof.
  intros Hg Hr Hd H1 H2.
  apply (euler_primitive gamma dim (fun _ _ => rho) (fun _ _ => p) (fun _ _ => u) W t x d 0 0
    (fun _ => 0) (fun _ => 0) (fun _ => 0) (fun _ _ => 0)); auto; try (intros; apply D_const).
  - rewrite !(rsum_ext dim _ (fun _ => 0)) by (intros; ring). rewrite !rsum_0. ring.
  - intros k Hk. rewrite !(rsum_ext dim _ (fun _ => 0)) by (intros; ring). rewrite !rsum_0. ring.
  - rewrite !(rsum_ext dim _ (fun _ => 0)) by (intros; ring). rewrite !rsum_0. ring.
Qed.

Lemma along_first x j s : along x j s 0%nat = x 0%nat + (if Nat.eqb j 0 then s else 0).
Proof. unfold along. destruct j; cbn [Nat.eqb]; ring. Qed.

(** ** Shock front *)
Lemma shock_left_jump gamma M rho_R u_R p_R rho_L u_L p_L S3 :
  1 < gamma -> 0 < rho_R -> 0 < p_R ->
  shock_left gamma 0 M rho_R u_R p_R = ((rho_L, u_L, p_L), S3) ->
  u_R <> S3 ->
  let a_R := sqrt (gamma * p_R / rho_R) in
  0 < a_R /\ a_R * a_R = gamma * p_R / rho_R /\ S3 = M * a_R /\ 0 < rho_L /\
  rho_L * (u_L - S3) = rho_R * (u_R - S3) /\
  (rho_R * u_R * u_R + p_R) - (rho_L * u_L * u_L + p_L) = S3 * (rho_R * u_R - rho_L * u_L) /\
  u_R * (gamma / (gamma - 1) * p_R + rho_R / 2 * (u_R * u_R)) - u_L * (gamma / (gamma - 1) * p_L + rho_L / 2 * (u_L * u_L))
    = S3 * ((p_R / (gamma - 1) + rho_R / 2 * (u_R * u_R)) - (p_L / (gamma - 1) + rho_L / 2 * (u_L * u_L))) /\
  (let d := (u_R - S3) / a_R in
   rho_L = rho_R * (gamma + 1) * (d * d) / ((gamma - 1) * (d * d) + 2) /\
   p_L = p_R * (2 * gamma * (d * d) - (gamma - 1)) / (gamma + 1)).
Proof.
  intros Hg Hr Hp E Hne a_R.
  assert (Pa : 0 < gamma * p_R / rho_R) by (apply Rdiv_lt_0_compat; nra).
  assert (A0 : 0 < a_R) by (apply sqrt_lt_R0; exact Pa).
  assert (A2 : a_R * a_R = gamma * p_R / rho_R) by (apply sqrt_sqrt; lra).
  unfold shock_left in E.
  replace (gamma * p_R / rho_R / (1 - 0 * rho_R)) with (gamma * p_R / rho_R) in E by (field; lra).
  fold a_R in E. set (d := u_R / a_R - M) in *.
  injection E as E1 E2 E3 E4.
  assert (Hd : d <> 0).
  { intros Z. apply Hne. rewrite <- E4. unfold d in Z.
    replace u_R with ((u_R / a_R - M) * a_R + M * a_R) by (field; lra). rewrite Z. ring. }
  assert (D2 : 0 < d * d) by (destruct (Rtotal_order d 0) as [?|[?|?]]; [|contradiction|]; nra).
  assert (Den : 0 < (gamma - 1) * d * d + 2) by nra.
  assert (RL : 0 < rho_L).
  { rewrite <- E1. apply Rdiv_lt_0_compat; [|exact Den]. rewrite Rmult_assoc. apply Rmult_lt_0_compat; [apply Rmult_lt_0_compat; lra|exact D2]. }
  assert (UR : u_R = a_R * (d + M)) by (unfold d; field; lra).
  assert (UL : u_L - S3 = rho_R / rho_L * (u_R - S3)).
  { rewrite <- E2, E1, E4. ring. }
  assert (PR : p_R = rho_R * (a_R * a_R) / gamma) by (rewrite A2; field; lra).
  split; [exact A0|]. split; [exact A2|]. split; [symmetry; exact E4|]. split; [exact RL|].
  assert (UL' : u_L = M * a_R + ((gamma - 1) * d * d + 2) / ((gamma + 1) * d) * a_R).
  { replace u_L with (u_L - S3 + S3) by ring. rewrite UL, <- E4, <- E1, UR. field.
    repeat split; lra. }
  split; [rewrite UL; field; lra|].
  assert (DD : (u_R - S3) / a_R = d) by (rewrite UR, <- E4; field; lra).
  clearbody d.
  split; [|split].
  - rewrite UL', <- E1, <- E3, <- E4, PR, UR. field. repeat split; lra.
  - rewrite UL', <- E1, <- E3, <- E4, PR, UR. field. repeat split; lra.
  - cbv zeta. rewrite DD. split; [rewrite <- E1; f_equal; [ring|f_equal; ring]|rewrite <- E3; f_equal; ring].
Qed.

Lemma gas_state_facts gamma dim U rho u p : (1 <= dim)%nat -> gamma <> 1 -> 0 < rho ->
  veq (dim + 2) U (gas_state gamma dim rho (vel1 u) p) ->
  U 0%nat = rho /\ U 1%nat = rho * u /\ gas_pressure gamma dim U = p /\
  (forall k, (2 <= k <= dim)%nat -> U k = 0).
Proof.
  intros Hd Hg Hr E. split; [rewrite E by lia; reflexivity|]. split.
  { rewrite E by lia. unfold gas_state. destruct (Nat.eqb_spec 1 (S dim)); [lia|]. reflexivity. }
  split; [rewrite (gas_pressure_veq gamma dim _ _ E); apply gas_state_pressure; assumption|].
  intros k Hk. rewrite E by lia. unfold gas_state, vel1.
  destruct (Nat.eqb_spec k 0); [lia|]. destruct (Nat.eqb_spec k (S dim)); [lia|].
  destruct (Nat.eqb_spec (k - 1) 0); [lia|]. ring.
Qed.

Lemma lax_condition gamma rho u p a S rL uL pL :
  1 < gamma -> 0 < rho -> 0 < p -> 0 < a -> a * a = gamma * p / rho -> u + a < S -> 0 < rL ->
  rL * (uL - S) = rho * (u - S) ->
  let d := (u - S) / a in
  rL = rho * (gamma + 1) * (d * d) / ((gamma - 1) * (d * d) + 2) ->
  pL = p * (2 * gamma * (d * d) - (gamma - 1)) / (gamma + 1) ->
  rho < rL /\ p < pL /\ S < uL + sqrt (gamma * pL / rL).
Proof.
  intros Hg Hr Hp Ha A2 HS HrL Mass d Er Ep.
  assert (Hd : d < - 1).
  { unfold d. apply (Rmult_lt_reg_r a); [exact Ha|].
    unfold Rdiv. rewrite Rmult_assoc, Rinv_l by lra. lra. }
  assert (D2 : 1 < d * d) by nra.
  assert (SU : S - u = - d * a) by (unfold d; field; lra). clearbody d.
  assert (Den : 0 < (gamma - 1) * (d * d) + 2) by nra.
  assert (N1 : rho < rL).
  { rewrite Er. apply (Rmult_lt_reg_r ((gamma - 1) * (d * d) + 2)); [exact Den|].
    unfold Rdiv. rewrite Rmult_assoc, Rinv_l by lra. rewrite Rmult_1_r, Rmult_assoc.
    apply Rmult_lt_compat_l; [exact Hr|]. nra. }
  assert (N2 : p < pL).
  { rewrite Ep. apply (Rmult_lt_reg_r (gamma + 1)); [lra|].
    unfold Rdiv. rewrite Rmult_assoc, Rinv_l by lra. rewrite Rmult_1_r.
    apply Rmult_lt_compat_l; [exact Hp|]. nra. }
  split; [exact N1|]. split; [exact N2|].
  assert (Q : 0 < S - u) by lra.
  assert (U : S - uL = rho / rL * (S - u)).
  { apply (Rmult_eq_reg_l rL); [|lra]. replace (rL * (S - uL)) with (- (rL * (uL - S))) by ring.
    rewrite Mass. field. lra. }
  assert (V : 0 < S - uL) by (rewrite U; apply Rmult_lt_0_compat; [apply Rdiv_lt_0_compat; lra|exact Q]).
  assert (SQ : (S - uL) * (S - uL) < gamma * pL / rL).
  { rewrite U, SU. replace (rho / rL * (- d * a) * (rho / rL * (- d * a)))
      with (rho * rho * (a * a) * (d * d) / rL / rL) by (field; lra).
    rewrite A2. unfold Rdiv. apply Rmult_lt_compat_r; [apply Rinv_0_lt_compat; exact HrL|].
    apply (Rmult_lt_reg_r rL); [exact HrL|]. rewrite Rmult_assoc, Rinv_l, Rmult_1_r by lra.
    rewrite Ep, Er.
    apply Rminus_gt_0_lt.
    replace (gamma * (p * (2 * gamma * (d * d) - (gamma - 1)) / (gamma + 1)) *
        (rho * (gamma + 1) * (d * d) / ((gamma - 1) * (d * d) + 2)) -
        rho * rho * (gamma * p * / rho) * (d * d))
      with (gamma * p * rho * (d * d) * ((gamma + 1) * (d * d - 1)) / ((gamma - 1) * (d * d) + 2))
      by (field; split; lra).
    apply Rdiv_lt_0_compat; [|exact Den]. set (q := d * d) in *. clearbody q. repeat apply Rmult_lt_0_compat; lra. }
  assert (S - uL < sqrt (gamma * pL / rL)); [|lra].
  rewrite <- (sqrt_square (S - uL)) by lra. apply sqrt_lt_1_alt. split; [|exact SQ].
  apply Rle_0_sqr.
Qed.

Lemma gas_state_ext gamma dim rho u v p : veq dim u v ->
  veq (dim + 2) (gas_state gamma dim rho u p) (gas_state gamma dim rho v p).
Proof.
  intros E k Hk. unfold gas_state.
  rewrite (rsum_ext dim (fun i => u i * u i) (fun i => v i * v i)) by (intros i Hi; rewrite E by exact Hi; reflexivity).
  destruct (Nat.eqb_spec k 0); [reflexivity|]. destruct (Nat.eqb_spec k (S dim)); [reflexivity|].
  rewrite E by lia. reflexivity.
Qed.

Lemma veq_trans n a b c : veq n a b -> veq n b c -> veq n a c.
Proof. intros H1 H2 k Hk. rewrite H1, H2 by exact Hk. reflexivity. Qed.
Lemma veq_sym n a b : veq n a b -> veq n b a.
Proof. intros H k Hk. symmetry; apply H; exact Hk. Qed.

(** The jump condition for two velocities in the direction of the normal. *)
Lemma gas_jump_n gamma dim n s Ul Ur rl ul pl rr ur pr :
  gamma <> 1 -> 0 < rl -> 0 < rr -> rsum dim (fun i => n i * n i) = 1 ->
  veq (dim + 2) Ul (gas_state gamma dim rl (vscal ul n) pl) ->
  veq (dim + 2) Ur (gas_state gamma dim rr (vscal ur n) pr) ->
  rr * ur - rl * ul = s * (rr - rl) ->
  (rr * ur * ur + pr) - (rl * ul * ul + pl) = s * (rr * ur - rl * ul) ->
  ur * (gamma / (gamma - 1) * pr + rr / 2 * (ur * ur)) - ul * (gamma / (gamma - 1) * pl + rl / 2 * (ul * ul))
    = s * ((pr / (gamma - 1) + rr / 2 * (ur * ur)) - (pl / (gamma - 1) + rl / 2 * (ul * ul))) ->
  jump_condition dim (dim + 2) (gas_flux gamma dim) n s Ul Ur.
Proof.
  intros Hg Pl Pr N El Er J1 J2 J3 k Hk.
  assert (SQ : forall v, rsum dim (fun i => vscal v n i * vscal v n i) = v * v).
  { intros v. rewrite (rsum_ext dim _ (fun i => v * v * (n i * n i))) by (intros; unfold vscal; ring).
    rewrite rsum_scal, N. ring. }
  assert (F : forall U r v q, 0 < r -> veq (dim + 2) U (gas_state gamma dim r (vscal v n) q) ->
     dot dim (gas_flux gamma dim U k) n =
       if Nat.eqb k 0 then r * v else if Nat.eqb k (S dim) then
         v * (gamma / (gamma - 1) * q + r / 2 * (v * v)) else (r * v * v + q) * n (k - 1)%nat).
  { intros U r v q Hr E. unfold dot.
    rewrite (rsum_ext dim _ (fun j => primitive_flux gamma dim r (vscal v n) q k j * n j)).
    2:{ intros j Hj. rewrite (gas_flux_veq gamma dim _ _ k j Hk Hj E), gas_flux_primitive by assumption. reflexivity. }
    unfold primitive_flux. rewrite SQ.
    destruct (Nat.eqb_spec k 0) as [->|K0].
    { rewrite (rsum_ext dim _ (fun j => r * v * (n j * n j))) by (intros; unfold vscal; ring).
      rewrite rsum_scal, N. ring. }
    destruct (Nat.eqb_spec k (S dim)) as [->|K1].
    { set (c := gamma / (gamma - 1) * q + r / 2 * (v * v)).
      rewrite (rsum_ext dim _ (fun j => v * c * (n j * n j))) by (intros; unfold vscal; ring).
      rewrite rsum_scal, N. ring. }
    rewrite (rsum_ext dim _ (fun j => r * v * v * n (k - 1)%nat * (n j * n j)
      + (if Nat.eqb (k - 1) j then q * n j else 0))).
    2:{ intros j Hj. unfold vscal.
        destruct (Nat.eqb_spec k (S j)), (Nat.eqb_spec (k - 1) j); try lia; ring. }
    rewrite rsum_plus, rsum_scal, N, (rsum_delta dim (fun j => q * n j)) by lia. ring. }
  rewrite (F Ur rr ur pr Pr Er), (F Ul rl ul pl Pl El), (El k Hk), (Er k Hk).
  unfold gas_state. rewrite !SQ.
  destruct (Nat.eqb_spec k 0) as [->|K0]; [exact J1|].
  destruct (Nat.eqb_spec k (S dim)) as [->|K1]; [exact J3|].
  unfold vscal. transitivity (((rr * ur * ur + pr) - (rl * ul * ul + pl)) * n (k - 1)%nat); [ring|].
  rewrite J2. ring.
Qed.

Lemma C89_shock_front_proof s dim M rho u p :
  1 < gamma s -> (1 <= dim)%nat -> 0 < rho -> 0 < p ->
  let a := sqrt (gamma s * p / rho) in
  u <> M * a ->
  let W := fun t x => shock_front (from_initial_state s dim 1) (gamma s) 0 M rho u p x t in
  exists Ul Ur : vec,
    Ur 0%nat = rho /\ Ur 1%nat = rho * u /\ gas_pressure (gamma s) dim Ur = p /\
    (forall k, (2 <= k <= dim)%nat -> Ur k = 0) /\
    (forall t x, M * a * t < x 0%nat -> W t x = Ur /\ solves_euler (gamma s) dim W t x) /\
    (forall t x, x 0%nat < M * a * t -> W t x = Ul /\ solves_euler (gamma s) dim W t x) /\
    jump_condition dim (dim + 2) (gas_flux (gamma s) dim) e0 (M * a) Ul Ur /\
    (u + a < M * a ->
       rho < Ul 0%nat /\ p < gas_pressure (gamma s) dim Ul /\
       M * a < Ul 1%nat / Ul 0%nat + sqrt (gamma s * gas_pressure (gamma s) dim Ul / Ul 0%nat)).
Proof.
  intros Hg Hd Hr Hp a Hne W.
  destruct (shock_left (gamma s) 0 M rho u p) as [[[rL uL] pL] S3] eqn:E.
  assert (S3E : S3 = M * a).
  { unfold shock_left in E. injection E as _ _ _ E4. rewrite <- E4. unfold a. do 2 f_equal. field. lra. }
  destruct (shock_left_jump (gamma s) M rho u p rL uL pL S3 Hg Hr Hp E ltac:(rewrite S3E; exact Hne))
    as (A0 & A2 & _ & RL & J1 & J2 & J3 & DE). fold a in A0, A2, DE.
  pose proof (from_initial_1d s dim rL uL pL Hd) as EL.
  pose proof (from_initial_1d s dim rho u p Hd) as ER.
  exists (from_initial_state s dim 1 (tensor [rL; uL; pL])), (from_initial_state s dim 1 (tensor [rho; u; p])).
  destruct (gas_state_facts (gamma s) dim _ _ _ _ Hd ltac:(lra) Hr ER) as (F1 & F2 & F3 & F4).
  destruct (gas_state_facts (gamma s) dim _ _ _ _ Hd ltac:(lra) RL EL) as (G1 & G2 & G3 & _).
  refine (conj F1 (conj F2 (conj F3 (conj F4 (conj _ (conj _ (conj _ _))))))).
  - intros t x Hx. assert (V : forall s' y, M * a * s' < y 0%nat -> W s' y = from_initial_state s dim 1 (tensor [rho; u; p])).
    { intros s' y Hy. unfold W, shock_front. rewrite E, S3E. destruct (Rlt_dec 0 _); [reflexivity|lra]. }
    split; [apply V; exact Hx|].
    set (g := x 0%nat - M * a * t). assert (0 < g) by (unfold g; lra).
    assert (Z : 0 < Rabs (M * a) + 1) by (pose proof (Rabs_pos (M * a)); lra).
    apply (constant_solves (gamma s) dim W t x (g / (Rabs (M * a) + 1)) rho (vel1 u) p); try lra.
    + apply Rdiv_lt_0_compat; assumption.
    + intros s' Hs. rewrite V; [exact ER|].
      assert (Rabs (M * a * (s' - t)) < g).
      { rewrite Rabs_mult. apply Rle_lt_trans with ((Rabs (M * a) + 1) * Rabs (s' - t)).
        - apply Rmult_le_compat_r; [apply Rabs_pos|lra].
        - apply (Rmult_lt_reg_r (/ (Rabs (M * a) + 1))); [apply Rinv_0_lt_compat; exact Z|].
          replace ((Rabs (M * a) + 1) * Rabs (s' - t) * / (Rabs (M * a) + 1)) with (Rabs (s' - t)) by (field; lra).
          exact Hs. }
      apply Rabs_def2 in H0. unfold g in H0. lra.
    + intros j s' Hj Hs. rewrite V; [exact ER|]. rewrite along_first.
      assert (Rabs s' < g).
      { eapply Rlt_le_trans; [exact Hs|]. apply (Rmult_le_reg_r (Rabs (M * a) + 1)); [exact Z|].
        unfold Rdiv. rewrite Rmult_assoc, Rinv_l by lra. pose proof (Rabs_pos (M * a)). nra. }
      apply Rabs_def2 in H0. unfold g in H0. destruct (Nat.eqb j 0); lra.
  - intros t x Hx. assert (V : forall s' y, y 0%nat < M * a * s' -> W s' y = from_initial_state s dim 1 (tensor [rL; uL; pL])).
    { intros s' y Hy. unfold W, shock_front. rewrite E, S3E. destruct (Rlt_dec 0 _); [lra|reflexivity]. }
    split; [apply V; exact Hx|].
    set (g := M * a * t - x 0%nat). assert (0 < g) by (unfold g; lra).
    assert (Z : 0 < Rabs (M * a) + 1) by (pose proof (Rabs_pos (M * a)); lra).
    apply (constant_solves (gamma s) dim W t x (g / (Rabs (M * a) + 1)) rL (vel1 uL) pL); try lra.
    + apply Rdiv_lt_0_compat; assumption.
    + intros s' Hs. rewrite V; [exact EL|].
      assert (Rabs (M * a * (s' - t)) < g).
      { rewrite Rabs_mult. apply Rle_lt_trans with ((Rabs (M * a) + 1) * Rabs (s' - t)).
        - apply Rmult_le_compat_r; [apply Rabs_pos|lra].
        - apply (Rmult_lt_reg_r (/ (Rabs (M * a) + 1))); [apply Rinv_0_lt_compat; exact Z|].
          replace ((Rabs (M * a) + 1) * Rabs (s' - t) * / (Rabs (M * a) + 1)) with (Rabs (s' - t)) by (field; lra).
          exact Hs. }
      apply Rabs_def2 in H0. unfold g in H0. lra.
    + intros j s' Hj Hs. rewrite V; [exact EL|]. rewrite along_first.
      assert (Rabs s' < g).
      { eapply Rlt_le_trans; [exact Hs|]. apply (Rmult_le_reg_r (Rabs (M * a) + 1)); [exact Z|].
        unfold Rdiv. rewrite Rmult_assoc, Rinv_l by lra. pose proof (Rabs_pos (M * a)). nra. }
      apply Rabs_def2 in H0. unfold g in H0. destruct (Nat.eqb j 0); lra.
  - rewrite <- S3E. apply (gas_jump (gamma s) dim S3 _ _ rL uL pL rho u p); try assumption; try lra.
  - intros HL. rewrite G1, G2, G3. replace (rL * uL / rL) with uL by (field; lra).
    destruct DE as [D1 D2]. rewrite <- S3E in HL |- *.
    apply (lax_condition (gamma s) rho u p a S3 rL uL pL); assumption.
Qed.
