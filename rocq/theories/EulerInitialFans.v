(** * Proofs: self-similar solutions of the Euler equations *)
From Coq Require Import Reals Arith Lia Lra Psatz List FunctionalExtensionality.
From Verif Require Import RVec EulerSystem BalanceSpec BalanceProofs EulerInitialStates EulerInitialProofs.
Import ListNotations.
Local Open Scope R_scope.

(** A field that depends on x_0 / (T0 + t) only, locally between [a] and [b]. *)
Lemma fan_solves gamma dim T0 (rho u p : R -> R) a b (W : field) t x r' u' p' :
  gamma <> 1 -> (1 <= dim)%nat -> 0 < T0 + t ->
  let chi := x 0%nat / (T0 + t) in
  a < chi < b ->
  (forall s y, 0 < T0 + s -> a < y 0%nat / (T0 + s) < b ->
     0 < rho (y 0%nat / (T0 + s)) /\
     veq (dim + 2) (W s y) (gas_state gamma dim (rho (y 0%nat / (T0 + s))) (vel1 (u (y 0%nat / (T0 + s))))
       (p (y 0%nat / (T0 + s))))) ->
  derivable_pt_lim rho chi r' -> derivable_pt_lim u chi u' -> derivable_pt_lim p chi p' ->
  (u chi - chi) * r' + rho chi * u' = 0 ->
  rho chi * (u chi - chi) * u' + p' = 0 ->
  (u chi - chi) * p' + gamma * p chi * u' = 0 ->
  solves_euler gamma dim W t x.
Proof.
  intros Hg Hd HT chi Hchi HW Dr Du Dp E1 E2 E3.
  set (T := T0 + t) in *.
  (* neighbourhoods *)
  assert (DT : derivable_pt_lim (fun s => x 0%nat / (T0 + s)) t (- chi / T)).
  { eapply D_eq; [apply D_div; [|apply D_const|apply D_plus; [apply D_const|apply D_id]]|].
    - fold T. lra.
    - fold T. unfold chi. field. lra. }
  assert (DX : forall j, derivable_pt_lim (fun s => along x j s 0%nat / T) 0 (if Nat.eqb j 0 then / T else 0)).
  { intros j. eapply D_eq.
    - apply (D_near (fun s => (x 0%nat + s * (if Nat.eqb 0 j then 1 else 0)) / T) _ 0 _ 1 Rlt_0_1).
      + intros s _. reflexivity.
      + apply D_div; [lra|apply D_plus; [apply D_const|apply D_mult; [apply D_id|apply D_const]]|apply D_const].
    - cbv beta. destruct j; cbn [Nat.eqb]; field; lra. }
  assert (N : exists d, 0 < d /\ (forall s, Rabs (s - t) < d -> 0 < T0 + s /\ a < x 0%nat / (T0 + s) < b) /\
     (forall j s, Rabs s < d -> a < along x j s 0%nat / T < b)).
  { set (m := Rmin (chi - a) (b - chi)). assert (Pm : 0 < m) by (apply Rmin_glb_lt; lra).
    assert (C : continuity_pt (fun s => x 0%nat / (T0 + s)) t).
    { apply derivable_continuous_pt. exists (- chi / T). exact DT. }
    destruct (C m Pm) as (d1 & P1 & Q1).
    exists (Rmin (Rmin d1 T) (m * T)). repeat split.
    - repeat apply Rmin_glb_lt; try assumption. apply Rmult_lt_0_compat; assumption.
    - assert (H' : Rabs (s - t) < T).
      { eapply Rlt_le_trans; [exact H|]. eapply Rle_trans; [apply Rmin_l|apply Rmin_r]. }
      apply Rabs_def2 in H'. unfold T in *. lra.
    - assert (H1 : Rabs (s - t) < d1).
      { eapply Rlt_le_trans; [exact H|]. eapply Rle_trans; [apply Rmin_l|apply Rmin_l]. }
      destruct (Req_dec s t) as [->|Ne]; [exact (proj1 Hchi)|].
      assert (Z := Q1 s). simpl in Z. unfold R_dist in Z. fold T in Z. fold chi in Z.
      specialize (Z (conj (conj I (not_eq_sym Ne)) H1)).
      apply Rabs_def2 in Z. pose proof (Rmin_l (chi - a) (b - chi)). fold m in H0. lra.
    - assert (H1 : Rabs (s - t) < d1).
      { eapply Rlt_le_trans; [exact H|]. eapply Rle_trans; [apply Rmin_l|apply Rmin_l]. }
      destruct (Req_dec s t) as [->|Ne]; [exact (proj2 Hchi)|].
      assert (Z := Q1 s). simpl in Z. unfold R_dist in Z. fold T in Z. fold chi in Z.
      specialize (Z (conj (conj I (not_eq_sym Ne)) H1)).
      apply Rabs_def2 in Z. pose proof (Rmin_r (chi - a) (b - chi)). fold m in H0. lra.
    - assert (H1 : Rabs s < m * T) by (eapply Rlt_le_trans; [exact H|apply Rmin_r]).
      rewrite along_first. pose proof (Rmin_l (chi - a) (b - chi)) as L. fold m in L.
      assert (K : chi - m < (x 0%nat + (if Nat.eqb j 0 then s else 0)) / T).
      { apply (Rmult_lt_reg_r T); [exact HT|]. unfold Rdiv. rewrite Rmult_assoc, Rinv_l by lra.
        replace ((chi - m) * T) with (x 0%nat - m * T) by (unfold chi; field; lra).
        apply Rabs_def2 in H1. assert (0 < m * T) by (apply Rmult_lt_0_compat; lra). destruct (Nat.eqb j 0); lra. }
      lra.
    - assert (H1 : Rabs s < m * T) by (eapply Rlt_le_trans; [exact H|apply Rmin_r]).
      rewrite along_first. pose proof (Rmin_r (chi - a) (b - chi)) as L. fold m in L.
      assert (K : (x 0%nat + (if Nat.eqb j 0 then s else 0)) / T < chi + m).
      { apply (Rmult_lt_reg_r T); [exact HT|]. unfold Rdiv. rewrite Rmult_assoc, Rinv_l by lra.
        replace ((chi + m) * T) with (x 0%nat + m * T) by (unfold chi; field; lra).
        apply Rabs_def2 in H1. assert (0 < m * T) by (apply Rmult_lt_0_compat; lra). destruct (Nat.eqb j 0); lra. }
      lra. }
  destruct N as (d & Pd & N1 & N2).
  assert (X0 : forall j, along x j 0 0%nat / T = chi) by (intros; rewrite along_0; reflexivity).
  apply (euler_primitive gamma dim (fun s y => rho (y 0%nat / (T0 + s))) (fun s y => p (y 0%nat / (T0 + s)))
    (fun s y => vel1 (u (y 0%nat / (T0 + s)))) W t x d
    (r' * (- chi / T)) (p' * (- chi / T)) (vel1 (u' * (- chi / T)))
    (vel1 (r' * / T)) (vel1 (p' * / T))
    (fun i j => if Nat.eqb i 0 then if Nat.eqb j 0 then u' * / T else 0 else 0)); try assumption.
  - intros s Hs. destruct (N1 s Hs) as [P Q]. apply (HW s x P Q).
  - intros j s Hj Hs. fold T. apply HW; [exact HT|apply N2; exact Hs].
  - apply (D_comp rho (fun s => x 0%nat / (T0 + s))); [exact DT|exact Dr].
  - apply (D_comp p (fun s => x 0%nat / (T0 + s))); [exact DT|exact Dp].
  - intros i Hi. unfold vel1. destruct (Nat.eqb i 0); [|apply D_const].
    apply (D_comp u (fun s => x 0%nat / (T0 + s))); [exact DT|exact Du].
  - intros j Hj. fold T. eapply D_eq.
    + apply (D_comp rho (fun s => along x j s 0%nat / T)); [exact (DX j)|rewrite X0; exact Dr].
    + unfold vel1. destruct (Nat.eqb j 0); ring.
  - intros j Hj. fold T. eapply D_eq.
    + apply (D_comp p (fun s => along x j s 0%nat / T)); [exact (DX j)|rewrite X0; exact Dp].
    + unfold vel1. destruct (Nat.eqb j 0); ring.
  - intros i j Hi Hj. fold T. unfold vel1. destruct (Nat.eqb i 0); [|apply D_const]. eapply D_eq.
    + apply (D_comp u (fun s => along x j s 0%nat / T)); [exact (DX j)|rewrite X0; exact Du].
    + destruct (Nat.eqb j 0); ring.
  - fold T. fold chi.
    rewrite (rsum_ext dim (fun j => vel1 (u chi) j * vel1 (r' * / T) j)
      (fun j => if Nat.eqb 0 j then u chi * (r' * / T) else 0)).
    2:{ intros j _. unfold vel1. destruct j; cbn [Nat.eqb]; ring. }
    rewrite (rsum_ext dim (fun j => if Nat.eqb j 0 then _ else _)
      (fun j => if Nat.eqb 0 j then u' * / T else 0)).
    2:{ intros j _. destruct j; cbn [Nat.eqb]; ring. }
    rewrite (rsum_delta dim (fun _ => u chi * (r' * / T))), (rsum_delta dim (fun _ => u' * / T)) by lia.
    replace (r' * (- chi / T) + u chi * (r' * / T) + rho chi * (u' * / T))
      with (((u chi - chi) * r' + rho chi * u') / T) by (field; lra).
    rewrite E1. unfold Rdiv; ring.
  - intros k Hk. fold T. fold chi.
    rewrite (rsum_ext dim (fun j => vel1 (u chi) j * _)
      (fun j => if Nat.eqb 0 j then u chi * (if Nat.eqb k 0 then u' * / T else 0) else 0)).
    2:{ intros j _. unfold vel1. destruct j; cbn [Nat.eqb]; destruct (Nat.eqb k 0); ring. }
    rewrite (rsum_delta dim (fun _ => u chi * _)) by lia.
    unfold vel1. destruct (Nat.eqb k 0); [|ring].
    replace (rho chi * (u' * (- chi / T) + u chi * (u' * / T)) + p' * / T)
      with ((rho chi * (u chi - chi) * u' + p') / T) by (field; lra).
    rewrite E2. unfold Rdiv; ring.
  - fold T. fold chi.
    rewrite (rsum_ext dim (fun j => vel1 (u chi) j * vel1 (p' * / T) j)
      (fun j => if Nat.eqb 0 j then u chi * (p' * / T) else 0)).
    2:{ intros j _. unfold vel1. destruct j; cbn [Nat.eqb]; ring. }
    rewrite (rsum_ext dim (fun j => if Nat.eqb j 0 then _ else _)
      (fun j => if Nat.eqb 0 j then u' * / T else 0)).
    2:{ intros j _. destruct j; cbn [Nat.eqb]; ring. }
    rewrite (rsum_delta dim (fun _ => u chi * (p' * / T))), (rsum_delta dim (fun _ => u' * / T)) by lia.
    replace (p' * (- chi / T) + u chi * (p' * / T) + gamma * p chi * (u' * / T))
      with (((u chi - chi) * p' + gamma * p chi * u') / T) by (field; lra).
    rewrite E3. unfold Rdiv; ring.
Qed.

(** ** Continuity *)
Lemma finite_delta m (P : nat -> R -> Prop) :
  (forall k, (k < m)%nat -> exists d, 0 < d /\ forall s, Rabs s < d -> P k s) ->
  exists d, 0 < d /\ forall s, Rabs s < d -> forall k, (k < m)%nat -> P k s.
Proof.
  induction m as [|m IH]; intros H.
  - exists 1. split; [lra|]. intros; lia.
  - destruct IH as (d1 & P1 & Q1); [intros; apply H; lia|].
    destruct (H m ltac:(lia)) as (d2 & P2 & Q2).
    exists (Rmin d1 d2). split; [apply Rmin_glb_lt; assumption|].
    intros s Hs k Hk. destruct (Nat.eq_dec k m) as [->|N].
    + apply Q2. eapply Rlt_le_trans; [exact Hs|apply Rmin_r].
    + apply Q1; [|lia]. eapply Rlt_le_trans; [exact Hs|apply Rmin_l].
Qed.

Lemma continuous_no_jump m (W : field) n t x :
  (forall k, (k < m)%nat -> continuity_pt (fun s => W t (vadd x (vscal s n)) k) 0) -> no_jump m W n t x.
Proof.
  intros H.
  assert (V0 : forall k, W t (vadd x (vscal 0 n)) k = W t x k).
  { intros k. f_equal. apply functional_extensionality; intros i. unfold vadd, vscal. ring. }
  assert (K : forall eps, 0 < eps -> exists delta, 0 < delta /\
    forall s, Rabs s < delta -> forall k, (k < m)%nat -> Rabs (W t (vadd x (vscal s n)) k - W t x k) < eps).
  { intros eps He. apply finite_delta. intros k Hk. destruct (H k Hk eps He) as (d & Pd & Q).
    exists d. split; [exact Pd|]. intros s Hs. destruct (Req_dec s 0) as [->|N].
    - rewrite V0, Rminus_eq_0, Rabs_R0. exact He.
    - specialize (Q s). simpl in Q. unfold R_dist in Q. rewrite V0 in Q. apply Q.
      split; [split; [exact I|intros Z; apply N; symmetry; exact Z]|]. rewrite Rminus_0_r. exact Hs. }
  split; intros eps He; destruct (K eps He) as (d & Pd & Q); exists d; (split; [exact Pd|]);
    intros s Hs; apply Q; apply Rabs_def1; lra.
Qed.

Definition clamp (a b y : R) : R := Rmin b (Rmax a y).
Lemma clamp_lip a b y z : Rabs (clamp a b y - clamp a b z) <= Rabs (y - z).
Proof.
  unfold clamp, Rmin, Rmax.
  destruct (Rle_dec a y), (Rle_dec a z); repeat match goal with |- context [Rle_dec ?u ?v] => destruct (Rle_dec u v) end;
    unfold Rabs; repeat match goal with |- context [Rcase_abs ?u] => destruct (Rcase_abs u) end; lra.
Qed.
Lemma clamp_id a b y : a <= y <= b -> clamp a b y = y.
Proof. intros H. unfold clamp, Rmin, Rmax. destruct (Rle_dec a y), (Rle_dec b _); lra. Qed.
Lemma clamp_lo a b y : a <= b -> y <= a -> clamp a b y = a.
Proof. intros H1 H2. unfold clamp, Rmin, Rmax. destruct (Rle_dec a y), (Rle_dec b _); lra. Qed.
Lemma clamp_hi a b y : a <= b -> b <= y -> clamp a b y = b.
Proof. intros H1 H2. unfold clamp, Rmin, Rmax. destruct (Rle_dec a y), (Rle_dec b _); lra. Qed.
Lemma clamp_in a b y : a <= b -> a <= clamp a b y <= b.
Proof. intros H1. unfold clamp, Rmin, Rmax. destruct (Rle_dec a y), (Rle_dec b _); lra. Qed.

Lemma D_cont f x a : derivable_pt_lim f x a -> continuity_pt f x.
Proof. intros H. apply derivable_continuous_pt. exists a. exact H. Qed.

Lemma gas_state_cont gamma dim (rho u p : R -> R) c k :
  continuity_pt rho c -> continuity_pt u c -> continuity_pt p c ->
  continuity_pt (fun s => gas_state gamma dim (rho s) (vel1 (u s)) (p s) k) c.
Proof.
  intros C1 C2 C3. unfold gas_state. destruct (Nat.eqb k 0); [exact C1|].
  destruct (Nat.eqb k (S dim)).
  - assert (Q : forall s, rsum dim (fun i => vel1 (u s) i * vel1 (u s) i)
        = u s * u s * rsum dim (fun i => vel1 1 i * vel1 1 i)).
    { intros s. rewrite <- rsum_scal. apply rsum_ext. intros i _. unfold vel1. destruct (Nat.eqb i 0); ring. }
    set (q := rsum dim (fun i => vel1 1 i * vel1 1 i)) in *.
    eapply continuity_pt_locally_ext with (f := fun s => p s * / (gamma - 1) + rho s * (u s * u s) * (/ 2 * q)) (a := 1);
      [lra|intros; rewrite Q; unfold Rdiv; ring|].
    repeat first [apply continuity_pt_plus|apply continuity_pt_mult|apply continuity_pt_const; intros ? ?; reflexivity].
    + exact C3.
    + exact C1.
    + exact C2.
    + exact C2.
  - unfold vel1. destruct (Nat.eqb (k - 1) 0); apply continuity_pt_mult; try assumption.
    apply continuity_pt_const; intros ? ?; reflexivity.
Qed.

(** A field that is a function of x_0 / T, cut off at [a] and [b]. *)
Lemma clamp_no_jump gamma dim T a b (rho u p : R -> R) (W : field) t x :
  0 < T ->
  (forall y, veq (dim + 2) (W t y) (gas_state gamma dim (rho (clamp a b (y 0%nat / T)))
     (vel1 (u (clamp a b (y 0%nat / T)))) (p (clamp a b (y 0%nat / T))))) ->
  (let c := clamp a b (x 0%nat / T) in continuity_pt rho c /\ continuity_pt u c /\ continuity_pt p c) ->
  no_jump (dim + 2) W e0 t x.
Proof.
  intros HT HW (C1 & C2 & C3). apply continuous_no_jump. intros k Hk.
  eapply continuity_pt_locally_ext with (a := 1)
    (f := fun s => gas_state gamma dim (rho (clamp a b ((x 0%nat + s) / T)))
     (vel1 (u (clamp a b ((x 0%nat + s) / T)))) (p (clamp a b ((x 0%nat + s) / T))) k); [lra| |].
  { intros s _. rewrite (HW _ k Hk). unfold vadd, vscal, e0. cbn [Nat.eqb].
    replace (x 0%nat + s * 1) with (x 0%nat + s) by ring. reflexivity. }
  apply (continuity_pt_comp (fun s => clamp a b ((x 0%nat + s) / T))
    (fun c => gas_state gamma dim (rho c) (vel1 (u c)) (p c) k)).
  - intros eps He. exists (eps * T). split; [apply Rmult_lt_0_compat; lra|].
    intros s [_ Hs]. simpl in *. unfold R_dist in *.
    eapply Rle_lt_trans; [apply clamp_lip|].
    replace ((x 0%nat + s) / T - (x 0%nat + 0) / T) with ((s - 0) * / T) by (field; lra).
    rewrite Rabs_mult, (Rabs_right (/ T)) by (left; apply Rinv_0_lt_compat; lra).
    apply (Rmult_lt_reg_r T); [lra|]. rewrite Rmult_assoc, Rinv_l by lra. lra.
  - rewrite Rplus_0_r. apply gas_state_cont; assumption.
Qed.

(** ** Rarefaction *)
Section Rare.
Variable gamma : R.
Hypothesis Hg : 1 < gamma.

Definition r_c : R := sqrt (gamma / 3).
Definition r_q : R := powr (1 / 6) ((gamma - 1) / 2).
Definition r_b : R := r_c * (1 - r_q) * (gamma + 1) / (gamma - 1).
Definition r_w (chi : R) : R := 1 - (gamma - 1) * chi / ((gamma + 1) * r_c).
Definition r_rho (chi : R) : R := 3 * powr (r_w chi) (2 / (gamma - 1)).
Definition r_u (chi : R) : R := r_c + 2 * chi / (gamma + 1).
Definition r_p (chi : R) : R := powr (r_w chi) (2 * gamma / (gamma - 1)).

Lemma r_c_pos : 0 < r_c.
Proof. apply sqrt_lt_R0. lra. Qed.
Lemma r_c2 : r_c * r_c = gamma / 3.
Proof. apply sqrt_sqrt. lra. Qed.
Lemma r_q_pos : 0 < r_q < 1.
Proof.
  split; [apply powr_gt; lra|]. unfold r_q. rewrite powr_pos by lra.
  unfold Rpower. apply Rlt_le_trans with (exp 0); [|rewrite exp_0; lra]. apply exp_increasing.
  assert (ln (1 / 6) < ln 1) by (apply ln_increasing; lra). rewrite ln_1 in H.
  rewrite <- (Rmult_0_r ((gamma - 1) / 2)). apply Rmult_lt_compat_l; lra.
Qed.
Lemma r_b_pos : 0 < r_b.
Proof.
  unfold r_b. pose proof r_c_pos. pose proof r_q_pos.
  apply Rdiv_lt_0_compat; [|lra]. repeat apply Rmult_lt_0_compat; lra.
Qed.
Lemma r_w_b : r_w r_b = r_q.
Proof. unfold r_w, r_b. pose proof r_c_pos. field. repeat split; lra. Qed.
Lemma r_w_0 : r_w 0 = 1.
Proof. unfold r_w. pose proof r_c_pos. field. split; lra. Qed.
Lemma r_w_pos chi : 0 <= chi <= r_b -> 0 < r_w chi.
Proof.
  intros H. pose proof r_q_pos. apply Rlt_le_trans with (r_w r_b); [rewrite r_w_b; lra|].
  unfold r_w. pose proof r_c_pos.
  assert (0 < (gamma - 1) / ((gamma + 1) * r_c)) by (apply Rdiv_lt_0_compat; [lra|apply Rmult_lt_0_compat; lra]).
  replace ((gamma - 1) * r_b / ((gamma + 1) * r_c)) with ((gamma - 1) / ((gamma + 1) * r_c) * r_b) by (unfold Rdiv; ring).
  replace ((gamma - 1) * chi / ((gamma + 1) * r_c)) with ((gamma - 1) / ((gamma + 1) * r_c) * chi) by (unfold Rdiv; ring).
  nra.
Qed.
Lemma r_p_eq chi : 0 < r_w chi -> 3 * r_p chi = r_rho chi * (r_w chi * r_w chi).
Proof.
  intros P. unfold r_p, r_rho.
  replace (2 * gamma / (gamma - 1)) with (2 / (gamma - 1) + 2) by (field; lra).
  rewrite powr_plus, powr_2 by exact P. ring.
Qed.
Lemma r_isentropic chi : 0 < r_w chi -> r_p chi = powr (r_rho chi / 3) gamma.
Proof.
  intros P. unfold r_p, r_rho. replace (3 * powr (r_w chi) (2 / (gamma - 1)) / 3) with (powr (r_w chi) (2 / (gamma - 1))) by field.
  rewrite powr_mult by exact P. f_equal. field. lra.
Qed.

Lemma D_w chi : derivable_pt_lim r_w chi (- ((gamma - 1) / ((gamma + 1) * r_c))).
Proof.
  unfold r_w. pose proof r_c_pos. eapply D_eq.
  - apply D_minus; [apply D_const|apply D_div; [|apply D_mult; [apply D_const|apply D_id]|apply D_const]].
    apply Rmult_integral_contrapositive_currified; lra.
  - cbv beta; field. split; lra.
Qed.
Lemma D_r chi : 0 < r_w chi -> derivable_pt_lim r_rho chi
  (- (r_rho chi * (2 / ((gamma + 1) * r_c) / r_w chi))).
Proof.
  intros P. unfold r_rho. pose proof r_c_pos. eapply D_eq; [apply D_scal; apply D_powr; [exact P|apply D_w]|].
  field. repeat split; lra.
Qed.
Lemma D_ru chi : derivable_pt_lim r_u chi (2 / (gamma + 1)).
Proof.
  unfold r_u. eapply D_eq.
  - apply D_plus; [apply D_const|apply D_div; [|apply D_mult; [apply D_const|apply D_id]|apply D_const]]. lra.
  - cbv beta; field. lra.
Qed.
Lemma D_rp chi : 0 < r_w chi -> derivable_pt_lim r_p chi
  (- (r_p chi * (2 * gamma / ((gamma + 1) * r_c) / r_w chi))).
Proof.
  intros P. unfold r_p. pose proof r_c_pos. eapply D_eq; [apply D_powr; [exact P|apply D_w]|].
  field. repeat split; lra.
Qed.
Lemma r_speed chi : r_u chi - chi = r_c * r_w chi.
Proof. unfold r_u, r_w. pose proof r_c_pos. field. split; lra. Qed.

Lemma rarefaction_state dim x t : (1 <= dim)%nat -> 0 < rare_t0 gamma + t ->
  let c := clamp 0 r_b (x 0%nat / (rare_t0 gamma + t)) in
  veq (dim + 2) (rarefaction dim gamma x t) (gas_state gamma dim (r_rho c) (vel1 (r_u c)) (r_p c)).
Proof.
  intros Hd HT c. set (T := rare_t0 gamma + t) in *.
  pose proof r_c_pos as C0. pose proof r_c2 as C2. pose proof r_q_pos as Q0. pose proof r_b_pos as B0.
  assert (EL : rare_left_state gamma = {| p_rho := 3; p_u := r_c; p_p := 1; p_c := r_c |}).
  { unfold rare_left_state, rare_sound, r_c. rewrite Rmult_1_r. reflexivity. }
  assert (Q2 : 1 * powr (1 / 2 / 3) gamma = r_q * r_q / 6).
  { unfold r_q. rewrite <- powr_plus by lra. replace (1 / 2 / 3) with (1 / 6) by field.
    replace gamma with (((gamma - 1) / 2 + (gamma - 1) / 2) + 1) at 1 by field.
    rewrite powr_plus, powr_1 by lra. field. }
  assert (ER : rare_right_state gamma =
    {| p_rho := 1 / 2; p_u := r_c + 2 * (r_c - r_c * r_q) / (gamma - 1); p_p := powr (1 / 6) gamma; p_c := r_c * r_q |}).
  { unfold rare_right_state, rare_right. rewrite EL. cbn [p_rho p_u p_p p_c].
    replace (1 / 2 / 3) with (1 / 6) in * by field. rewrite Rmult_1_l in Q2. rewrite Rmult_1_r.
    assert (S : rare_sound gamma (1 / 2) (powr (1 / 6) gamma) = r_c * r_q).
    { unfold rare_sound. rewrite Q2.
      replace (gamma * (r_q * r_q / 6) / (1 / 2)) with ((r_c * r_q) * (r_c * r_q)).
      - apply sqrt_square. apply Rmult_le_pos; lra.
      - replace (r_c * r_q * (r_c * r_q)) with (r_c * r_c * (r_q * r_q)) by ring. rewrite C2. field. }
    rewrite S. reflexivity. }
  assert (main : let '(rho, u, p) :=
    if Rle_dec (x 0%nat) (T * 0) then (3, r_c, 1)
    else if Rle_dec (x 0%nat) (T * r_b) then
      (r_rho (x 0%nat / T), r_u (x 0%nat / T), r_p (x 0%nat / T))
    else (1 / 2, r_c + 2 * (r_c - r_c * r_q) / (gamma - 1), powr (1 / 6) gamma) in
    (rho, u, p) = (r_rho c, r_u c, r_p c)).
  { assert (XT : x 0%nat = T * (x 0%nat / T)) by (field; lra).
    set (chi := x 0%nat / T) in *. clearbody chi. rewrite XT.
    destruct (Rle_dec (T * chi) (T * 0)) as [L1|L1].
    - apply Rmult_le_reg_l in L1; [|exact HT]. unfold c. rewrite clamp_lo by lra.
      unfold r_rho, r_p, r_u. rewrite r_w_0.
      assert (P1 : forall e, powr 1 e = 1).
      { intros e. rewrite powr_pos by lra. unfold Rpower. rewrite ln_1, Rmult_0_r. apply exp_0. }
      rewrite !P1. apply f_equal2; [apply f_equal2|reflexivity]; field; lra.
    - assert (0 < chi) by (destruct (Rlt_dec 0 chi); [assumption|exfalso; apply L1; apply Rmult_le_compat_l; lra]).
      destruct (Rle_dec (T * chi) (T * r_b)) as [L2|L2].
      + apply Rmult_le_reg_l in L2; [|exact HT]. unfold c. rewrite clamp_id by lra. reflexivity.
      + assert (r_b < chi) by (destruct (Rlt_dec r_b chi); [assumption|exfalso; apply L2; apply Rmult_le_compat_l; lra]).
        unfold c. rewrite clamp_hi by lra. unfold r_rho, r_p, r_u. rewrite r_w_b.
        unfold r_q at 2 3. rewrite !powr_mult by lra.
        replace ((gamma - 1) / 2 * (2 / (gamma - 1))) with 1 by (field; lra).
        replace ((gamma - 1) / 2 * (2 * gamma / (gamma - 1))) with gamma by (field; lra).
        rewrite powr_1 by lra. unfold r_b. apply f_equal2; [apply f_equal2|reflexivity]; field; lra. }
  unfold rarefaction. rewrite EL, ER. cbn [p_rho p_u p_p p_c]. fold T.
  replace (r_c - r_c) with 0 by ring.
  replace (r_c + 2 * (r_c - r_c * r_q) / (gamma - 1) - r_c * r_q) with r_b by (unfold r_b; field; lra).
  assert (W1 : forall chi, 2 / (gamma + 1) + (gamma - 1) / ((gamma + 1) * r_c) * (r_c - chi) = r_w chi).
  { intros chi. unfold r_w. field. split; lra. }
  assert (U1 : forall chi, 2 / (gamma + 1) * (r_c + (gamma - 1) / 2 * r_c + chi) = r_u chi).
  { intros chi. unfold r_u. field. lra. }
  rewrite W1, U1, Rmult_1_l.
  change (3 * powr (r_w (x 0%nat / T)) (2 / (gamma - 1))) with (r_rho (x 0%nat / T)).
  change (powr (r_w (x 0%nat / T)) (2 * gamma / (gamma - 1))) with (r_p (x 0%nat / T)).
  match goal with |- context [if Rle_dec (x 0%nat) (T * 0) then ?a else ?b] =>
    set (tr := if Rle_dec (x 0%nat) (T * 0) then a else b) in * end.
  destruct tr as [[rho u] p]. injection main as -> -> ->.
  intros k Hk. unfold mkstate, gas_state.
  destruct (Nat.eqb k 0); [reflexivity|]. destruct (Nat.eqb k (S dim)).
  - rewrite rsum_vel1 by exact Hd. field. lra.
  - unfold vel1. destruct (Nat.eqb (k - 1) 0); ring.
Qed.
End Rare.
