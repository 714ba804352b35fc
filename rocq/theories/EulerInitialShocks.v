(** * Proofs: the shock front with a covolume, the imploding shock *)
From Coq Require Import Reals Arith Lia Lra Psatz List FunctionalExtensionality.
From Verif Require Import RVec AeosSystem Eos EulerSystem BalanceSpec BalanceProofs EulerInitialStates EulerInitialProofs
  EulerInitialFans EulerInitialMore EulerInitialNoh.
Import ListNotations.
Local Open Scope R_scope.

(** A Noble-Abel gas with gamma = 2 and covolume 1/4; Mach number 2. *)
Definition ex_covolume : nobleabel := na_parse 2 1 (1 / 4) 0 0 na_construct.

Lemma C89_covolume_proof : exists (o : nobleabel) (M rho u p : R),
  1 < na_gamma o /\ 0 <= na_b o /\ na_b o * rho < 1 /\ 0 < rho /\ 0 < p /\ 1 < M /\ na_q o = 0 /\ na_pinf o = 0 /\
  let a := na_speed_of_sound o rho (na_sie o rho p) in
  let W := fun t x => shock_front (a_from_initial_state (na_eos o) 1 1) (na_gamma o) (interp_b (na_eos o)) M rho u p x t in
  u + a < M * a /\
  forall t, exists Ul Ur,
    (forall x, M * a * t < x 0%nat -> W t x = Ur) /\
    (forall x, x 0%nat < M * a * t -> W t x = Ul) /\
    Ur 0%nat = rho /\ na_b o * Ul 0%nat < 1 /\
    forall sigma, ~ jump_condition 1 3 (eos_flux (na_pressure o) 1) e0 sigma Ul Ur.
Proof.
  exists ex_covolume, 2, 1, 0, (3 / 2). cbn [na_gamma na_b na_q na_pinf ex_covolume na_parse na_construct].
  do 8 (split; [lra|]).
  assert (A : na_speed_of_sound ex_covolume 1 (na_sie ex_covolume 1 (3 / 2)) = 2).
  { unfold na_speed_of_sound, na_sie, ex_covolume, na_parse. cbn [na_gamma na_b na_q na_pinf].
    match goal with |- sqrt ?z / _ = _ => replace z with ((3 / 2) * (3 / 2)) by field end.
    rewrite sqrt_square by lra. field. }
  change (na_parse 2 1 (1 / 4) 0 0 na_construct) with ex_covolume.
  cbv zeta. rewrite A. split; [lra|]. intros t.
  assert (E : shock_left 2 (1 / 4) 2 1 0 (3 / 2) = ((2, 2, 15 / 2), 4)).
  { unfold shock_left. assert (S : sqrt (2 * (3 / 2) / 1 / (1 - 1 / 4 * 1)) = 2).
    { replace (2 * (3 / 2) / 1 / (1 - 1 / 4 * 1)) with (2 * 2) by field. apply sqrt_square. lra. }
    rewrite S. apply f_equal2; [apply f_equal2; [apply f_equal2|]|]; field; lra. }
  exists (a_from_initial_state (na_eos ex_covolume) 1 1 (tensor [2; 2; 15 / 2])),
         (a_from_initial_state (na_eos ex_covolume) 1 1 (tensor [1; 0; 3 / 2])).
  refine (conj _ (conj _ (conj _ (conj _ _)))).
  - intros x Hx. unfold shock_front. cbn [interp_b na_eos na_interp_b ex_covolume na_parse]. rewrite E.
    destruct (Rlt_dec 0 (x 0%nat - 4 * t)); [reflexivity|lra].
  - intros x Hx. unfold shock_front. cbn [interp_b na_eos na_interp_b ex_covolume na_parse]. rewrite E.
    destruct (Rlt_dec 0 (x 0%nat - 4 * t)); [lra|reflexivity].
  - reflexivity.
  - cbn. lra.
  - intros sigma J.
    pose proof (J 0%nat ltac:(lia)) as J0. pose proof (J 1%nat ltac:(lia)) as J1.
    unfold dot, e0 in J0, J1. cbn [rsum] in J0, J1.
    unfold eos_flux, a_from_initial_state, a_from_primitive_state, a_expand_state, a_momentum, tensor, na_eos, norm2, dot in J0, J1.
    cbn [rsum Nat.eqb Nat.leb nth eos_specific_internal_energy] in J0, J1.
    unfold na_pressure, na_sie, ex_covolume, na_parse in J1. cbn [na_gamma na_b na_q na_pinf] in J1.
    assert (S4 : sigma = 4) by lra. rewrite S4 in J1. field_simplify in J1. lra.
Qed.

(** ** The imploding shock *)

Lemma from_initial_ext s dim a b : veq (dim + 2) a b ->
  veq (dim + 2) (from_initial_state s dim dim a) (from_initial_state s dim dim b).
Proof.
  intros AB k Hk. unfold from_initial_state, from_primitive_state, expand_state, momentum. cbn [Nat.eqb].
  rewrite ?Nat.eqb_refl, (AB (S dim)), (AB 0%nat) by lia.
  destruct (Nat.eqb_spec k (S dim)) as [->|K1].
  - unfold norm2, dot. f_equal. f_equal. apply rsum_ext. intros i Hi'. cbn [Nat.eqb].
    destruct (Nat.eqb_spec i dim); [lia|]. destruct (Nat.leb_spec (S i) dim); [|lia].
    rewrite (AB (S i)) by lia. reflexivity.
  - destruct (Nat.eqb_spec k 0) as [->|K0]; [reflexivity|]. destruct (Nat.leb_spec k dim); [|lia].
    rewrite (AB k) by lia. reflexivity.
Qed.

Lemma icf_limits s dim M inside rho p Ri amp modes Rs angle t x :
  (1 <= dim)%nat -> 0 <= Ri -> Ri + Rabs amp < Rs -> sqrt (norm2 dim x) = Rs ->
  let n := fun i => x i / Rs in
  let '((rL, uL, pL), S3) := shock_left icf_gamma 0 M rho 0 p in
  rsum dim (fun i => n i * n i) = 1 /\
  limit_below (dim + 2) (icf s dim M inside rho p Ri amp modes Rs angle) n t x (gas_state (gamma s) dim rho (vscal 0 n) p) /\
  limit_above (dim + 2) (icf s dim M inside rho p Ri amp modes Rs angle) n t x (gas_state (gamma s) dim rL (vscal (- uL) n) pL).
Proof.
  intros Hd Hi Hs E n. destruct (shock_left _ _ _ _ _ _) as [[[rL uL] pL] S3] eqn:SL.
  pose proof (Rabs_pos amp) as Pa. assert (PR : 0 < Rs) by lra.
  change (sqrt (norm2 dim x)) with (radius dim x) in E.
  assert (NN : rsum dim (fun i => n i * n i) = 1).
  { unfold n. rewrite (rsum_ext dim _ (fun i => / (Rs * Rs) * (x i * x i))) by (intros; field; lra).
    rewrite rsum_scal, <- (radius_sq dim x), E. field. lra. }
  assert (RN : forall s', - Rs < s' -> radius dim (vadd x (vscal s' n)) = Rs + s').
  { intros s' H. unfold radius at 1. replace (norm2 dim (vadd x (vscal s' n))) with ((Rs + s') * (Rs + s')); [apply sqrt_square; lra|].
    unfold norm2, dot.
    rewrite (rsum_ext dim _ (fun i => (Rs + s') * (Rs + s') * (n i * n i))).
    - rewrite rsum_scal, NN. ring.
    - intros i Hi'. unfold vadd, vscal, n. field. lra. }
  split; [exact NN|]. split.
  - apply (limit_below_ext (dim + 2) _ (fun _ _ => gas_state (gamma s) dim rho (vscal 0 n) p) n t x (Rs - Ri - Rabs amp)); [lra| |apply constant_no_jump].
    intros s' H. unfold icf, icf_like. destruct inside as [[rI uI] pI]. rewrite SL.
    fold (radius dim (vadd x (vscal s' n))). rewrite RN by lra.
    destruct (Rlt_dec Rs (Rs + s')); [lra|].
    destruct (Rlt_dec _ (Rs + s')) as [L|L].
    + eapply veq_trans; [apply from_initial_1d; exact Hd|]. apply gas_state_ext. intros i _. unfold vel1, vscal. destruct (Nat.eqb i 0); ring.
    + exfalso. apply L. match goal with |- _ + amp * cos ?c < _ => pose proof (COS_bound c) as CB; set (co := cos c) in * end.
      assert (amp * co <= Rabs amp).
      { eapply Rle_trans; [apply Rle_abs|]. rewrite Rabs_mult. rewrite <- (Rmult_1_r (Rabs amp)) at 2.
        apply Rmult_le_compat_l; [exact Pa|]. apply Rabs_le. lra. }
      lra.
  - apply (limit_above_ext (dim + 2) _ (fun _ _ => gas_state (gamma s) dim rL (vscal (- uL) n) pL) n t x 1); [lra| |apply constant_no_jump].
    intros s' H. unfold icf, icf_like. destruct inside as [[rI uI] pI]. rewrite SL.
    fold (radius dim (vadd x (vscal s' n))). rewrite RN by lra.
    destruct (Rlt_dec Rs (Rs + s')); [|lra].
    eapply veq_trans; [|apply (from_initial_full s dim rL (vscal (- uL) n) pL)].
    apply from_initial_ext. intros k Hk. unfold mkstate.
    destruct (Nat.eqb k 0); [reflexivity|]. destruct (Nat.eqb k (S dim)); [reflexivity|].
    destruct (Rlt_dec 0 (Rs + s')); [|lra]. unfold vadd, vscal, n. field. lra.
Qed.

Lemma C95_icf_proof s dim M inside rho p Ri amp modes Rs angle :
  gamma s = 14 / 10 -> (1 <= dim)%nat -> 0 < rho -> 0 < p -> 1 < M -> 0 <= Ri -> Ri + Rabs amp < Rs ->
  let a := sqrt (14 / 10 * p / rho) in
  forall t x, sqrt (norm2 dim x) = Rs ->
  exists n Ul Ur,
    n = (fun i => x i / Rs) /\
    limit_below (dim + 2) (icf s dim M inside rho p Ri amp modes Rs angle) n t x Ul /\
    limit_above (dim + 2) (icf s dim M inside rho p Ri amp modes Rs angle) n t x Ur /\
    Ul 0%nat = rho /\ gas_pressure (14 / 10) dim Ul = p /\ (forall i, (i < dim)%nat -> Ul (S i) = 0) /\
    jump_condition dim (dim + 2) (gas_flux (14 / 10) dim) n (- (M * a)) Ul Ur /\
    rho < Ur 0%nat /\ p < gas_pressure (14 / 10) dim Ur.
Proof.
  intros Hg Hd Hr Hp HM HRi HRs a t x E.
  pose proof (icf_limits s dim M inside rho p Ri amp modes Rs angle t x Hd HRi HRs E) as L.
  cbv zeta in L. destruct (shock_left icf_gamma 0 M rho 0 p) as [[[rL uL] pL] S3] eqn:SL.
  destruct L as (NN & L1 & L2). unfold icf_gamma in SL.
  assert (A0 : 0 < a).
  { apply sqrt_lt_R0. apply Rdiv_lt_0_compat; lra. }
  assert (S3E : S3 = M * a).
  { unfold shock_left in SL. injection SL as _ _ _ E4. rewrite <- E4. unfold a. do 2 f_equal. field. lra. }
  assert (NE : 0 <> S3) by (rewrite S3E; apply Rlt_not_eq; apply Rmult_lt_0_compat; lra).
  destruct (shock_left_jump (14 / 10) M rho 0 p rL uL pL S3 ltac:(lra) Hr Hp SL NE) as (_ & A2 & _ & RL & J1 & J2 & J3 & DE).
  fold a in A2, DE.
  set (n := fun i => x i / Rs) in *. rewrite Hg in L1, L2.
  exists n, (gas_state (14 / 10) dim rho (vscal 0 n) p), (gas_state (14 / 10) dim rL (vscal (- uL) n) pL).
  refine (conj eq_refl (conj L1 (conj L2 (conj eq_refl (conj _ (conj _ (conj _ _))))))).
  - apply gas_state_pressure; lra.
  - intros i Hi. unfold gas_state. cbn [Nat.eqb]. destruct (Nat.eqb_spec i dim); [lia|]. unfold vscal. ring.
  - rewrite <- S3E. apply (gas_jump_n (14 / 10) dim n (- S3) _ _ rho 0 p rL (- uL) pL); try assumption; try lra;
      try (intros k Hk; reflexivity).
  - destruct (lax_condition (14 / 10) rho 0 p a S3 rL uL pL) as (X1 & X2 & _); try assumption; try lra; try apply DE.
    + rewrite S3E. nra.
    + split; [exact X1|]. rewrite gas_state_pressure by lra. exact X2.
Qed.

Definition ex_gas53 : euler := {| gamma := 5 / 3; reference_density := 1; vacuum_state_relaxation_small := 0; vacuum_state_relaxation_large := 0 |}.

Lemma C95_gamma_proof : exists s M rho p Ri Rs x,
  1 < gamma s /\ 0 < rho /\ 0 < p /\ 1 < M /\ 0 < Ri < Rs /\ sqrt (norm2 1 x) = Rs /\
  forall inside modes angle t, exists Ul Ur,
    limit_below 3 (icf s 1 M inside rho p Ri 0 modes Rs angle) (fun i => x i / Rs) t x Ul /\
    limit_above 3 (icf s 1 M inside rho p Ri 0 modes Rs angle) (fun i => x i / Rs) t x Ur /\
    forall sigma, ~ jump_condition 1 3 (gas_flux (gamma s) 1) (fun i => x i / Rs) sigma Ul Ur.
Proof.
  exists ex_gas53, 2, 1, (10 / 14), (1 / 2), 1, (fun _ => 1).
  assert (E : sqrt (norm2 1 (fun _ => 1)) = 1).
  { unfold norm2, dot. cbn [rsum]. replace (0 + 1 * 1) with 1 by ring. apply sqrt_1. }
  cbn [gamma ex_gas53]. do 4 (split; [lra|]). split; [lra|]. split; [exact E|].
  intros inside modes angle t.
  pose proof (icf_limits ex_gas53 1 2 inside 1 (10 / 14) (1 / 2) 0 modes 1 angle t (fun _ => 1) (le_n 1) ltac:(lra)
    ltac:(rewrite Rabs_R0; lra) E) as L. cbv zeta in L.
  assert (SL : shock_left icf_gamma 0 2 1 0 (10 / 14) = ((8 / 3, 5 / 4, 45 / 14), 2)).
  { unfold shock_left, icf_gamma. assert (S : sqrt (14 / 10 * (10 / 14) / 1 / (1 - 0 * 1)) = 1).
    { replace (14 / 10 * (10 / 14) / 1 / (1 - 0 * 1)) with 1 by field. apply sqrt_1. }
    rewrite S. apply f_equal2; [apply f_equal2; [apply f_equal2|]|]; field; lra. }
  rewrite SL in L. destruct L as (_ & L1 & L2). eexists _, _. split; [exact L1|]. split; [exact L2|].
  intros sigma J. cbn [gamma ex_gas53] in J.
  pose proof (J 0%nat ltac:(lia)) as J0. pose proof (J 2%nat ltac:(lia)) as J2.
  unfold dot in J0, J2. cbn [rsum] in J0, J2.
  unfold gas_flux, gas_pressure, gas_state, vscal in J0, J2. cbn [rsum Nat.eqb Nat.sub] in J0, J2.
  assert (S2 : sigma = - 2) by lra. rewrite S2 in J2. field_simplify in J2. lra.
Qed.
