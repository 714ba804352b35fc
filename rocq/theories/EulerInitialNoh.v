(** * Proofs: Noh problem, smooth wave, ramp up *)
From Coq Require Import Reals Arith Lia Lra Psatz List FunctionalExtensionality.
From Verif Require Import RVec EulerSystem BalanceSpec BalanceProofs EulerInitialStates EulerInitialProofs EulerInitialFans EulerInitialMore.
Import ListNotations.
Local Open Scope R_scope.

Lemma from_initial_full s dim rho u p :
  veq (dim + 2) (from_initial_state s dim dim (mkstate dim rho u p)) (gas_state (gamma s) dim rho u p).
Proof.
  intros k Hk. unfold from_initial_state, from_primitive_state, expand_state, mkstate, gas_state, momentum, norm2, dot.
  cbn [Nat.eqb]. rewrite Nat.eqb_refl.
  assert (Z : forall f, rsum dim (fun i : nat =>
     (if Nat.eqb (S i) 0 then rho else if Nat.eqb (S i) (S dim) then p else if Nat.leb (S i) dim then f (S i) else 0) *
     (if Nat.eqb (S i) 0 then rho else if Nat.eqb (S i) (S dim) then p else if Nat.leb (S i) dim then f (S i) else 0))
     = rsum dim (fun i => f (S i) * f (S i))).
  { intros f. apply rsum_ext. intros i Hi. cbn [Nat.eqb].
    destruct (Nat.eqb_spec i dim); [lia|]. destruct (Nat.leb_spec (S i) dim); [reflexivity|lia]. }
  destruct (Nat.eqb_spec k 0) as [->|K0].
  { cbn [Nat.eqb]. reflexivity. }
  destruct (Nat.eqb_spec k (S dim)) as [->|K1].
  - match goal with |- context [rsum dim ?f] => rewrite (rsum_ext dim f (fun i => u i * u i)) end.
    + unfold Rdiv. ring.
    + intros i Hi. cbn [Nat.eqb]. destruct (Nat.eqb_spec i dim); [lia|]. destruct (Nat.leb_spec (S i) dim); [|lia].
      cbn [Nat.sub]. rewrite Nat.sub_0_r. reflexivity.
  - destruct (Nat.leb_spec k dim); [|lia]. ring.
Qed.

Lemma rsum_one n : rsum n (fun _ => 1) = INR n.
Proof. induction n as [|n IH]; [reflexivity|]. rewrite S_INR. simpl. rewrite IH. ring. Qed.

(** ** The distance to the origin *)
Lemma norm2_along dim x j s : (j < dim)%nat ->
  norm2 dim (along x j s) = norm2 dim x + 2 * s * x j + s * s.
Proof.
  intros Hj. unfold norm2, dot, along.
  rewrite (rsum_ext dim _ (fun i => x i * x i + (if Nat.eqb j i then (2 * s * x i + s * s) else 0))).
  - rewrite rsum_plus, (rsum_delta dim (fun i => 2 * s * x i + s * s)) by exact Hj. ring.
  - intros i Hi. destruct (Nat.eqb_spec i j), (Nat.eqb_spec j i); subst; try contradiction; try congruence; ring.
Qed.

Lemma D_norm dim x j : (j < dim)%nat -> 0 < norm2 dim x ->
  derivable_pt_lim (fun s => sqrt (norm2 dim (along x j s))) 0 (x j / sqrt (norm2 dim x)).
Proof.
  intros Hj P. eapply D_eq.
  - apply D_sqrt; [rewrite along_0; exact P|].
    apply (D_near (fun s => norm2 dim x + 2 * s * x j + s * s) _ 0 _ 1 Rlt_0_1).
    + intros s _. symmetry. apply norm2_along. exact Hj.
    + apply D_plus; [apply D_plus; [apply D_const|apply D_mult; [apply D_mult; [apply D_const|apply D_id]|apply D_const]]|apply D_mult; apply D_id].
  - cbv beta. rewrite along_0. assert (0 < sqrt (norm2 dim x)) by (apply sqrt_lt_R0; exact P). field. lra.
Qed.

Definition radius (dim : nat) (x : vec) : R := sqrt (norm2 dim x).
Lemma radius_sq dim x : radius dim x * radius dim x = rsum dim (fun i => x i * x i).
Proof. apply sqrt_sqrt. unfold norm2, dot. apply rsum_nonneg. intros; apply Rle_0_sqr. Qed.

Lemma radius_near dim x e : 0 < e -> 0 < norm2 dim x -> exists d, 0 < d /\
  forall j s, (j < dim)%nat -> Rabs s < d -> Rabs (radius dim (along x j s) - radius dim x) < e.
Proof.
  intros He P.
  assert (H : forall n, (n <= dim)%nat -> exists d, 0 < d /\
    forall j s, (j < n)%nat -> Rabs s < d -> Rabs (radius dim (along x j s) - radius dim x) < e).
  { induction n as [|n IH]; intros Hn.
    - exists 1. split; [lra|intros; lia].
    - destruct IH as (d1 & P1 & Q1); [lia|].
      destruct (D_cont _ _ _ (D_norm dim x n ltac:(lia) P) e He) as (d2 & P2 & Q2).
      exists (Rmin d1 d2). split; [apply Rmin_glb_lt; assumption|]. intros j s Hj Hs.
      destruct (Nat.eq_dec j n) as [->|N].
      + destruct (Req_dec s 0) as [->|N]; [rewrite along_0, Rminus_eq_0, Rabs_R0; exact He|].
        specialize (Q2 s). simpl in Q2. unfold R_dist in Q2. rewrite along_0 in Q2. apply Q2.
        split; [split; [exact I|intros Z; apply N; symmetry; exact Z]|]. rewrite Rminus_0_r.
        eapply Rlt_le_trans; [exact Hs|apply Rmin_r].
      + apply Q1; [lia|]. eapply Rlt_le_trans; [exact Hs|apply Rmin_l]. }
  destruct (H dim (le_n dim)) as (d & Pd & Q). exists d. split; [exact Pd|]. exact Q.
Qed.

(** ** Noh: the exterior *)
Lemma noh_residual gamma dim rho0 u0 p0 (W : field) t x d :
  gamma <> 1 -> (1 <= dim)%nat -> 0 < rho0 -> 0 < t -> 0 < norm2 dim x -> 0 < d ->
  (forall s y, Rabs (s - t) < d -> Rabs (radius dim y - radius dim x) < d ->
     veq (dim + 2) (W s y) (gas_state gamma dim (rho0 * (1 + s / radius dim y) ^ (dim - 1))
       (fun i => - u0 * y i / radius dim y) p0)) ->
  let r := radius dim x in
  let n := (dim - 1)%nat in
  let M := rho0 * / r * (INR n * (1 + t / r) ^ pred n) * (1 - u0) in
  let P := - (gamma * p0 * u0 * / r) * INR n in
  balance_at dim (dim + 2) (gas_flux gamma dim)
    (fun k => if Nat.eqb k 0 then M
              else if Nat.eqb k (S dim) then
                P / (gamma - 1) + M / 2 * rsum dim (fun i => - u0 * x i / r * (- u0 * x i / r))
                  + rsum dim (fun i => - u0 * x i / r * 0)
              else M * (- u0 * x (k - 1)%nat / r) + 0) W t x.
Proof.
  intros Hg Hd Hr Ht P Pd HW.
  intros r n M' P''. assert (Pr : 0 < r) by (apply sqrt_lt_R0; exact P).
  destruct (radius_near dim x (Rmin (r / 2) d) ltac:(apply Rmin_glb_lt; lra) P) as (d1 & P1 & Q1).
  set (P' := (1 + t / r) ^ pred n).
  assert (R2 : rsum dim (fun i => x i * x i) = r * r) by (symmetry; apply radius_sq).
  assert (DR : forall j, (j < dim)%nat -> derivable_pt_lim (fun s => radius dim (along x j s)) 0 (x j / r)).
  { intros j Hj. apply D_norm; assumption. }
  assert (R0 : forall j, radius dim (along x j 0) = r) by (intros; rewrite along_0; reflexivity).
  assert (PW : INR n * ((1 + t / r) ^ n - P' * (1 + t / r)) = 0).
  { unfold P'. destruct n as [|m]; [simpl; ring|]. cbn [pred pow]. ring. }
  assert (NN : INR n = INR dim - 1) by (unfold n; rewrite minus_INR by lia; reflexivity).
  apply (euler_residual gamma dim (fun s y => rho0 * (1 + s / radius dim y) ^ n) (fun _ _ => p0)
    (fun _ y i => - u0 * y i / radius dim y) W t x (Rmin (Rmin d t) d1)
    (rho0 * (INR n * P' * / r)) 0 (fun _ => 0)
    (fun j => rho0 * (INR n * P' * (- t * x j / (r * r * r)))) (fun _ => 0)
    (fun i j => - u0 * ((if Nat.eqb i j then 1 else 0) / r - x i * x j / (r * r * r))) M' P'' (fun _ => 0)); try exact Hg.
  - repeat apply Rmin_glb_lt; assumption.
  - intros s Hs. assert (S1 : Rabs (s - t) < d).
    { eapply Rlt_le_trans; [exact Hs|]. eapply Rle_trans; [apply Rmin_l|apply Rmin_l]. }
    assert (S2 : Rabs (s - t) < t).
    { eapply Rlt_le_trans; [exact Hs|]. eapply Rle_trans; [apply Rmin_l|apply Rmin_r]. }
    apply Rabs_def2 in S2. split.
    + apply Rmult_lt_0_compat; [exact Hr|]. apply pow_lt. fold r.
      assert (0 < s / r) by (apply Rdiv_lt_0_compat; lra). lra.
    + apply HW; [exact S1|]. rewrite Rminus_eq_0, Rabs_R0. exact Pd.
  - intros j s Hj Hs. assert (S3 : Rabs s < d1) by (eapply Rlt_le_trans; [exact Hs|apply Rmin_r]).
    specialize (Q1 j s Hj S3). fold r in Q1.
    assert (S4 : Rabs (radius dim (along x j s) - r) < r / 2) by (eapply Rlt_le_trans; [exact Q1|apply Rmin_l]).
    apply Rabs_def2 in S4. split.
    + apply Rmult_lt_0_compat; [exact Hr|]. apply pow_lt.
      assert (0 < t / radius dim (along x j s)) by (apply Rdiv_lt_0_compat; lra). lra.
    + apply HW; [rewrite Rminus_eq_0, Rabs_R0; exact Pd|]. fold r. eapply Rlt_le_trans; [exact Q1|apply Rmin_r].
  - fold r. apply D_scal. unfold P'. eapply D_eq.
    + apply D_pow. apply D_plus; [apply D_const|apply D_div; [|apply D_id|apply D_const]]. lra.
    + cbv beta. unfold Rsqr. field. lra.
  - apply D_const.
  - intros i Hi. apply D_const.
  - intros j Hj. apply D_scal. unfold P'. eapply D_eq.
    + apply D_pow. apply D_plus; [apply D_const|apply D_div; [|apply D_const|apply DR; exact Hj]]. rewrite R0; lra.
    + cbv beta. rewrite R0. unfold Rsqr. field. lra.
  - intros j Hj. apply D_const.
  - intros i j Hi Hj. eapply D_eq.
    + apply D_div; [|apply D_scal|apply DR; exact Hj].
      * rewrite R0; lra.
      * unfold along. apply D_plus; [apply D_const|apply D_mult; [apply D_id|apply D_const]].
    + cbv beta. rewrite R0, along_0. unfold Rsqr. field. lra.
  - fold r.
    rewrite (rsum_ext dim (fun j => - u0 * x j / r * _) (fun j => (rho0 * (INR n * P' * (u0 * t / (r * r * r * r)))) * (x j * x j)))
      by (intros; field; lra).
    rewrite rsum_scal, R2.
    rewrite (rsum_ext dim (fun j => - u0 * _) (fun j => - u0 * / r * (fun _ => 1) j + u0 * / (r * r * r) * (x j * x j))).
    2:{ intros j Hj. rewrite Nat.eqb_refl. field. lra. }
    rewrite rsum_plus, !rsum_scal, R2, rsum_one.
    transitivity (rho0 * / r * (INR n * P' * (1 + u0 * (t / r)) - u0 * (INR dim - 1) * (1 + t / r) ^ n)); [field; lra|].
    rewrite <- NN. unfold M'. fold P'.
    transitivity (rho0 * / r * (INR n * P') * (1 - u0) - u0 * (rho0 * / r * (INR n * ((1 + t / r) ^ n - P' * (1 + t / r))))); [ring|].
    rewrite PW. ring.
  - intros k Hk. fold r.
    rewrite (rsum_ext dim _ (fun j => (if Nat.eqb k j then u0 * u0 * x j / (r * r) else 0)
       + - (u0 * u0 * x k / (r * r * r * r)) * (x j * x j))).
    2:{ intros j Hj. destruct (Nat.eqb k j); field; lra. }
    rewrite rsum_plus, rsum_scal, R2, (rsum_delta dim (fun j => u0 * u0 * x j / (r * r))) by exact Hk. field. lra.
  - rewrite (rsum_ext dim (fun j => _ * 0) (fun _ => 0)) by (intros; ring). rewrite rsum_0.
    fold r. rewrite (rsum_ext dim (fun j => - u0 * _) (fun j => - u0 * / r * (fun _ => 1) j + u0 * / (r * r * r) * (x j * x j))).
    2:{ intros j Hj. rewrite Nat.eqb_refl. field. lra. }
    rewrite rsum_plus, !rsum_scal, R2, rsum_one.
    transitivity (- (gamma * p0 * u0 * / r) * (INR dim - 1)); [field; lra|]. rewrite <- NN.
    unfold P''. ring.
Qed.

Lemma noh_exterior gamma dim rho0 u0 p0 (W : field) t x d :
  1 < gamma -> (1 <= dim)%nat -> 0 < rho0 -> 0 < u0 -> 0 < t -> 0 < norm2 dim x -> 0 < d ->
  (forall s y, Rabs (s - t) < d -> Rabs (radius dim y - radius dim x) < d ->
     veq (dim + 2) (W s y) (gas_state gamma dim (rho0 * (1 + s / radius dim y) ^ (dim - 1))
       (fun i => - u0 * y i / radius dim y) p0)) ->
  (solves_euler gamma dim W t x <-> dim = 1%nat \/ u0 = 1 /\ p0 = 0).
Proof.
  intros Hg Hd Hr Hu Ht P Pd HW.
  pose proof (noh_residual gamma dim rho0 u0 p0 W t x d ltac:(lra) Hd Hr Ht P Pd HW) as B. cbv zeta in B.
  set (r := radius dim x) in *. assert (Pr : 0 < r) by (apply sqrt_lt_R0; exact P).
  split.
  - intros S. destruct (Nat.eq_dec dim 1) as [E|E]; [left; exact E|right].
    assert (Pn : 0 < INR (dim - 1)) by (apply lt_0_INR; lia).
    assert (PP : 0 < (1 + t / r) ^ pred (dim - 1)).
    { apply pow_lt. assert (0 < t / r) by (apply Rdiv_lt_0_compat; lra). lra. }
    assert (U1 : u0 = 1).
    { pose proof (balance_unique dim (dim + 2) _ _ _ _ _ _ 0%nat ltac:(lia) B S) as Z. unfold no_source in Z. cbn [Nat.eqb] in Z.
      apply Rmult_integral in Z. destruct Z as [Z|Z]; [|lra]. exfalso. revert Z. apply Rgt_not_eq.
      repeat apply Rmult_lt_0_compat; try assumption. apply Rinv_0_lt_compat; exact Pr. }
    split; [exact U1|].
    pose proof (balance_unique dim (dim + 2) _ _ _ _ _ _ (Datatypes.S dim) ltac:(lia) B S) as Z. unfold no_source in Z.
    cbn [Nat.eqb] in Z. rewrite Nat.eqb_refl, (rsum_ext dim (fun i => _ * 0) (fun _ => 0)), rsum_0 in Z by (intros; ring).
    rewrite U1 in Z. replace (1 - 1) with 0 in Z by ring. rewrite Rmult_0_r in Z.
    apply (Rmult_eq_reg_l (- (gamma * / r * INR (dim - 1) / (gamma - 1)))).
    + rewrite Rmult_0_r, <- Z. field. lra.
    + assert (0 < gamma * / r * INR (dim - 1) / (gamma - 1)); [|lra].
      apply Rdiv_lt_0_compat; [|lra]. repeat apply Rmult_lt_0_compat; try lra. apply Rinv_0_lt_compat; exact Pr.
  - intros C. destruct B as (dt & dx & B). exists dt, dx. intros k Hk. destruct (B k Hk) as (B1 & B2 & B3).
    split; [exact B1|]. split; [exact B2|]. rewrite B3. unfold no_source.
    rewrite (rsum_ext dim (fun i => _ * 0) (fun _ => 0)) by (intros; ring). rewrite rsum_0.
    assert (INR (dim - 1) = 0 \/ u0 = 1 /\ p0 = 0) as C'.
    { destruct C as [C|C]; [left; rewrite C; reflexivity|right; exact C]. }
    destruct C' as [C'|[-> ->]]; [rewrite C'|];
      (destruct (Nat.eqb k 0); [|destruct (Nat.eqb k (Datatypes.S dim))]); field; repeat split; lra.
Qed.

Lemma noh_state s dim rho0 u0 p0 x t :
  let W := noh dim (from_initial_state s dim dim) 0 (gamma s) rho0 u0 p0 x t in
  let D := u0 * (gamma s - 1) / 2 in
  (0 < t -> radius dim x < D * t ->
     veq (dim + 2) W (gas_state (gamma s) dim (rho0 * ((gamma s + 1) / (gamma s - 1)) ^ dim) (fun _ => 0)
       (1 / 2 * rho0 * u0 * u0 * ((gamma s + 1) ^ dim / (gamma s - 1) ^ (dim - 1))))) /\
  (t = 0 \/ 0 < t /\ D * t <= radius dim x ->
     veq (dim + 2) W (gas_state (gamma s) dim (rho0 * (1 + t / radius dim x) ^ (dim - 1))
       (fun i => - u0 * x i / radius dim x) p0)).
Proof.
  intros W D.
  assert (Q : forall e, 0 < t -> e * t <= radius dim x <-> e <= radius dim x / t).
  { intros e Ht. split; intros H.
    - apply (Rmult_le_reg_r t); [exact Ht|]. unfold Rdiv. rewrite Rmult_assoc, Rinv_l by lra. lra.
    - apply (Rmult_le_compat_r t) in H; [|lra]. unfold Rdiv in H. rewrite Rmult_assoc, Rinv_l in H by lra. lra. }
  split; intros H.
  - intros Hr. unfold W, noh. fold (radius dim x). fold D.
    destruct (Req_EM_T t 0); [lra|]. destruct (Rlt_dec _ D) as [L|L].
    + eapply veq_trans; [apply from_initial_full|]. apply gas_state_ext. intros i Hi. ring.
    + exfalso. apply L. apply Rnot_le_lt. intros Z. apply Q in Z; [|exact H]. lra.
  - assert (V : veq (dim + 2) (from_initial_state s dim dim
        (mkstate dim (rho0 * (1 + t / (radius dim x + 0)) ^ (dim - 1)) (fun i => - u0 * x i / (radius dim x + 0)) p0))
        (gas_state (gamma s) dim (rho0 * (1 + t / radius dim x) ^ (dim - 1)) (fun i => - u0 * x i / radius dim x) p0)).
    { rewrite Rplus_0_r. apply from_initial_full. }
    unfold W, noh. fold (radius dim x). fold D.
    destruct (Req_EM_T t 0); [exact V|]. destruct H as [H|[H H']]; [contradiction|].
    destruct (Rlt_dec _ D) as [L|L]; [|exact V].
    apply Q in H'; [|exact H]. lra.
Qed.

Lemma C92_noh_proof s dim rho0 u0 : 1 < gamma s -> (1 <= dim)%nat -> 0 < rho0 -> 0 < u0 -> (dim = 1%nat \/ u0 = 1) ->
  let W := fun t x => noh dim (from_initial_state s dim dim) 0 (gamma s) rho0 u0 0 x t in
  let r := fun x => sqrt (norm2 dim x) in
  let D := u0 * (gamma s - 1) / 2 in
  (forall x, 0 < r x -> W 0 x 0%nat = rho0 /\ gas_pressure (gamma s) dim (W 0 x) = 0 /\
     forall i, (i < dim)%nat -> W 0 x (S i) = - rho0 * u0 * (x i / r x)) /\
  forall t x, 0 < t ->
    (r x <> D * t -> solves_euler (gamma s) dim W t x) /\
    (r x = D * t -> exists Ul Ur, let n := fun i => x i / r x in
       limit_below (dim + 2) W n t x Ul /\ limit_above (dim + 2) W n t x Ur /\
       jump_condition dim (dim + 2) (gas_flux (gamma s) dim) n D Ul Ur /\
       0 < Ur 0%nat < Ul 0%nat /\ 0 < gas_pressure (gamma s) dim Ul).
Proof.
  intros Hg Hd Hr Hu Hdu W r D.
  assert (PD : 0 < D).
  { unfold D. apply Rdiv_lt_0_compat; [|lra]. apply Rmult_lt_0_compat; lra. }
  assert (NS : forall s' y, _) by (intros s' y; exact (noh_state s dim rho0 u0 0 y s')).
  cbv zeta in NS. fold D in NS.
  split.
  - intros x Hx. pose proof (proj2 (NS 0 x) (or_introl eq_refl)) as E.
    change (radius dim x) with (r x) in E.
    assert (E0 : 1 + 0 / r x = 1) by (field; lra). rewrite E0, pow1, Rmult_1_r in E.
    change (noh dim (from_initial_state s dim dim) 0 (gamma s) rho0 u0 0 x 0) with (W 0 x) in E.
    split; [rewrite (E 0%nat) by lia; reflexivity|]. split.
    + rewrite (gas_pressure_veq _ _ _ _ E). apply gas_state_pressure; lra.
    + intros i Hi. rewrite (E (S i)) by lia. unfold gas_state. cbn [Nat.eqb].
      destruct (Nat.eqb_spec i dim); [lia|]. cbn [Nat.sub]. rewrite Nat.sub_0_r. field. lra.
  - intros t x Ht.
    set (rin := rho0 * ((gamma s + 1) / (gamma s - 1)) ^ dim) in *.
    set (pin := 1 / 2 * rho0 * u0 * u0 * ((gamma s + 1) ^ dim / (gamma s - 1) ^ (dim - 1))) in *.
    assert (Q0 : 0 < (gamma s + 1) / (gamma s - 1)) by (apply Rdiv_lt_0_compat; lra).
    assert (Prin : 0 < rin) by (apply Rmult_lt_0_compat; [exact Hr|apply pow_lt; exact Q0]).
    assert (Ppin : 0 < pin).
    { unfold pin. apply Rmult_lt_0_compat; [repeat apply Rmult_lt_0_compat; lra|].
      apply Rdiv_lt_0_compat; apply pow_lt; lra. }
    split.
    + intros N. destruct (Rlt_dec (r x) (D * t)) as [L|L].
      * (* interior *)
        assert (P2 : exists d, 0 < d /\ (forall s', Rabs (s' - t) < d -> 0 < s' /\ r x < D * s') /\
           (forall j s', (j < dim)%nat -> Rabs s' < d -> r (along x j s') < D * t)).
        { set (g := D * t - r x). assert (Pg : 0 < g) by (unfold g; lra).
          assert (RX : 0 <= r x) by apply sqrt_pos.
          exists (Rmin (g / (D + 1)) g). split; [apply Rmin_glb_lt; [apply Rdiv_lt_0_compat; lra|exact Pg]|]. split.
          - intros s' Hs. assert (H1 : Rabs (s' - t) < g / (D + 1)) by (eapply Rlt_le_trans; [exact Hs|apply Rmin_l]).
            apply Rabs_def2 in H1. destruct H1 as [_ H1].
            assert (H2 : - g < D * (s' - t)).
            { apply (Rmult_lt_compat_l (D + 1)) in H1; [|lra].
              replace ((D + 1) * - (g / (D + 1))) with (- g) in H1 by (field; lra).
              destruct (Rle_dec 0 (s' - t)) as [Z|Z]; [apply Rlt_le_trans with 0; [lra|apply Rmult_le_pos; lra]|].
              nra. }
            assert (r x < D * s') by (unfold g in H2; lra). split; [|exact H]. nra.
          - intros j s' Hj Hs. assert (H1 : Rabs s' < g) by (eapply Rlt_le_trans; [exact Hs|apply Rmin_r]).
            unfold r. rewrite norm2_along by exact Hj.
            (* |x + s e_j| <= |x| + |s| *)
            apply Rle_lt_trans with (r x + Rabs s'); [|unfold g in H1; lra].
            pose proof (Rabs_pos s') as AP.
            rewrite <- (sqrt_square (r x + Rabs s')) by lra. apply sqrt_le_1_alt.
            assert (XJ : Rabs (x j) <= r x).
            { rewrite <- sqrt_Rsqr_abs. apply sqrt_le_1_alt. unfold Rsqr, norm2, dot.
              rewrite <- (rsum_delta dim (fun i => x i * x i) j Hj). 
              apply Rminus_le. 
              assert (0 <= rsum dim (fun i => x i * x i + - (if Nat.eqb j i then x i * x i else 0))).
              { apply rsum_nonneg. intros i Hi. destruct (Nat.eqb j i); [lra|]. pose proof (Rle_0_sqr (x i)). unfold Rsqr in *. lra. }
              rewrite rsum_plus in H.
              rewrite (rsum_ext dim (fun k => - (if Nat.eqb j k then x k * x k else 0)) (fun k => (Ropp 1) * (if Nat.eqb j k then x k * x k else 0))) in H
                by (intros; ring).
              rewrite rsum_scal in H. lra. }
            assert (RR : r x * r x = norm2 dim x) by (exact (radius_sq dim x)).
            assert (SX : s' * x j <= Rabs s' * r x).
            { eapply Rle_trans; [apply Rle_abs|]. rewrite Rabs_mult. apply Rmult_le_compat_l; [exact AP|exact XJ]. }
            assert (SS : Rabs s' * Rabs s' = s' * s') by (rewrite <- Rabs_mult; apply Rabs_right; apply Rle_ge; apply Rle_0_sqr).
            nra. }
        destruct P2 as (d & Pd & Q1 & Q2).
        apply (constant_solves (gamma s) dim W t x d rin (fun _ => 0) pin); try assumption; try lra.
        -- intros s' Hs. destruct (Q1 s' Hs). apply (proj1 (NS s' x)); assumption.
        -- intros j s' Hj Hs. apply (proj1 (NS t (along x j s'))); [exact Ht|]. apply Q2; assumption.
      * (* exterior *)
        assert (L' : D * t < r x) by (destruct (Rtotal_order (r x) (D * t)) as [?|[?|?]]; [lra|contradiction|lra]).
        assert (DT : 0 < D * t) by (apply Rmult_lt_0_compat; lra).
        assert (RX : 0 < norm2 dim x).
        { assert (r x * r x = norm2 dim x) by (exact (radius_sq dim x)). rewrite <- H. apply Rmult_lt_0_compat; lra. }
        set (g := r x - D * t). assert (Pg : 0 < g) by (unfold g; lra).
        apply (noh_exterior (gamma s) dim rho0 u0 0 W t x (Rmin t (g / (D + 1)))); try assumption; try lra.
        3:{ destruct Hdu; [left; assumption|right; split; [assumption|reflexivity]]. }
        -- apply Rmin_glb_lt; [exact Ht|]. apply Rdiv_lt_0_compat; lra.
        -- intros s' y Hs Hy. apply (proj2 (NS s' y)). right.
           assert (S1 : Rabs (s' - t) < t) by (eapply Rlt_le_trans; [exact Hs|apply Rmin_l]).
           assert (S2 : Rabs (s' - t) < g / (D + 1)) by (eapply Rlt_le_trans; [exact Hs|apply Rmin_r]).
           assert (S3 : Rabs (radius dim y - radius dim x) < g / (D + 1)) by (eapply Rlt_le_trans; [exact Hy|apply Rmin_r]).
           apply Rabs_def2 in S1. apply Rabs_def2 in S2. apply Rabs_def2 in S3.
           split; [lra|]. change (radius dim x) with (r x) in S3.
           set (q := g / (D + 1)) in *.
           assert (GQ : g = q * (D + 1)) by (unfold q; field; lra).
           assert (D * (s' - t) <= D * q) by (apply Rmult_le_compat_l; lra).
           unfold g in GQ. lra.
    + intros E. assert (DT : 0 < D * t) by (apply Rmult_lt_0_compat; lra).
      assert (PR : 0 < r x) by lra.
      set (n := fun i => x i / r x).
      set (rex := rho0 * ((gamma s + 1) / (gamma s - 1)) ^ (dim - 1)).
      assert (NN : rsum dim (fun i => n i * n i) = 1).
      { unfold n. rewrite (rsum_ext dim _ (fun i => / (r x * r x) * (x i * x i))) by (intros; field; lra).
        rewrite rsum_scal, <- (radius_sq dim x). change (radius dim x) with (r x). field. lra. }
      assert (RN : forall s', - r x < s' -> r (vadd x (vscal s' n)) = r x + s').
      { intros s' Hs. unfold r at 1. replace (norm2 dim (vadd x (vscal s' n))) with ((r x + s') * (r x + s')); [apply sqrt_square; lra|].
        unfold norm2, dot.
        rewrite (rsum_ext dim _ (fun i => (r x + s') * (r x + s') * (n i * n i))).
        - rewrite rsum_scal, NN. ring.
        - intros i Hi. unfold vadd, vscal, n. field. lra. }
      assert (Prex : 0 < rex) by (apply Rmult_lt_0_compat; [exact Hr|apply pow_lt; exact Q0]).
      assert (RI : rin = rex * ((gamma s + 1) / (gamma s - 1))).
      { unfold rin, rex. replace dim with (S (dim - 1)) at 1 by lia. simpl. ring. }
      exists (gas_state (gamma s) dim rin (fun _ => 0) pin), (gas_state (gamma s) dim rex (vscal (- u0) n) 0).
      cbv zeta. fold n.
      refine (conj _ (conj _ (conj _ (conj _ _)))).
      * apply (limit_below_ext (dim + 2) W (fun _ _ => gas_state (gamma s) dim rin (fun _ => 0) pin) n t x (r x) PR);
          [|apply constant_no_jump].
        intros s' Hs. apply (proj1 (NS t _) Ht). change (r (vadd x (vscal s' n)) < D * t). rewrite RN by lra. lra.
      * pose (F := fun (s' : R) (y : vec) => gas_state (gamma s) dim (rho0 * (1 + t / r y) ^ (dim - 1)) (vscal (- u0) n) 0).
        assert (FE : F t x = gas_state (gamma s) dim rex (vscal (- u0) n) 0).
        { unfold F, rex. rewrite E. 
          assert (UD : 1 + t / (D * t) = (gamma s + 1) / (gamma s - 1) \/ dim = 1%nat).
          { destruct Hdu as [H1|H1]; [right; exact H1|left]. unfold D. rewrite H1. field. lra. }
          destruct UD as [UD|UD]; [rewrite UD; reflexivity|]. rewrite UD. reflexivity. }
        rewrite <- FE.
        apply (limit_above_ext (dim + 2) W F n t x (r x) PR).
        -- intros s' Hs. eapply veq_trans; [apply (proj2 (NS t _))|].
           ++ right. split; [exact Ht|]. change (D * t <= r (vadd x (vscal s' n))). rewrite RN by lra. lra.
           ++ unfold F. change (radius dim (vadd x (vscal s' n))) with (r (vadd x (vscal s' n))).
              apply gas_state_ext. intros i Hi. rewrite RN by lra. unfold vadd, vscal, n. field. lra.
        -- apply continuous_no_jump. intros k Hk. unfold F.
           assert (CR : continuity_pt (fun s' => rho0 * (1 + t / r (vadd x (vscal s' n))) ^ (dim - 1)) 0).
           { eapply continuity_pt_locally_ext with (a := r x) (f := fun s' => rho0 * (1 + t / (r x + s')) ^ (dim - 1)); [exact PR| |].
             - intros s' Hs. unfold R_dist in Hs. rewrite Rminus_0_r in Hs. apply Rabs_def2 in Hs. rewrite RN by lra. reflexivity.
             - eapply D_cont. apply D_scal. apply D_pow. apply D_plus; [apply D_const|].
               apply D_div; [rewrite Rplus_0_r; lra|apply D_const|apply D_plus; [apply D_const|apply D_id]]. }
           unfold gas_state. destruct (Nat.eqb k 0); [exact CR|].
           destruct (Nat.eqb k (S dim)).
           ++ apply continuity_pt_plus; [apply continuity_pt_const; intros ? ?; reflexivity|].
              apply continuity_pt_mult; [|apply continuity_pt_const; intros ? ?; reflexivity].
              apply continuity_pt_mult; [exact CR|apply continuity_pt_const; intros ? ?; reflexivity].
           ++ apply continuity_pt_mult; [exact CR|apply continuity_pt_const; intros ? ?; reflexivity].
      * assert (PI' : pin = rex * u0 * u0 * (gamma s + 1) / 2).
        { unfold pin, rex. replace dim with (S (dim - 1)) at 1 by lia.
          unfold Rdiv at 4. rewrite Rpow_mult_distr, pow_inv. simpl. field. apply pow_nonzero. lra. }
        apply (gas_jump_n (gamma s) dim n D _ _ rin 0 pin rex (- u0) 0); try assumption; try lra.
        -- apply gas_state_ext. intros i Hi. unfold vscal. ring.
        -- intros k Hk. reflexivity.
        -- rewrite RI. unfold D. field. lra.
        -- rewrite PI'. unfold D. field.
        -- rewrite PI', RI. unfold D. field. lra.
      * unfold gas_state. cbn [Nat.eqb]. split; [exact Prex|]. rewrite RI.
        rewrite <- (Rmult_1_r rex) at 1. apply Rmult_lt_compat_l; [exact Prex|].
        apply (Rmult_lt_reg_r (gamma s - 1)); [lra|]. unfold Rdiv. rewrite Rmult_assoc, Rinv_l by lra. lra.
      * rewrite gas_state_pressure by lra. exact Ppin.
Qed.

Lemma C92_noh_iff_proof s dim rho0 u0 p0 t x : 1 < gamma s -> (1 <= dim)%nat -> 0 < rho0 -> 0 < u0 -> 0 < t ->
  u0 * (gamma s - 1) / 2 * t < sqrt (norm2 dim x) ->
  solves_euler (gamma s) dim (fun t x => noh dim (from_initial_state s dim dim) 0 (gamma s) rho0 u0 p0 x t) t x
  <-> dim = 1%nat \/ u0 = 1 /\ p0 = 0.
Proof.
  intros Hg Hd Hr Hu Ht L.
  set (D := u0 * (gamma s - 1) / 2) in *.
  assert (PD : 0 < D) by (unfold D; apply Rdiv_lt_0_compat; [apply Rmult_lt_0_compat; lra|lra]).
  change (sqrt (norm2 dim x)) with (radius dim x) in L.
  assert (DT : 0 < D * t) by (apply Rmult_lt_0_compat; lra).
  assert (RX : 0 < norm2 dim x).
  { assert (radius dim x * radius dim x = norm2 dim x) by (exact (radius_sq dim x)). rewrite <- H. apply Rmult_lt_0_compat; lra. }
  set (g := radius dim x - D * t). assert (Pg : 0 < g) by (unfold g; lra).
  apply (noh_exterior (gamma s) dim rho0 u0 p0 _ t x (Rmin t (g / (D + 1)))); try assumption; try lra.
  - apply Rmin_glb_lt; [exact Ht|]. apply Rdiv_lt_0_compat; lra.
  - intros s' y Hs Hy. apply (proj2 (noh_state s dim rho0 u0 p0 y s')). right. fold D.
    assert (S1 : Rabs (s' - t) < t) by (eapply Rlt_le_trans; [exact Hs|apply Rmin_l]).
    assert (S2 : Rabs (s' - t) < g / (D + 1)) by (eapply Rlt_le_trans; [exact Hs|apply Rmin_r]).
    assert (S3 : Rabs (radius dim y - radius dim x) < g / (D + 1)) by (eapply Rlt_le_trans; [exact Hy|apply Rmin_r]).
    apply Rabs_def2 in S1. apply Rabs_def2 in S2. apply Rabs_def2 in S3.
    split; [lra|].
    set (q := g / (D + 1)) in *.
    assert (GQ : g = q * (D + 1)) by (unfold q; field; lra).
    assert (D * (s' - t) <= D * q) by (apply Rmult_le_compat_l; lra).
    unfold g in GQ. lra.
Qed.

(** ** Smooth wave *)
Lemma D_cube z : derivable_pt_lim (fun y => Rmax 0 y ^ 3) z (3 * Rmax 0 z ^ 2).
Proof.
  destruct (Rtotal_order z 0) as [H|[->|H]].
  - rewrite (Rmax_left 0 z) by lra. eapply D_eq.
    + apply (D_near (fun _ => 0) _ z _ (- z)); [lra| |apply D_const].
      intros s Hs. apply Rabs_def2 in Hs. rewrite Rmax_left by lra. ring.
    + ring.
  - rewrite (Rmax_left 0 0) by lra. replace (3 * 0 ^ 2) with 0 by ring.
    intros eps He. assert (Pd : 0 < Rmin 1 eps) by (apply Rmin_glb_lt; lra).
    exists (mkposreal _ Pd). intros h Hh Ha. cbn [pos] in Ha.
    rewrite Rplus_0_l, (Rmax_left 0 0) by lra.
    pose proof (Rmin_l 1 eps). pose proof (Rmin_r 1 eps). pose proof (Rabs_pos h).
    unfold Rmax. destruct (Rle_dec 0 h) as [L|L].
    + rewrite Rabs_right in Ha by lra.
      replace ((h ^ 3 - 0 ^ 3) / h - 0) with (h * h) by (field; exact Hh).
      rewrite Rabs_right by nra. nra.
    + replace ((0 ^ 3 - 0 ^ 3) / h - 0) with 0 by (field; exact Hh). rewrite Rabs_R0. exact He.
  - rewrite (Rmax_right 0 z) by lra. eapply D_eq.
    + apply (D_near (fun y => y ^ 3) _ z _ z); [lra| |apply D_pow; apply D_id].
      intros s Hs. apply Rabs_def2 in Hs. rewrite Rmax_right by lra. reflexivity.
    + simpl. ring.
Qed.

Lemma smooth_wave_eq r x : smooth_wave_density r x = r + 10 ^ 6 * Rmax 0 ((x - 1 / 10) * (3 / 10 - x)) ^ 3.
Proof.
  unfold smooth_wave_density, Rmax.
  destruct (Rle_dec (1 / 10) x), (Rle_dec x (3 / 10)), (Rle_dec 0 ((x - 1 / 10) * (3 / 10 - x))); try nra; try (field; fail).
Qed.

Lemma C93_smooth_wave_proof s dim rho0 p0 M : 1 < gamma s -> (1 <= dim)%nat -> 0 < rho0 -> 0 < p0 ->
  let W := fun t x => smooth_wave dim (from_initial_state s dim dim) rho0 p0 M x t in
  forall t x,
    solves_euler (gamma s) dim W t x /\
    rho0 <= W t x 0%nat <= rho0 + 1 /\ gas_pressure (gamma s) dim (W t x) = p0 /\
    W t x 1%nat = W t x 0%nat * M /\ (forall k, (2 <= k <= dim)%nat -> W t x k = 0) /\
    (x 0%nat - M * t <= 1 / 10 \/ 3 / 10 <= x 0%nat - M * t -> W t x 0%nat = rho0) /\
    (x 0%nat - M * t = 2 / 10 -> W t x 0%nat = rho0 + 1).
Proof.
  intros Hg Hd Hr Hp W t x.
  set (f := fun c => rho0 + 10 ^ 6 * Rmax 0 ((c - 1 / 10) * (3 / 10 - c)) ^ 3).
  assert (V : forall s' y, veq (dim + 2) (W s' y) (gas_state (gamma s) dim (f (y 0%nat - M * s')) (vel1 M) p0)).
  { intros s' y. unfold W, smooth_wave. rewrite smooth_wave_eq. apply from_initial_full. }
  assert (F0 : forall c, rho0 <= f c <= rho0 + 1).
  { intros c. unfold f. set (z := (c - 1 / 10) * (3 / 10 - c)).
    assert (Z : z <= 1 / 100) by (unfold z; pose proof (Rle_0_sqr (c - 2 / 10)) as Q; unfold Rsqr in Q; lra).
    assert (0 <= Rmax 0 z <= 1 / 100) by (split; [apply Rmax_l|apply Rmax_lub; lra]).
    set (w := Rmax 0 z) in *. clearbody w.
    assert (0 <= w ^ 3 <= (1 / 100) ^ 3) by (split; [apply pow_le; lra|apply pow_incr; lra]). lra. }
  assert (Fp : forall c, 0 < f c) by (intros c; pose proof (F0 c); lra).
  destruct (gas_state_facts (gamma s) dim _ _ _ _ Hd ltac:(lra) (Fp (x 0%nat - M * t)) (V t x)) as (E1 & E2 & E3 & E4).
  refine (conj _ (conj _ (conj E3 (conj _ (conj E4 (conj _ _)))))).
  - set (c := x 0%nat - M * t).
    set (f' := 10 ^ 6 * (3 * Rmax 0 ((c - 1 / 10) * (3 / 10 - c)) ^ 2 * (1 * (3 / 10 - c) + (c - 1 / 10) * - 1))).
    assert (DF : derivable_pt_lim f c f').
    { unfold f. eapply D_eq.
      - apply D_plus; [apply D_const|]. apply D_scal.
        apply (D_comp (fun y => Rmax 0 y ^ 3) (fun c => (c - 1 / 10) * (3 / 10 - c))); [|apply D_cube].
        apply D_mult; (apply D_minus; [first [apply D_id|apply D_const]|first [apply D_const|apply D_id]]).
      - unfold f'. ring. }
    apply (euler_primitive (gamma s) dim (fun s' y => f (y 0%nat - M * s')) (fun _ _ => p0) (fun _ _ => vel1 M) W t x 1
      (f' * (- M)) 0 (fun _ => 0) (vel1 f') (fun _ => 0) (fun _ _ => 0)); try lra; try (intros; apply D_const).
    + intros s' _. split; [apply Fp|apply V].
    + intros j s' _ _. split; [apply Fp|apply V].
    + apply (D_comp f (fun s' => x 0%nat - M * s')); [|exact DF].
      eapply D_eq; [apply D_minus; [apply D_const|apply D_scal; apply D_id]|ring].
    + intros j Hj. eapply D_eq.
      * apply (D_comp f (fun s' => along x j s' 0%nat - M * t) 0 f' (if Nat.eqb j 0 then 1 else 0)).
        -- unfold along. eapply D_eq.
           ++ apply D_minus; [apply D_plus; [apply D_const|apply D_mult; [apply D_id|apply D_const]]|apply D_const].
           ++ destruct j; cbn [Nat.eqb]; ring.
        -- rewrite along_0. exact DF.
      * unfold vel1. destruct (Nat.eqb j 0); ring.
    + rewrite (rsum_ext dim (fun j => vel1 M j * vel1 f' j) (fun j => if Nat.eqb 0 j then M * f' else 0)).
      2:{ intros j _. unfold vel1. destruct j; cbn [Nat.eqb]; ring. }
      rewrite (rsum_delta dim (fun _ => M * f')), rsum_0 by lia. ring.
    + intros k Hk. rewrite (rsum_ext dim _ (fun _ => 0)) by (intros; ring). rewrite rsum_0. ring.
    + rewrite !(rsum_ext dim (fun j => _ * 0) (fun _ => 0)) by (intros; ring). rewrite rsum_0. ring.
  - rewrite E1. apply F0.
  - rewrite E1, E2. reflexivity.
  - intros H. rewrite E1. unfold f. rewrite Rmax_left by nra. ring.
  - intros H. rewrite E1. unfold f. rewrite H. rewrite Rmax_right by lra. field.
Qed.

(** ** Ramp up *)
Lemma gas_admissible_eq gamma dim U : 1 < gamma -> 0 < U 0%nat ->
  (0 < gas_pressure gamma dim U <-> rsum dim (fun i => U (S i) * U (S i)) < 2 * U 0%nat * U (S dim)).
Proof.
  intros Hg Hr. unfold gas_pressure. set (q := rsum _ _).
  replace ((gamma - 1) * (U (S dim) - q / (2 * U 0%nat))) with ((gamma - 1) / (2 * U 0%nat) * (2 * U 0%nat * U (S dim) - q)) by (field; lra).
  assert (0 < (gamma - 1) / (2 * U 0%nat)) by (apply Rdiv_lt_0_compat; lra).
  split; intros Z.
  - apply Rnot_le_lt. intros L. assert ((gamma - 1) / (2 * U 0%nat) * (2 * U 0%nat * U (S dim) - q) <= 0); [|lra].
    replace 0 with ((gamma - 1) / (2 * U 0%nat) * 0) by ring. apply Rmult_le_compat_l; lra.
  - apply Rmult_lt_0_compat; lra.
Qed.

Lemma C94_ramp_up_proof gamma dim Ui Uf ti tf :
  1 < gamma -> 0 < Ui 0%nat -> 0 < gas_pressure gamma dim Ui -> 0 < Uf 0%nat -> 0 < gas_pressure gamma dim Uf ->
  ti < tf ->
  let W := fun t => ramp_up Ui Uf ti tf t in
  (forall t, t <= ti -> W t = Ui) /\ (forall t, tf <= t -> W t = Uf) /\
  (forall t, exists a, 0 <= a <= 1 /\ forall k, W t k = (1 - a) * Ui k + a * Uf k) /\
  (forall t, 0 < W t 0%nat /\ 0 < gas_pressure gamma dim (W t)) /\
  (forall k t, continuity_pt (fun s => W s k) t).
Proof.
  intros Hg R1 P1 R2 P2 Ht W.
  set (b := fun t => sin (1 / 2 * PI * (clamp ti tf t - ti) / (tf - ti)) * sin (1 / 2 * PI * (clamp ti tf t - ti) / (tf - ti))).
  assert (SC : forall c, 1 - cos c * cos c = sin c * sin c).
  { intros c. pose proof (sin2_cos2 c) as Z. unfold Rsqr in Z. lra. }
  assert (E : forall t k, W t k = (1 - b t) * Ui k + b t * Uf k).
  { intros t k. unfold W, ramp_up, b.
    destruct (Rle_dec t ti) as [L|L].
    - rewrite clamp_lo by lra. replace (1 / 2 * PI * (ti - ti) / (tf - ti)) with 0 by (field; lra). rewrite sin_0. ring.
    - destruct (Rle_dec tf t) as [L'|L'].
      + rewrite clamp_hi by lra. replace (1 / 2 * PI * (tf - ti) / (tf - ti)) with (PI / 2) by (field; lra). rewrite sin_PI2. ring.
      + rewrite clamp_id by lra. unfold vadd, vscal. rewrite <- SC. ring. }
  assert (B : forall t, 0 <= b t <= 1).
  { intros t. unfold b. set (c := 1 / 2 * PI * _ / _). rewrite <- SC. split; [rewrite SC; apply Rle_0_sqr|].
    pose proof (Rle_0_sqr (cos c)) as Z. unfold Rsqr in Z. lra. }
  refine (conj _ (conj _ (conj _ (conj _ _)))).
  - intros t L. unfold W, ramp_up. destruct (Rle_dec t ti); [reflexivity|lra].
  - intros t L. unfold W, ramp_up. destruct (Rle_dec t ti); [lra|]. destruct (Rle_dec tf t); [reflexivity|lra].
  - intros t. exists (b t). split; [apply B|apply E].
  - intros t. specialize (B t). assert (RP : 0 < W t 0%nat) by (rewrite E; nra).
    split; [exact RP|]. apply gas_admissible_eq; try assumption.
    apply gas_admissible_eq in P1; [|assumption|assumption]. apply gas_admissible_eq in P2; [|assumption|assumption].
    pose proof (E t) as Et. set (a := b t) in *. clearbody a.
    rewrite (rsum_ext dim _ (fun i => (1 - a) * (1 - a) * (Ui (S i) * Ui (S i)) + (a * a * (Uf (S i) * Uf (S i))
       + (1 - a) * a * (2 * (Ui (S i) * Uf (S i)))))) by (intros i _; rewrite Et; ring).
    rewrite !rsum_plus, !rsum_scal.
    set (qi := rsum dim (fun i => Ui (S i) * Ui (S i))) in *. set (qf := rsum dim (fun i => Uf (S i) * Uf (S i))) in *.
    set (qm := rsum dim (fun i => Ui (S i) * Uf (S i))).
    rewrite !Et. set (r1 := Ui 0%nat) in *. set (r2 := Uf 0%nat) in *. set (e1 := Ui (S dim)) in *. set (e2 := Uf (S dim)) in *.
    (* 2 m_i.m_f <= r2/r1 |m_i|^2 + r1/r2 |m_f|^2 *)
    assert (CS : 2 * qm <= r2 / r1 * qi + r1 / r2 * qf).
    { assert (0 <= rsum dim (fun i => r2 / r1 * (Ui (S i) * Ui (S i)) + (r1 / r2 * (Uf (S i) * Uf (S i)) + - 2 * (Ui (S i) * Uf (S i))))).
      - apply rsum_nonneg. intros i _.
        replace (r2 / r1 * (Ui (S i) * Ui (S i)) + (r1 / r2 * (Uf (S i) * Uf (S i)) + - 2 * (Ui (S i) * Uf (S i))))
          with (/ (r1 * r2) * ((r2 * Ui (S i) - r1 * Uf (S i)) * (r2 * Ui (S i) - r1 * Uf (S i)))) by (field; lra).
        apply Rmult_le_pos; [left; apply Rinv_0_lt_compat; nra|apply Rle_0_sqr].
      - rewrite !rsum_plus, !rsum_scal in H. fold qi qf qm in H. lra. }
    assert (C2 : r2 / r1 * qi + r1 / r2 * qf <= 2 * r2 * e1 + 2 * r1 * e2).
    { assert (r2 / r1 * qi <= r2 / r1 * (2 * r1 * e1)) by (apply Rmult_le_compat_l; [left; apply Rdiv_lt_0_compat; assumption|lra]).
      assert (r1 / r2 * qf <= r1 / r2 * (2 * r2 * e2)) by (apply Rmult_le_compat_l; [left; apply Rdiv_lt_0_compat; assumption|lra]).
      replace (r2 / r1 * (2 * r1 * e1)) with (2 * r2 * e1) in H by (field; lra).
      replace (r1 / r2 * (2 * r2 * e2)) with (2 * r1 * e2) in H0 by (field; lra). lra. }
    assert (A1 : (1 - a) * a * (2 * qm) <= (1 - a) * a * (2 * r2 * e1 + 2 * r1 * e2)).
    { apply Rmult_le_compat_l; [|lra]. apply Rmult_le_pos; lra. }
    assert (A2 : (1 - a) * (1 - a) * qi + a * a * qf < (1 - a) * (1 - a) * (2 * r1 * e1) + a * a * (2 * r2 * e2)).
    { destruct (Req_dec a 0) as [->|N]; [lra|].
      assert (0 < a * a) by nra. assert (0 <= (1 - a) * (1 - a)) by apply Rle_0_sqr.
      assert ((1 - a) * (1 - a) * qi <= (1 - a) * (1 - a) * (2 * r1 * e1)) by (apply Rmult_le_compat_l; lra).
      assert (a * a * qf < a * a * (2 * r2 * e2)) by (apply Rmult_lt_compat_l; lra). lra. }
    lra.
  - intros k t.
    assert (Cb : continuity_pt b t).
    { unfold b. set (h := fun s => sin (1 / 2 * PI * (clamp ti tf s - ti) / (tf - ti))).
      assert (Ch : continuity_pt h t).
      { unfold h. apply (continuity_pt_comp (clamp ti tf) (fun c => sin (1 / 2 * PI * (c - ti) / (tf - ti)))).
        - intros eps He. exists eps. split; [exact He|]. intros y [_ Hy]. simpl in *. unfold R_dist in *.
          eapply Rle_lt_trans; [apply clamp_lip|exact Hy].
        - eapply D_cont. apply D_sin. apply D_div; [lra| |apply D_const].
          apply D_mult; [apply D_const|apply D_minus; [apply D_id|apply D_const]]. }
      apply (continuity_pt_mult h h t Ch Ch). }
    eapply continuity_pt_locally_ext with (a := 1) (f := fun s => (1 - b s) * Ui k + b s * Uf k); [lra|intros; symmetry; apply E|].
    apply continuity_pt_plus; apply continuity_pt_mult; try (apply continuity_pt_const; intros ? ?; reflexivity); try exact Cb.
    apply continuity_pt_minus; [apply continuity_pt_const; intros ? ?; reflexivity|exact Cb].
Qed.

Lemma C92_noh_refuted_proof : exists s dim rho0 u0 p0 t x,
  1 < gamma s /\ (1 <= dim)%nat /\ 0 < rho0 /\ 0 < u0 /\ 0 < p0 /\ 0 < t /\
  u0 * (gamma s - 1) / 2 * t < sqrt (norm2 dim x) /\
  ~ solves_euler (gamma s) dim (fun t x => noh dim (from_initial_state s dim dim) 0 (gamma s) rho0 u0 p0 x t) t x.
Proof.
  exists {| gamma := 5 / 3; reference_density := 1; vacuum_state_relaxation_small := 0; vacuum_state_relaxation_large := 0 |}.
  exists 2%nat, 1, 2, 1, 1, (fun i => if Nat.eqb i 0 then 5 else 0). cbn [gamma].
  assert (N : sqrt (norm2 2 (fun i => if Nat.eqb i 0 then 5 else 0)) = 5).
  { unfold norm2, dot. cbn [rsum Nat.eqb]. replace (0 + 5 * 5 + 0 * 0) with (5 * 5) by ring. apply sqrt_square. lra. }
  rewrite N. repeat split; try lra; try lia.
  intros Z.
  assert (Q := C92_noh_iff_proof {| gamma := 5 / 3; reference_density := 1; vacuum_state_relaxation_small := 0; vacuum_state_relaxation_large := 0 |}
    2 1 2 1 1 (fun i => if Nat.eqb i 0 then 5 else 0)). cbn [gamma] in Q. rewrite N in Q.
  apply Q in Z; [|lra|lia|lra|lra|lra|lra]. destruct Z as [Z|[Z _]]; [discriminate|lra].
Qed.
