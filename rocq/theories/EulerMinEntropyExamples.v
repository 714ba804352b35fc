(** * Minimum entropy principle: complete statements and a concrete case *)
From Coq Require Import Reals List Arith Bool Lia Lra Psatz FunctionalExtensionality.
From Verif Require Import RVec Simd Newton EulerSystem EulerLimiter EulerLimiterSpec EulerLimiterProofs EulerLimiterEntropy EulerLimiterBounds EulerLimiterFinal
  PhysSpec PhysLib EulerRiemann EulerRiemannSpec EulerRiemannProofs EulerRiemannFinal EulerSpeed Indicator SWScheme
  EulerScheme EulerSchemeSpec SchemeSpec SchemeProofs SchemeUpdate SchemeLimit SchemeFinal SchemeExamples SWSchemeFinal SWSchemeExamples EulerSchemeProofs EulerSchemeFinal EulerSchemeBounds EulerSchemeExamples
  EulerMinEntropySpec EulerMinEntropy EulerMinEntropyBar EulerMinEntropyPair EulerMinEntropyFinal.
From Verif Require Import Scheme.
Import ListNotations.
Local Open Scope R_scope.

Lemma C129_minimum_proof : forall p dim M num_min (old : (nat -> state nat) * PC nat (euler_scheme p dim)) d0 tau cfl,
  symmetric_pattern M -> positive_masses M -> valid_numbering M -> pairs_listed M -> mesh_dimension M dim ->
  0 < num_min -> 1 < gamma (ep_system p) ->
  (forall i, active M i -> positive_gas dim (fst old i)) ->
  0 < cfl <= 1 -> 0 <= tau ->
  (forall t, In t (row_tau (euler_scheme p dim) M num_min cfl old d0) -> tau <= t) ->
  (forall i, active M i -> zero_row_sum M i) ->
  (forall i, active M i -> e_fast p dim M num_min old d0 i) ->
  (forall i j, active M i -> In j (neighbours M i) -> 0 < cnorm (c_ij M i j) ->
     resolved (ep_system p) dim (fst old i) (fst old j) (direction M i j)
       (dij_matrix (euler_scheme p dim) M num_min old d0 i j / cnorm (c_ij M i j))) ->
  forall s0 order a0 l0 ln0 new0 stages i, active M i -> 0 <= s0 ->
  (forall j, In j (columns M i) -> s0 <= entropy_of_gas (ep_system p) dim (fst old j)) ->
  let V := fst (hyperbolic_update (euler_scheme p dim) M num_min order 0 a0 d0 l0 ln0 new0 old stages tau) i in
  positive_gas dim V /\ s0 <= entropy_of_gas (ep_system p) dim V.
Proof.
  intros p dim M nm old d0 tau cfl H1 H2 H3 H4 H5 H6 H7 H8 H9 H10 H11 H12 H13 H14 s0 order a0 l0 ln0 new0 stages i Ha Hs Hc.
  pose proof (m_resolved p dim M nm old d0 H1 H5 H7 H8 H13 H6 H14) as HR. eapply m_low; eassumption.
Qed.

Lemma C129_computed_proof : forall p dim M num_min (old : (nat -> state nat) * PC nat (euler_scheme p dim)) d0 tau cfl,
  symmetric_pattern M -> positive_masses M -> valid_numbering M -> pairs_listed M -> mesh_dimension M dim ->
  0 < num_min -> 1 < gamma (ep_system p) <= 5 / 3 -> (ep_riemann_iterations p = 0%nat \/ ep_eps p = 0) ->
  (forall i, active M i -> positive_gas dim (fst old i)) ->
  0 < cfl <= 1 -> 0 <= tau ->
  (forall t, In t (row_tau (euler_scheme p dim) M num_min cfl old d0) -> tau <= t) ->
  (forall i, active M i -> zero_row_sum M i) ->
  (forall i, active M i -> e_fast p dim M num_min old d0 i) ->
  forall s0 order a0 l0 ln0 new0 stages i, active M i -> 0 <= s0 ->
  (forall j, In j (columns M i) -> s0 <= entropy_of_gas (ep_system p) dim (fst old j)) ->
  let V := fst (hyperbolic_update (euler_scheme p dim) M num_min order 0 a0 d0 l0 ln0 new0 old stages tau) i in
  positive_gas dim V /\ s0 <= entropy_of_gas (ep_system p) dim V.
Proof.
  intros p dim M nm old d0 tau cfl H1 H2 H3 H4 H5 H6 H7 HN H8 H9 H10 H11 H12 H13 s0 order a0 l0 ln0 new0 stages i Ha Hs Hc.
  pose proof (m_computed p dim M nm old d0 H1 H3 H4 H5 H7 H8 HN H13 H6) as HR. destruct H7 as [H7 _].
  eapply m_low; eassumption.
Qed.

Lemma C129_step_proof : forall p dim M num_min (old : (nat -> state nat) * PC nat (euler_scheme p dim)) pc0 d0 tau cfl,
  symmetric_pattern M -> positive_masses M -> valid_numbering M -> pairs_listed M -> mesh_dimension M dim ->
  0 < num_min -> ep_eps p = 0 -> 0 < ep_big p -> 0 <= ep_relaxation p -> moderate_relaxation p dim M ->
  1 < gamma (ep_system p) <= 5 / 3 ->
  (forall i, active M i -> positive_gas dim (fst old i)) ->
  snd old = euler_precomputed p dim M (fst old) pc0 ->
  0 < cfl <= 1 -> 0 <= tau ->
  (forall t, In t (row_tau (euler_scheme p dim) M num_min cfl old d0) -> tau <= t) ->
  (forall i, active M i -> zero_row_sum M i) ->
  (forall i, active M i -> e_fast p dim M num_min old d0 i) ->
  forall order, (forall i, In i order -> (i < n_rows M)%nat) ->
  forall n a0 l0 ln0 new0 stages, (n <= 2)%nat ->
  (forall i, active M i ->
     let V := fst (hyperbolic_update (euler_scheme p dim) M num_min order n a0 d0 l0 ln0 new0 old stages tau) i in
     positive_gas dim V /\
     entropy_inside (ep_system p) dim
       (limiter_bounds_i (euler_scheme p dim) M num_min old (dij_matrix (euler_scheme p dim) M num_min old d0) tau order i) V) /\
  ~ violation (euler_scheme p dim) M num_min order n (compute_alpha (euler_scheme p dim) M old a0)
      (dij_matrix (euler_scheme p dim) M num_min old d0) new0 old stages tau.
Proof.
  intros p dim M nm old pc0 d0 tau cfl H1 H2 H3 H4 H5 H6 He Hb Hr Hm H7 H8 Hpc H9 H10 H11 H12 H13 order Ho n a0 l0 ln0 new0 stages Hn.
  pose proof (m_computed p dim M nm old d0 H1 H3 H4 H5 H7 H8 (or_intror He) H13 H6) as HR. destruct H7 as [H7 _].
  assert (L : forall i, active M i -> entropy_inside (ep_system p) dim
       (limiter_bounds_i (euler_scheme p dim) M nm old (dij_matrix (euler_scheme p dim) M nm old d0) tau order i)
       (fst (hyperbolic_update (euler_scheme p dim) M nm order 0 a0 d0 l0 ln0 new0 old stages tau) i)).
  { intros i Ha. eapply m_inside; eassumption. }
  split.
  - intros i Ha V. destruct (C84_entropy_proof p dim M nm order n a0 d0 l0 ln0 new0 old stages tau H1 H7 He Hn L i Ha) as [A B].
    split; assumption.
  - apply (C85_verdict_proof p dim M nm order n a0 d0 l0 ln0 new0 old stages tau He L).
Qed.

(** ** A stream against two streams on a ring of three nodes: density 7/5, pressure 1,
    velocities 5/4, -5/4, -5/4: two shocks, two rarefactions, nothing. *)
Definition jet (m : R) : state nat := mkstate 1 (7 / 5) (fun _ => m) (115 / 32).
Definition jets_U : nat -> state nat := fun i => if Nat.eqb i 0 then jet (7 / 4) else jet (- (7 / 4)).
Definition jets_old eps : (nat -> state nat) * PC nat (euler_scheme (gas_params eps) 1) :=
  (jets_U, euler_precomputed (gas_params eps) 1 ring3 jets_U (fun _ => (0, 0))).

Lemma jet_values m n : m * m = 49 / 16 -> density (jet m) = 7 / 5 /\
  normal_velocity 1 n (jet m) = 5 / 7 * m * n 0%nat /\ pressure ex_air 1 (jet m) = 1.
Proof.
  intros H. unfold pressure, jet. rewrite mkstate_1_energy.
  replace (1 / 2 * (m * m) * (1 / (7 / 5))) with (1 / 2 * (49 / 16) * (1 / (7 / 5))) by (rewrite H; reflexivity).
  unfold normal_velocity, density, dot, rsum, momentum, mkstate; simpl. repeat split; field.
Qed.

Lemma jet_gas m : m * m = 49 / 16 -> positive_gas 1 (jet m).
Proof.
  intros H. apply positive_gas_eq. destruct (jet_values m (fun _ => 1) H) as (A & _ & B). split; [lra|].
  unfold pressure in B. cbn [gamma ex_air] in B. lra.
Qed.

Lemma jets_gas i : positive_gas 1 (jets_U i).
Proof. unfold jets_U. destruct (Nat.eqb i 0); apply jet_gas; lra. Qed.

Lemma jet_sound : sound (7 / 5) (7 / 5) 1 = 1.
Proof. unfold sound. replace (7 / 5 * 1 / (7 / 5)) with (1 * 1) by field. apply sqrt_square. lra. Qed.

Lemma fan_equal u : e_fan (7 / 5) (7 / 5) u 1 (7 / 5) u 1 u 1 (u - 1) (u + 1).
Proof.
  split; [|unfold e_right_wave]; left; exists (7 / 5); rewrite jet_sound; repeat split; lra.
Qed.

Lemma fan_shocks : e_fan (7 / 5) (7 / 5) (5 / 4) 1 (7 / 5) (- (5 / 4)) 1 0 (9 / 2) (- (3 / 4)) (3 / 4).
Proof.
  assert (L : e_left_wave (7 / 5) (7 / 5) (5 / 4) 1 0 (9 / 2) (- (3 / 4))).
  { right. exists (56 / 15). unfold energy. repeat split; lra. }
  split; [exact L|]. unfold e_right_wave. rewrite Ropp_involutive, Ropp_0. exact L.
Qed.

Lemma fan_rarefactions : exists ps, ps <= 1 /\
  e_fan (7 / 5) (7 / 5) (- (5 / 4)) 1 (7 / 5) (5 / 4) 1 0 ps (- (9 / 4)) (9 / 4).
Proof.
  set (q := 3 / 4). exists (q ^ 7). assert (Hq : 0 < q < 1) by (unfold q; lra).
  assert (P7 : 0 < q ^ 7 <= 1) by (unfold q; lra). split; [lra|].
  assert (L : e_left_wave (7 / 5) (7 / 5) (- (5 / 4)) 1 0 (q ^ 7) (- (9 / 4))).
  { left. exists (7 / 5 * q ^ 5). assert (P5 : 0 < q ^ 5) by (apply pow_lt; lra).
    split; [lra|]. split; [lra|]. split; [|split].
    - rewrite <- Rpower_mult_distr by lra.
      assert (E : Rpower (q ^ 5) (7 / 5) = q ^ 7).
      { rewrite <- Rpower_pow, Rpower_mult by lra. replace (INR 5 * (7 / 5)) with (INR 7) by (simpl; field). apply Rpower_pow. lra. }
      rewrite E. field. split; [apply Rgt_not_eq, exp_pos|unfold q; lra].
    - rewrite jet_sound. assert (S : sound (7 / 5) (7 / 5 * q ^ 5) (q ^ 7) = q).
      { unfold sound. replace (7 / 5 * q ^ 7 / (7 / 5 * q ^ 5)) with (q * q) by (field; unfold q; lra). apply sqrt_square. lra. }
      rewrite S. unfold q. lra.
    - rewrite jet_sound. lra. }
  split; [exact L|]. unfold e_right_wave. rewrite Ropp_0. exact L.
Qed.

Lemma jet_fan m m' n : m = 7 / 4 \/ m = - (7 / 4) -> m' = 7 / 4 \/ m' = - (7 / 4) -> dot 1 n n = 1 ->
  exists us ps sl sr xi,
  e_fan (gamma ex_air) (density (jet m)) (normal_velocity 1 n (jet m)) (pressure ex_air 1 (jet m))
    (density (jet m')) (normal_velocity 1 n (jet m')) (pressure ex_air 1 (jet m')) us ps sl sr /\
  (ps <= Rmin (pressure ex_air 1 (jet m)) (pressure ex_air 1 (jet m')) \/ Rmax (pressure ex_air 1 (jet m)) (pressure ex_air 1 (jet m')) <= ps) /\
  sl <= xi <= sr /\ 3 / 4 <= Rabs xi.
Proof.
  intros Hm Hm' Hn. unfold dot, rsum in Hn. simpl in Hn.
  assert (Q : n 0%nat = 1 \/ n 0%nat = -1).
  { assert (F : (n 0%nat - 1) * (n 0%nat + 1) = 0) by lra. apply Rmult_integral in F. destruct F; [left|right]; lra. }
  assert (Q1 : m * m = 49 / 16) by (destruct Hm as [->| ->]; lra). assert (Q2 : m' * m' = 49 / 16) by (destruct Hm' as [->| ->]; lra).
  destruct (jet_values m n Q1) as (A1 & A2 & A3). destruct (jet_values m' n Q2) as (B1 & B2 & B3).
  rewrite A1, A2, A3, B1, B2, B3. change (gamma ex_air) with (7 / 5).
  rewrite Rmin_left, Rmax_left by lra.
  assert (V : 5 / 7 * m * n 0%nat = 5 / 4 \/ 5 / 7 * m * n 0%nat = - (5 / 4)) by (destruct Hm as [->| ->], Q as [->| ->]; [left|right|right|left]; field).
  assert (W : 5 / 7 * m' * n 0%nat = 5 / 4 \/ 5 / 7 * m' * n 0%nat = - (5 / 4)) by (destruct Hm' as [->| ->], Q as [->| ->]; [left|right|right|left]; field).
  destruct V as [->| ->], W as [->| ->].
  - exists (5 / 4), 1, (5 / 4 - 1), (5 / 4 + 1), (9 / 4). split; [apply fan_equal|]. rewrite Rabs_pos_eq by lra. lra.
  - exists 0, (9 / 2), (- (3 / 4)), (3 / 4), (3 / 4). split; [apply fan_shocks|]. rewrite Rabs_pos_eq by lra. lra.
  - destruct fan_rarefactions as (ps & H1 & H2). exists 0, ps, (- (9 / 4)), (9 / 4), (9 / 4). split; [exact H2|]. rewrite Rabs_pos_eq by lra. lra.
  - exists (- (5 / 4)), 1, (- (5 / 4) - 1), (- (5 / 4) + 1), (- (9 / 4)). split; [apply fan_equal|]. rewrite Rabs_left by lra. lra.
Qed.

Lemma jets_fan i j n : dot 1 n n = 1 -> exists us ps sl sr xi,
  e_fan (gamma ex_air) (density (jets_U i)) (normal_velocity 1 n (jets_U i)) (pressure ex_air 1 (jets_U i))
    (density (jets_U j)) (normal_velocity 1 n (jets_U j)) (pressure ex_air 1 (jets_U j)) us ps sl sr /\
  (ps <= Rmin (pressure ex_air 1 (jets_U i)) (pressure ex_air 1 (jets_U j)) \/ Rmax (pressure ex_air 1 (jets_U i)) (pressure ex_air 1 (jets_U j)) <= ps) /\
  sl <= xi <= sr /\ 3 / 4 <= Rabs xi.
Proof. intros Hn. unfold jets_U. destruct (Nat.eqb i 0), (Nat.eqb j 0); apply jet_fan; auto. Qed.

Lemma jets_kind i j : active ring3 i -> In j (neighbours ring3 i) -> 0 < cnorm (c_ij ring3 i j) ->
  same_kind ex_air 1 (jets_U i) (jets_U j) (direction ring3 i j).
Proof.
  intros Ha Hj Hc. destruct Ha as [Hi _].
  assert (Hjc : In j (columns ring3 i)) by apply (neighbours_columns ring3 i j ring3_pattern Hi Hj).
  assert (Hn : unit_vector 1 (cdiv (c_ij ring3 i j) (cnorm (c_ij ring3 i j)))).
  { split; [apply cnorm_cdiv; exact Hc|]. unfold cdiv. rewrite map_length. apply ring3_dimension; assumption. }
  apply unit_dot in Hn. destruct (jets_fan i j _ Hn) as (us & ps & sl & sr & xi & F & K & _).
  left. exists us, ps, sl, sr. split; assumption.
Qed.

Lemma jets_fast eps i : active ring3 i -> e_fast (gas_params eps) 1 ring3 (1 / 10000) (jets_old eps) (fun _ _ => 0) i.
Proof.
  intros [Hi _] j Hj. cbn [n_rows ring3] in Hi.
  assert (Hjb : (j < 3)%nat) by apply (neighbours_bound ring3 i j ring3_pattern Hi Hj).
  assert (Hjc : In j (columns ring3 i)) by apply (neighbours_columns ring3 i j ring3_pattern Hi Hj).
  assert (Hg : 1 < gamma (ep_system (gas_params eps))) by (cbn; lra).
  assert (HG : forall k, active ring3 k -> positive_gas 1 (fst (jets_old eps) k)) by (intros; apply jets_gas).
  rewrite (dij_value (euler_scheme (gas_params eps) 1) ring3 (1 / 10000) (jets_old eps) (fun _ _ => 0) i j ring3_pattern ring3_numbering ring3_pairs
    (euler_symmetric (gas_params eps) 1 ring3 (jets_old eps) Hg ring3_pattern ring3_dimension HG) Hi Hj).
  eapply Rle_trans; [|apply Rmax_l]. unfold wave_viscosity. cbn [riemann_compute euler_scheme].
  pose proof (ring_cnorm i j Hi Hj) as Hc. set (c := c_ij ring3 i j) in *. set (n := cdiv c (cnorm c)).
  assert (Hn : unit_vector 1 n).
  { split; [apply cnorm_cdiv; lra|]. unfold n, cdiv. rewrite map_length. apply ring3_dimension; [exact Hi|exact Hjc]. }
  destruct (gas_pressure (gas_params eps) 1 (jets_U i) Hg (jets_gas i)) as [A1 A2].
  destruct (gas_pressure (gas_params eps) 1 (jets_U j) Hg (jets_gas j)) as [B1 B2].
  destruct (jets_fan i j (vec_of n) (unit_dot 1 n Hn)) as (us & ps & sl & sr & xi & F & K & X & Y).
  pose proof (C37_wave_speed_proof ex_air eps (ep_riemann_tol (gas_params eps)) 0 1 (jets_U i) (jets_U j) (vec_of n) us ps sl sr xi
     ltac:(cbn; lra) (unit_dot 1 n Hn) A1 A2 B1 B2 (or_introl eq_refl) F K X) as C.
  cbn [ep_system ep_eps ep_riemann_iterations ep_riemann_tol gas_params fst jets_old] in *.
  set (lam := er_wavespeed _ _ _ _ _ _ _ _) in *.
  pose proof (Rmult_le_compat (1 / 2) (cnorm c) (3 / 4) lam ltac:(lra) ltac:(lra) Hc ltac:(lra)). lra.
Qed.

Lemma jets_step eps : exists tau, 0 < tau /\
  forall t, In t (row_tau (euler_scheme (gas_params eps) 1) ring3 (1 / 10000) 1 (jets_old eps) (fun _ _ => 0)) -> tau <= t.
Proof. apply step_exists; [exact ring3_pattern|exact ring3_masses|lra|lra]. Qed.

Lemma jets_pair : let U_i := jet (7 / 4) in let U_j := jet (- (7 / 4)) in let n : vec := fun _ => 1 in
  1 < gamma ex_air <= 5 / 3 /\ dot 1 n n = 1 /\
  0 < density U_i /\ 0 < pressure ex_air 1 U_i /\ 0 < density U_j /\ 0 < pressure ex_air 1 U_j /\
  same_kind ex_air 1 U_i U_j n /\ resolved ex_air 1 U_i U_j n (3 / 4).
Proof.
  cbv zeta. assert (Hn : dot 1 (fun _ => 1) (fun _ => 1) = 1) by (unfold dot, rsum; simpl; lra).
  destruct (jet_values (7 / 4) (fun _ => 1) ltac:(lra)) as (A1 & A2 & A3). destruct (jet_values (- (7 / 4)) (fun _ => 1) ltac:(lra)) as (B1 & B2 & B3).
  destruct (jet_fan (7 / 4) (- (7 / 4)) _ ltac:(auto) ltac:(auto) Hn) as (us & ps & sl & sr & xi & F & K & _).
  repeat match goal with |- _ /\ _ => split end; try lra; try (cbn; lra).
  - left. exists us, ps, sl, sr. split; assumption.
  - left. exists 0, (9 / 2), (- (3 / 4)), (3 / 4). rewrite A1, A2, A3, B1, B2, B3. change (gamma ex_air) with (7 / 5).
    replace (5 / 7 * (7 / 4) * 1) with (5 / 4) by field. replace (5 / 7 * - (7 / 4) * 1) with (- (5 / 4)) by field.
    split; [apply fan_shocks|lra].
Qed.

Lemma jets_case : symmetric_pattern ring3 /\ positive_masses ring3 /\ valid_numbering ring3 /\ pairs_listed ring3 /\ mesh_dimension ring3 1 /\
  moderate_relaxation (gas_params 0) 1 ring3 /\
  (forall i, active ring3 i -> positive_gas 1 (jets_U i)) /\ jets_U 0%nat <> jets_U 1%nat /\
  (forall i, active ring3 i -> zero_row_sum ring3 i) /\
  (forall i, active ring3 i -> e_fast (gas_params 0) 1 ring3 (1 / 10000) (jets_old 0) (fun _ _ => 0) i) /\
  (forall i j, active ring3 i -> In j (neighbours ring3 i) -> 0 < cnorm (c_ij ring3 i j) ->
     resolved ex_air 1 (jets_U i) (jets_U j) (direction ring3 i j)
       (dij_matrix (euler_scheme (gas_params 0) 1) ring3 (1 / 10000) (jets_old 0) (fun _ _ => 0) i j / cnorm (c_ij ring3 i j))) /\
  exists tau, 0 < tau /\
    forall t, In t (row_tau (euler_scheme (gas_params 0) 1) ring3 (1 / 10000) 1 (jets_old 0) (fun _ _ => 0)) -> tau <= t.
Proof.
  destruct tube_setting as (P1 & P2 & P3 & P4 & P5 & P6 & _ & P8 & _).
  repeat match goal with |- _ /\ _ => split end; try assumption.
  - apply gas_moderate.
  - intros i _. apply jets_gas.
  - intros E. apply (f_equal (fun f => f 1%nat)) in E. unfold jets_U, jet, mkstate in E. cbn in E. lra.
  - intros i Ha. apply jets_fast, Ha.
  - intros i j Ha Hj Hc. assert (Hgas : forall k, active ring3 k -> positive_gas 1 (fst (jets_old 0) k)) by (intros; apply jets_gas).
    assert (Hg : 1 < gamma (ep_system (gas_params 0))) by (cbn; lra).
    apply (resolved_mono _ _ _ _ _ _ _ (viscosity_ge (gas_params 0) 1 ring3 (1 / 10000) (jets_old 0) (fun _ _ => 0) P1 P3 P4 P6 Hg Hgas i j Ha Hj Hc)).
    destruct Ha as [Hi Hr]. assert (Hjb : (j < 3)%nat) by apply (neighbours_bound ring3 i j ring3_pattern Hi Hj).
    assert (Hjc : In j (columns ring3 i)) by apply (neighbours_columns ring3 i j ring3_pattern Hi Hj).
    assert (Hn : unit_vector 1 (cdiv (c_ij ring3 i j) (cnorm (c_ij ring3 i j)))).
    { split; [apply cnorm_cdiv; exact Hc|]. unfold cdiv. rewrite map_length. apply ring3_dimension; assumption. }
    destruct (gas_pressure (gas_params 0) 1 (jets_U i) Hg (jets_gas i)) as [A1 A2].
    destruct (gas_pressure (gas_params 0) 1 (jets_U j) Hg (jets_gas j)) as [B1 B2].
    apply same_kind_resolved; try assumption; [cbn; lra|exact (unit_dot 1 _ Hn)|left; reflexivity|].
    apply jets_kind; try assumption. split; assumption.
  - apply jets_step.
Qed.

(** A dense gas and a light gas: a rarefaction and a shock that is faster than the computed
    speed. *)
Lemma mixed_pair : let n : vec := fun _ => 1 in
  1 < gamma ex_air <= 5 / 3 /\ dot 1 n n = 1 /\
  0 < density ex_dense /\ 0 < pressure ex_air 1 ex_dense /\ 0 < density ex_light /\ 0 < pressure ex_air 1 ex_light /\
  0 < er_wavespeed ex_air 0 0 0 1 ex_dense ex_light n /\
  0 < entropy_of_gas ex_air 1 ex_dense /\ 0 < entropy_of_gas ex_air 1 ex_light /\
  exists us ps sl sr,
    e_fan (gamma ex_air) (density ex_dense) (normal_velocity 1 n ex_dense) (pressure ex_air 1 ex_dense)
          (density ex_light) (normal_velocity 1 n ex_light) (pressure ex_air 1 ex_light) us ps sl sr /\
    pressure ex_air 1 ex_light < ps < pressure ex_air 1 ex_dense /\
    er_wavespeed ex_air 0 0 0 1 ex_dense ex_light n < sr.
Proof.
  cbv zeta. destruct ex_dense_values as (D1 & D2 & D3). destruct ex_light_values as (L1 & L2 & L3).
  assert (N : dot 1 (fun _ => 1) (fun _ => 1) = 1) by (unfold dot, rsum; simpl; lra).
  assert (K : forall u, 0 < density u -> 0 < pressure ex_air 1 u -> 0 < entropy_of_gas ex_air 1 u).
  { intros u Hr Hp. unfold entropy_of_gas. pose proof (powr_gt0 (density u) (gamma ex_air) Hr) as Q.
    apply Rdiv_lt_0_compat; [|exact Q]. unfold pressure, internal_energy in Hp. cbn [gamma ex_air] in Hp.
    replace (norm2 1 (momentum u) / (2 * density u)) with (1 / 2 * norm2 1 (momentum u) * (1 / density u)) by (field; lra). lra. }
  assert (P1 : 0 < density ex_dense) by lra. assert (P2 : 0 < pressure ex_air 1 ex_dense) by lra.
  assert (P3 : 0 < density ex_light) by lra. assert (P4 : 0 < pressure ex_air 1 ex_light) by lra.
  split; [cbn; lra|]. split; [exact N|]. do 4 (split; [assumption|]).
  split; [apply er_wavespeed_positive; try assumption; cbn; lra|].
  split; [apply K; assumption|]. split; [apply K; assumption|].
  exists (1 / 100), 1, (- (1 / 100)), (51 / 100). rewrite D1, D2, D3, L1, L2, L3.
  split; [exact mixed_fan|]. split; [lra|].
  unfold er_wavespeed. rewrite !er_data_eq by (try exact N; rewrite ?D1, ?L1; lra).
  rewrite D1, D2, D3, L1, L2, L3. unfold er_compute. apply mixed_lambda. exact mixed_p2.
Qed.
