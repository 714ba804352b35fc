(** * Scheme with an arbitrary equation of state: C122 and C123 *)
From Coq Require Import Reals List Arith Bool Lia Lra Psatz FunctionalExtensionality.
From Verif Require Import RVec Newton PhysSpec PhysLib EulerSystem EulerLimiter EulerSpeed EulerRiemannSpec EulerRiemannProofs AeosSystem AeosLimiter AeosRiemann AeosRiemannSpec AeosRiemannProofs AeosRiemannFinal
  AeosPrecompute Eos Indicator SWScheme SchemeSpec SchemeProofs SchemeUpdate SchemeLimit SchemeFinal ScalarSchemeProofs
  EulerScheme EulerSchemeSpec EulerSchemeProofs AeosScheme AeosSchemeSpec AeosSchemeProofs AeosSchemeCovolume.
From Verif Require Import Scheme.
Import ListNotations.
Local Open Scope R_scope.

Lemma rank_symmetric K (Sy : system K) M nm old d0 i j : symmetric_pattern M -> valid_numbering M ->
  (i < n_rows M)%nat -> In j (neighbours M i) ->
  (owner M i <> owner M j -> wave_viscosity Sy M old j i = wave_viscosity Sy M old i j) ->
  dij_matrix Sy M nm old d0 j i = dij_matrix Sy M nm old d0 i j.
Proof.
  intros H HV Hi Hj Hw. destruct (neighbours_bound M i j H Hi Hj) as [Hjb [Hij Hne]].
  unfold dij_matrix. destruct (Nat.eqb_spec i j); [congruence|]. destruct (Nat.eqb_spec j i); [congruence|].
  unfold dij_symmetrized. destruct (below M j i) eqn:E.
  - rewrite (below_total M i j HV Hi Hjb) by (try assumption; congruence). reflexivity.
  - destruct (below M i j) eqn:E'; [reflexivity|].
    assert (Ho : owner M i <> owner M j).
    { intros Ho. pose proof (below_none M i j HV Hi Hjb ltac:(congruence) Ho E). congruence. }
    specialize (Hw Ho).
    destruct (boundary_bounds Sy M old d0 H HV i j Hi Hj E) as [[B1 B2] _].
    destruct (boundary_bounds Sy M old d0 H HV j i Hjb Hij E') as [[B3 B4] _].
    rewrite Hw in B2, B3, B4. rewrite Rmax_left in B2 by lra. rewrite Rmax_left in B4 by lra. lra.
Qed.

Lemma C122_one_rank_proof p dim M num_min order n a0 d0 l0 ln0 new0
    (old : (nat -> state nat) * PC nat (aeos_scheme p dim)) stages tau k :
  symmetric_pattern M -> positive_masses M -> valid_numbering M -> symmetric_matrices M ->
  (forall i j, active M i -> In j (columns M i) -> skew_at M i j) ->
  (forall i j, (i < n_rows M)%nat -> (j < n_rows M)%nat -> owner M i = owner M j) ->
  total M (active_rows M) (fst (hyperbolic_update (aeos_scheme p dim) M num_min order n a0 d0 l0 ln0 new0 old stages tau)) k =
  total M (active_rows M) (fst old) k.
Proof.
  intros H HM HV HSM Hsk Ho.
  apply (conservation_symmetric nat (aeos_scheme p dim) M num_min order n a0 d0 l0 ln0 new0 old stages tau dim (a_F p dim) k H HM HSM
    (aeos_plain p dim) (aeos_central p dim) eq_refl Hsk).
  intros i j Hi Hj. apply one_rank_symmetric; assumption.
Qed.

Lemma C122_ranks_proof p dim M num_min order n a0 d0 l0 ln0 new0
    (old : (nat -> state nat) * PC nat (aeos_scheme p dim)) pc0 stages tau k :
  symmetric_pattern M -> positive_masses M -> valid_numbering M -> symmetric_matrices M -> mesh_dimension M dim ->
  (forall i j, active M i -> In j (columns M i) -> skew_at M i j) ->
  let e := a_eos (ap_system p) in
  let pressure u := eos_pressure e (a_density u) (a_internal_energy dim u / a_density u) in
  (forall i, active M i -> aeos_gas e dim (fst old i)) ->
  snd old = aeos_precomputed p dim M (fst old) pc0 ->
  (forall i j, active M i -> In j (columns M i) -> owner M i <> owner M j ->
     let U_i := fst old i in let U_j := fst old j in
     pressure U_i <> pressure U_j \/
     (surrogate_gamma e dim U_i (pressure U_i) <= 5 / 3 /\ surrogate_gamma e dim U_j (pressure U_j) <= 5 / 3) \/
     (compute_strict_bounds (ap_system p) = true /\ interp_pinf e = 0)) ->
  total M (active_rows M) (fst (hyperbolic_update (aeos_scheme p dim) M num_min order n a0 d0 l0 ln0 new0 old stages tau)) k =
  total M (active_rows M) (fst old) k.
Proof.
  intros H HM HV HSM HD Hsk e pressure Hg Hpc Hc.
  apply (conservation_symmetric nat (aeos_scheme p dim) M num_min order n a0 d0 l0 ln0 new0 old stages tau dim (a_F p dim) k H HM HSM
    (aeos_plain p dim) (aeos_central p dim) eq_refl Hsk).
  assert (Hok : precomputed_ok p dim M old).
  { destruct old as [U pc]. cbn [fst snd] in Hpc. rewrite Hpc. apply precomputed_p. }
  intros i j Hi Hj. apply rank_symmetric; try assumption. intros Ho.
  destruct (neighbours_columns M i j H Hi Hj) as [Hjc Hne].
  pose proof (row_active M i j H Hi Hj) as Ai. pose proof (col_active M i j H Hi Hj) as Aj.
  unfold wave_viscosity. rewrite (Hsk i j Ai Hjc). rewrite cnorm_neg, cdiv_neg.
  f_equal. cbn [riemann_compute aeos_scheme]. rewrite (Hok i Ai), (Hok j Aj), vec_of_neg.
  apply (C73_aeos_symmetric_proof (ap_system p) dim _ _ _ _ _ _ _ (gas_n p dim _ (Hg i Ai)) (gas_n p dim _ (Hg j Aj))).
  apply (Hc i j Ai Hjc Ho).
Qed.

Section Positive.
Variables (p : aparameters) (dim : nat) (M : mesh) (num_min cfl : R) (order : list nat) (a0 : nat -> R) (d0 l0 ln0 : nat -> nat -> R)
  (new0 : nat -> state nat) (old : (nat -> state nat) * PC nat (aeos_scheme p dim)) (pc0 : nat -> prec)
  (stages : list ((nat -> state nat) * PC nat (aeos_scheme p dim) * R)) (tau : R).
Local Notation e := (a_eos (ap_system p)).
Hypothesis H : symmetric_pattern M.
Hypothesis HM : positive_masses M.
Hypothesis HV : valid_numbering M.
Hypothesis HP : pairs_listed M.
Hypothesis HD : mesh_dimension M dim.
Hypothesis Hnm : 0 < num_min.
Hypothesis Hcfl : 0 < cfl <= 1.
Hypothesis Ht : 0 <= tau.
Hypothesis HT : forall t, In t (row_tau (aeos_scheme p dim) M num_min cfl old d0) -> tau <= t.
Hypothesis Hz : forall i, active M i -> zero_row_sum M i.
Hypothesis Hpc : snd old = aeos_precomputed p dim M (fst old) pc0.
Hypothesis Hg : forall i, active M i -> aeos_gas e dim (fst old i).

Lemma pc_ok : precomputed_ok p dim M old.
Proof using Hpc.
  rewrite (surjective_pairing old), Hpc. apply precomputed_p.
Qed.

Lemma C123_admissible_proof' i : active M i ->
  admissible_gas e dim (fst (hyperbolic_update (aeos_scheme p dim) M num_min order 0 a0 d0 l0 ln0 new0 old stages tau) i).
Proof using H HM HV HP HD Hnm Hcfl Ht HT Hz Hpc Hg.
  intros Ha. apply (step_admissible p dim M num_min old d0 H HM HV HD pc_ok Hg i tau new0 cfl); auto.
Qed.

Lemma C123_covolume_proof' i : interp_pinf e = 0 -> active M i ->
  interp_b e * fst (hyperbolic_update (aeos_scheme p dim) M num_min order 0 a0 d0 l0 ln0 new0 old stages tau) i 0%nat < 1.
Proof using H HM HV HP HD Hnm Hcfl Ht HT Hz Hpc Hg.
  intros Hi Ha. destruct (Rle_lt_dec 0 (interp_b e)) as [Hb|Hb].
  - apply (step_covolume p dim Hi Hb M num_min old d0 H HM HV HD pc_ok Hg i tau new0 cfl); auto.
  - destruct (C123_admissible_proof' i Ha) as [Q _].
    revert Q. generalize (fst (hyperbolic_update (aeos_scheme p dim) M num_min order 0 a0 d0 l0 ln0 new0 old stages tau) i 0%nat).
    intros r Q. assert (0 < (- interp_b e) * r) by (apply Rmult_lt_0_compat; lra). lra.
Qed.

Lemma C123_invariant_proof' i : compatible_eos e -> interp_pinf e = 0 -> active M i ->
  aeos_gas e dim (fst (hyperbolic_update (aeos_scheme p dim) M num_min order 0 a0 d0 l0 ln0 new0 old stages tau) i).
Proof using H HM HV HP HD Hnm Hcfl Ht HT Hz Hpc Hg.
  intros He Hi Ha. pose proof (C123_admissible_proof' i Ha) as A. pose proof (C123_covolume_proof' i Hi Ha) as B.
  revert A B. generalize (fst (hyperbolic_update (aeos_scheme p dim) M num_min order 0 a0 d0 l0 ln0 new0 old stages tau) i).
  intros u A B. split; [exact A|]. split; [exact B|]. destruct A as [A1 A2].
  apply He; try assumption. unfold excess_energy in A2.
  replace (u 0%nat * (inner_energy dim u / u 0%nat)) with (inner_energy dim u) by (field; lra). exact A2.
Qed.
End Positive.

Lemma C123_admissible_proof p dim M num_min cfl order a0 d0 l0 ln0 new0
    (old : (nat -> state nat) * PC nat (aeos_scheme p dim)) pc0 stages tau :
  symmetric_pattern M -> positive_masses M -> valid_numbering M -> pairs_listed M -> mesh_dimension M dim ->
  0 < num_min -> 0 < cfl <= 1 -> 0 <= tau ->
  (forall t, In t (row_tau (aeos_scheme p dim) M num_min cfl old d0) -> tau <= t) ->
  (forall i, active M i -> zero_row_sum M i) ->
  snd old = aeos_precomputed p dim M (fst old) pc0 ->
  let e := a_eos (ap_system p) in
  (forall i, active M i -> aeos_gas e dim (fst old i)) ->
  forall i, active M i ->
  admissible_gas e dim (fst (hyperbolic_update (aeos_scheme p dim) M num_min order 0 a0 d0 l0 ln0 new0 old stages tau) i).
Proof. intros; eapply C123_admissible_proof'; eassumption. Qed.

Lemma C123_covolume_proof p dim M num_min cfl order a0 d0 l0 ln0 new0
    (old : (nat -> state nat) * PC nat (aeos_scheme p dim)) pc0 stages tau :
  symmetric_pattern M -> positive_masses M -> valid_numbering M -> pairs_listed M -> mesh_dimension M dim ->
  0 < num_min -> 0 < cfl <= 1 -> 0 <= tau ->
  (forall t, In t (row_tau (aeos_scheme p dim) M num_min cfl old d0) -> tau <= t) ->
  (forall i, active M i -> zero_row_sum M i) ->
  snd old = aeos_precomputed p dim M (fst old) pc0 ->
  let e := a_eos (ap_system p) in
  interp_pinf e = 0 ->
  (forall i, active M i -> aeos_gas e dim (fst old i)) ->
  forall i, active M i ->
  interp_b e * fst (hyperbolic_update (aeos_scheme p dim) M num_min order 0 a0 d0 l0 ln0 new0 old stages tau) i 0%nat < 1.
Proof. intros; eapply C123_covolume_proof'; eassumption. Qed.

Lemma C123_invariant_proof p dim M num_min cfl order a0 d0 l0 ln0 new0
    (old : (nat -> state nat) * PC nat (aeos_scheme p dim)) pc0 stages tau :
  symmetric_pattern M -> positive_masses M -> valid_numbering M -> pairs_listed M -> mesh_dimension M dim ->
  0 < num_min -> 0 < cfl <= 1 -> 0 <= tau ->
  (forall t, In t (row_tau (aeos_scheme p dim) M num_min cfl old d0) -> tau <= t) ->
  (forall i, active M i -> zero_row_sum M i) ->
  snd old = aeos_precomputed p dim M (fst old) pc0 ->
  let e := a_eos (ap_system p) in
  compatible_eos e -> interp_pinf e = 0 ->
  (forall i, active M i -> aeos_gas e dim (fst old i)) ->
  forall i, active M i ->
  aeos_gas e dim (fst (hyperbolic_update (aeos_scheme p dim) M num_min order 0 a0 d0 l0 ln0 new0 old stages tau) i).
Proof. intros; eapply C123_invariant_proof'; eassumption. Qed.

Lemma C123_compatible_proof :
  (forall o, 1 < pg_gamma o -> compatible_eos (pg_eos o)) /\
  (forall o gamma r b q pinf, 1 < gamma -> compatible_eos (na_eos (na_parse gamma r b q pinf o))) /\
  (forall o gamma a b r, 1 < gamma -> 0 <= a -> 0 < b -> compatible_eos (vw_eos (vw_parse gamma a b r o))).
Proof.
  split; [|split].
  - intros o Hg rho en Hr Hb Hx; cbn in *. unfold pg_pressure.
    assert (0 < (pg_gamma o - 1) * rho * en); [|lra].
    rewrite Rmult_assoc. apply Rmult_lt_0_compat; lra.
  - intros o gamma r b q pinf Hg rho en Hr Hb Hx; cbn in *. unfold na_pressure. cbn.
    match goal with |- 0 < ?x => replace x with ((gamma - 1) * (rho * en - rho * q - pinf * (1 - b * rho)) / (1 - b * rho)) by (field; lra) end.
    apply Rdiv_lt_0_compat; [apply Rmult_lt_0_compat; lra|lra].
  - intros o gamma a b r Hg Ha Hb rho en Hr Hbr; cbn in Hbr |- *. unfold vw_pressure. cbn.
    destruct (Rgt_dec b 0) as [_|]; [|lra]. intros Hx.
    assert (Hp : 0 <= a / (b * b)) by (apply Rmult_le_pos; [lra|apply Rlt_le, Rinv_0_lt_compat; nra]).
    assert (Hq : a * rho * rho <= a / (b * b)).
    { replace (a * rho * rho) with (a / (b * b) * ((b * rho) * (b * rho))) by (field; lra).
      assert (0 < b * rho) by (apply Rmult_lt_0_compat; lra). 
      assert ((b * rho) * (b * rho) <= 1) by nra.
      rewrite <- (Rmult_1_r (a / (b * b))) at 2. apply Rmult_le_compat_l; assumption. }
    assert (0 <= a / (b * b) * (1 - b * rho)) by (apply Rmult_le_pos; lra).
    assert (0 <= a * rho * rho) by (apply Rmult_le_pos; [apply Rmult_le_pos|]; lra).
    assert (0 < (gamma - 1) * (rho * en + a * rho * rho) / (1 - b * rho)); [|lra].
    apply Rdiv_lt_0_compat; [apply Rmult_lt_0_compat; lra|lra].
Qed.
