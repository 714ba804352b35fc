(** * EulerAEOS limiter: examples and final forms *)
From Coq Require Import Reals List Bool Arith Lia Lra Psatz Permutation.
From Verif Require Import RVec Newton NewtonProofs EulerSystem AeosSystem EulerLimiter AeosLimiter AeosLimiterSpec
  AeosLimiterProofs AeosLimiterEntropy AeosLimiterBounds.
Import ListNotations.
Local Open Scope R_scope.

Lemma a_density_call_hyp L : a_density_call L -> a_density_hyp L.
Proof. intros (A & B & C & D & E). repeat split; try apply D; try apply E; assumption. Qed.

Lemma a_entropy_call_hyp s dim L : a_entropy_call s dim L -> a_entropy_hyp s dim L.
Proof.
  intros (A & B & C & D & F & G & H). split; [apply a_density_call_hyp; exact A|].
  split; [exact B|]. split; [exact C|]. split; [exact D|]. split; [exact F|]. split; [exact G|].
  destruct A as (_ & _ & _ & _ & A). unfold a_density_within in A.
  change (a_updated L (al_tmin L) 0%nat) with (a_density (a_along L (al_tmin L))) in A.
  apply a_psi_entropy; [lra| |exact H]. nra.
Qed.

(** Noble-Abel gas with b = 1/8, gamma = 2 *)
Definition ex_eos : eos :=
  {| eos_pressure := fun rho e => rho * e / (1 - 1 / 8 * rho);
     eos_specific_internal_energy := fun rho p => p * (1 - 1 / 8 * rho) / rho;
     eos_speed_of_sound := fun rho e => sqrt (2 * e / ((1 - 1 / 8 * rho) * (1 - 1 / 8 * rho)));
     interp_b := 1 / 8; interp_pinf := 0; interp_q := 0 |}.

Definition ex_aeos : aeos :=
  {| a_eos := ex_eos; a_reference_density := 1; a_relaxation_small := 100;
     a_relaxation_large := 10000; compute_strict_bounds := true |}.

Definition ex_alane : alane :=
  {| al_b := {| arho_min := 1; arho_max := 4; as_min := 1 / 4; agamma_min := 2 |};
     al_U := mkstate 1 2 (fun _ => 0) 5;
     al_P := mkstate 1 4 (fun _ => 1) 0;
     al_tmin := 0; al_tmax := 1 |}.

Lemma ex_a_density_call : a_density_call ex_alane.
Proof.
  unfold a_density_call, a_density_within, a_updated, ex_alane, mkstate. simpl. repeat split; lra.
Qed.

Lemma ex_a_entropy_call : a_entropy_call ex_aeos 1 ex_alane.
Proof.
  split; [exact ex_a_density_call|]. simpl. repeat (split; [lra|]).
  unfold surrogate_specific_entropy, a_internal_energy, norm2, dot, a_total_energy, a_density, a_momentum,
    a_updated, ex_alane, mkstate. simpl.
  rewrite powr_2 by lra. lra.
Qed.

(** The density limit alone is not enough in this example. *)
Lemma ex_a_violates : a_limit_density 0 ex_alane = 1 / 2 /\
  surrogate_specific_entropy ex_eos 1 (a_updated ex_alane (1 / 2)) 2 < 1 / 4.
Proof.
  split.
  - unfold a_limit_density, mask_lt, a_density, ex_alane, mkstate. simpl.
    rewrite (Rabs_right 4) by lra.
    destruct (Rlt_dec 4 (2 + 1 * 4)); [|lra].
    destruct (Rlt_dec _ 1) as [C|C].
    + exfalso. replace ((4 - 2) * (1 / (4 + 0 * 4))) with (1 / 2) in C by field. lra.
    + replace ((4 - 2) * (1 / (4 + 0 * 4))) with (1 / 2) by field.
      rewrite Rmin_left by lra. apply Rmax_left. lra.
  - unfold surrogate_specific_entropy, a_internal_energy, norm2, dot, a_total_energy, a_density, a_momentum,
      a_updated, ex_alane, mkstate. simpl.
    rewrite powr_2 by lra. lra.
Qed.

(** A stencil of two states: the state itself and one more *)
Definition ex_astencil : list acontrib :=
  [ {| ac_s := 1; ac_U := mkstate 1 2 (fun _ => 0) 5; ac_flux := fun _ _ => 0; ac_c := fun _ => 0; ac_shift := fun _ => 0 |};
    {| ac_s := 2; ac_U := mkstate 1 1 (fun _ => 1) (11 / 2); ac_flux := fun _ _ => 1; ac_c := fun _ => 1 / 8; ac_shift := fun _ => 0 |} ].

Lemma ex_astencil_ok :
  let U_i := mkstate 1 2 (fun _ => 0) 5 in
  (forall c, In c ex_astencil -> 0 <= a_density (bar_of 1 U_i (fun _ _ => 0) c) /\
     interp_b (a_eos ex_aeos) * a_density (bar_of 1 U_i (fun _ _ => 0) c) <= 1 /\
     0 <= s_of ex_aeos 1 2 c /\ 0 <= s_bar_of ex_aeos 1 2 U_i (fun _ _ => 0) c) /\
  (exists c, In c ex_astencil /\ ac_U c = U_i).
Proof.
  cbv zeta. split.
  - intros c [<-|[<-|[]]]; unfold s_of, s_bar_of, bar_of, surrogate_specific_entropy, a_internal_energy,
      norm2, dot, a_total_energy, a_density, a_momentum, mkstate; simpl; rewrite !powr_2 by lra; repeat split; lra.
  - eexists. split; [left; reflexivity|reflexivity].
Qed.

(** ** The compressibility cap fails: a uniform stencil *)
Definition ex_dense : vec := mkstate 1 (19 / 10) (fun _ => 0) 5.

Definition ex_dense_eos : eos :=
  {| eos_pressure := fun rho e => rho * e / (1 - 1 / 2 * rho);
     eos_specific_internal_energy := fun rho p => p * (1 - 1 / 2 * rho) / rho;
     eos_speed_of_sound := fun rho e => sqrt (2 * e / ((1 - 1 / 2 * rho) * (1 - 1 / 2 * rho)));
     interp_b := 1 / 2; interp_pinf := 0; interp_q := 0 |}.

Definition ex_dense_aeos : aeos :=
  {| a_eos := ex_dense_eos; a_reference_density := 1; a_relaxation_small := 100;
     a_relaxation_large := 10000; compute_strict_bounds := true |}.

Definition ex_dense_stencil : list acontrib :=
  [ {| ac_s := 0; ac_U := ex_dense; ac_flux := fun _ _ => 0; ac_c := fun _ => 0; ac_shift := fun _ => 0 |} ].

Lemma ex_dense_bar c : In c ex_dense_stencil ->
  a_density (bar_of 1 ex_dense (fun _ _ => 0) c) = 19 / 10.
Proof.
  intros [<-|[]]. unfold a_density, bar_of, ex_dense, mkstate, dot. simpl. field.
Qed.

Lemma ex_dense_cap eps : 0 <= eps <= 1 ->
  1 < interp_b ex_dense_eos *
      arho_max (al_get_bounds ex_dense_aeos eps 1 1
                  (al_stencil ex_dense_aeos 1 100 2 ex_dense (fun _ _ => 0) ex_dense_stencil) (1 / 4)).
Proof.
  intros He.
  apply (a_cap ex_dense_aeos eps 1 1 (al_stencil ex_dense_aeos 1 100 2 ex_dense (fun _ _ => 0) ex_dense_stencil) (1 / 4));
    [simpl; lra|simpl; lra|].
  set (l := al_stencil _ _ _ _ _ _ _).
  assert (E1 : arho_max (al_bounds l) = 19 / 10).
  { unfold l, al_stencil, ex_dense_stencil. simpl.
    assert (E := ex_dense_bar _ (or_introl eq_refl)). rewrite <- bar_of_eq in E. simpl in E. rewrite E.
    apply Rmax_right. lra. }
  assert (E2 : al_num l = 38 / 10).
  { unfold l. simpl. unfold ex_dense, mkstate, a_density. simpl. lra. }
  assert (E3 : Rabs (al_den l) = 1).
  { unfold l. simpl. rewrite (Rabs_right 1) by lra. rewrite Rabs_right; lra. }
  rewrite E1, E2, E3.
  replace (1 / 4) with ((1 / 2) * (1 / 2)) by field. unfold relaxation_radius. simpl.
  rewrite sqrt_square by lra. rewrite (Rabs_right (38 / 10)) by lra.
  assert (Q : 38 / 10 / (1 + eps) >= 19 / 10).
  { apply Rle_ge. apply Rmult_le_reg_r with (1 + eps); [lra|].
    replace (38 / 10 / (1 + eps) * (1 + eps)) with (38 / 10) by (field; lra). lra. }
  set (x := 38 / 10 / (1 + eps)) in *.
  apply Rmult_lt_reg_l with 2; [lra|].
  replace (2 * (1 / 2 * Rmin ((1 + 1 / 2 * (1 / 2) * (1 / 2) * 1) * (19 / 10)) (19 / 10 + 2 * 1 * x)))
    with (Rmin ((1 + 1 / 2 * (1 / 2) * (1 / 2) * 1) * (19 / 10)) (19 / 10 + 2 * 1 * x)) by lra.
  apply Rmin_glb_lt; lra.
Qed.

(** ** Statements of the property theorems *)

Lemma C63_density_bounds_proof : forall s eps tol newton_max_iterations dim lanes ts success,
  0 <= eps ->
  Forall a_density_call lanes ->
  a_limit s eps tol newton_max_iterations dim lanes = (ts, success) ->
  Forall2 (fun L t => a_density_within (al_b L) (a_updated L t)) lanes ts.
Proof.
  intros s eps tol n dim lanes ts b He H E.
  apply (a_limit_density_ok s eps tol n dim lanes ts b He); [|exact E].
  eapply Forall_impl; [|exact H]. exact a_density_call_hyp.
Qed.

Lemma C63_full_update_accepted_proof : forall s eps tol n dim lanes ts success k L,
  a_limit s eps tol (S n) dim lanes = (ts, success) ->
  nth_error lanes k = Some L ->
  al_tmin L <= al_tmax L ->
  let b := interp_b (a_eos s) in
  let V := a_updated L (al_tmax L) in
  let rho := a_density V in
  let gamma := agamma_min (al_b L) in
  a_density_within (al_b L) V ->
  as_min (al_b L) * rho * powr rho gamma * powr (1 - b * rho) (- (gamma - 1))
    < a_relax_small s eps * rho *
      (a_internal_energy dim V - rho * interp_q (a_eos s) - interp_pinf (a_eos s) * (1 - b * rho)) ->
  nth_error ts k = Some (al_tmax L).
Proof.
  intros s eps tol n dim lanes ts success k L E Hk Ht b V rho gamma Hd Hp.
  apply (a_limit_full s eps tol n dim lanes ts success k L E Hk Ht Hd).
  unfold a_psi. cbv zeta. change (a_along L (al_tmax L)) with V. fold rho b gamma. lra.
Qed.

Lemma C64_entropy_bound_proof : forall s tol newton_max_iterations dim lanes ts success,
  Forall (a_entropy_call s dim) lanes ->
  a_limit s 0 tol newton_max_iterations dim lanes = (ts, success) ->
  Forall2 (fun L t => as_min (al_b L) <=
             surrogate_specific_entropy (a_eos s) dim (a_updated L t) (agamma_min (al_b L))) lanes ts.
Proof.
  intros s tol n dim lanes ts b H E.
  assert (F := a_limit_entropy_psi s tol n dim lanes ts b
    (Forall_impl _ (a_entropy_call_hyp s dim) H) E).
  assert (D := a_limit_density_ok s 0 tol n dim lanes ts b (Rle_refl 0)
    (Forall_impl _ (fun L HL => a_density_call_hyp L (proj1 HL)) H) E).
  clear E. revert H D. induction F as [|L t Ls ts HL F IH]; intros H D; constructor.
  - inversion H as [|? ? HE HR]; subst. inversion D as [|? ? ? ? HD DR]; subst.
    destruct HE as (_ & H1 & H2 & H3 & H4 & H5 & _).
    apply a_psi_entropy; [|  |exact HL].
    + lra.
    + assert (interp_b (a_eos s) * a_density (a_along L t) <= interp_b (a_eos s) * arho_max (al_b L))
        by (apply Rmult_le_compat_l; lra). lra.
  - inversion H; subst. inversion D; subst. apply IH; assumption.
Qed.

Lemma C64_success_reported_proof : forall s tol newton_max_iterations dim lanes ts success,
  Forall (a_entropy_call s dim) lanes ->
  a_limit s 0 tol newton_max_iterations dim lanes = (ts, success) ->
  success = true.
Proof.
  intros s tol n dim lanes ts b H E.
  apply (a_limit_success s 0 tol n dim lanes ts b); [lra|lra| |exact E].
  eapply Forall_impl; [|exact H]. intros L HL.
  destruct (a_entropy_call_hyp s dim L HL) as (A & B & C & D & F & G & I). tauto.
Qed.

Lemma C65_cap_partial_proof : forall s eps factor dim l hd_i,
  1 < agamma_min (al_bounds l) -> 0 < interp_b (a_eos s) ->
  let relaxed := Rmin ((1 + relaxation_radius dim hd_i * factor) * arho_max (al_bounds l))
       (arho_max (al_bounds l) + 2 * factor * (Rabs (al_num l) / (Rabs (al_den l) + eps))) in
  0 <= interp_b (a_eos s) * relaxed <= 1 ->
  arho_max (al_get_bounds s eps factor dim l hd_i) = relaxed.
Proof. intros s eps factor dim l hd Hg Hb. exact (proj1 (a_cap s eps factor dim l hd Hg Hb)). Qed.

Lemma C65_cap_refuted_proof : forall eps, 0 <= eps <= 1 ->
  exists s big gamma_i U_i flux_i cs hd_i,
    0 < interp_b (a_eos s) /\ 1 < gamma_i /\
    (forall c, In c cs -> ac_U c = U_i /\
       interp_b (a_eos s) * a_density (bar_of 1 U_i flux_i c) <= 95 / 100) /\
    1 < interp_b (a_eos s) *
        arho_max (al_get_bounds s eps 1 1 (al_stencil s 1 big gamma_i U_i flux_i cs) hd_i).
Proof.
  intros eps He.
  exists ex_dense_aeos, 100, 2, ex_dense, (fun _ _ => 0), ex_dense_stencil, (1 / 4).
  split; [simpl; lra|]. split; [lra|]. split; [|exact (ex_dense_cap eps He)].
  intros c Hc. split.
  - destruct Hc as [<-|[]]. reflexivity.
  - rewrite (ex_dense_bar c Hc). simpl. lra.
Qed.
