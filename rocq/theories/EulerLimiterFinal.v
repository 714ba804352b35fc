(** * Euler limiter: examples and final forms *)
From Coq Require Import Reals List Bool Arith Lia Lra Psatz Permutation.
From Verif Require Import RVec Newton NewtonProofs EulerSystem EulerLimiter EulerLimiterSpec
  EulerLimiterProofs EulerLimiterEntropy EulerLimiterBounds.
Import ListNotations.
Local Open Scope R_scope.

Lemma updated_along L t : updated L t = along L t.
Proof. reflexivity. Qed.

Lemma density_call_hyp L : density_call L -> density_hyp L.
Proof. intros (A & B & C & D & E). repeat split; try apply D; try apply E; assumption. Qed.

Lemma entropy_call_hyp s dim L : entropy_call s dim L -> entropy_hyp s dim L.
Proof.
  intros (A & B & C & D). split; [apply density_call_hyp; exact A|].
  split; [exact B|]. split; [exact C|]. apply psi_entropy; [|exact D].
  destruct A as (_ & _ & _ & _ & A). unfold density_within in A.
  change (updated L (l_tmin L) 0%nat) with (density (along L (l_tmin L))) in A. lra.
Qed.

(** gamma = 2; a one-dimensional state and an update raising the density *)
Definition ex_euler : euler :=
  {| gamma := 2; reference_density := 1; vacuum_state_relaxation_small := 100;
     vacuum_state_relaxation_large := 10000 |}.

Definition ex_lane : lane :=
  {| l_bounds := {| rho_min := 1; rho_max := 3; s_min := 1 |};
     l_U := mkstate 1 2 (fun _ => 0) 5;
     l_P := mkstate 1 4 (fun _ => 1) 0;
     l_tmin := 0; l_tmax := 1 |}.

Lemma ex_entropy : specific_entropy ex_euler 1 (updated ex_lane 0) = 5 / 4.
Proof.
  unfold specific_entropy, internal_energy, norm2, dot, total_energy, density, momentum, updated,
    ex_lane, mkstate. simpl.
  replace (1 / (2 + 0 * 4)) with (/ 2) by field. rewrite powr_2 by lra. field.
Qed.

Lemma ex_density_call : density_call ex_lane.
Proof.
  unfold density_call, density_within, updated, ex_lane, mkstate. simpl. repeat split; lra.
Qed.

Lemma ex_entropy_call : entropy_call ex_euler 1 ex_lane.
Proof.
  split; [exact ex_density_call|]. change (l_tmin ex_lane) with 0. rewrite ex_entropy.
  simpl. repeat split; lra.
Qed.

(** In this example the density limit alone is not enough. *)
Lemma ex_violates : limit_density 0 ex_lane = 1 / 4 /\
  specific_entropy ex_euler 1 (updated ex_lane (1 / 4)) < 1.
Proof.
  split.
  - unfold limit_density, mask_lt, density, ex_lane, mkstate. simpl.
    rewrite (Rabs_right 4) by lra.
    destruct (Rlt_dec 3 (2 + 1 * 4)); [|lra].
    destruct (Rlt_dec _ 1) as [C|C].
    + exfalso. replace ((3 - 2) * (1 / (4 + 0 * 3))) with (1 / 4) in C by field. lra.
    + replace ((3 - 2) * (1 / (4 + 0 * 3))) with (1 / 4) by field.
      rewrite Rmin_left by lra. apply Rmax_left. lra.
  - unfold specific_entropy, internal_energy, norm2, dot, total_energy, density, momentum, updated,
      ex_lane, mkstate. simpl.
    replace (1 / (2 + 1 / 4 * 4)) with (/ 3) by field. rewrite powr_2 by lra. lra.
Qed.

(** A stencil of two states *)
Definition ex_stencil : list contribution :=
  [ (5 / 4, mkstate 1 2 (fun _ => 0) 5, (fun _ => 0), (fun _ => 0));
    (5, mkstate 1 1 (fun _ => 1) (11 / 2), (fun _ => 1), (fun _ => 0)) ].

Lemma ex_stencil_ok :
  (forall c, In c ex_stencil ->
     0 <= bar_density 1 (mkstate 1 2 (fun _ => 0) 5) c /\ 0 <= entropy_of c) /\
  (exists c, In c ex_stencil /\ state_of c = mkstate 1 2 (fun _ => 0) 5 /\
     entropy_of c = specific_entropy ex_euler 1 (mkstate 1 2 (fun _ => 0) 5)).
Proof.
  split.
  - intros c [<-|[<-|[]]]; unfold bar_density, entropy_of, dot, density, momentum, vsub, mkstate; simpl; lra.
  - eexists. split; [left; reflexivity|]. split; [reflexivity|].
    unfold entropy_of, specific_entropy, internal_energy, norm2, dot, total_energy, density, momentum, mkstate. simpl.
    replace (1 / 2) with (/ 2) by field. rewrite powr_2 by lra. field.
Qed.

(** ** Statements of the property theorems *)

Lemma C25_density_bounds_proof : forall s eps tol newton_max_iterations dim lanes ts success,
  0 <= eps ->
  Forall density_call lanes ->
  limit s eps tol newton_max_iterations dim lanes = (ts, success) ->
  Forall2 (fun L t => density_within (l_bounds L) (updated L t)) lanes ts.
Proof.
  intros s eps tol n dim lanes ts b He H E.
  apply (limit_density_ok s eps tol n dim lanes ts b He); [|exact E].
  eapply Forall_impl; [|exact H]. exact density_call_hyp.
Qed.

Lemma C25_full_update_accepted_proof : forall s eps tol n dim lanes ts success k L,
  limit s eps tol (S n) dim lanes = (ts, success) ->
  nth_error lanes k = Some L ->
  l_tmin L <= l_tmax L ->
  density_within (l_bounds L) (updated L (l_tmax L)) ->
  s_min (l_bounds L) * powr (density (updated L (l_tmax L))) (gamma s) * density (updated L (l_tmax L))
    < relax_small s eps * density (updated L (l_tmax L)) * internal_energy dim (updated L (l_tmax L)) ->
  nth_error ts k = Some (l_tmax L).
Proof.
  intros s eps tol n dim lanes ts b k L E Hk Ht Hd Hp.
  apply (limit_full s eps tol n dim lanes ts b k L E Hk Ht Hd).
  unfold psi. cbv zeta. rewrite updated_along in Hp. lra.
Qed.

Lemma C26_entropy_bound_proof : forall s tol newton_max_iterations dim lanes ts success,
  1 < gamma s ->
  Forall (entropy_call s dim) lanes ->
  limit s 0 tol newton_max_iterations dim lanes = (ts, success) ->
  Forall2 (fun L t => s_min (l_bounds L) <= specific_entropy s dim (updated L t)) lanes ts.
Proof.
  intros s tol n dim lanes ts b Hg H E.
  assert (F := limit_entropy_psi s tol n dim lanes ts b Hg
    (Forall_impl _ (entropy_call_hyp s dim) H) E).
  assert (D := limit_density_ok s 0 tol n dim lanes ts b (Rle_refl 0)
    (Forall_impl _ (fun L HL => density_call_hyp L (proj1 HL)) H) E).
  clear E. revert H D. induction F as [|L t Ls ts HL F IH]; intros H D; constructor.
  - inversion H as [|? ? HE HR]; subst. inversion D as [|? ? ? ? HD DR]; subst.
    apply psi_entropy; [|exact HL]. destruct HE as (_ & HE & _).
    change (density (updated L t)) with (density (along L t)). lra.
  - inversion H; subst. inversion D; subst. apply IH; assumption.
Qed.

Lemma C26_success_reported_proof : forall s tol newton_max_iterations dim lanes ts success,
  Forall (entropy_call s dim) lanes ->
  limit s 0 tol newton_max_iterations dim lanes = (ts, success) ->
  success = true.
Proof.
  intros s tol n dim lanes ts b H E.
  apply (limit_success s 0 tol n dim lanes ts b); [lra|lra| |exact E].
  eapply Forall_impl; [|exact H]. intros L HL. exact (entropy_call_hyp s dim L HL).
Qed.
