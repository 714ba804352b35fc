(** * The parabolic step: concrete runs and counterexamples *)
From Coq Require Import Reals List Bool Arith Lia Lra Psatz.
From Verif Require Import RVec BoundaryMap EulerSystem AssemblySpec AssemblyProofs AssemblyFinal AssemblyExamples.
From Verif Require Import Assembly Parabolic ParabolicSpec ParabolicProofs ParabolicRows ParabolicFinal ParabolicMore.
Import ListNotations.
Local Open Scope R_scope.

(** ** Solvers *)

(** Accepts a given vector if it solves the system exactly. *)
Definition attempt_block (n dim : nat) (x : field) : solver field := fun A P x0 b =>
  if forallb (fun i => forallb (fun d => if Req_EM_T (A x i d) (b i d) then true else false) (seq 0 dim)) (seq 0 n) then Some x else None.
Definition attempt (n : nat) (x : nat -> R) : solver (nat -> R) := fun A P x0 b =>
  if forallb (fun i => if Req_EM_T (A x i) (b i) then true else false) (seq 0 n) then Some x else None.

Lemma attempt_block_exact n dim x : accurate_block n dim 0 (attempt_block n dim x).
Proof.
  intros A P x0 b y H i d Li Ld. unfold attempt_block in H. destruct (forallb _ _) eqn:E; [|discriminate]. injection H as <-.
  rewrite forallb_forall in E. assert (Q := E i ltac:(apply in_seq; lia)). rewrite forallb_forall in Q. assert (Q' := Q d ltac:(apply in_seq; lia)).
  destruct (Req_EM_T _ _) as [Z|]; [|discriminate]. rewrite Z, Rminus_diag_eq, Rabs_R0 by reflexivity. lra.
Qed.
Lemma attempt_exact n x : accurate n 0 (attempt n x).
Proof.
  intros A P x0 b y H i Li. unfold attempt in H. destruct (forallb _ _) eqn:E; [|discriminate]. injection H as <-.
  rewrite forallb_forall in E. assert (Q := E i ltac:(apply in_seq; lia)).
  destruct (Req_EM_T _ _) as [Z|]; [|discriminate]. rewrite Z, Rminus_diag_eq, Rabs_R0 by reflexivity. lra.
Qed.
Lemma attempt_block_some n dim x A P x0 b : (forall i d, (i < n)%nat -> (d < dim)%nat -> A x i d = b i d) -> attempt_block n dim x A P x0 b = Some x.
Proof.
  intros H. unfold attempt_block. destruct (forallb _ _) eqn:E; [reflexivity|]. exfalso. apply Bool.not_true_iff_false in E. apply E.
  apply forallb_forall. intros i Li. apply forallb_forall. intros d Ld. apply in_seq in Li, Ld. destruct (Req_EM_T _ _) as [|Z]; [reflexivity|]. exfalso. apply Z. apply H; lia.
Qed.
Lemma attempt_some n x A P x0 b : (forall i, (i < n)%nat -> A x i = b i) -> attempt n x A P x0 b = Some x.
Proof.
  intros H. unfold attempt. destruct (forallb _ _) eqn:E; [reflexivity|]. exfalso. apply Bool.not_true_iff_false in E. apply E.
  apply forallb_forall. intros i Li. apply in_seq in Li. destruct (Req_EM_T _ _) as [|Z]; [reflexivity|]. exfalso. apply Z. apply H; lia.
Qed.

(** One iteration with step length alpha. *)
Definition iterate_block (alpha : R) : solver field := fun A P x0 b =>
  Some (fun i => vadd (x0 i) (vscal alpha (P (fun i => vsub (b i) (A x0 i)) i))).
Definition iterate (alpha : R) : solver (nat -> R) := fun A P x0 b =>
  Some (fun i => x0 i + alpha * P (fun i => b i - A x0 i) i).
Lemma iterate_block_search alpha : iterates_block (iterate_block alpha).
Proof. intros A P x0 b x H. injection H as <-. eexists. eexists. exact (search_next A P x0 b x0 (fun i => vsub (b i) (A x0 i)) (P (fun i => vsub (b i) (A x0 i))) alpha 0 (search_start A P x0 b)). Qed.
Lemma iterate_search alpha : iterates (iterate alpha).
Proof. intros A P x0 b x H. injection H as <-. eexists. eexists. exact (search1_next A P x0 b x0 (fun i => b i - A x0 i) (P (fun i => b i - A x0 i)) alpha 0 (search1_start A P x0 b)). Qed.

(** No iteration at all: the initial guess is accepted if its residual is small. *)
Definition start_block (n dim : nat) (tol : R) : solver field := fun A P x0 b =>
  if forallb (fun i => forallb (fun d => if Rle_dec (Rabs (A x0 i d - b i d)) tol then true else false) (seq 0 dim)) (seq 0 n) then Some x0 else None.
Lemma start_block_accurate n dim tol : accurate_block n dim tol (start_block n dim tol).
Proof.
  intros A P x0 b y H i d Li Ld. unfold start_block in H. destruct (forallb _ _) eqn:E; [|discriminate]. injection H as <-.
  rewrite forallb_forall in E. assert (Q := E i ltac:(apply in_seq; lia)). rewrite forallb_forall in Q. assert (Q' := Q d ltac:(apply in_seq; lia)).
  destruct (Rle_dec _ _) as [Z|]; [exact Z|discriminate].
Qed.
Lemma start_block_search n dim tol : iterates_block (start_block n dim tol).
Proof.
  intros A P x0 b x H. unfold start_block in H. destruct (forallb _ _); [|discriminate]. injection H as <-.
  eexists. eexists. exact (search_start A P x0 b).
Qed.
Lemma start_block_some n dim tol x A P b : 0 <= tol -> (forall i d, (i < n)%nat -> (d < dim)%nat -> A x i d = b i d) -> start_block n dim tol A P x b = Some x.
Proof.
  intros T H. unfold start_block. destruct (forallb _ _) eqn:E; [reflexivity|]. exfalso. apply Bool.not_true_iff_false in E. apply E.
  apply forallb_forall. intros i Li. apply forallb_forall. intros d Ld. apply in_seq in Li, Ld. destruct (Rle_dec _ _) as [|Z]; [reflexivity|]. exfalso. apply Z.
  rewrite H by lia. rewrite Rminus_diag_eq, Rabs_R0 by reflexivity. exact T.
Qed.

(** ** How to run a step without boundary entries on free rows only *)
Lemma run_with sv G par init eps U t tau v e :
  (forall A P b, (forall i d, (i < g_n_dofs G)%nat -> (d < g_dim G)%nat -> A v i d = b i d) -> sv A P (set_zero_block G (velocity_0 U)) b = Some v) ->
  proper G -> (forall I, free G I -> U I 0%nat <> 0) ->
  (forall I a, free G I -> (a < g_dim G)%nat ->
     nodal_mass G I * U I 0%nat * v I a
     + tau * integral G (fun c q => rsum (g_dim G) (fun b => newtonian par (g_dim G) (velocity_gradient G v c q) a b * basis_grad G I c q b))
     = nodal_mass G I * U I (S a)) ->
  (forall I, free G I ->
     nodal_mass G I * U I 0%nat * e I + tau * cv_inverse_kappa par * rsum (g_n_dofs G) (fun J => (e J - e I) * laplace G I J)
     = nodal_mass G I * U I 0%nat * (specific_energy (g_dim G) (U I) + 1 / 2 * norm2 (g_dim G) (vsub (vel (U I)) (v I)))
       + tau * integral G (fun c q => contraction (g_dim G) (velocity_gradient G v c q) (newtonian par (g_dim G) (velocity_gradient G v c q)) * basis G I c q)) ->
  (forall I, is_constrained G I = true -> e I = 0) ->
  exists r, backward_euler_step G par [] init eps sv (attempt (g_n_dofs G) e) U t tau
    = Some (write_back G U v e, r) /\
    r = (if Rlt_dec (minimum G e) (minimum G (set_zero G (fun I => specific_energy (g_dim G) (U I))) * (1 - 1000 * eps)) then true else false).
Proof.
  intros Sv P N Hv He Hz. destruct (step_1 G [] init U t tau) as [[v0 b] e0] eqn:E1.
  assert (Eb : forall I, b I = set_zero_block G (velocity_rhs_0 G U) I) by (unfold step_1 in E1; cbn [fold_left] in E1; injection E1 as <- <- <-; reflexivity).
  assert (Ev0 : v0 = set_zero_block G (velocity_0 U)) by (unfold step_1 in E1; cbn [fold_left] in E1; injection E1 as <- <- <-; reflexivity).
  assert (Ee0 : forall I, e0 I = set_zero G (internal_energy_0 G U) I) by (unfold step_1 in E1; cbn [fold_left] in E1; injection E1 as <- <- <-; reflexivity).
  assert (Av : forall i d, (i < g_n_dofs G)%nat -> (d < g_dim G)%nat -> velocity_vmult G par [] tau (rho_ G U) v i d = b i d).
  { intros i d Li Ld. change (velocity_vmult G par [] tau (rho_ G U) v) with (velocity_stiffness G par tau (rho_ G U) v). rewrite velocity_row by assumption. rewrite Eb.
    unfold set_zero_block. destruct (dec_free G i Li) as [F|X].
    - rewrite (free_not_constrained G i F), (rho_free G) by exact F. unfold velocity_rhs_0, momentum. rewrite mass_nodal by assumption. apply Hv; assumption.
    - rewrite X, mass_constrained, test_constrained by assumption. ring. }
  assert (Ae : forall i, (i < g_n_dofs G)%nat -> energy_vmult G [] (tau * cv_inverse_kappa par) (rho_ G U) e i = energy_rhs G par [] init U t tau e0 v i).
  { intros i Li. change (energy_vmult G [] (tau * cv_inverse_kappa par) (rho_ G U) e i) with (energy_stiffness G (tau * cv_inverse_kappa par) (rho_ G U) e i).
    rewrite energy_row by assumption. destruct (dec_free G i Li) as [F|X].
    - rewrite energy_rhs_row by exact F. cbn [entries filter fold_left]. unfold energy_rhs_0. cbv zeta. rewrite Ee0. unfold set_zero. rewrite (free_not_constrained G i F).
      rewrite specific_old, mass_nodal, heating_row, slope_entries by assumption. rewrite !(rho_free G) by exact F.
      change (fun d => momentum (U i) d / U i 0%nat) with (vel (U i)). apply He. exact F.
    - unfold energy_rhs, set_zero. rewrite X, mass_constrained, slope_constrained by assumption. ring. }
  unfold backward_euler_step. rewrite E1. rewrite Ev0, (Sv _ _ _ Av). rewrite attempt_some by exact Ae.
  eexists. split; [reflexivity|]. replace (minimum G e0) with (minimum G (set_zero G (fun I => specific_energy (g_dim G) (U I)))); [reflexivity|].
  unfold minimum. assert (M : forall I, e0 I = set_zero G (fun I => specific_energy (g_dim G) (U I)) I).
  { intros I. rewrite Ee0. unfold set_zero. destruct (is_constrained G I); [reflexivity|apply specific_old]. }
  rewrite M. f_equal. symmetry. apply map_ext. exact M.
Qed.
Lemma run_exact G par init eps U t tau v e :
  proper G -> (forall I, free G I -> U I 0%nat <> 0) ->
  (forall I a, free G I -> (a < g_dim G)%nat ->
     nodal_mass G I * U I 0%nat * v I a
     + tau * integral G (fun c q => rsum (g_dim G) (fun b => newtonian par (g_dim G) (velocity_gradient G v c q) a b * basis_grad G I c q b))
     = nodal_mass G I * U I (S a)) ->
  (forall I, free G I ->
     nodal_mass G I * U I 0%nat * e I + tau * cv_inverse_kappa par * rsum (g_n_dofs G) (fun J => (e J - e I) * laplace G I J)
     = nodal_mass G I * U I 0%nat * (specific_energy (g_dim G) (U I) + 1 / 2 * norm2 (g_dim G) (vsub (vel (U I)) (v I)))
       + tau * integral G (fun c q => contraction (g_dim G) (velocity_gradient G v c q) (newtonian par (g_dim G) (velocity_gradient G v c q)) * basis G I c q)) ->
  (forall I, is_constrained G I = true -> e I = 0) ->
  exists r, backward_euler_step G par [] init eps (attempt_block (g_n_dofs G) (g_dim G) v) (attempt (g_n_dofs G) e) U t tau
    = Some (write_back G U v e, r) /\
    r = (if Rlt_dec (minimum G e) (minimum G (set_zero G (fun I => specific_energy (g_dim G) (U I))) * (1 - 1000 * eps)) then true else false).
Proof. apply run_with. intros A P b H. apply attempt_block_some. exact H. Qed.

(** ** Two cells on an interval *)
Definition interval : geometry := line CG1 2 false.
Lemma interval_proper : proper interval.
Proof. split; [apply line_indices|]. split; [apply line_closed; lia|apply line_unity]. Qed.
Lemma interval_free I : (I < 3)%nat -> free interval I.
Proof. intros L. split; [exact L|reflexivity]. Qed.
Lemma interval_masses : nodal_mass interval 0 = 1 / 2 /\ nodal_mass interval 1 = 1 /\ nodal_mass interval 2 = 1 / 2.
Proof. unfold nodal_mass, integral, basis, weight. cbn. repeat split; lra. Qed.
Lemma interval_slope e c q : (c < 2)%nat -> slope interval e c q 0 = e (S c) - e c.
Proof. intros L. destruct c as [|[|c]]; [| |lia]; unfold slope, basis_grad, weight; cbn; ring. Qed.
Lemma interval_grad : forall c q, basis_grad interval 0 c q 0 = (if Nat.eqb c 0 then -1 else 0) /\
  ((c < 2)%nat -> basis_grad interval 1 c q 0 = (if Nat.eqb c 0 then 1 else -1)) /\ ((c < 2)%nat -> basis_grad interval 2 c q 0 = (if Nat.eqb c 0 then 0 else 1)).
Proof.
  intros c q. unfold basis_grad, weight. split.
  - destruct c as [|c]; cbn; ring.
  - split; intros L; (destruct c as [|[|c]]; [| |lia]); cbn; ring.
Qed.
Lemma interval_laplace : forall I J, (I < 3)%nat -> (J < 3)%nat -> laplace interval I J =
  match I, J with 0%nat, 0%nat => 1 | 0%nat, 1%nat => -1 | 1%nat, 0%nat => -1 | 1%nat, 1%nat => 2 | 1%nat, 2%nat => -1 | 2%nat, 1%nat => -1 | 2%nat, 2%nat => 1 | _, _ => 0 end.
Proof.
  intros I J LI LJ. destruct I as [|[|[|I]]]; [| | |lia]; (destruct J as [|[|[|J]]]; [| | |lia]); unfold laplace, integral, basis_grad, weight; cbn; lra.
Qed.
Lemma interval_positive : positive_weights interval /\ positive_masses interval /\ positive_basis interval /\
  (forall I J, free interval I -> free interval J -> I <> J -> laplace interval I J <= 0).
Proof.
  split; [|split; [|split]].
  - intros c q _ L. cbn in L. cbn. destruct q as [|[|q]]; lra.
  - intros I [L _]. cbn in L. destruct interval_masses as (A & B & C). destruct I as [|[|[|I]]]; [rewrite A|rewrite B|rewrite C|lia]; lra.
  - intros I c q [L _] Lc Lq. cbn in L, Lc, Lq. unfold basis, weight. destruct c as [|[|c]]; [| |lia]; (destruct q as [|[|[|q]]]; [| | |lia]); (destruct I as [|[|[|I]]]; [| | |lia]); cbn; lra.
  - intros I J [LI _] [LJ _] Ne. rewrite interval_laplace by assumption. cbn in LI, LJ. destruct I as [|[|[|I]]]; [| | |lia]; (destruct J as [|[|[|J]]]; [| | |lia]); try lra; exfalso; apply Ne; reflexivity.
Qed.

(** *** Heat conduction *)
Definition heat : viscosity := {| mu := 0; lambda := 0; cv_inverse_kappa := 2 |}.
Definition resting (e : nat -> R) : field := fun I k => match k with 0%nat => 1 | 1%nat => 0 | 2%nat => e I | _ => 0 end.
Definition hot_end : field := resting (fun I => match I with 0%nat => 10 | _ => 1 end).
Definition cooled : nat -> R := fun I => match I with 0%nat => 44 / 10 | 1%nat => 3 | _ => 26 / 10 end.
Definition still : field := fun _ _ => 0.
Lemma still_gradient G c q a b : velocity_gradient G still c q a b = 0.
Proof. unfold velocity_gradient, slope, still. apply rs_zero. intros; ring. Qed.
Lemma still_stress G par c q a b : newtonian par (g_dim G) (velocity_gradient G still c q) a b = 0.
Proof. unfold newtonian. rewrite !still_gradient. rewrite rs_zero by (intros; apply still_gradient). destruct (Nat.eqb a b); ring. Qed.
Lemma still_work G par c q : contraction (g_dim G) (velocity_gradient G still c q) (newtonian par (g_dim G) (velocity_gradient G still c q)) = 0.
Proof. apply rs_zero. intros a _. apply rs_zero. intros b _. rewrite still_gradient. ring. Qed.
Lemma resting_specific e I : specific_energy 1 (resting e I) = e I.
Proof. unfold specific_energy, resting. cbn. field. Qed.
Definition nowhere : vec -> R -> vec := fun _ _ _ => 0.

Lemma heat_run eps : 0 <= eps -> backward_euler_step interval heat [] nowhere eps
  (attempt_block 3 1 still) (attempt 3 cooled) hot_end 0 1 = Some (write_back interval hot_end still cooled, false).
Proof.
  intros He.
  destruct (run_exact interval heat nowhere eps hot_end 0 1 still cooled) as (r & E & Er).
  - exact interval_proper.
  - intros I F. cbn. lra.
  - intros I a F La. change (g_dim interval) with 1%nat in La. assert (a = 0)%nat by lia. subst a.
    rewrite (integral_zero interval) by (intros c q _ _; apply rs_zero; intros b _; rewrite (still_stress interval heat); ring). unfold still, hot_end, resting. ring.
  - intros I F. rewrite (integral_zero interval) by (intros c q _ _; rewrite (still_work interval heat); ring).
    destruct F as [L _]. cbn in L. change (g_dim interval) with 1%nat. change (g_n_dofs interval) with 3%nat. unfold hot_end. rewrite resting_specific.
    cbn [rsum]. rewrite !interval_laplace by lia. destruct interval_masses as (A & B & C).
    unfold norm2, dot, vsub, vel, still. cbn [rsum].
    destruct I as [|[|[|I]]]; [rewrite A|rewrite B|rewrite C|lia]; cbn; field.
  - intros I X. discriminate X.
  - change (g_n_dofs interval) with 3%nat in E. change (g_dim interval) with 1%nat in E, Er. rewrite E. f_equal. f_equal. rewrite Er.
    destruct (Rlt_dec _ _) as [Q|Q]; [|reflexivity]. exfalso.
    assert (M1 : 26 / 10 <= minimum interval cooled) by (apply minimum_ge; [cbn; lia|]; intros i _; unfold cooled; destruct i as [|[|i]]; lra).
    assert (M2 : minimum interval (set_zero interval (fun I => specific_energy 1 (hot_end I))) <= 1).
    { eapply Rle_trans; [apply (minimum_le interval _ 1); cbn; lia|]. unfold set_zero, hot_end. cbn [is_constrained]. change (is_constrained interval 1) with false. cbv iota. rewrite resting_specific. lra. }
    assert (M3 : 0 <= minimum interval (set_zero interval (fun I => specific_energy 1 (hot_end I)))).
    { apply minimum_ge; [cbn; lia|]. intros i _. unfold set_zero. change (is_constrained interval i) with false. cbv iota. unfold hot_end. rewrite resting_specific. destruct i; lra. }
    nra.
Qed.

Lemma interval_back_specific (U : field) v e I : U I 0%nat <> 0 -> specific_energy 1 (write_back interval U v e I) = e I.
Proof. intros N. apply (back_specific interval U v e I N). Qed.

(** The extrapolated state has negative internal energy. *)
Lemma C111_positive_refuted_proof : exists G par init eps sv se U t tau U',
  proper G /\ gas G U /\ physical par (g_dim G) /\ positive_weights G /\ positive_masses G /\ 0 < eps /\ 0 <= tau /\
  accurate_block (g_n_dofs G) (g_dim G) 0 sv /\ accurate (g_n_dofs G) 0 se /\
  (forall I, (I < g_n_dofs G)%nat -> free G I /\ 1 <= specific_energy (g_dim G) (U I)) /\
  backward_euler_step G par [] init eps sv se U t tau = Some (U', false) /\
  (forall I, free G I -> 1 <= specific_energy (g_dim G) (U' I)) /\
  exists I, free G I /\ specific_energy (g_dim G) (extrapolate U U' I) < 0.
Proof.
  exists interval, heat, nowhere, (/ 1000000), (attempt_block 3 1 still), (attempt 3 cooled), hot_end, 0, 1, (write_back interval hot_end still cooled).
  destruct interval_positive as (Pw & Pm & _ & _).
  split; [exact interval_proper|]. split; [intros I _; cbn; lra|]. split; [unfold physical; cbn; repeat split; lra || lia|]. split; [exact Pw|]. split; [exact Pm|].
  split; [lra|]. split; [lra|]. split; [apply attempt_block_exact|]. split; [apply attempt_exact|].
  split; [intros I L; split; [apply interval_free; exact L|]; change (g_dim interval) with 1%nat; unfold hot_end; rewrite resting_specific; destruct I; lra|].
  split; [apply heat_run; lra|].
  assert (N : forall I, hot_end I 0%nat <> 0) by (intros I; cbn; lra).
  split.
  - intros I _. change (g_dim interval) with 1%nat. rewrite interval_back_specific by apply N. unfold cooled. destruct I as [|[|I]]; lra.
  - exists 0%nat. split; [apply interval_free; lia|]. change (g_dim interval) with 1%nat.
    rewrite (extrapolate_specific interval) by (apply N || apply back_density). change (g_dim interval) with 1%nat.
    rewrite interval_back_specific by apply N. unfold hot_end at 1. rewrite resting_specific. cbn [rsum].
    assert (S0 := Rle_0_sqr (vel (write_back interval hot_end still cooled 0%nat) 0%nat - vel (hot_end 0%nat) 0%nat)). unfold Rsqr in S0. unfold cooled at 1. lra.
Qed.

(** *** Viscous friction *)
Definition viscous : viscosity := {| mu := 3 / 2; lambda := 0; cv_inverse_kappa := 0 |}.
Definition moving : field := fun I k => match k with 0%nat => 1 | 1%nat => match I with 0%nat => 10 | _ => 1 end | 2%nat => match I with 0%nat => 51 | _ => 3 / 2 end | _ => 0 end.
Definition slowed : field := fun I _ => match I with 0%nat => 44 / 10 | 1%nat => 3 | _ => 26 / 10 end.
Definition heated : nat -> R := fun I => match I with 0%nat => 206 / 10 | 1%nat => 512 / 100 | _ => 26 / 10 end.
Lemma viscous_run eps : exists r, backward_euler_step interval viscous [] nowhere eps
  (attempt_block 3 1 slowed) (attempt 3 heated) moving 0 1 = Some (write_back interval moving slowed heated, r).
Proof.
  destruct (run_exact interval viscous nowhere eps moving 0 1 slowed heated) as (r & E & _).
  - exact interval_proper.
  - intros I F. cbn. lra.
  - intros I a F La. change (g_dim interval) with 1%nat in *. assert (a = 0)%nat by lia. subst a. destruct F as [L _]. cbn in L.
    unfold integral. change (g_n_cells interval) with 2%nat. change (g_n_points interval) with 3%nat. unfold newtonian, velocity_gradient. cbn [rsum Nat.eqb].
    rewrite !interval_slope by lia. destruct interval_masses as (A & B & C).
    assert (D0 := interval_grad). destruct I as [|[|[|I]]]; [rewrite A|rewrite B|rewrite C|lia];
      repeat match goal with |- context [basis_grad interval ?I ?c ?q 0] =>
        first [rewrite (proj1 (D0 c q)) | rewrite (proj1 (proj2 (D0 c q)) ltac:(lia)) | rewrite (proj2 (proj2 (D0 c q)) ltac:(lia))] end; cbn; field.
  - intros I F. change (g_dim interval) with 1%nat. destruct F as [L _]. cbn in L. change (g_n_dofs interval) with 3%nat. cbn [rsum]. rewrite !interval_laplace by lia.
    unfold integral. change (g_n_cells interval) with 2%nat. change (g_n_points interval) with 3%nat. unfold contraction, newtonian, velocity_gradient. cbn [rsum Nat.eqb].
    rewrite !interval_slope by lia. destruct interval_masses as (A & B & C). unfold specific_energy, norm2, dot, vsub, vel, basis, weight.
    destruct I as [|[|[|I]]]; [rewrite A|rewrite B|rewrite C|lia]; cbn; field.
  - intros I X. discriminate X.
  - exists r. exact E.
Qed.

(** *** Drift with uniform velocity: heat conduction, and uniform temperature *)
Definition mixed : viscosity := {| mu := 1; lambda := 0; cv_inverse_kappa := 2 |}.
Definition drifting (e : nat -> R) : field := fun I k => match k with 0%nat => 1 | 1%nat => 2 | 2%nat => e I + 2 | _ => 0 end.
Definition drift_velocity (e : nat -> R) : field := set_zero_block interval (velocity_0 (drifting e)).
Lemma drifting_specific e I : specific_energy 1 (drifting e I) = e I.
Proof. unfold specific_energy, drifting. cbn. field. Qed.
Lemma drift_value e I : drift_velocity e I 0%nat = 2.
Proof. unfold drift_velocity, set_zero_block. change (is_constrained interval I) with false. cbv iota. unfold velocity_0, momentum, density, drifting. field. Qed.
Lemma drift_gradient e c q : (c < 2)%nat -> velocity_gradient interval (drift_velocity e) c q 0 0 = 0.
Proof. intros L. unfold velocity_gradient. rewrite interval_slope by exact L. rewrite !drift_value. ring. Qed.
Lemma drift_stress e c q : (c < 2)%nat -> newtonian mixed 1 (velocity_gradient interval (drift_velocity e) c q) 0 0 = 0.
Proof. intros L. unfold newtonian. cbn [Nat.eqb rsum]. rewrite drift_gradient by exact L. ring. Qed.

Lemma drift_run eps tol e e' : 0 <= tol ->
  (forall I, (I < 3)%nat -> nodal_mass interval I * e' I + 2 * rsum 3 (fun J => (e' J - e' I) * laplace interval I J) = nodal_mass interval I * e I) ->
  exists r, backward_euler_step interval mixed [] nowhere eps (start_block 3 1 tol) (attempt 3 e') (drifting e) 0 1
    = Some (write_back interval (drifting e) (drift_velocity e) e', r).
Proof.
  intros T H.
  destruct (run_with (start_block 3 1 tol) interval mixed nowhere eps (drifting e) 0 1 (drift_velocity e) e') as (r & E & _).
  - intros A P b X. apply start_block_some; [exact T|exact X].
  - exact interval_proper.
  - intros I F. cbn. lra.
  - intros I a F La. change (g_dim interval) with 1%nat in *. assert (a = 0)%nat by lia. subst a.
    rewrite (integral_zero interval) by (intros c q Lc _; cbn in Lc; cbn [rsum]; rewrite drift_stress by exact Lc; ring). rewrite drift_value. cbn [drifting]. ring.
  - intros I F. rewrite (integral_zero interval).
    + destruct F as [L _]. cbn in L. assert (Q := H I L). change (g_dim interval) with 1%nat. change (g_n_dofs interval) with 3%nat. rewrite drifting_specific.
      unfold norm2, dot, vsub. cbn [rsum]. rewrite drift_value. cbn [cv_inverse_kappa mixed]. unfold vel. cbn [drifting].
      cbn [rsum] in Q. lra.
    + intros c q Lc _. cbn in Lc. unfold contraction. change (g_dim interval) with 1%nat. cbn [rsum]. rewrite drift_gradient by exact Lc. ring.
  - intros I X. discriminate X.
  - exists r. exact E.
Qed.
Lemma drift_hot eps : exists r, backward_euler_step interval mixed [] nowhere eps (start_block 3 1 (1 / 100)) (attempt 3 cooled) (drifting (fun I => match I with 0%nat => 10 | _ => 1 end)) 0 1
    = Some (write_back interval (drifting (fun I => match I with 0%nat => 10 | _ => 1 end)) (drift_velocity (fun I => match I with 0%nat => 10 | _ => 1 end)) cooled, r).
Proof.
  apply drift_run; [lra|]. intros I L. cbn [rsum]. rewrite !interval_laplace by lia. destruct interval_masses as (A & B & C).
  destruct I as [|[|[|I]]]; [rewrite A|rewrite B|rewrite C|lia]; cbn; field.
Qed.
Lemma drift_uniform eps : exists r, backward_euler_step interval mixed [] nowhere eps (start_block 3 1 0) (attempt 3 (fun _ => 7)) (drifting (fun _ => 7)) 0 1
    = Some (write_back interval (drifting (fun _ => 7)) (drift_velocity (fun _ => 7)) (fun _ => 7), r).
Proof. apply drift_run; [lra|]. intros I L. cbn [rsum]. ring. Qed.
Lemma drift_rigid : rigid interval (fun I => vel (drifting (fun _ => 7) I)).
Proof.
  intros c q a b Lc _ La Lb. change (g_dim interval) with 1%nat in *. assert (a = 0 /\ b = 0)%nat as [-> ->] by lia. cbn in Lc. unfold velocity_gradient. rewrite interval_slope by exact Lc.
  unfold vel. cbn [drifting]. ring.
Qed.
