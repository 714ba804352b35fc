(** * The multigrid preconditioner: concrete levels *)
From Coq Require Import Reals List Bool Arith Lia Lra Psatz.
From Verif Require Import RVec BoundaryMap EulerSystem AssemblySpec AssemblyProofs AssemblyFinal ParabolicSpec ParabolicProofs ParabolicRows Discretization DiscretizationSpec DiscretizationProofs DiscretizationTensor DiscretizationFinal DiscretizationExamples.
From Verif Require Import AssemblyExamples ParabolicExamples.
From Verif Require Import Assembly Parabolic Multigrid MultigridSpec MultigridProofs MultigridFinal.
Import ListNotations.
Local Open Scope R_scope.

(** Rows of boxes with bilinear elements are levels. *)
Lemma row_level dim m : (1 <= dim)%nat -> (1 <= m)%nat -> level_mesh (row cg_q1 false dim m).
Proof.
  intros Hd Hm. assert (Hp : false = false -> (1 <= degree cg_q1)%nat) by (intros _; cbn; lia).
  assert (D := row_discretization cg_q1 false dim m Hd Hm Hp). assert (Co := row_covered cg_q1 false dim m Hd Hm Hp).
  assert (P : proper (row cg_q1 false dim m)).
  { destruct (C149_ansatz_proof _ _ _ D) as (V & C & U & _). exact (conj V (conj C U)). }
  split; [exact P|]. split; [reflexivity|]. split.
  - intros c q _ _. cbn [row g_JxW]. unfold box_JxW. apply Rlt_le, rprod_pos. intros k _. apply Rmult_lt_0_compat; [unfold row_extent; apply lt_0_INR; lia|].
    change (n_gauss cg_q1) with 2%nat. cbn [gauss_weight]. lra.
  - split.
    + intros I [F _]. rewrite <- (mass_nodal (row cg_q1 false dim m) I P F). apply (C149_lumped_proof _ _ _ D Co). exact F.
    + intros c i j Hc Hi Hj. cbn [row g_dof row_dof degree]. intros E.
      pose proof (Nat.div_mod i 2 ltac:(lia)). pose proof (Nat.div_mod j 2 ltac:(lia)).
      pose proof (Nat.mod_upper_bound i 2 ltac:(lia)). pose proof (Nat.mod_upper_bound j 2 ltac:(lia)).
      unfold row_dof in E. cbn [degree] in E.
      assert (Q : (i / 2 = j / 2)%nat) by (destruct (Nat.lt_trichotomy (i / 2) (j / 2)) as [K|[K|K]]; [exfalso; nia|exact K|exfalso; nia]). rewrite Q in *. lia.
Qed.

(** A wall with the normal (4/5, 3/5) at the first unknown of one box with edges of length 1 and 2. *)
Definition skew_entry : description :=
  {| d_index := 0; d_normal := fun d => match d with 0%nat => 4 / 5 | 1%nat => 3 / 5 | _ => 0 end;
     d_normal_mass := 1; d_boundary_mass := 1; d_id := 2; d_position := fun _ => 0 |}.
Definition inviscid : viscosity := {| mu := 0; lambda := 0; cv_inverse_kappa := 0 |}.
Lemma box_mass_half : nodal_mass (row cg_q1 false 2 1) 0 = 1 / 2.
Proof.
  rewrite <- (C152_mass_proof (row cg_q1 false 2 1) 0 (row_level 2 1 ltac:(lia) ltac:(lia)) ltac:(cbn; lia)).
  unfold level_mass, distribute_local, weight. cbn -[sqrt]. assert (S : sqrt 3 * sqrt 3 = 3) by (apply sqrt_sqrt; lra).
  field_simplify_eq; nra.
Qed.

Lemma skew_case :
  velocity_inverse_diagonal (row cg_q1 false 2 1) inviscid [skew_entry] 1 (fun _ => 1 / 10) 0%nat 0%nat < 0 <
  entry_block (level_velocity_vmult (row cg_q1 false 2 1) inviscid [skew_entry] 1 (fun _ => 1 / 10)) 0 0.
Proof.
  apply (C152_skew_refuted_proof (row cg_q1 false 2 1) inviscid [skew_entry] 1 (fun _ => 1 / 10) 0%nat skew_entry (4 / 5) (3 / 5));
    try reflexivity; try (cbn; lra).
  - apply row_level; lia.
  - cbn. lia.
Qed.

(** Walls along the axes in the corner of a row of boxes; air-like viscosities. *)
Definition axis_entry (k : nat) : description :=
  {| d_index := 0; d_normal := fun d => if Nat.eqb d k then -1 else 0;
     d_normal_mass := 1; d_boundary_mass := 1; d_id := 2; d_position := fun _ => 0 |}.
Definition viscous : viscosity := {| mu := 1; lambda := 0; cv_inverse_kappa := 2 |}.
Lemma axis_case I a : (I < g_n_dofs (row cg_q1 false 2 3))%nat -> (a < 2)%nat ->
  let A := level_velocity_vmult (row cg_q1 false 2 3) viscous [axis_entry 0; axis_entry 1] (1 / 2) (fun _ => 1) in
  0 < entry_block A I a /\
  velocity_inverse_diagonal (row cg_q1 false 2 3) viscous [axis_entry 0; axis_entry 1] (1 / 2) (fun _ => 1) I a = 1 / entry_block A I a.
Proof.
  intros HI Ha. apply C152_velocity_proof; try assumption; try lra.
  - apply row_level; lia.
  - repeat split; cbn; try lra; lia.
  - intros e [<-|[<-|[]]] _ _; [exists 0%nat|exists 1%nat]; (split; [cbn; lia|]; split; [right; reflexivity|]; intros d Hd; cbn; destruct d as [|[|d]]; cbn; try reflexivity; exfalso; apply Hd; reflexivity).
Qed.
Lemma energy_case I : (I < g_n_dofs (row cg_q1 false 2 3))%nat ->
  let A := level_energy_vmult (row cg_q1 false 2 3) [axis_entry 0] 2 (fun _ => 1) in
  0 < entry A I /\ energy_inverse_diagonal (row cg_q1 false 2 3) [axis_entry 0] 2 (fun _ => 1) I = 1 / entry A I.
Proof. intros HI. apply C152_energy_proof; try assumption; try lra. apply row_level; lia. Qed.

(** Eight steps after the mesh was changed: the data are those of the fifth. *)
Lemma setup_case s :
  velocity_levels (after true false 1 (fun mesh rho l i => rho i) 3 (fun k => INR k) (fun k i => INR (k + i)) s 7) =
  Some {| built_on := 3; built_with := INR 4; built_density := fun l i => INR (4 + i) |}.
Proof. apply (C153_setup_proof true false 1 (fun mesh rho l i => rho i) 3 (fun k => INR k) (fun k i => INR (k + i)) s 7); auto. Qed.
Lemma singular_case : level_energy_vmult (row cg_q1 false 2 3) [axis_entry 0] 2 (fun _ => 0) (fun _ => 300) 0%nat = 0 /\
  0 < level_energy_vmult (row cg_q1 false 2 3) [axis_entry 0] 2 (fun _ => 1) (fun _ => 300) 0%nat.
Proof.
  destruct (C153_singular_refuted_proof (row cg_q1 false 2 3) [axis_entry 0] 2 300 0%nat) as (A & B & _).
  - apply row_level; lia.
  - cbn. lia.
  - intros e [<-|[]]. cbn. lia.
  - split; [exact A|]. apply B; lra.
Qed.

(** A first attempt that gives up after one step of length 1 / 2, and solvers that accept their solution only if it is exact. *)
Definition gives_up (A : field -> field) (x b : field) : field * bool := (fun i d => x i d + 1 / 2 * (b i d - A x i d), false).
Definition gives_up1 (A : (nat -> R) -> nat -> R) (x b : nat -> R) : (nat -> R) * bool := (fun i => x i + 1 / 2 * (b i - A x i), false).
Lemma tolerance_case v e : accurate_block 3 1 0 (with_multigrid true gives_up (attempt_block 3 1 v)) /\ accurate 3 0 (with_multigrid true gives_up1 (attempt 3 e)).
Proof.
  apply C153_tolerance_proof; [intros A x0 b x E; discriminate E|intros A x0 b x E; discriminate E|apply attempt_block_exact|apply attempt_exact].
Qed.
