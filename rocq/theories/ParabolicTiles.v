(** * The parabolic step: counterexamples in two and three dimensions *)
From Coq Require Import Reals List Bool Arith Lia Lra Psatz.
From Verif Require Import RVec BoundaryMap EulerSystem AssemblySpec AssemblyProofs AssemblyFinal AssemblyExamples.
From Verif Require Import Assembly Parabolic ParabolicSpec ParabolicProofs ParabolicRows ParabolicFinal ParabolicMore ParabolicExamples.
Import ListNotations.
Local Open Scope R_scope.

(** ** Two bilinear elements of size 1 x 4 side by side, periodic in the first
    direction: the degrees of freedom 4 and 5 (x = 2) are constrained to 0 and 2
    (x = 0).  Simpson's rule in both directions.  (The faces do not enter.) *)
Definition node (q : nat) : R := match q with 0%nat => 0 | 1%nat => 1 / 2 | _ => 1 end.
Definition simpson (q : nat) : R := match q with 1%nat => 4 / 6 | _ => 1 / 6 end.
Definition hat (i : nat) (x : R) : R := match i with 0%nat => 1 - x | _ => x end.
Definition hat' (i : nat) : R := match i with 0%nat => -1 | _ => 1 end.
Definition lo2 (i : nat) : nat := match i with 0%nat | 2%nat => 0 | _ => 1 end.
Definition hi2 (i : nat) : nat := match i with 0%nat | 1%nat => 0 | _ => 1 end.
Definition lo3 (q : nat) : nat := match q with 0%nat | 3%nat | 6%nat => 0 | 1%nat | 4%nat | 7%nat => 1 | _ => 2 end.
Definition hi3 (q : nat) : nat := match q with 0%nat | 1%nat | 2%nat => 0 | 3%nat | 4%nat | 5%nat => 1 | _ => 2 end.
Definition tile_dof (c i : nat) : nat :=
  match c, i with
  | 0%nat, 0%nat => 0 | 0%nat, 1%nat => 1 | 0%nat, 2%nat => 2 | 0%nat, _ => 3
  | _, 0%nat => 1 | _, 1%nat => 4 | _, 2%nat => 3 | _, _ => 5
  end.
Definition tiles : geometry := {|
  g_dim := 2; g_n_dofs := 6; g_n_cells := 2; g_n_local := 4; g_dof := tile_dof;
  g_n_points := 9; g_JxW := fun _ q => simpson (lo3 q) * simpson (hi3 q) * 4;
  g_value := fun _ i q => hat (lo2 i) (node (lo3 q)) * hat (hi2 i) (node (hi3 q));
  g_grad := fun _ i q d => match d with
    | 0%nat => hat' (lo2 i) * hat (hi2 i) (node (hi3 q))
    | 1%nat => hat (lo2 i) (node (lo3 q)) * hat' (hi2 i) / 4
    | _ => 0 end;
  g_n_faces := 0; g_neighbor := fun _ _ => None; g_at_boundary := fun _ _ => false; g_boundary_id := fun _ _ => 0%nat;
  g_support := fun _ _ => false; g_n_face_points := 0; g_face_JxW := fun _ _ _ => 0; g_normal := fun _ _ _ _ => 0;
  g_face_value := fun _ _ _ _ => 0; g_n_nodes := 0; g_node_value := fun _ _ _ _ => 0;
  g_constraint := fun g => match g with 4%nat => Some [(0%nat, 1)] | 5%nat => Some [(2%nat, 1)] | _ => None end;
  g_discontinuous := false; g_even := false; g_relaxation_even := 1; g_relaxation_odd := 0; g_extra := fun _ _ => 1;
  g_invert := fun A => A; g_n_ranks := 1; g_rank := fun _ => 0%nat; g_visible := fun _ _ => true;
  g_row_rank := fun _ => 0%nat; g_row_index := fun I => I; g_row_lanes := fun I => [I] |}.

Ltac upto k i := match k with
  | 0%nat => lia
  | S ?k' => destruct i as [|i]; [|upto k' i] end.

Lemma tiles_proper : proper tiles.
Proof.
  split; [|split].
  - intros c i Lc Li. cbn in *. upto 2%nat c; upto 4%nat i; cbn; lia.
  - intros g l Lg E. cbn in Lg, E. destruct g as [|[|[|[|[|[|g]]]]]]; try discriminate; try lia; injection E as <-; (split; [cbn; ring|]);
      intros e [<-|[]]; split; cbn; try lia; reflexivity.
  - intros c Lc. split; [|intros f q Lf; cbn in Lf; lia]. intros q Lq. cbn in Lq. split.
    + upto 9%nat q; cbn; field.
    + intros d. destruct d as [|[|d]]; [| |cbn; ring]; upto 9%nat q; cbn; field.
Qed.

Lemma tiles_free I : free tiles I <-> (I < 4)%nat.
Proof.
  split.
  - intros [L E]. cbn in L, E. destruct I as [|[|[|[|[|[|I]]]]]]; try discriminate; lia.
  - intros L. split; [cbn; lia|]. cbn. destruct I as [|[|[|[|I]]]]; try reflexivity; lia.
Qed.

Lemma tiles_mass I : (I < 4)%nat -> nodal_mass tiles I = 2.
Proof. intros L. upto 4%nat I; unfold nodal_mass, integral, basis, weight; cbn; field. Qed.

Definition tiles_entry (I J : nat) : R :=
  match I, J with
  | 0%nat, 0%nat | 1%nat, 1%nat | 2%nat, 2%nat | 3%nat, 3%nat => 17 / 6
  | 0%nat, 1%nat | 1%nat, 0%nat | 2%nat, 3%nat | 3%nat, 2%nat => - 31 / 12
  | 0%nat, 2%nat | 2%nat, 0%nat | 1%nat, 3%nat | 3%nat, 1%nat => 7 / 6
  | 0%nat, 3%nat | 3%nat, 0%nat | 1%nat, 2%nat | 2%nat, 1%nat => - 17 / 12
  | _, _ => 0
  end.
Lemma tiles_laplace I J : (I < 4)%nat -> (J < 6)%nat -> laplace tiles I J = tiles_entry I J.
Proof.
  intros LI LJ. upto 4%nat I; upto 6%nat J; unfold laplace, integral, basis_grad, weight, tiles_entry; cbn; field.
Qed.

(** Heat conduction between the four degrees of freedom: the hot one makes
    another one colder than everything was before. *)
Definition conduction : viscosity := {| mu := 0; lambda := 0; cv_inverse_kappa := 1 |}.
Definition calm (e : nat -> R) : field := fun I k => match k with 0%nat => 1 | 3%nat => e I | _ => 0 end.
Definition hot_corner : field := calm (fun I => match I with 2%nat => 146 | _ => 1 end).
Definition undershoot : nat -> R := fun I => match I with 0%nat => 1 / 2 | 1%nat => 16 | 2%nat => 177 / 2 | 3%nat => 44 | _ => 0 end.
Lemma calm_specific e I : specific_energy 2 (calm e I) = e I.
Proof. unfold specific_energy, calm. cbn. field. Qed.

Lemma conduction_run eps : backward_euler_step tiles conduction [] nowhere eps
  (attempt_block 6 2 still) (attempt 6 undershoot) hot_corner 0 1 = Some (write_back tiles hot_corner still undershoot, false).
Proof.
  destruct (run_exact tiles conduction nowhere eps hot_corner 0 1 still undershoot) as (r & E & Er).
  - exact tiles_proper.
  - intros I F. cbn. lra.
  - intros I a F La. change (g_dim tiles) with 2%nat in La.
    rewrite (integral_zero tiles) by (intros c q _ _; apply rs_zero; intros b _; rewrite (still_stress tiles conduction); ring). unfold still, hot_corner, calm.
    upto 2%nat a; ring.
  - intros I F. rewrite (integral_zero tiles) by (intros c q _ _; rewrite (still_work tiles conduction); ring).
    apply tiles_free in F. change (g_dim tiles) with 2%nat. change (g_n_dofs tiles) with 6%nat. unfold hot_corner. rewrite calm_specific.
    cbn [rsum]. rewrite !tiles_laplace by lia. rewrite tiles_mass by exact F. unfold norm2, dot, vsub, vel, still. cbn [rsum].
    upto 4%nat I; cbn; field.
  - intros I X. unfold is_constrained in X. cbn in X. destruct I as [|[|[|[|[|[|I]]]]]]; try discriminate; reflexivity.
  - change (g_n_dofs tiles) with 6%nat in E. change (g_dim tiles) with 2%nat in E, Er. rewrite E. f_equal. f_equal. rewrite Er.
    destruct (Rlt_dec _ _) as [Q|Q]; [|reflexivity]. exfalso.
    assert (M1 : 0 <= minimum tiles undershoot) by (apply minimum_ge; [cbn; lia|]; intros i _; unfold undershoot; destruct i as [|[|[|[|i]]]]; lra).
    assert (M2 : minimum tiles (set_zero tiles (fun I => specific_energy 2 (hot_corner I))) = 0).
    { apply Rle_antisym.
      - exact (minimum_le tiles (set_zero tiles (fun I => specific_energy 2 (hot_corner I))) 4 ltac:(cbn; lia)).
      - apply minimum_ge; [cbn; lia|]. intros i _. unfold set_zero. destruct (is_constrained tiles i); [lra|]. unfold hot_corner. rewrite calm_specific. destruct i as [|[|[|i]]]; lra. }
    rewrite M2 in Q. lra.
Qed.

Lemma C110_flag_refuted_proof : exists G par init eps sv se U t tau U',
  proper G /\ gas G U /\ physical par (g_dim G) /\ positive_weights G /\ positive_masses G /\ positive_basis G /\ 0 < eps /\ eps <= 1 / 1000000 /\ 0 <= tau /\
  accurate_block (g_n_dofs G) (g_dim G) 0 sv /\ accurate (g_n_dofs G) 0 se /\
  backward_euler_step G par [] init eps sv se U t tau = Some (U', false) /\
  (forall I, free G I -> 1 <= specific_energy (g_dim G) (U I)) /\
  exists I, free G I /\ specific_energy (g_dim G) (U' I) = 1 / 2.
Proof.
  exists tiles, conduction, nowhere, (1 / 1000000), (attempt_block 6 2 still), (attempt 6 undershoot), hot_corner, 0, 1, (write_back tiles hot_corner still undershoot).
  split; [exact tiles_proper|]. split; [intros I _; cbn; lra|]. split; [unfold physical; cbn; repeat split; lra || lia|].
  split; [intros c q _ L; cbn in L; upto 9%nat q; cbn; lra|]. split; [intros I F; apply tiles_free in F; rewrite tiles_mass by exact F; lra|].
  split.
  { intros I c q F Lc Lq. apply tiles_free in F. cbn in Lc, Lq. unfold basis, weight. upto 2%nat c; upto 9%nat q; upto 4%nat I; cbn; lra. }
  split; [lra|]. split; [lra|]. split; [lra|]. split; [apply attempt_block_exact|]. split; [apply attempt_exact|]. split; [apply conduction_run|].
  split.
  - intros I _. change (g_dim tiles) with 2%nat. unfold hot_corner. rewrite calm_specific. destruct I as [|[|[|I]]]; lra.
  - exists 0%nat. split; [apply tiles_free; lia|]. rewrite (back_specific tiles) by (cbn; lra). reflexivity.
Qed.

(** ** One trilinear element (the unit cube) with two slip walls at an angle *)
Definition bit (k i : nat) : nat := match k with 0%nat => Nat.modulo i 2 | 1%nat => Nat.modulo (Nat.div i 2) 2 | _ => Nat.div i 4 end.
Definition brick : geometry := {|
  g_dim := 3; g_n_dofs := 8; g_n_cells := 1; g_n_local := 8; g_dof := fun _ i => i;
  g_n_points := 8; g_JxW := fun _ _ => 1 / 8;
  g_value := fun _ i q => hat (bit 0 i) (INR (bit 0 q)) * hat (bit 1 i) (INR (bit 1 q)) * hat (bit 2 i) (INR (bit 2 q));
  g_grad := fun _ i q d => match d with
    | 0%nat => hat' (bit 0 i) * hat (bit 1 i) (INR (bit 1 q)) * hat (bit 2 i) (INR (bit 2 q))
    | 1%nat => hat (bit 0 i) (INR (bit 0 q)) * hat' (bit 1 i) * hat (bit 2 i) (INR (bit 2 q))
    | 2%nat => hat (bit 0 i) (INR (bit 0 q)) * hat (bit 1 i) (INR (bit 1 q)) * hat' (bit 2 i)
    | _ => 0 end;
  g_n_faces := 0; g_neighbor := fun _ _ => None; g_at_boundary := fun _ _ => false; g_boundary_id := fun _ _ => 0%nat;
  g_support := fun _ _ => false; g_n_face_points := 0; g_face_JxW := fun _ _ _ => 0; g_normal := fun _ _ _ _ => 0;
  g_face_value := fun _ _ _ _ => 0; g_n_nodes := 0; g_node_value := fun _ _ _ _ => 0;
  g_constraint := fun _ => None;
  g_discontinuous := false; g_even := false; g_relaxation_even := 1; g_relaxation_odd := 0; g_extra := fun _ _ => 1;
  g_invert := fun A => A; g_n_ranks := 1; g_rank := fun _ => 0%nat; g_visible := fun _ _ => true;
  g_row_rank := fun _ => 0%nat; g_row_index := fun I => I; g_row_lanes := fun I => [I] |}.
Lemma brick_proper : proper brick.
Proof.
  split; [|split].
  - intros c i Lc Li. exact Li.
  - intros g l Lg E. discriminate E.
  - intros c Lc. split; [|intros f q Lf; cbn in Lf; lia]. intros q Lq. cbn in Lq. split.
    + upto 8%nat q; cbn; ring.
    + intros d. destruct d as [|[|[|d]]]; [| | |cbn; ring]; upto 8%nat q; cbn; ring.
Qed.
Lemma brick_mass I : (I < 8)%nat -> nodal_mass brick I = 1 / 8.
Proof. intros L. upto 8%nat I; unfold nodal_mass, integral, basis, weight; cbn; field. Qed.
Lemma brick_free I : (I < 8)%nat -> free brick I.
Proof. intros L. split; [exact L|reflexivity]. Qed.

Definition wall_1 : vec := fun d => match d with 0%nat => 1 | _ => 0 end.
Definition wall_2 : vec := fun d => match d with 0%nat => 5 / 13 | 1%nat => 12 / 13 | _ => 0 end.
Definition oblique : list description := [Description 0 wall_1 1 1 2 (fun _ => 0); Description 0 wall_2 1 1 2 (fun _ => 0)].
Definition inviscid : viscosity := {| mu := 0; lambda := 0; cv_inverse_kappa := 0 |}.
Definition sliding : field := fun I k => match k with 0%nat => 1 | 2%nat => match I with 0%nat => 1177 | _ => 0 end
  | 4%nat => match I with 0%nat => 1 + 1 / 2 * (1177 * 1177) | _ => 1 end | _ => 0 end.
Definition pushed : field := fun I d => match I with 0%nat => match d with 0%nat => -60 | 1%nat => 25 | _ => 0 end | _ => 0 end.
Definition pushed_energy : nat -> R := fun I => match I with 0%nat => 665353 | _ => 1 end.

Lemma inviscid_stress A a b : newtonian inviscid 3 A a b = 0.
Proof. unfold newtonian. cbn [mu lambda inviscid]. destruct (Nat.eqb a b); ring. Qed.

Lemma brick_velocity_row v I a : (I < 8)%nat -> (a < 3)%nat -> velocity_stiffness brick inviscid 1 (rho_ brick sliding) v I a = 1 / 8 * v I a.
Proof.
  intros LI La. rewrite velocity_row by (exact brick_proper || assumption). rewrite brick_mass by exact LI. rewrite (rho_free brick) by (apply brick_free; exact LI).
  rewrite (integral_zero brick) by (intros c q _ _; apply rs_zero; intros b _; change (g_dim brick) with 3%nat; rewrite inviscid_stress; ring).
  cbn [sliding]. ring.
Qed.

Lemma sliding_specific I : specific_energy 3 (sliding I) = 1.
Proof. unfold specific_energy, sliding. destruct I; cbn; field. Qed.

Lemma oblique_run eps : exists r, backward_euler_step brick inviscid oblique nowhere eps
  (attempt_block 8 3 pushed) (attempt 8 pushed_energy) sliding 0 1 = Some (write_back brick sliding pushed pushed_energy, r).
Proof.
  destruct (step_1 brick oblique nowhere sliding 0 1) as [[v0 b] e0] eqn:E1.
  assert (Av : forall i d, (i < 8)%nat -> (d < 3)%nat -> velocity_vmult brick inviscid oblique 1 (rho_ brick sliding) pushed i d = b i d).
  { intros i d Li Ld. assert (F := brick_free i Li). rewrite velocity_vmult_row by exact Li. destruct (step_1_row _ _ _ _ _ _ _ _ _ _ E1 F) as (_ & -> & _).
    assert (Sr : forall k, (k < 3)%nat -> velocity_stiffness brick inviscid 1 (rho_ brick sliding) pushed i k = 1 / 8 * pushed i k) by (intros k Lk; apply brick_velocity_row; assumption).
    assert (Sb : forall k, velocity_rhs_0 brick sliding i k = 1 / 8 * sliding i (S k)) by (intros k; unfold velocity_rhs_0, momentum; rewrite mass_nodal by (exact brick_proper || exact Li); rewrite brick_mass by exact Li; reflexivity).
    destruct i as [|i].
    - cbn [entries filter oblique d_index Nat.eqb fold_left]. unfold fix_row, rhs_row, id_slip. cbn [d_id d_normal Nat.eqb].
      unfold vadd, remove_normal, vsub, vscal, dot. change (g_dim brick) with 3%nat. cbn [rsum].
      rewrite !Sr, !Sb by lia. unfold pushed, sliding, wall_1, wall_2. upto 3%nat d; field.
    - cbn [entries filter oblique d_index Nat.eqb fold_left]. rewrite Sr, Sb by exact Ld. unfold pushed, sliding. upto 3%nat d; ring. }
  assert (Ae : forall i, (i < 8)%nat -> energy_vmult brick oblique (1 * cv_inverse_kappa inviscid) (rho_ brick sliding) pushed_energy i = energy_rhs brick inviscid oblique nowhere sliding 0 1 e0 pushed i).
  { intros i Li. assert (F := brick_free i Li). rewrite energy_vmult_row by exact Li. rewrite energy_rhs_row by exact F.
    assert (N : forall e, In e (entries oblique i) -> d_id e <> 4%nat) by (intros e X; apply filter_In in X; destruct X as [[<-|[<-|[]]] _]; cbn; lia).
    rewrite energy_fix_inactive, energy_inactive by exact N. rewrite energy_row by (exact brick_proper || exact Li). unfold energy_rhs_0. cbv zeta.
    destruct (step_1_row _ _ _ _ _ _ _ _ _ _ E1 F) as (_ & _ & ->). rewrite energy_inactive by exact N. rewrite specific_old, mass_nodal, heating_row by (exact brick_proper || exact Li).
    rewrite (integral_zero brick (fun c q => contraction _ _ _ * _)).
    2:{ intros c q _ _. unfold contraction. rewrite rs_zero; [ring|]. intros a _. apply rs_zero. intros b' _. change (g_dim brick) with 3%nat. rewrite inviscid_stress. ring. }
    rewrite !(rho_free brick) by exact F. rewrite brick_mass by exact Li. change (g_dim brick) with 3%nat. rewrite sliding_specific. cbn [cv_inverse_kappa inviscid].
    unfold norm2, dot, vsub, momentum. cbn [rsum]. destruct i as [|i]; cbn [sliding pushed pushed_energy]; field. }
  unfold backward_euler_step. rewrite E1. rewrite attempt_block_some by exact Av. rewrite attempt_some by exact Ae. eexists. reflexivity.
Qed.

Lemma C108_slip_refuted_proof : exists G par bm init eps sv se U t tau U' r I nu,
  proper G /\ gas G U /\ physical par (g_dim G) /\ positive_weights G /\ positive_masses G /\ 0 < eps /\ 0 <= tau /\
  accurate_block (g_n_dofs G) (g_dim G) 0 sv /\ accurate (g_n_dofs G) 0 se /\
  backward_euler_step G par bm init eps sv se U t tau = Some (U', r) /\ free G I /\
  (forall e, In e (entries bm I) -> d_id e = 2%nat) /\
  (forall n, In n (slip_normals bm I) -> dot (g_dim G) n n = 1) /\
  ForallOrdPairs (fun n n' => dot (g_dim G) n n' <= 1 / 2) (slip_normals bm I) /\
  In nu (slip_normals bm I) /\
  rsum (g_dim G) (fun d => U' I (S d) * nu d) <> 0.
Proof.
  destruct (oblique_run (/ 1000000)) as (r & E).
  exists brick, inviscid, oblique, nowhere, (/ 1000000), (attempt_block 8 3 pushed), (attempt 8 pushed_energy), sliding, 0, 1, (write_back brick sliding pushed pushed_energy), r, 0%nat, wall_1.
  split; [exact brick_proper|]. split; [intros I _; cbn; lra|]. split; [unfold physical; cbn; repeat split; lra || lia|].
  split; [intros c q _ _; cbn; lra|]. split; [intros I [L _]; rewrite brick_mass by exact L; lra|]. split; [lra|]. split; [lra|].
  split; [apply attempt_block_exact|]. split; [apply attempt_exact|]. split; [exact E|]. split; [apply brick_free; lia|].
  split; [intros e [<-|[<-|[]]]; reflexivity|]. change (g_dim brick) with 3%nat.
  split; [intros n [<-|[<-|[]]]; unfold dot, wall_1, wall_2; cbn; field|].
  split; [repeat constructor; unfold dot, wall_1, wall_2; cbn; lra|]. split; [left; reflexivity|].
  cbn. unfold density. cbn. lra.
Qed.

(** ** The boundary conditions on the cube: slip, no slip and Dirichlet *)
Definition conditions : list description :=
  [Description 0 wall_1 1 1 2 (fun _ => 0); Description 1 wall_1 1 1 3 (fun _ => 0); Description 1 wall_2 1 1 2 (fun _ => 0);
   Description 2 wall_1 1 1 4 (fun _ => 1); Description 7 wall_1 1 1 0 (fun _ => 0)].
Definition wind : vec -> R -> vec := fun x t k => match k with 0%nat => 2 | 1%nat => t * x 1%nat | 4%nat => 7 + t * t | _ => 0 end.
Definition stokes : viscosity := {| mu := 1; lambda := 1 / 2; cv_inverse_kappa := 3 |}.
Lemma conditions_instance : exists U' r,
  backward_euler_step brick stokes conditions wind (1 / 1000000) (iterate_block (1 / 2)) (iterate (1 / 3)) sliding 0 1 = Some (U', r).
Proof. unfold backward_euler_step. destruct (step_1 _ _ _ _ _ _) as [[v0 b] e0]. eexists. eexists. reflexivity. Qed.
Lemma conditions_rows :
  ((forall e, In e (entries conditions 0) -> d_id e <> 3%nat /\ d_id e <> 4%nat) /\ orthonormal 3 (slip_normals conditions 0) /\ slip_normals conditions 0 = [wall_1]) /\
  ((exists e, In e (entries conditions 1) /\ d_id e = 3%nat) /\ no_dirichlet conditions 1) /\
  ((exists e, In e (entries conditions 2) /\ d_id e = 4%nat) /\
   (forall e, In e (entries conditions 2) -> d_id e <> 2%nat /\ d_id e <> 3%nat /\ (d_id e = 4%nat -> d_position e = (fun _ => 1)))) /\
  no_strong_condition conditions 7 /\
  (forall I, free brick I -> posed 3 conditions I) /\ wall 3 conditions 0 /\ wall 3 conditions 1 /\ wall 3 conditions 7.
Proof.
  assert (O : orthonormal 3 [wall_1]).
  { split; [intros m [<-|[]]; unfold dot, wall_1; cbn; ring|repeat constructor]. }
  assert (Z : orthonormal 3 []) by (split; [intros m []|constructor]).
  split; [split; [intros e [<-|[]]; cbn; lia|split; [exact O|reflexivity]]|].
  split; [split; [eexists; split; [left; reflexivity|reflexivity]|intros e [<-|[<-|[]]]; cbn; lia]|].
  split; [split; [eexists; split; [left; reflexivity|reflexivity]|intros e [<-|[]]; cbn; repeat split; lia || reflexivity]|].
  split; [intros e [<-|[]]; cbn; lia|].
  split.
  - intros I [L _]. cbn in L. unfold posed. upto 8%nat I;
      try (left; eexists; split; [left; reflexivity|cbn; auto; fail]; fail); right; first [exact O|exact Z].
  - split; [|split].
    + split; [intros e [<-|[]]; cbn; lia|right; exact O].
    + split; [intros e [<-|[<-|[]]]; cbn; lia|left; eexists; split; [left; reflexivity|reflexivity]].
    + split; [intros e [<-|[]]; cbn; lia|right; exact Z].
Qed.
