(** * A uniform viscous stream *)
From Coq Require Import Reals List Arith Bool Lia Lra Psatz FunctionalExtensionality.
From Verif Require Import RVec BoundaryMap EulerSystem EulerLimiter EulerLimiterBounds EulerRiemann EulerRiemannFinal EulerScheme EulerSchemeSpec SchemeSpec SchemeProofs SchemeLimit SchemeFinal SchemeExamples ScalarSchemeProofs EulerSchemeProofs EulerSchemeFinal EulerSchemeBounds EulerSchemeExamples
  PhysSpec EulerPhysProofs EulerMinEntropySpec EulerMinEntropyFinal TimeInt TimeIntSpec TimeIntProofs EulerRun EulerRunSpec EulerRunProofs EulerRunFinal EulerRunExamples AeosSchemeFinal.
From Verif Require SWScheme.
From Verif Require Import Scheme.
From Verif Require Import Assembly AssemblySpec AssemblyProofs AssemblyFinal AssemblyMesh AssemblyExamples Parabolic ParabolicSpec ParabolicProofs ParabolicRows ParabolicFinal ParabolicMore ParabolicExamples NSRun NSRunSpec NSRunProofs NSRunFinal.
Import ListNotations.
Local Open Scope R_scope.

(** Three cells on a circle on two ranks, and on one rank. *)
Definition ring : geometry := line CG1 3 true.
Definition lone_ring : geometry := {|
  g_dim := g_dim ring; g_n_dofs := g_n_dofs ring; g_n_cells := g_n_cells ring; g_n_local := g_n_local ring; g_dof := g_dof ring;
  g_n_points := g_n_points ring; g_JxW := g_JxW ring; g_value := g_value ring; g_grad := g_grad ring;
  g_n_faces := g_n_faces ring; g_neighbor := g_neighbor ring; g_at_boundary := g_at_boundary ring; g_boundary_id := g_boundary_id ring;
  g_support := g_support ring; g_n_face_points := g_n_face_points ring; g_face_JxW := g_face_JxW ring; g_normal := g_normal ring;
  g_face_value := g_face_value ring; g_n_nodes := g_n_nodes ring; g_node_value := g_node_value ring; g_constraint := g_constraint ring;
  g_discontinuous := g_discontinuous ring; g_even := g_even ring; g_relaxation_even := g_relaxation_even ring; g_relaxation_odd := g_relaxation_odd ring;
  g_extra := g_extra ring; g_invert := g_invert ring; g_n_ranks := 1; g_rank := fun _ => 0%nat; g_visible := fun _ _ => true;
  g_row_rank := fun _ => 0%nat; g_row_index := fun I => I; g_row_lanes := fun I => [I] |}.

Lemma ring_discretized p : discretized p ring.
Proof. split; [apply line_complete; lia|]. split; [apply line_numbering|apply line_active]. Qed.
Lemma lone_discretized p : discretized p lone_ring.
Proof.
  split; [|split; [split; [intros i _; left; reflexivity|intros i j _ _ _ E; exact E]|]].
  - destruct (line_complete CG1 3 true ltac:(lia)) as (A & B & C & D & _ & E).
    split; [exact A|]. split; [exact B|]. split; [exact C|]. split; [exact D|]. split; [intros; cbn; lia|exact E].
  - intros I F. exact (line_active (ep_eps p) I F).
Qed.
Lemma lone_no_boundary : no_boundary lone_ring.
Proof. exact (line_no_boundary CG1 3 ltac:(lia)). Qed.

Lemma ring_free I : free ring I -> (I < 3)%nat.
Proof. intros [L F]. cbn in L, F. destruct I as [|[|[|[|I]]]]; cbn in F; try lia. discriminate. Qed.

Lemma ring_laplace I J : (I < 3)%nat -> (J < 3)%nat -> I <> J -> laplace ring I J <= 0.
Proof.
  intros LI LJ N. destruct I as [|[|[|I]]]; [| | |lia]; (destruct J as [|[|[|J]]]; [| | |lia]); try (exfalso; apply N; reflexivity);
  unfold laplace, integral, basis_grad, weight; cbn; lra.
Qed.
Lemma ring_basis I c q : (I < 3)%nat -> (c < 3)%nat -> (q < 3)%nat -> 0 <= basis ring I c q.
Proof.
  intros LI Lc Lq. destruct I as [|[|[|I]]]; [| | |lia]; (destruct c as [|[|[|c]]]; [| | |lia]); (destruct q as [|[|[|q]]]; [| | |lia]);
  unfold basis, weight; cbn; lra.
Qed.
Lemma ring_monotone : monotone_elements ring.
Proof.
  split; [|split].
  - intros c q _ _. cbn. destruct q as [|[|q]]; lra.
  - intros I c q F Lc Lq. apply ring_basis; [apply ring_free, F|exact Lc|exact Lq].
  - intros I J FI FJ N. apply ring_laplace; try apply ring_free; assumption.
Qed.
Lemma lone_monotone : monotone_elements lone_ring.
Proof. exact ring_monotone. Qed.

(** ** Uniform flow through the parabolic step *)
Definition uniform_velocity (G : geometry) (u : RVec.vec) : field := set_zero_block G (fun _ => vel u).
Definition uniform_energy (G : geometry) (u : RVec.vec) : nat -> R := set_zero G (fun _ => specific_energy (g_dim G) u).

Lemma uniform_back p G par data u U t tau : discretized p G -> (0 < g_n_dofs G)%nat -> u 0%nat <> 0 -> ep_eps p = 0 -> (forall I, free G I -> U I = u) ->
  backward_euler_step G par [] data (ep_eps p) (attempt_block (g_n_dofs G) (g_dim G) (uniform_velocity G u)) (attempt (g_n_dofs G) (uniform_energy G u)) U t tau
   = Some (write_back G U (uniform_velocity G u) (uniform_energy G u), false).
Proof.
  intros HD Pn N Ez HU. pose proof (d_proper p G HD) as Pr.
  assert (Ev : forall I a, free G I -> uniform_velocity G u I a = vel u a) by (intros I a F; unfold uniform_velocity, set_zero_block; rewrite (free_not_constrained G I F); reflexivity).
  assert (Ee : forall I, free G I -> uniform_energy G u I = specific_energy (g_dim G) u) by (intros I F; unfold uniform_energy, set_zero; rewrite (free_not_constrained G I F); reflexivity).
  assert (Z : forall c q a b, (c < g_n_cells G)%nat -> (q < g_n_points G)%nat -> velocity_gradient G (uniform_velocity G u) c q a b = 0).
  { intros c q a b Lc Lq. unfold velocity_gradient. rewrite (slope_ext G _ (fun _ => vel u a)); try assumption; [|intros J FJ; apply Ev, FJ].
    unfold slope. rewrite rsum_scal, grad_sum; [ring|assumption|assumption|assumption]. }
  assert (S0 : forall c q a b, (c < g_n_cells G)%nat -> (q < g_n_points G)%nat -> newtonian par (g_dim G) (velocity_gradient G (uniform_velocity G u) c q) a b = 0).
  { intros c q a b Lc Lq. unfold newtonian. rewrite !Z by assumption. rewrite rs_zero; [destruct (Nat.eqb a b); ring|]. intros d _. apply Z; assumption. }
  destruct (run_exact G par data (ep_eps p) U t tau (uniform_velocity G u) (uniform_energy G u)) as (r & Q & Er).
  - exact Pr.
  - intros I F. rewrite (HU I F). exact N.
  - intros I a F La. rewrite Ev, (HU I F) by exact F. rewrite integral_zero; [unfold vel; field; exact N|].
    intros c q Lc Lq. apply rs_zero. intros b _. rewrite S0 by assumption. ring.
  - intros I F. rewrite (HU I F), Ee by exact F. rewrite integral_zero.
    + rewrite (sum_free G _ (fun J => (specific_energy (g_dim G) u - specific_energy (g_dim G) u) * laplace G I J)).
      * rewrite rs_zero by (intros; ring). replace (norm2 (g_dim G) (vsub (vel u) (uniform_velocity G u I))) with 0; [ring|].
        symmetry. unfold norm2, RVec.dot. apply rs_zero. intros d _. unfold vsub. rewrite Ev by exact F. ring.
      * intros J FJ. rewrite Ee by exact FJ. reflexivity.
      * intros J CJ. replace (laplace G I J) with 0; [ring|]. symmetry. unfold laplace. apply integral_zero. intros c q Lc _. apply rs_zero. intros b _.
        rewrite (basis_grad_constrained G J) by assumption. ring.
    + intros c q Lc Lq. unfold contraction. rewrite rs_zero; [ring|]. intros a _. apply rs_zero. intros b _. rewrite S0 by assumption. ring.
  - intros I C. unfold uniform_energy, set_zero. rewrite C. reflexivity.
  - rewrite Q. f_equal. f_equal. rewrite Er. clear Er Q. destruct (Rlt_dec _ _) as [L|L]; [exfalso|reflexivity]. rewrite Ez in L.
    assert (M : forall I, (I < g_n_dofs G)%nat -> uniform_energy G u I = set_zero G (fun I => specific_energy (g_dim G) (U I)) I).
    { intros I LI. unfold uniform_energy, set_zero. destruct (is_constrained G I) eqn:C; [reflexivity|]. rewrite HU; [reflexivity|]. apply not_constrained_free; assumption. }
    replace (minimum G (set_zero G (fun I => specific_energy (g_dim G) (U I)))) with (minimum G (uniform_energy G u)) in L; [lra|].
    unfold minimum. rewrite (M 0%nat Pn). f_equal. apply map_ext_in. intros I LI. apply in_seq in LI. apply M. lia.
Qed.

(** ** A completed step *)
Lemma uniform_completes p G par nm data order n tmp u c0 c1 t tf s : discretized p G -> (0 < g_n_dofs G)%nat -> u 0%nat <> 0 ->
  regular_run p (g_dim G) (ns_mesh p G) nm 0 [] data order n ->
  (forall I, free G I -> fst (st_vector _ s) I = u) -> 0 < st_cfl _ s -> t < tf -> st_hyp _ s = warn ->
  exists h s', ns_step p G par nm [] data order n tmp (attempt_block (g_n_dofs G) (g_dim G) (uniform_velocity G u)) (attempt (g_n_dofs G) (uniform_energy G u))
    imex_11 recovery_none c0 c1 t tf s = (Ok h, s') /\ 0 < h.
Proof.
  intros HD Pn N HR HU Hc Ht Hw. unfold ns_step. rewrite step_none.
  set (sv := attempt_block _ _ _). set (se := attempt _ _).
  set (h := fold_right Rmin (tf - t) (ns_rows p G nm tmp (st_cfl _ s) (ns_prepare p G [] data t (st_vector _ s)))).
  assert (Ph : 0 < h) by (apply (rows_min p (g_dim G) (ns_mesh p G) nm 0 [] data order n HR); [exact Hc|lra]).
  set (v := fst (ns_update p G nm order n tmp (ns_prepare p G [] data t (st_vector _ s)) [] h)).
  assert (Hv : forall I, free G I -> fst v I = u).
  { intros I F. unfold v, ns_update, euler_update. cbv zeta. cbn [fst]. apply (d_free p G HD) in F.
    refine (C106_uniform_proof nat (euler_scheme p (g_dim G)) G (ep_eps p) nm (e_F p (g_dim G)) u (EulerSystem.flux (ep_system p) (g_dim G) u) order n _ _ _ _ _ (ns_prepare p G [] data t (st_vector _ s)) [] h I
      (proj1 HD) (euler_plain p (g_dim G)) eq_refl (euler_central p (g_dim G)) _ F).
    intros w [->|[]] j Hj. apply active_free in Hj. split; [|reflexivity]. apply HU, Hj. }
  assert (Q : ns_parabolic p G par [] data tmp sv se v t (1 * h) = Some ((write_back G (fst v) (uniform_velocity G u) (uniform_energy G u), tmp_pc (tmp v)), false)).
  { unfold ns_parabolic. destruct (vanishing_density G (fst v)) eqn:Vd.
    - exfalso. unfold vanishing_density in Vd. apply existsb_exists in Vd. destruct Vd as (I & LI & X). apply in_seq in LI. apply andb_prop in X. destruct X as [X1 X2].
      destruct (Req_EM_T _ _) as [Z|]; [|discriminate X2]. apply N. rewrite <- (Hv I); [exact Z|]. apply not_constrained_free; [lia|]. destruct (is_constrained G I); [discriminate X1|reflexivity].
    - unfold sv, se. rewrite (uniform_back p G par data u (fst v) t (1 * h) HD Pn N); [reflexivity| |exact Hv]. destruct HR as (_ & _ & E & _). exact E. }
  destruct (imex_total euler_vector (ns_prepare p G [] data) (ns_rows p G nm tmp) (ns_update p G nm order n tmp) (ns_parabolic p G par [] data tmp sv se) euler_sadd t (tf - t) s _ Hw Ph Q) as (s' & E).
  rewrite E. eexists. eexists. split; [reflexivity|exact Ph].
Qed.


(** ** The stream on the rings *)

Lemma stream_regular_on G nm data order n : discretized stream_params G -> g_dim G = 1%nat -> (exists I, free G I) -> 0 < nm ->
  (forall i, In i order -> (i < g_n_dofs G)%nat) -> (n <= 2)%nat -> regular_run stream_params (g_dim G) (ns_mesh stream_params G) nm 0 [] data order n.
Proof.
  intros HD Ed (I & F) Pn Ho Hn. destruct (d_mesh stream_params G HD) as (X1 & X2 & X3 & X4 & X5 & X6 & X7).
  split.
  { split; [exact X1|]. split; [exact X2|]. split; [apply HD|]. split; [exact X5|]. split; [exact X4|]. split; [exact X6|].
    exists I. apply (d_free stream_params G HD), F. }
  split; [exact Pn|]. split; [reflexivity|]. split; [cbn; lra|]. split; [cbn; lra|].
  split. { intros i _. cbn [ep_relaxation stream_params]. lra. }
  split; [cbn; lra|]. split; [left; reflexivity|]. split; [exact Ho|]. split; [exact Hn|apply Forall_nil].
Qed.

Lemma uniform_fast G data tmp t v : discretized stream_params G -> g_dim G = 1%nat ->
  (forall i j, free G i -> In j (neighbours (ns_mesh stream_params G) i) -> 1 / 2 <= cnorm (c_ij (ns_mesh stream_params G) i j)) ->
  (forall I, free G I -> fst v I = stream_u) -> fast_waves stream_params G (1 / 10000) [] data tmp t v.
Proof.
  intros HD Ed HC Hv i F j Hj. set (M := ns_mesh stream_params G) in *. destruct (d_mesh stream_params G HD) as (X1 & X2 & X3 & X4 & X5 & X6 & X7). fold M in X1, X2, X3, X4, X5, X6, X7.
  rewrite Ed in *. set (old := ns_prepare stream_params G [] data t v). assert (Eo : forall I, free G I -> fst old I = stream_u) by exact Hv.
  assert (Hi : (i < n_rows M)%nat) by apply F.
  assert (Hg : 1 < gamma (ep_system stream_params)) by (cbn; lra).
  assert (Ga : forall k, active M k -> positive_gas 1 (fst old k)).
  { intros k Hk. apply (d_free stream_params G HD) in Hk. rewrite (Eo k Hk). apply stream_gas. }
  assert (Fj : free G j).
  { apply (d_free stream_params G HD). exact (col_active M i j X1 Hi Hj). }
  change (100 * (1 / 10000) <= dij_matrix (euler_scheme stream_params 1) M (1 / 10000) old (tmp_d (tmp old)) i j).
  rewrite (dij_value (euler_scheme stream_params 1) M (1 / 10000) old _ i j X1 (proj1 (proj2 HD)) X5 (euler_symmetric stream_params 1 M old Hg X1 X4 Ga) Hi Hj).
  eapply Rle_trans; [|apply Rmax_l]. unfold wave_viscosity. cbn [riemann_compute euler_scheme].
  assert (Hjc : In j (columns M i)) by apply (neighbours_columns M i j X1 Hi Hj).
  pose proof (HC i j F Hj) as Hc. set (c := c_ij M i j) in *. set (n := cdiv c (cnorm c)).
  assert (Hn : unit_vector 1 n).
  { split; [apply cnorm_cdiv; lra|]. unfold n, cdiv. rewrite map_length. apply X4; [exact Hi|exact Hjc]. }
  assert (Ei : forall w : euler_vector, w = old -> @fst (nat -> state nat) (PC nat (euler_scheme stream_params 1)) w i = stream_u /\ @fst (nat -> state nat) (PC nat (euler_scheme stream_params 1)) w j = stream_u).
  { intros w ->. split; [exact (Eo i F)|exact (Eo j Fj)]. }
  destruct (Ei old eq_refl) as [-> ->].
  destruct (gas_pressure stream_params 1 stream_u Hg stream_gas) as [A1 A2].
  destruct (C37_characteristics_proof (ep_system stream_params) (ep_eps stream_params) (ep_riemann_tol stream_params) (ep_riemann_iterations stream_params) 1
     stream_u stream_u (SWScheme.vec_of n) Hg (unit_dot 1 n Hn) A1 A2 A1 A2) as [_ C2].
  pose proof (stream_speed (SWScheme.vec_of n) (unit_dot 1 n Hn)) as S.
  set (lam := er_wavespeed _ _ _ _ _ _ _ _) in *. cbn [ep_system stream_params] in C2.
  pose proof (Rmult_le_compat (1 / 2) (cnorm c) (1 / 10) lam ltac:(lra) ltac:(lra) Hc ltac:(lra)). lra.
Qed.

Lemma ring_c i j : (i < 3)%nat -> (j < 3)%nat -> i <> j ->
  integral ring (fun c q => basis ring i c q * basis_grad ring j c q 0) = 1 / 2 \/ integral ring (fun c q => basis ring i c q * basis_grad ring j c q 0) = - (1 / 2).
Proof.
  intros Li Lj N. destruct i as [|[|[|i]]]; [| | |lia]; (destruct j as [|[|[|j]]]; [| | |lia]); try (exfalso; apply N; reflexivity);
  (let x := fresh "x" in remember (integral _ _) as x eqn:E; unfold integral, basis, basis_grad, weight in E; cbn in E; rewrite E; clear; try (left; lra); right; lra).
Qed.

Lemma ring_coefficients : forall G, G = ring \/ G = lone_ring -> forall i j, free G i -> In j (neighbours (ns_mesh stream_params G) i) -> 1 / 2 <= cnorm (c_ij (ns_mesh stream_params G) i j).
Proof.
  assert (K : forall c, c = 1 / 2 \/ c = - (1 / 2) -> 1 / 2 <= cnorm [c]).
  { intros c Hc. unfold cnorm. cbn [fold_right]. replace (c * c + 0) with (1 / 2 * (1 / 2)) by (destruct Hc as [-> | ->]; field). rewrite sqrt_square; lra. }
  assert (D : forall G, G = ring \/ G = lone_ring -> discretized stream_params G) by (intros G [-> | ->]; [apply ring_discretized|apply lone_discretized]).
  intros G HG i j F Hj. pose proof (D G HG) as HD. destruct (d_mesh stream_params G HD) as (X1 & _).
  assert (Fj : free G j) by (apply (d_free stream_params G HD); apply (col_active (ns_mesh stream_params G) i j X1 (proj1 F) Hj)).
  assert (N : i <> j) by apply (neighbours_bound (ns_mesh stream_params G) i j X1 (proj1 F) Hj).
  assert (Li : (i < 3)%nat) by (destruct HG as [-> | ->]; apply ring_free; exact F).
  assert (Lj : (j < 3)%nat) by (destruct HG as [-> | ->]; apply ring_free; exact Fj).
  pose proof (ring_c i j Li Lj N) as Q.
  destruct HG as [-> | ->].
  - change (1 / 2 <= cnorm [cij_entry ring 0 i j]). apply K. rewrite cij_galerkin_cg; [exact Q|reflexivity|apply free_not_constrained; exact F].
  - change (1 / 2 <= cnorm [cij_entry lone_ring 0 i j]). apply K. rewrite cij_galerkin_cg; [exact Q|reflexivity|apply free_not_constrained; exact F].
Qed.

(** The state at the start: warnings for the hyperbolic part, exceptions for the parabolic part. *)
Definition stream_start : mstate euler_vector :=
  {| st_vector := (fun _ => stream_u, fun _ => (0, 0)); st_cfl := 9 / 10; st_hyp := warn; st_para := raise_exception;
     st_restarts := 0; st_warnings := 0; st_para_restarts := 0; st_para_warnings := 0 |}.
Definition sticky : viscosity := {| mu := 1; lambda := 1; cv_inverse_kappa := 2 |}.
Lemma sticky_physical dim : (dim <= 3)%nat -> physical sticky dim.
Proof. intros L. repeat split; cbn; try lra. exact L. Qed.

Lemma viscous_stream : forall G data c0 c1 t t_final, G = ring \/ G = lone_ring -> t < t_final ->
  discretized stream_params G /\ no_boundary G /\ monotone_elements G /\ physical sticky (g_dim G) /\
  regular_run stream_params (g_dim G) (ns_mesh stream_params G) (1 / 10000) 0 [] data [0; 1; 2]%nat 2 /\
  all_gas G (fst (st_vector _ stream_start)) /\ fst (st_vector _ stream_start) 0%nat 1%nat <> 0 /\
  exists sv se h s', accurate_block (g_n_dofs G) (g_dim G) 0 sv /\ accurate (g_n_dofs G) 0 se /\ 0 < h /\
    fast_start stream_params G (1 / 10000) [] data no_contents t stream_start /\
    ns_step stream_params G sticky (1 / 10000) [] data [0; 1; 2]%nat 2 no_contents sv se imex_11 recovery_none c0 c1 t t_final stream_start = (Ok h, s').
Proof.
  intros G data c0 c1 t tf HG Ht.
  assert (HD : discretized stream_params G) by (destruct HG as [-> | ->]; [apply ring_discretized|apply lone_discretized]).
  assert (Ed : g_dim G = 1%nat) by (destruct HG as [-> | ->]; reflexivity).
  assert (En : g_n_dofs G = 4%nat) by (destruct HG as [-> | ->]; reflexivity).
  assert (F0 : free G 0) by (destruct HG as [-> | ->]; split; [cbn; lia|reflexivity|cbn; lia|reflexivity]).
  assert (HR : regular_run stream_params (g_dim G) (ns_mesh stream_params G) (1 / 10000) 0 [] data [0; 1; 2]%nat 2).
  { apply stream_regular_on; [exact HD|exact Ed|exists 0%nat; exact F0|lra| |lia]. intros i Hi. rewrite En. cbn in Hi. lia. }
  split; [exact HD|]. split; [destruct HG as [-> | ->]; [apply line_no_boundary; lia|exact lone_no_boundary]|].
  split; [destruct HG as [-> | ->]; [exact ring_monotone|exact lone_monotone]|].
  split; [apply sticky_physical; lia|]. split; [exact HR|].
  split; [intros I _; rewrite Ed; exact stream_gas|]. split; [cbn; lra|].
  destruct (uniform_completes stream_params G sticky (1 / 10000) data [0; 1; 2]%nat 2 no_contents stream_u c0 c1 t tf stream_start HD) as (h & s' & Q & Ph).
  - rewrite En. lia.
  - cbn. lra.
  - exact HR.
  - reflexivity.
  - cbn. lra.
  - exact Ht.
  - reflexivity.
  - exists (attempt_block (g_n_dofs G) (g_dim G) (uniform_velocity G stream_u)), (attempt (g_n_dofs G) (uniform_energy G stream_u)), h, s'.
    split; [apply attempt_block_exact|]. split; [apply attempt_exact|]. split; [exact Ph|]. split; [|exact Q].
    split; (apply uniform_fast; [exact HD|exact Ed|apply ring_coefficients, HG|reflexivity]).
Qed.

(** ** Two cells on an interval: no constrained degrees of freedom *)
Lemma interval_discretized p : discretized p interval.
Proof.
  split; [apply line_complete; lia|]. split; [apply line_numbering|]. intros I [L _]. cbn in L. split; [exact L|]. destruct I as [|[|[|I]]]; cbn; lia.
Qed.
Lemma interval_coefficients i j : free interval i -> In j (neighbours (ns_mesh stream_params interval) i) -> 1 / 2 <= cnorm (c_ij (ns_mesh stream_params interval) i j).
Proof.
  intros F Hj. change (1 / 2 <= cnorm [cij_entry interval 0 i j]). rewrite cij_galerkin_cg; [|reflexivity|apply free_not_constrained; exact F].
  assert (K : forall c, c = 1 / 2 \/ c = - (1 / 2) -> 1 / 2 <= cnorm [c]).
  { intros c Hc. unfold cnorm. cbn [fold_right]. replace (c * c + 0) with (1 / 2 * (1 / 2)) by (destruct Hc as [-> | ->]; field). rewrite sqrt_square; lra. }
  apply K. destruct F as [L _]. cbn in L.
  destruct i as [|[|[|i]]]; [| | |lia]; cbn in Hj; repeat (destruct Hj as [<-|Hj]); try contradiction;
  (let x := fresh "x" in remember (integral _ _) as x eqn:E; unfold integral, basis, basis_grad, weight in E; cbn in E; rewrite E; clear; try (left; lra); right; lra).
Qed.

Lemma checked_stream : forall data c0 c1 t t_final, t < t_final ->
  discretized stream_params interval /\ (forall I, (I < g_n_dofs interval)%nat -> free interval I) /\
  regular_run stream_params (g_dim interval) (ns_mesh stream_params interval) (1 / 10000) 0 [] data [0; 1; 2]%nat 2 /\
  st_para _ stream_start = raise_exception /\ 0 < st_cfl _ stream_start <= 1 /\
  all_gas interval (fst (st_vector _ stream_start)) /\
  exists sv se h s', 0 < h /\
    fast_start stream_params interval (1 / 10000) [] data no_contents t stream_start /\
    ns_step stream_params interval sticky (1 / 10000) [] data [0; 1; 2]%nat 2 no_contents sv se imex_11 recovery_none c0 c1 t t_final stream_start = (Ok h, s').
Proof.
  intros data c0 c1 t tf Ht. pose proof (interval_discretized stream_params) as HD.
  assert (HR : regular_run stream_params (g_dim interval) (ns_mesh stream_params interval) (1 / 10000) 0 [] data [0; 1; 2]%nat 2).
  { apply stream_regular_on; [exact HD|reflexivity|exists 0%nat; apply interval_free; lia|lra| |lia]. intros i Hi. cbn in Hi |- *. lia. }
  split; [exact HD|]. split; [exact interval_free|]. split; [exact HR|]. split; [reflexivity|]. split; [cbn; lra|]. split; [intros I _; exact stream_gas|].
  destruct (uniform_completes stream_params interval sticky (1 / 10000) data [0; 1; 2]%nat 2 no_contents stream_u c0 c1 t tf stream_start HD) as (h & s' & Q & Ph).
  - cbn. lia.
  - cbn. lra.
  - exact HR.
  - reflexivity.
  - cbn. lra.
  - exact Ht.
  - reflexivity.
  - eexists. eexists. exists h, s'. split; [exact Ph|]. split; [|exact Q].
    split; (apply uniform_fast; [exact HD|reflexivity|exact interval_coefficients|reflexivity]).
Qed.
