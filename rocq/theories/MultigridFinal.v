(** * The multigrid preconditioner: skew normals, set-up, change of the solver *)
From Coq Require Import Reals List Bool Arith Lia Lra Psatz.
From Verif Require Import RVec BoundaryMap EulerSystem AssemblySpec AssemblyProofs AssemblyFinal ParabolicSpec ParabolicProofs ParabolicRows ParabolicFinal ParabolicMore.
From Verif Require Import Assembly Parabolic Multigrid MultigridSpec MultigridProofs.
Import ListNotations.
Local Open Scope R_scope.

Lemma C152_mass_proof G I : level_mesh G -> (I < g_n_dofs G)%nat -> level_mass G I = nodal_mass G I.
Proof. intros L. exact (level_mass_nodal G L I). Qed.

Lemma C152_operators_proof G par bm theta factor rho v e I a : level_mesh G -> (I < g_n_dofs G)%nat -> (a < g_dim G)%nat ->
  level_velocity_vmult G par bm theta rho v I a = velocity_vmult G par bm theta rho v I a /\
  level_energy_vmult G bm factor rho e I = energy_vmult G bm factor rho e I.
Proof. intros L. exact (C152_operators_s G par bm L theta factor rho v e I a). Qed.

Lemma C152_energy_proof G bm factor rho I : level_mesh G -> (I < g_n_dofs G)%nat -> 0 <= factor -> 0 < rho I ->
  0 < entry (level_energy_vmult G bm factor rho) I /\
  energy_inverse_diagonal G bm factor rho I = 1 / entry (level_energy_vmult G bm factor rho) I.
Proof. intros L. exact (C152_energy_s G bm L factor rho I). Qed.

Lemma C152_velocity_proof G par bm theta rho I a : level_mesh G -> physical par (g_dim G) ->
  (I < g_n_dofs G)%nat -> (a < g_dim G)%nat -> 0 <= theta -> 0 < rho I ->
  (forall e, In e bm -> d_index e = I -> d_id e = 2%nat -> along_axis (g_dim G) (d_normal e)) ->
  0 < entry_block (level_velocity_vmult G par bm theta rho) I a /\
  velocity_inverse_diagonal G par bm theta rho I a = 1 / entry_block (level_velocity_vmult G par bm theta rho) I a.
Proof. intros L. exact (C152_velocity_s G par bm L theta rho I a). Qed.

(** ** Skew normals *)
Lemma inverse_row G par bm theta rho I : (I < g_n_dofs G)%nat ->
  velocity_inverse_diagonal G par bm theta rho I =
  fold_left (fun v e =>
    if Nat.eqb (d_id e) 2 then vadd (remove_normal G (d_normal e) v) (fun k => rsum (g_dim G) (fun d => 1 * (1 * d_normal e d) * d_normal e k))
    else if Nat.eqb (d_id e) 3 || Nat.eqb (d_id e) 4 then (fun _ => 1) else v) (entries bm I)
    (fun a => 1 / velocity_denominator G par theta rho I a).
Proof.
  intros HI. unfold velocity_inverse_diagonal. apply (fold_row (velocity_diagonal_fix G)).
  - intros x e H. unfold velocity_diagonal_fix. destruct (Nat.leb _ _); [reflexivity|]. destruct (Nat.eqb (d_id e) id_slip); [apply ParabolicRows.upd_other; exact H|].
    destruct (_ || _); [apply ParabolicRows.upd_other; exact H|reflexivity].
  - intros x e H. unfold velocity_diagonal_fix. rewrite H. destruct (Nat.leb_spec (g_n_dofs G) I); [lia|].
    change id_slip with 2%nat. change id_no_slip with 3%nat. change id_dirichlet with 4%nat.
    destruct (Nat.eqb (d_id e) 2); [apply ParabolicRows.upd_same|]. destruct (_ || _); [apply ParabolicRows.upd_same|reflexivity].
Qed.

Lemma stress_inviscid G par src c q a b : mu par = 0 -> lambda par = 0 -> stress G par src c q a b = 0.
Proof. intros M Z. unfold stress. rewrite M, Z. destruct (Nat.eqb (g_dim G) 1); [ring|]. destruct (Nat.eqb a b); ring. Qed.

Lemma inviscid_local G par theta src a I : mu par = 0 -> lambda par = 0 -> distribute_local G (velocity_local G par theta src a) I = 0.
Proof.
  intros M Z. unfold distribute_local. apply rs_zero. intros c _. apply rs_zero. intros i _. unfold velocity_local.
  rewrite (rs_zero (g_n_points G)); [ring|]. intros q _. rewrite rs_zero; [ring|]. intros b _. rewrite stress_inviscid by assumption. ring.
Qed.

Lemma C152_skew_refuted_proof G par bm theta rho I e n0 n1 : level_mesh G -> g_dim G = 2%nat -> mu par = 0 -> lambda par = 0 ->
  (I < g_n_dofs G)%nat -> 0 < rho I ->
  entries bm I = [e] -> d_id e = 2%nat -> d_normal e 0%nat = n0 -> d_normal e 1%nat = n1 ->
  n0 * n0 + n1 * n1 = 1 -> 0 < n1 -> n1 < n0 -> nodal_mass G I * rho I * (n0 * (n0 + n1)) < n1 * (n0 - n1) ->
  velocity_inverse_diagonal G par bm theta rho I 0%nat < 0 < entry_block (level_velocity_vmult G par bm theta rho) I 0%nat.
Proof.
  intros L D M Z HI Hr Eb Ei E0 E1 N P1 P0 S. pose proof L as (Pr & No & W & Ma & Di).
  assert (HM : 0 < nodal_mass G I) by (apply Ma; apply (level_free G L); exact HI). set (m := nodal_mass G I) in *.
  assert (X : 0 < m * rho I) by (apply Rmult_lt_0_compat; assumption).
  split.
  - rewrite inverse_row, Eb by exact HI. cbn [fold_left]. rewrite Ei. cbn [Nat.eqb].
    assert (V : forall a, velocity_denominator G par theta rho I a = m * rho I).
    { intros a. unfold velocity_denominator. rewrite (velocity_local_unit G par L), inviscid_local by assumption.
      rewrite (level_mass_nodal G L) by exact HI. fold m. ring. }
    unfold vadd, remove_normal, vsub, vscal, dot. rewrite D. cbn [rsum]. rewrite !V, E0, E1. set (x := m * rho I) in *.
    replace (1 / x - 1 * (0 + 1 / x * n0 + 1 / x * n1) * n0 + (0 + 1 * (1 * n0) * n0 + 1 * (1 * n1) * n0))
      with ((x * (n0 * (n0 + n1)) + (1 - n0 * n0 - n0 * n1)) / x) by (field; lra).
    replace (1 - n0 * n0 - n0 * n1) with (- (n1 * (n0 - n1))) by nra.
    apply Rmult_lt_reg_r with x; [exact X|]. unfold Rdiv. rewrite Rmult_assoc, Rinv_l by lra. lra.
  - change (entry_block (level_velocity_vmult G par bm theta rho) I 0%nat) with (level_velocity_vmult G par bm theta rho (unit_block I 0%nat) I 0%nat).
    rewrite (proj1 (C152_operators_proof G par bm theta 0 rho (unit_block I 0%nat) (fun _ => 0) I 0%nat L HI ltac:(lia))).
    rewrite velocity_vmult_row, Eb by exact HI. cbn [fold_left]. unfold fix_row. rewrite Ei. change (Nat.eqb 2 id_slip) with true. cbv iota.
    unfold velocity_stiffness, vadd, remove_normal, vsub, vscal, dot. rewrite D. cbn [rsum]. rewrite !inviscid_local by assumption. rewrite (mass_nodal G I Pr HI). fold m.
    unfold unit_block. rewrite Nat.eqb_refl. cbn [Nat.eqb]. rewrite E0, E1. set (x := m * rho I) in *.
    replace (x * 1 + 0 - 1 * (0 + (x * 1 + 0) * n0 + (x * 0 + 0) * n1) * n0 + (0 + 1 * (1 * n0) * n0 + 1 * (0 * n1) * n0)) with (x * (1 - n0 * n0) + n0 * n0) by ring.
    assert (0 <= x * (1 - n0 * n0)) by (apply Rmult_le_pos; nra). nra.
Qed.

(** ** Set-up of the levels *)

Lemma setup_start k : (S k mod 4 = 0)%nat -> last_setup (S k) = S k.
Proof. intros H. unfold last_setup. pose proof (Nat.div_mod (S k) 4 ltac:(lia)). lia. Qed.
Lemma setup_keep k : (S k mod 4 <> 0)%nat -> last_setup (S k) = last_setup k.
Proof.
  intros H. unfold last_setup. f_equal. pose proof (Nat.div_mod (S k) 4 ltac:(lia)) as E. pose proof (Nat.mod_upper_bound (S k) 4 ltac:(lia)).
  apply (Nat.div_unique k 4 (S k / 4) (S k mod 4 - 1)); lia.
Qed.

Lemma after_state uv ue kappa interpolate mesh tau rho s k : uv || ue = true ->
  let s' := after uv ue kappa interpolate mesh tau rho s k in
  let d := interpolate mesh (rho (last_setup k)) in
  cycle s' = S k /\ current_mesh s' = mesh /\
  (uv = true -> level_density s' = d /\
     velocity_levels s' = Some {| built_on := mesh; built_with := tau (last_setup k); built_density := d |}) /\
  (uv = false -> level_density s' = fun _ _ => 0) /\
  (ue = true -> energy_levels s' = Some {| built_on := mesh; built_with := tau (last_setup k) * kappa;
     built_density := if uv then d else fun _ _ => 0 |}).
Proof.
  intros U. cbv zeta. induction k as [|k IH].
  - cbn [after]. unfold mg_step, mg_prepare. change (last_setup 0) with 0%nat. destruct uv, ue; try discriminate U; cbn; repeat split; intros; try discriminate; reflexivity.
  - destruct IH as (C & Me & V & Z & E). cbn [after]. set (s1 := after uv ue kappa interpolate mesh tau rho s k) in *. clearbody s1. unfold mg_step. rewrite C.
    destruct (Nat.eqb_spec (S k mod 4) 0) as [H|H].
    + rewrite (setup_start k H). destruct uv, ue; try discriminate U; cbn [andb cycle current_mesh level_density velocity_levels energy_levels]; rewrite ?Me; repeat split; intros; try discriminate; try reflexivity.
      * apply Z. reflexivity.
      * rewrite (Z eq_refl). reflexivity.
    + rewrite (setup_keep k H). rewrite !andb_false_r. cbn [cycle current_mesh level_density velocity_levels energy_levels]. auto.
Qed.

Lemma C153_setup_proof uv ue kappa interpolate mesh tau rho s k : (uv = true \/ ue = true) ->
  let s' := after uv ue kappa interpolate mesh tau rho s k in
  (last_setup k <= k < last_setup k + 4)%nat /\
  (uv = true -> velocity_levels s' = Some {| built_on := mesh; built_with := tau (last_setup k); built_density := interpolate mesh (rho (last_setup k)) |}) /\
  (ue = true -> exists d, energy_levels s' = Some {| built_on := mesh; built_with := tau (last_setup k) * kappa; built_density := d |}).
Proof.
  intros U. cbv zeta. assert (U' : uv || ue = true) by (destruct U as [-> | ->]; [reflexivity|apply orb_true_r]).
  pose proof (after_state uv ue kappa interpolate mesh tau rho s k U') as K. cbv zeta in K. destruct K as (_ & _ & V & _ & E).
  split; [unfold last_setup; pose proof (Nat.div_mod k 4 ltac:(lia)); pose proof (Nat.mod_upper_bound k 4 ltac:(lia)); lia|]. split.
  - intros H. apply V. exact H.
  - intros H. eexists. apply E. exact H.
Qed.

Lemma C153_both_proof kappa interpolate mesh tau rho s k :
  energy_levels (after true true kappa interpolate mesh tau rho s k) =
  Some {| built_on := mesh; built_with := tau (last_setup k) * kappa; built_density := interpolate mesh (rho (last_setup k)) |}.
Proof. pose proof (after_state true true kappa interpolate mesh tau rho s k eq_refl) as K. cbv zeta in K. apply K. reflexivity. Qed.

Lemma C153_density_refuted_proof kappa interpolate mesh tau rho s k :
  energy_levels (after false true kappa interpolate mesh tau rho s k) =
  Some {| built_on := mesh; built_with := tau (last_setup k) * kappa; built_density := fun _ _ => 0 |}.
Proof. pose proof (after_state false true kappa interpolate mesh tau rho s k eq_refl) as K. cbv zeta in K. apply K. reflexivity. Qed.

Lemma C153_singular_refuted_proof G bm factor temperature I : level_mesh G -> (I < g_n_dofs G)%nat -> no_dirichlet bm I ->
  level_energy_vmult G bm factor (fun _ => 0) (fun _ => temperature) I = 0 /\
  (forall rho, 0 < rho I -> 0 < temperature -> 0 < level_energy_vmult G bm factor rho (fun _ => temperature) I) /\
  (factor = 0 -> energy_denominator G factor (fun _ => 0) I = 0).
Proof.
  intros L HI Nd. pose proof L as (Pr & No & W & Ma & Di).
  assert (K : forall rho, level_energy_vmult G bm factor rho (fun _ => temperature) I = nodal_mass G I * rho I * temperature).
  { intros rho. unfold level_energy_vmult.
    rewrite (fold_row (energy_fix G (fun _ => temperature)) (fun x e => if Nat.eqb (d_id e) 4 then temperature else x)).
    - assert (Q : forall l (x : R), (forall e, In e l -> d_id e <> 4%nat) -> fold_left (fun x e => if Nat.eqb (d_id e) 4 then temperature else x) l x = x).
      { intros l. induction l as [|e l IH]; intros x H; cbn [fold_left]; [reflexivity|]. destruct (Nat.eqb_spec (d_id e) 4) as [E|_]; [exfalso; apply (H e (or_introl eq_refl) E)|].
        apply IH. intros e' I'. apply H. right. exact I'. }
      rewrite Q by exact Nd. rewrite (level_mass_nodal G L) by exact HI.
      replace (distribute_local G (energy_local G factor (fun _ => temperature)) I) with 0; [ring|]. symmetry. unfold energy_local.
      rewrite (gradient_form G (fun c q b => factor * get_gradient G (fun _ => temperature) c q b)).
      rewrite (integral_ext G _ (fun _ _ => 0 * 0)); [rewrite (integral_scal G 0 (fun _ _ => 0)); ring|]. intros c q Hc Hq. rewrite rs_zero; [ring|]. intros b _.
      destruct Pr as (V & C & U). rewrite gradient_slope by assumption. unfold slope. rewrite rsum_scal, grad_sum by (try exact (conj V (conj C U)); assumption). ring.
    - intros x e H. unfold energy_fix. destruct (Nat.leb _ _); [reflexivity|]. destruct (Nat.eqb (d_id e) id_dirichlet); [apply ParabolicRows.upd_other; exact H|reflexivity].
    - intros x e H. unfold energy_fix. rewrite H. destruct (Nat.leb_spec (g_n_dofs G) I); [lia|]. change id_dirichlet with 4%nat.
      destruct (Nat.eqb (d_id e) 4); [apply ParabolicRows.upd_same|reflexivity]. }
  split; [rewrite K; ring|]. split.
  - intros rho Hr Ht. rewrite K. apply Rmult_lt_0_compat; [|exact Ht]. apply Rmult_lt_0_compat; [|exact Hr]. apply Ma. apply (level_free G L). exact HI.
  - intros ->. unfold energy_denominator. rewrite Rmult_0_r, Rplus_0_l. unfold distribute_local. apply rs_zero. intros c _. apply rs_zero. intros i _. unfold apply_energy.
    rewrite (rs_zero (g_n_points G)); [ring|]. intros q _. rewrite rs_zero; [ring|]. intros b _. ring.
Qed.

(** ** The change to plain conjugate gradients *)
Lemma C153_tolerance_proof n dim tol use (mg : (field -> field) -> field -> field -> field * bool) (cg : solver field)
    use' (mg' : ((nat -> R) -> nat -> R) -> (nat -> R) -> (nat -> R) -> (nat -> R) * bool) (cg' : solver (nat -> R)) :
  (forall A x0 b x, mg A x0 b = (x, true) -> forall i d, (i < n)%nat -> (d < dim)%nat -> Rabs (A x i d - b i d) <= tol) ->
  (forall A x0 b x, mg' A x0 b = (x, true) -> forall i, (i < n)%nat -> Rabs (A x i - b i) <= tol) ->
  accurate_block n dim tol cg -> accurate n tol cg' ->
  accurate_block n dim tol (with_multigrid use mg cg) /\ accurate n tol (with_multigrid use' mg' cg').
Proof.
  intros M M' C C'. split.
  - intros A P x0 b x. unfold with_multigrid. destruct use; [|apply C]. destruct (mg A x0 b) as [y ok] eqn:E. destruct ok; [|apply C].
    intros H. injection H as <-. exact (M _ _ _ _ E).
  - intros A P x0 b x. unfold with_multigrid. destruct use'; [|apply C']. destruct (mg' A x0 b) as [y ok] eqn:E. destruct ok; [|apply C'].
    intros H. injection H as <-. exact (M' _ _ _ _ E).
Qed.

Lemma C153_same_proof G par bm init eps U t tau uv ue mgv mge cgv cge U1 U2 r1 r2 :
  proper G -> gas G U -> physical par (g_dim G) -> positive_weights G -> ParabolicSpec.positive_masses G -> 0 <= tau ->
  (forall I, free G I -> posed (g_dim G) bm I) ->
  (forall A x0 b x, mgv A x0 b = (x, true) -> forall i d, (i < g_n_dofs G)%nat -> (d < g_dim G)%nat -> A x i d = b i d) ->
  (forall A x0 b x, mge A x0 b = (x, true) -> forall i, (i < g_n_dofs G)%nat -> A x i = b i) ->
  accurate_block (g_n_dofs G) (g_dim G) 0 cgv -> accurate (g_n_dofs G) 0 cge ->
  backward_euler_step G par bm init eps (with_multigrid uv mgv cgv) (with_multigrid ue mge cge) U t tau = Some (U1, r1) ->
  backward_euler_step G par bm init eps cgv cge U t tau = Some (U2, r2) ->
  forall I k, free G I -> U1 I k = U2 I k.
Proof.
  intros P Ga Ph W Ma T Po Mv Me Cv Ce H1 H2.
  assert (K := C153_tolerance_proof (g_n_dofs G) (g_dim G) 0 uv mgv cgv ue mge cge).
  destruct K as [K1 K2]; try assumption.
  - intros A x0 b x E i d Hi Hd. rewrite (Mv A x0 b x E i d Hi Hd), Rminus_diag_eq, Rabs_R0 by reflexivity. lra.
  - intros A x0 b x E i Hi. rewrite (Me A x0 b x E i Hi), Rminus_diag_eq, Rabs_R0 by reflexivity. lra.
  - exact (C112_unique_proof G par bm init eps _ _ _ _ U t tau U1 U2 r1 r2 P Ga Ph W Ma T Po K1 K2 Cv Ce H1 H2).
Qed.

Lemma C153_fallback_proof (A : Type) (mg : (A -> A) -> A -> A -> A * bool) (cg : solver A) operator diagonal x rhs y :
  mg operator x rhs = (y, false) -> with_multigrid true mg cg operator diagonal x rhs = cg operator diagonal y rhs.
Proof. intros E. unfold with_multigrid. rewrite E. reflexivity. Qed.
