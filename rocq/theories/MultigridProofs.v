(** * The multigrid preconditioner: proofs *)
From Coq Require Import Reals List Bool Arith Lia Lra.
From Verif Require Import RVec BoundaryMap EulerSystem AssemblySpec AssemblyProofs AssemblyFinal ParabolicSpec ParabolicProofs ParabolicRows ParabolicFinal ParabolicMore.
From Verif Require Import Assembly Parabolic Multigrid MultigridSpec.
Import ListNotations.
Local Open Scope R_scope.

(** ** Mass and local operators *)
Section Level.
Variables (G : geometry) (par : viscosity) (bm : list description).
Hypothesis L : level_mesh G.

Lemma level_free I : (I < g_n_dofs G)%nat -> free G I.
Proof using L. destruct L as (_ & N & _). intros H. split; [exact H|]. apply N. Qed.

Lemma level_mass_nodal I : (I < g_n_dofs G)%nat -> level_mass G I = nodal_mass G I.
Proof using L.
  destruct L as (P & N & _). intros H. unfold level_mass, nodal_mass, is_constrained. rewrite N.
  rewrite <- (integral_ext G (fun c q => 1 * basis G I c q) (fun c q => basis G I c q)) by (intros; ring).
  rewrite <- (value_form G (fun _ _ => 1)). unfold distribute_local. apply rsum_ext. intros c _. apply rsum_ext. intros i _. f_equal. apply rsum_ext. intros. ring.
Qed.

Lemma level_mass_pos I : (I < g_n_dofs G)%nat -> 0 < level_mass G I.
Proof using L. intros H. rewrite level_mass_nodal by exact H. destruct L as (_ & _ & _ & M & _). apply M. apply level_free. exact H. Qed.

Lemma read_unit I c i j : (c < g_n_cells G)%nat -> (i < g_n_local G)%nat -> (j < g_n_local G)%nat -> g_dof G c i = I ->
  read_dof_values G (fun J => if Nat.eqb J I then 1 else 0) c j = if Nat.eqb j i then 1 else 0.
Proof using L.
  destruct L as (_ & N & _ & _ & D). intros Hc Hi Hj E. unfold read_dof_values. rewrite N.
  destruct (Nat.eqb_spec (g_dof G c j) I) as [F|F]; destruct (Nat.eqb_spec j i) as [K|K]; try reflexivity.
  - exfalso. apply K. apply (D c); congruence.
  - exfalso. apply F. congruence.
Qed.

Lemma energy_local_unit factor I :
  distribute_local G (fun c i => apply_energy G factor (one_at i) c i) I =
  distribute_local G (energy_local G factor (fun J => if Nat.eqb J I then 1 else 0)) I.
Proof using L.
  unfold distribute_local. apply rsum_ext. intros c Hc. apply rsum_ext. intros i Hi.
  destruct L as (_ & N & _). unfold weight. rewrite N. destruct (Nat.eqb_spec I (g_dof G c i)) as [E|E]; [|ring]. f_equal.
  unfold apply_energy, energy_local. apply rsum_ext. intros q _. f_equal. apply rsum_ext. intros b _. f_equal. f_equal.
  unfold cell_gradient, get_gradient. apply rsum_ext. intros j Hj. f_equal. rewrite (read_unit I c i j) by auto. reflexivity.
Qed.

Definition unit_block (I a : nat) : field := fun J b => if Nat.eqb J I then if Nat.eqb b a then 1 else 0 else 0.

Lemma block_gradient I a b d c q i : (c < g_n_cells G)%nat -> (i < g_n_local G)%nat -> I = g_dof G c i ->
  cell_gradient G (fun j => one_at_block i a j b) c q d = get_gradient G (block (unit_block I a) b) c q d.
Proof using L.
  intros Hc Hi E. unfold cell_gradient, get_gradient. apply rsum_ext. intros j Hj. f_equal.
  unfold one_at_block, block, unit_block. destruct (Nat.eqb_spec b a) as [B|B].
  - rewrite (read_unit I c i j) by auto. rewrite andb_true_r. reflexivity.
  - rewrite andb_false_r. destruct L as (_ & N & _). unfold read_dof_values. rewrite N. destruct (Nat.eqb _ _); reflexivity.
Qed.

Lemma velocity_local_unit theta I a :
  distribute_local G (fun c i => apply_velocity G par theta (one_at_block i a) c i a) I =
  distribute_local G (velocity_local G par theta (unit_block I a) a) I.
Proof using L.
  unfold distribute_local. apply rsum_ext. intros c Hc. apply rsum_ext. intros i Hi. pose proof L as (_ & N & _).
  unfold weight. rewrite N. destruct (Nat.eqb_spec I (g_dof G c i)) as [E|E]; [|ring]. f_equal.
  unfold apply_velocity, velocity_local. apply rsum_ext. intros q _. f_equal. apply rsum_ext. intros b _. f_equal. f_equal.
  assert (S : forall x y, cell_symmetric_gradient G (one_at_block i a) c q x y = symmetric_gradient G (unit_block I a) c q x y).
  { intros x y. unfold cell_symmetric_gradient, symmetric_gradient. rewrite !(block_gradient I) by auto. reflexivity. }
  unfold cell_stress, stress. rewrite (block_gradient I) by auto. rewrite S. unfold trace.
  rewrite (rsum_ext _ _ (fun d => symmetric_gradient G (unit_block I a) c q d d)) by (intros; apply S). reflexivity.
Qed.

(** ** Before the boundary conditions *)
Lemma energy_start factor rho I : (I < g_n_dofs G)%nat -> 0 <= factor -> 0 < rho I ->
  0 < energy_denominator G factor rho I /\
  energy_denominator G factor rho I =
  level_mass G I * rho I * (if Nat.eqb I I then 1 else 0) + distribute_local G (energy_local G factor (fun J => if Nat.eqb J I then 1 else 0)) I.
Proof using L.
  intros HI Hf Hr. unfold energy_denominator. rewrite energy_local_unit, Nat.eqb_refl. split; [|ring].
  pose proof L as (P & N & W & _). pose proof P as (V & C & U).
  assert (0 <= distribute_local G (energy_local G factor (fun J => if Nat.eqb J I then 1 else 0)) I).
  { unfold energy_local. rewrite (gradient_form G (fun c q b => factor * get_gradient G (fun J => if Nat.eqb J I then 1 else 0) c q b)).
    apply integral_nonneg; [exact W|]. intros c q Hc Hq. apply rsum_nonneg. intros b _.
    rewrite gradient_slope by assumption. replace (slope G (fun J => if Nat.eqb J I then 1 else 0) c q b) with (basis_grad G I c q b).
    - rewrite Rmult_assoc. apply Rmult_le_pos; [exact Hf|]. apply Rle_0_sqr.
    - unfold slope. rewrite (rs_delta (g_n_dofs G) (fun J => basis_grad G J c q b)). destruct (Nat.ltb_spec I (g_n_dofs G)); [reflexivity|lia]. }
  pose proof (level_mass_pos I HI). nra.
Qed.

Lemma unit_gradient I a c q : (I < g_n_dofs G)%nat -> forall x y,
  velocity_gradient G (unit_block I a) c q x y = if Nat.eqb x a then basis_grad G I c q y else 0.
Proof using.
  intros HI x y. unfold velocity_gradient, slope, unit_block. destruct (Nat.eqb x a).
  - rewrite (rs_delta (g_n_dofs G) (fun J => basis_grad G J c q y)). destruct (Nat.ltb_spec I (g_n_dofs G)); [reflexivity|lia].
  - apply rs_zero. intros J _. destruct (Nat.eqb J I); ring.
Qed.

Lemma velocity_start theta rho I a : physical par (g_dim G) -> (I < g_n_dofs G)%nat -> (a < g_dim G)%nat -> 0 <= theta -> 0 < rho I ->
  0 < velocity_denominator G par theta rho I a /\
  velocity_denominator G par theta rho I a =
  level_mass G I * rho I * unit_block I a I a + distribute_local G (velocity_local G par theta (unit_block I a) a) I.
Proof using L.
  intros (Hm & Hl & _ & Hd) HI Ha Hf Hr. unfold velocity_denominator. rewrite velocity_local_unit.
  assert (E1 : unit_block I a I a = 1) by (unfold unit_block; rewrite !Nat.eqb_refl; reflexivity). rewrite E1. split; [|ring].
  pose proof L as (P & N & W & _). pose proof P as (V & C & U).
  assert (0 <= distribute_local G (velocity_local G par theta (unit_block I a) a) I).
  { unfold velocity_local. rewrite (gradient_form G (fun c q b => theta * stress G par (unit_block I a) c q a b)).
    apply integral_nonneg; [exact W|]. intros c q Hc Hq.
    rewrite (rsum_ext _ _ (fun b => theta * (basis_grad G I c q b * newtonian par (g_dim G) (velocity_gradient G (unit_block I a) c q) a b)))
      by (intros b Hb; rewrite stress_spec by assumption; ring).
    rewrite rsum_scal. apply Rmult_le_pos; [exact Hf|].
    pose proof (work_nonneg G par (velocity_gradient G (unit_block I a) c q) Hm Hl Hd) as K. unfold contraction in K.
    rewrite (rsum_ext _ _ (fun x => (if Nat.eqb x a then 1 else 0) * rsum (g_dim G) (fun b => basis_grad G I c q b * newtonian par (g_dim G) (velocity_gradient G (unit_block I a) c q) x b))) in K.
    - rewrite (rs_delta (g_dim G) (fun x => rsum (g_dim G) (fun b => basis_grad G I c q b * newtonian par (g_dim G) (velocity_gradient G (unit_block I a) c q) x b))) in K.
      destruct (Nat.ltb_spec a (g_dim G)); [exact K|lia].
    - intros x _. rewrite <- rsum_scal. apply rsum_ext. intros b _. rewrite unit_gradient by exact HI. destruct (Nat.eqb x a); ring. }
  pose proof (level_mass_pos I HI). nra.
Qed.

(** ** The boundary conditions *)
Lemma upd_same {A} (x : nat -> A) i v : upd x i v i = v.
Proof using. unfold upd. rewrite Nat.eqb_refl. reflexivity. Qed.
Lemma upd_other {A} (x : nat -> A) i v k : k <> i -> upd x i v k = x k.
Proof using. intros H. unfold upd. destruct (Nat.eqb_spec k i); [contradiction|reflexivity]. Qed.

Lemma energy_fold src I : src I = 1 -> forall l D w, 0 < D I -> w I = 1 / D I ->
  0 < fold_left (energy_fix G src) l D I /\ fold_left (energy_diagonal_fix G) l w I = 1 / fold_left (energy_fix G src) l D I.
Proof using.
  intros S l. induction l as [|e l IH]; intros D w HD Hw; cbn [fold_left]; [split; assumption|]. apply IH.
  - unfold energy_fix. destruct (Nat.leb _ _); [exact HD|]. destruct (Nat.eqb (d_id e) id_dirichlet); [|exact HD].
    destruct (Nat.eq_dec I (d_index e)) as [<-|K]; [rewrite upd_same, S; lra|rewrite upd_other by exact K; exact HD].
  - unfold energy_fix, energy_diagonal_fix. destruct (Nat.leb _ _); [exact Hw|]. destruct (Nat.eqb (d_id e) id_dirichlet); [|exact Hw].
    destruct (Nat.eq_dec I (d_index e)) as [<-|K]; [rewrite !upd_same, S; lra|rewrite !upd_other by exact K; exact Hw].
Qed.

Lemma C152_energy_s factor rho I : (I < g_n_dofs G)%nat -> 0 <= factor -> 0 < rho I ->
  0 < entry (level_energy_vmult G bm factor rho) I /\
  energy_inverse_diagonal G bm factor rho I = 1 / entry (level_energy_vmult G bm factor rho) I.
Proof using L.
  intros HI Hf Hr. destruct (energy_start factor rho I HI Hf Hr) as [P E]. unfold entry, level_energy_vmult, energy_inverse_diagonal.
  apply energy_fold; [rewrite Nat.eqb_refl; reflexivity|rewrite <- E; exact P|rewrite <- E; reflexivity].
Qed.

Lemma axis_sum n k v : (k < g_dim G)%nat -> (forall d, d <> k -> n d = 0) -> rsum (g_dim G) (fun d => v d * n d) = v k * n k.
Proof using.
  intros Hk Z. rewrite (rsum_ext _ _ (fun d => (if Nat.eqb d k then 1 else 0) * (v d * n d))).
  - rewrite (rs_delta (g_dim G) (fun d => v d * n d)). destruct (Nat.ltb_spec k (g_dim G)); [reflexivity|lia].
  - intros d _. destruct (Nat.eqb_spec d k) as [->|K]; [ring|rewrite (Z d K); ring].
Qed.

Lemma velocity_fold I a : (a < g_dim G)%nat -> forall l,
  (forall e, In e l -> d_index e = I -> d_id e = 2%nat -> along_axis (g_dim G) (d_normal e)) ->
  forall D w, 0 < D I a -> w I a = 1 / D I a ->
  0 < fold_left (velocity_fix G (unit_block I a)) l D I a /\
  fold_left (velocity_diagonal_fix G) l w I a = 1 / fold_left (velocity_fix G (unit_block I a)) l D I a.
Proof using.
  intros Ha l. induction l as [|e l IH]; intros Al D w HD Hw; cbn [fold_left]; [split; assumption|].
  assert (X : 0 < velocity_fix G (unit_block I a) D e I a /\ velocity_diagonal_fix G w e I a = 1 / velocity_fix G (unit_block I a) D e I a).
  { unfold velocity_fix, velocity_diagonal_fix. destruct (Nat.leb _ _); [split; assumption|].
    destruct (Nat.eqb_spec (d_id e) id_slip) as [Es|Es].
    - destruct (Nat.eq_dec I (d_index e)) as [Ei|K]; [|rewrite !upd_other by exact K; split; assumption].
      destruct (Al e (or_introl eq_refl) (eq_sym Ei) Es) as (k & Hk & Nk & Nz). rewrite <- Ei. rewrite !upd_same.
      unfold vadd, remove_normal, vsub, vscal, dot.
      rewrite (axis_sum (d_normal e) k (D I) Hk Nz), (axis_sum (d_normal e) k (w I) Hk Nz).
      rewrite (rsum_ext _ (fun d => 1 * (unit_block I a I d * d_normal e d) * d_normal e a) (fun d => (unit_block I a I d * d_normal e a) * d_normal e d)) by (intros; ring).
      rewrite (rsum_ext _ (fun d => 1 * (1 * d_normal e d) * d_normal e a) (fun d => d_normal e a * d_normal e d)) by (intros; ring).
      rewrite (axis_sum (d_normal e) k (fun d => unit_block I a I d * d_normal e a) Hk Nz), (axis_sum (d_normal e) k (fun _ => d_normal e a) Hk Nz).
      destruct (Nat.eq_dec a k) as [<-|N].
      + assert (E1 : unit_block I a I a = 1) by (unfold unit_block; rewrite !Nat.eqb_refl; reflexivity). rewrite E1.
        assert (Q : d_normal e a * d_normal e a = 1) by (destruct Nk as [-> | ->]; lra).
        replace (D I a - 1 * (D I a * d_normal e a) * d_normal e a + 1 * d_normal e a * d_normal e a) with (D I a - D I a * (d_normal e a * d_normal e a) + d_normal e a * d_normal e a) by ring.
        replace (w I a - 1 * (w I a * d_normal e a) * d_normal e a + d_normal e a * d_normal e a) with (w I a - w I a * (d_normal e a * d_normal e a) + d_normal e a * d_normal e a) by ring.
        rewrite Q. split; [lra|]. replace (D I a - D I a * 1 + 1) with 1 by ring. lra.
      + rewrite (Nz a N). replace (D I a - 1 * (D I k * d_normal e k) * 0 + unit_block I a I k * 0 * d_normal e k) with (D I a) by ring.
        replace (w I a - 1 * (w I k * d_normal e k) * 0 + 0 * d_normal e k) with (w I a) by ring. split; assumption.
    - destruct (_ || _); [|split; assumption].
      destruct (Nat.eq_dec I (d_index e)) as [<-|K]; [|rewrite !upd_other by exact K; split; assumption].
      rewrite !upd_same. assert (E1 : unit_block I a I a = 1) by (unfold unit_block; rewrite !Nat.eqb_refl; reflexivity). rewrite E1. lra. }
  destruct X as [X1 X2]. apply IH; [|exact X1|exact X2]. intros e' I'. apply Al. right. exact I'.
Qed.

Lemma C152_velocity_s theta rho I a : physical par (g_dim G) -> (I < g_n_dofs G)%nat -> (a < g_dim G)%nat -> 0 <= theta -> 0 < rho I ->
  (forall e, In e bm -> d_index e = I -> d_id e = 2%nat -> along_axis (g_dim G) (d_normal e)) ->
  0 < entry_block (level_velocity_vmult G par bm theta rho) I a /\
  velocity_inverse_diagonal G par bm theta rho I a = 1 / entry_block (level_velocity_vmult G par bm theta rho) I a.
Proof using L.
  intros Hp HI Ha Hf Hr Al. destruct (velocity_start theta rho I a Hp HI Ha Hf Hr) as [P E].
  change (entry_block (level_velocity_vmult G par bm theta rho) I a) with (level_velocity_vmult G par bm theta rho (unit_block I a) I a).
  unfold level_velocity_vmult, velocity_inverse_diagonal.
  apply velocity_fold; [exact Ha|exact Al|cbv beta; rewrite <- E; exact P|cbv beta; rewrite <- E; reflexivity].
Qed.

(** The level operators are the operators of the step on the cells of the level. *)
Lemma C152_operators_s theta factor rho v e I a : (I < g_n_dofs G)%nat -> (a < g_dim G)%nat ->
  level_velocity_vmult G par bm theta rho v I a = velocity_vmult G par bm theta rho v I a /\
  level_energy_vmult G bm factor rho e I = energy_vmult G bm factor rho e I.
Proof using L.
  intros HI Ha. pose proof L as (P & _).
  assert (M : level_mass G I = m_ G I) by (rewrite level_mass_nodal, mass_nodal by assumption; reflexivity). split.
  - unfold level_velocity_vmult, velocity_vmult.
    assert (K : forall l D D', (forall d, (d < g_dim G)%nat -> D I d = D' I d) -> forall d, (d < g_dim G)%nat -> fold_left (velocity_fix G v) l D I d = fold_left (velocity_fix G v) l D' I d).
    { intros l. induction l as [|x l IH]; intros D D' E d Hd; cbn [fold_left]; [apply E; exact Hd|]. apply IH; [|exact Hd]. intros d' Hd'.
      unfold velocity_fix. destruct (Nat.leb _ _); [apply E; exact Hd'|]. destruct (Nat.eqb (d_id x) id_slip).
      - destruct (Nat.eq_dec I (d_index x)) as [<-|N]; [|rewrite !upd_other by exact N; apply E; exact Hd']. rewrite !upd_same.
        unfold vadd, remove_normal, vsub, vscal, dot. rewrite (rsum_ext _ (fun k => D I k * d_normal x k) (fun k => D' I k * d_normal x k)) by (intros; rewrite E by assumption; reflexivity).
        rewrite (E d' Hd'). reflexivity.
      - destruct (_ || _); [|apply E; exact Hd'].
        destruct (Nat.eq_dec I (d_index x)) as [<-|N]; [rewrite !upd_same; reflexivity|rewrite !upd_other by exact N; apply E; exact Hd']. }
    apply K; [|exact Ha]. intros d _. unfold velocity_stiffness. rewrite M. reflexivity.
  - unfold level_energy_vmult, energy_vmult.
    assert (K : forall l D D', D I = D' I -> fold_left (energy_fix G e) l D I = fold_left (energy_fix G e) l D' I).
    { intros l. induction l as [|x l IH]; intros D D' E; cbn [fold_left]; [exact E|]. apply IH. unfold energy_fix. destruct (Nat.leb _ _); [exact E|].
      destruct (Nat.eqb (d_id x) id_dirichlet); [|exact E].
      destruct (Nat.eq_dec I (d_index x)) as [<-|N]; [rewrite !upd_same; reflexivity|rewrite !upd_other by exact N; exact E]. }
    apply K. unfold energy_stiffness. rewrite M. reflexivity.
Qed.
End Level.
