(** * The operators of the parabolic step in terms of basis functions; the rows
    of the boundary map *)
From Coq Require Import Reals List Bool Arith Lia Lra Psatz.
From Verif Require Import RVec BoundaryMap EulerSystem Assembly AssemblySpec AssemblyProofs AssemblyFinal Parabolic ParabolicSpec.
Import ListNotations.
Local Open Scope R_scope.

Section Forms.
Variable G : geometry.
Notation n := (g_n_dofs G).
Notation dim := (g_dim G).

Lemma read_sum src c i : valid_indices G -> closed_constraints G -> (c < g_n_cells G)%nat -> (i < g_n_local G)%nat ->
  read_dof_values G src c i = rsum n (fun I => weight G I (g_dof G c i) * src I).
Proof.
  intros V C Lc Li. assert (L := V c i Lc Li). unfold read_dof_values, weight. set (g := g_dof G c i) in *.
  destruct (g_constraint G g) as [line|] eqn:E.
  - destruct (C g line L E) as [_ F]. clear E. induction line as [|[a w] line IH]; cbn [fold_right fst snd].
    + rewrite rs_zero; [reflexivity|intros; ring].
    + rewrite IH by (intros e I; apply F; right; exact I).
      rewrite (rsum_ext _ (fun J => (_ + _) * src J) (fun J => (if Nat.eqb J a then 1 else 0) * (w * src J) + fold_right (fun e s => (if Nat.eqb (fst e) J then snd e else 0) + s) 0 line * src J)).
      * rewrite rsum_plus, (rs_delta _ (fun J => w * src J)). destruct (F (a, w) (or_introl eq_refl)) as [B _]. cbn in B.
        destruct (Nat.ltb_spec a n); [reflexivity|lia].
      * intros J _. rewrite (Nat.eqb_sym J a). destruct (Nat.eqb a J); ring.
  - rewrite (rs_delta _ src). destruct (Nat.ltb_spec g n); [reflexivity|lia].
Qed.

Lemma gradient_slope src c q b : valid_indices G -> closed_constraints G -> (c < g_n_cells G)%nat ->
  get_gradient G src c q b = slope G src c q b.
Proof.
  intros V C L. unfold get_gradient, slope, basis_grad.
  transitivity (rsum n (fun I => rsum (g_n_local G) (fun i => weight G I (g_dof G c i) * src I * g_grad G c i q b))).
  - rewrite rs_swap. apply rsum_ext. intros i Li. rewrite rs_scal_r. f_equal. apply read_sum; assumption.
  - apply rsum_ext. intros I _. rewrite <- rsum_scal. apply rsum_ext. intros i _. ring.
Qed.

(** Distribution of a local form  sum over q of F c i q. *)
Lemma distribute_form (F : nat -> nat -> nat -> R) (H : nat -> nat -> R) I :
  (forall c q, (c < g_n_cells G)%nat -> (q < g_n_points G)%nat ->
     rsum (g_n_local G) (fun i => weight G I (g_dof G c i) * F c i q) = H c q * g_JxW G c q) ->
  distribute_local G (fun c i => rsum (g_n_points G) (fun q => F c i q)) I = integral G H.
Proof.
  intros E. unfold distribute_local, integral. apply rsum_ext. intros c Lc.
  rewrite (rsum_ext _ _ (fun i => rsum (g_n_points G) (fun q => weight G I (g_dof G c i) * F c i q)))
    by (intros i _; rewrite rsum_scal; reflexivity).
  rewrite rs_swap. apply rsum_ext. intros q Lq. apply E; assumption.
Qed.

(** A form tested with the gradient. *)
Lemma gradient_form (T : nat -> nat -> nat -> R) I :
  distribute_local G (fun c i => rsum (g_n_points G) (fun q => rsum dim (fun b => T c q b * g_grad G c i q b) * g_JxW G c q)) I =
  integral G (fun c q => rsum dim (fun b => T c q b * basis_grad G I c q b)).
Proof.
  apply distribute_form. intros c q Lc Lq.
  rewrite (rsum_ext _ _ (fun i => rsum dim (fun b => weight G I (g_dof G c i) * g_grad G c i q b * T c q b) * g_JxW G c q)).
  - rewrite rs_scal_r. f_equal. rewrite rs_swap. apply rsum_ext. intros b _. unfold basis_grad.
    rewrite rs_scal_r. ring.
  - intros i _. rewrite <- Rmult_assoc. f_equal. rewrite <- rsum_scal. apply rsum_ext. intros b _. ring.
Qed.

Lemma value_form (T : nat -> nat -> R) I :
  distribute_local G (fun c i => rsum (g_n_points G) (fun q => T c q * g_value G c i q * g_JxW G c q)) I =
  integral G (fun c q => T c q * basis G I c q).
Proof.
  apply distribute_form. intros c q Lc Lq. unfold basis.
  rewrite (rsum_ext _ _ (fun i => (T c q * (weight G I (g_dof G c i) * g_value G c i q)) * g_JxW G c q)) by (intros; ring).
  rewrite rs_scal_r, rsum_scal. reflexivity.
Qed.

Lemma integral_ext u v : (forall c q, (c < g_n_cells G)%nat -> (q < g_n_points G)%nat -> u c q = v c q) -> integral G u = integral G v.
Proof. intros E. apply rsum_ext. intros c Lc. apply rsum_ext. intros q Lq. rewrite E by assumption. reflexivity. Qed.
Lemma integral_scal k u : integral G (fun c q => k * u c q) = k * integral G u.
Proof.
  unfold integral. rewrite <- rsum_scal. apply rsum_ext. intros c _. rewrite <- rsum_scal. apply rsum_ext. intros q _. ring.
Qed.
Lemma integral_sum m (u : nat -> nat -> nat -> R) : rsum m (fun k => integral G (u k)) = integral G (fun c q => rsum m (fun k => u k c q)).
Proof.
  unfold integral. rewrite rs_swap. apply rsum_ext. intros c _. rewrite rs_swap. apply rsum_ext. intros q _. rewrite rs_scal_r. reflexivity.
Qed.
Lemma integral_nonneg u : (forall c q, (c < g_n_cells G)%nat -> (q < g_n_points G)%nat -> 0 <= g_JxW G c q) ->
  (forall c q, (c < g_n_cells G)%nat -> (q < g_n_points G)%nat -> 0 <= u c q) -> 0 <= integral G u.
Proof.
  intros J U. apply rsum_nonneg. intros c Lc. apply rsum_nonneg. intros q Lq. apply Rmult_le_pos; [apply U|apply J]; assumption.
Qed.

Lemma grad_sum c q b : proper G -> (c < g_n_cells G)%nat -> (q < g_n_points G)%nat -> rsum n (fun I => basis_grad G I c q b) = 0.
Proof.
  intros (V & C & P) Lc Lq. unfold basis_grad. rewrite basis_sum by assumption. destruct (P c Lc) as [Q _]. apply Q. exact Lq.
Qed.
Lemma value_sum c q : proper G -> (c < g_n_cells G)%nat -> (q < g_n_points G)%nat -> rsum n (fun I => basis G I c q) = 1.
Proof.
  intros (V & C & P) Lc Lq. unfold basis. rewrite basis_sum by assumption. destruct (P c Lc) as [Q _]. apply Q. exact Lq.
Qed.
Lemma basis_grad_constrained I c q b : proper G -> (c < g_n_cells G)%nat -> is_constrained G I = true -> basis_grad G I c q b = 0.
Proof. intros (V & C & _) L X. apply rs_zero. intros i Hi. rewrite weight_constrained by auto. ring. Qed.

Lemma slope_ext u v c q b : proper G -> (c < g_n_cells G)%nat -> (forall I, free G I -> u I = v I) -> slope G u c q b = slope G v c q b.
Proof.
  intros P L E. apply rsum_ext. intros I LI. destruct (is_constrained G I) eqn:X.
  - rewrite basis_grad_constrained by assumption. ring.
  - rewrite E by (apply not_constrained_free; assumption). reflexivity.
Qed.

(** The lumped mass *)
Lemma mass_nodal I : proper G -> (I < n)%nat -> m_ G I = nodal_mass G I.
Proof.
  intros (V & C & P) L. unfold m_, nodal_mass. destruct (is_constrained G I) eqn:X.
  - apply C102_constrained_proof; assumption.
  - apply C102_lumped_proof; try assumption. apply not_constrained_free; assumption.
Qed.

(** ** The viscous operator *)
Variable par : viscosity.

Lemma symmetric_spec src c q a b : valid_indices G -> closed_constraints G -> (c < g_n_cells G)%nat ->
  symmetric_gradient G src c q a b = 1 / 2 * (velocity_gradient G src c q a b + velocity_gradient G src c q b a).
Proof. intros V C L. unfold symmetric_gradient. rewrite !gradient_slope by assumption. reflexivity. Qed.

Lemma stress_spec src c q a b : valid_indices G -> closed_constraints G -> (c < g_n_cells G)%nat -> (a < dim)%nat -> (b < dim)%nat ->
  stress G par src c q a b = newtonian par dim (velocity_gradient G src c q) a b.
Proof.
  intros V C L La Lb. unfold stress, newtonian. destruct (Nat.eqb_spec dim 1) as [D|D].
  - rewrite gradient_slope by assumption. change (slope G (block src a) c q b) with (velocity_gradient G src c q a b).
    assert (a = 0%nat) by lia. assert (b = 0%nat) by lia. subst. rewrite D. cbn [Nat.eqb rsum]. field.
  - rewrite symmetric_spec by assumption. unfold trace.
    rewrite (rsum_ext _ (fun d => symmetric_gradient G src c q d d) (fun d => velocity_gradient G src c q d d))
      by (intros d _; rewrite symmetric_spec by assumption; field).
    destruct (Nat.eqb a b); field.
Qed.

Lemma newtonian_symmetric A a b : newtonian par dim A a b = newtonian par dim A b a.
Proof. unfold newtonian. rewrite (Nat.eqb_sym b a). destruct (Nat.eqb a b); ring. Qed.

Lemma contraction_swap (A B : nat -> nat -> R) : (forall a b, B a b = B b a) ->
  rsum dim (fun a => rsum dim (fun b => A b a * B a b)) = contraction dim A B.
Proof.
  intros S. unfold contraction. rewrite rs_swap. apply rsum_ext. intros b _. apply rsum_ext. intros a _. rewrite (S a b). ring.
Qed.

Lemma dissipation_spec src c q : valid_indices G -> closed_constraints G -> (c < g_n_cells G)%nat ->
  dissipation G par src c q =
  contraction dim (velocity_gradient G src c q) (newtonian par dim (velocity_gradient G src c q)).
Proof.
  intros V C L. set (A := velocity_gradient G src c q). unfold dissipation. destruct (Nat.eqb_spec dim 1) as [D|D].
  - unfold contraction. apply rsum_ext. intros a La. apply rsum_ext. intros b Lb.
    rewrite stress_spec, gradient_slope by assumption. reflexivity.
  - transitivity (1 / 2 * contraction dim A (newtonian par dim A) + 1 / 2 * rsum dim (fun a => rsum dim (fun b => A b a * newtonian par dim A a b))).
    + unfold contraction. rewrite <- !rsum_scal, <- rsum_plus. apply rsum_ext. intros a La. rewrite <- !rsum_scal, <- rsum_plus.
      apply rsum_ext. intros b Lb. rewrite stress_spec, symmetric_spec by assumption. fold A. ring.
    + rewrite (contraction_swap A (newtonian par dim A)) by apply newtonian_symmetric. field.
Qed.

(** The stress does work against every velocity gradient (at most three dimensions). *)
Lemma rsum3 (k : nat) (f : nat -> R) : (k <= 3)%nat -> rsum k f =
  (if Nat.ltb 0 k then f 0%nat else 0) + (if Nat.ltb 1 k then f 1%nat else 0) + (if Nat.ltb 2 k then f 2%nat else 0).
Proof. intros L. destruct k as [|[|[|[|k]]]]; cbn; try lra. lia. Qed.

Lemma work_nonneg (A : nat -> nat -> R) : 0 <= mu par -> 0 <= lambda par -> (dim <= 3)%nat ->
  0 <= contraction dim A (newtonian par dim A).
Proof.
  intros Hm Hl L. unfold contraction, newtonian. set (m := mu par) in *. set (l := lambda par) in *.
  revert L. destruct dim as [|[|[|[|k]]]]; intros L; [..|lia]; cbn [rsum Nat.eqb].
  - lra.
  - assert (0 <= A 0%nat 0%nat * A 0%nat 0%nat) by nra. nra.
  - set (a := A 0%nat 0%nat). set (b := A 0%nat 1%nat). set (c := A 1%nat 0%nat). set (d := A 1%nat 1%nat).
    match goal with |- 0 <= ?x => replace x with (l * ((a + d) * (a + d)) + m * ((b + c) * (b + c)) + m * (4 / 3 * (a * a - a * d + d * d))) by field end.
    clearbody a b c d m l. assert (0 <= (a + d) * (a + d)) by apply Rle_0_sqr. assert (0 <= (b + c) * (b + c)) by apply Rle_0_sqr.
    assert (0 <= 4 / 3 * (a * a - a * d + d * d)) by nra.
    assert (0 <= l * ((a + d) * (a + d))) by (apply Rmult_le_pos; assumption).
    assert (0 <= m * ((b + c) * (b + c))) by (apply Rmult_le_pos; assumption).
    assert (0 <= m * (4 / 3 * (a * a - a * d + d * d))) by (apply Rmult_le_pos; assumption). lra.
  - set (a := A 0%nat 0%nat). set (b := A 1%nat 1%nat). set (c := A 2%nat 2%nat).
    set (d := A 0%nat 1%nat). set (d' := A 1%nat 0%nat). set (e := A 0%nat 2%nat). set (e' := A 2%nat 0%nat).
    set (f := A 1%nat 2%nat). set (f' := A 2%nat 1%nat).
    match goal with |- 0 <= ?x => replace x with
      (l * ((a + b + c) * (a + b + c)) + m * ((d + d') * (d + d') + (e + e') * (e + e') + (f + f') * (f + f')
        + 2 / 3 * ((a - b) * (a - b) + (a - c) * (a - c) + (b - c) * (b - c)))) by field end.
    clearbody a b c d d' e e' f f' m l. assert (0 <= (a + b + c) * (a + b + c)) by apply Rle_0_sqr.
    assert (0 <= (d + d') * (d + d') + (e + e') * (e + e') + (f + f') * (f + f')
        + 2 / 3 * ((a - b) * (a - b) + (a - c) * (a - c) + (b - c) * (b - c))).
    { assert (Q : forall y, 0 <= y * y) by (intros; apply Rle_0_sqr).
      assert (Q1 := Q (d + d')). assert (Q2 := Q (e + e')). assert (Q3 := Q (f + f')).
      assert (Q4 := Q (a - b)). assert (Q5 := Q (a - c)). assert (Q6 := Q (b - c)). lra. }
    assert (0 <= l * ((a + b + c) * (a + b + c))) by (apply Rmult_le_pos; assumption).
    match goal with |- 0 <= _ + m * ?y => assert (0 <= m * y) by (apply Rmult_le_pos; assumption) end. lra.
Qed.

(** The rows of the operators before the boundary conditions are imposed. *)
Lemma velocity_row theta rho src I a : proper G -> (I < n)%nat -> (a < dim)%nat ->
  velocity_stiffness G par theta rho src I a =
  nodal_mass G I * rho I * src I a
  + theta * integral G (fun c q => rsum dim (fun b => newtonian par dim (velocity_gradient G src c q) a b * basis_grad G I c q b)).
Proof.
  intros P L La. unfold velocity_stiffness, velocity_local. rewrite mass_nodal by assumption. f_equal.
  rewrite (gradient_form (fun c q b => theta * stress G par src c q a b)). rewrite <- integral_scal. apply integral_ext.
  intros c q Lc Lq. rewrite <- rsum_scal. apply rsum_ext. intros b Lb. destruct P as (V & C & _). rewrite stress_spec by assumption. ring.
Qed.

Lemma energy_row factor rho src I : proper G -> (I < n)%nat ->
  energy_stiffness G factor rho src I =
  nodal_mass G I * rho I * src I
  + factor * integral G (fun c q => rsum dim (fun b => slope G src c q b * basis_grad G I c q b)).
Proof.
  intros P L. unfold energy_stiffness, energy_local. rewrite mass_nodal by assumption. f_equal.
  rewrite (gradient_form (fun c q b => factor * get_gradient G src c q b)). rewrite <- integral_scal. apply integral_ext.
  intros c q Lc Lq. rewrite <- rsum_scal. apply rsum_ext. intros b Lb. destruct P as (V & C & _). rewrite gradient_slope by assumption. ring.
Qed.

Lemma heating_row src I : proper G ->
  heating G par src I =
  integral G (fun c q => contraction dim (velocity_gradient G src c q) (newtonian par dim (velocity_gradient G src c q)) * basis G I c q).
Proof.
  intros P. unfold heating. rewrite (value_form (fun c q => dissipation G par src c q)). apply integral_ext. intros c q Lc Lq.
  destruct P as (V & C & _). rewrite dissipation_spec by assumption. reflexivity.
Qed.

(** ** Summation over the rows *)
Lemma velocity_tested src w : proper G ->
  rsum n (fun I => rsum dim (fun a => w I a * integral G (fun c q => rsum dim (fun b => newtonian par dim (velocity_gradient G src c q) a b * basis_grad G I c q b))))
  = integral G (fun c q => contraction dim (newtonian par dim (velocity_gradient G src c q)) (velocity_gradient G w c q)).
Proof.
  intros P.
  transitivity (rsum n (fun I => integral G (fun c q => rsum dim (fun a => rsum dim (fun b => newtonian par dim (velocity_gradient G src c q) a b * (w I a * basis_grad G I c q b)))))).
  - apply rsum_ext. intros I _.
    rewrite (rsum_ext _ _ (fun a => integral G (fun c q => rsum dim (fun b => newtonian par dim (velocity_gradient G src c q) a b * (w I a * basis_grad G I c q b))))).
    + apply integral_sum.
    + intros a _. rewrite <- integral_scal. apply integral_ext. intros c q _ _. rewrite <- rsum_scal. apply rsum_ext. intros b _. ring.
  - rewrite integral_sum. apply integral_ext. intros c q Lc Lq. unfold contraction. rewrite rs_swap. apply rsum_ext. intros a _.
    rewrite rs_swap. apply rsum_ext. intros b _. unfold velocity_gradient, slope. rewrite rsum_scal. reflexivity.
Qed.

Lemma energy_column_sum e : proper G ->
  rsum n (fun I => integral G (fun c q => rsum dim (fun b => slope G e c q b * basis_grad G I c q b))) = 0.
Proof.
  intros P. rewrite integral_sum. rewrite (integral_ext _ (fun _ _ => 0 * 0)).
  - rewrite (integral_scal 0 (fun _ _ => 0)). ring.
  - intros c q Lc Lq. rewrite rs_swap. rewrite rs_zero; [ring|]. intros b _. rewrite rsum_scal, grad_sum by assumption. ring.
Qed.

Lemma velocity_column_sum src a : proper G ->
  rsum n (fun I => integral G (fun c q => rsum dim (fun b => newtonian par dim (velocity_gradient G src c q) a b * basis_grad G I c q b))) = 0.
Proof.
  intros P. rewrite integral_sum. rewrite (integral_ext _ (fun _ _ => 0 * 0)).
  - rewrite (integral_scal 0 (fun _ _ => 0)). ring.
  - intros c q Lc Lq. rewrite rs_swap. rewrite rs_zero; [ring|]. intros b _. rewrite rsum_scal, grad_sum by assumption. ring.
Qed.

Lemma heating_sum src : proper G ->
  rsum n (fun I => heating G par src I) =
  integral G (fun c q => contraction dim (velocity_gradient G src c q) (newtonian par dim (velocity_gradient G src c q))).
Proof.
  intros P. rewrite (rsum_ext _ _ _ (fun I _ => heating_row src I P)). rewrite integral_sum. apply integral_ext. intros c q Lc Lq.
  rewrite rsum_scal, value_sum by assumption. ring.
Qed.
End Forms.
