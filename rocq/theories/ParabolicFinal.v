(** * The parabolic step: equations, boundary conditions, balances *)
From Coq Require Import Reals List Bool Arith Lia Lra Psatz.
From Verif Require Import RVec BoundaryMap EulerSystem Assembly AssemblySpec AssemblyProofs AssemblyFinal Parabolic ParabolicSpec ParabolicProofs ParabolicRows.
Import ListNotations.
Local Open Scope R_scope.

Section Final.
Variable G : geometry.
Variable par : viscosity.
Variable bm : list description.
Variable init : vec -> R -> vec.
Notation n := (g_n_dofs G).
Notation dim := (g_dim G).

Lemma step_inv eps sv se U t tau U' r : backward_euler_step G par bm init eps sv se U t tau = Some (U', r) ->
  exists v0 b e0 v e, step_1 G bm init U t tau = (v0, b, e0) /\
    sv (velocity_vmult G par bm tau (rho_ G U)) (precondition_block G (rho_ G U)) v0 b = Some v /\
    se (energy_vmult G bm (tau * cv_inverse_kappa par) (rho_ G U)) (precondition G (rho_ G U)) e0 (energy_rhs G par bm init U t tau e0 v) = Some e /\
    U' = write_back G U v e /\
    r = (if Rlt_dec (minimum G e) (minimum G e0 * (1 - 1000 * eps)) then true else false).
Proof.
  unfold backward_euler_step. destruct (step_1 G bm init U t tau) as [[v0 b] e0] eqn:E. destruct (sv _ _ _ _) as [v|] eqn:Ev; [|discriminate].
  destruct (se _ _ _ _) as [e|] eqn:Ee; [|discriminate]. intros X. injection X as <- <-. exists v0, b, e0, v, e. auto.
Qed.

(** ** The written state *)
Lemma back_density U v e I : write_back G U v e I 0%nat = U I 0%nat.
Proof. unfold write_back. destruct (Nat.eqb_spec 0 (1 + dim)); [lia|reflexivity]. Qed.
Lemma back_momentum U v e I d : (d < dim)%nat -> write_back G U v e I (S d) = U I 0%nat * v I d.
Proof.
  intros L. unfold write_back. destruct (Nat.eqb_spec (S d) (1 + dim)); [lia|]. destruct (Nat.leb_spec (S d) dim); [|lia].
  cbn [Nat.leb andb]. replace (S d - 1)%nat with d by lia. reflexivity.
Qed.
Lemma back_energy U v e I : U I 0%nat <> 0 -> write_back G U v e I (S dim) = U I 0%nat * e I + 1 / 2 * U I 0%nat * norm2 dim (v I).
Proof.
  intros N. unfold write_back. destruct (Nat.eqb_spec (S dim) (1 + dim)); [|lia]. unfold density.
  change (fun d => U I 0%nat * v I d) with (vscal (U I 0%nat) (v I)). rewrite dot_scal_l, dot_scal_r. unfold norm2. field. exact N.
Qed.
Lemma back_vel U v e I d : U I 0%nat <> 0 -> (d < dim)%nat -> vel (write_back G U v e I) d = v I d.
Proof. intros N L. unfold vel. rewrite back_density, back_momentum by exact L. field. exact N. Qed.
Lemma back_specific U v e I : U I 0%nat <> 0 -> specific_energy dim (write_back G U v e I) = e I.
Proof.
  intros N. unfold specific_energy. rewrite back_density, back_energy by exact N.
  rewrite (rsum_ext _ _ (fun d => U I 0%nat * U I 0%nat * (v I d * v I d))) by (intros d L; rewrite back_momentum by exact L; ring).
  rewrite rsum_scal. unfold norm2, dot. field. exact N.
Qed.
Lemma specific_old U I : internal_energy_0 G U I = specific_energy dim (U I).
Proof.
  unfold internal_energy_0, specific_energy, internal_energy, total_energy, density, momentum, norm2, dot. cbv zeta. f_equal. unfold Rdiv. ring.
Qed.
Lemma vel_old U I d : velocity_0 U I d = vel (U I) d.
Proof. reflexivity. Qed.
Lemma rho_free U I : free G I -> rho_ G U I = U I 0%nat.
Proof. intros F. unfold rho_, set_zero. rewrite (free_not_constrained G I F). reflexivity. Qed.

Lemma dec_free I : (I < n)%nat -> free G I \/ is_constrained G I = true.
Proof. intros L. destruct (is_constrained G I) eqn:X; [right; reflexivity|left; apply not_constrained_free; assumption]. Qed.

Lemma gas_dense U : gas G U -> dense G U.
Proof. intros Gs I F. assert (P := Gs I F). lra. Qed.
Lemma nonzero U I : dense G U -> free G I -> U I 0%nat <> 0.
Proof. intros Gs F. exact (Gs I F). Qed.

(** Gradients of the velocity that the new state carries. *)
Lemma new_gradient U v e c q a b : proper G -> dense G U -> (c < g_n_cells G)%nat -> (a < dim)%nat ->
  velocity_gradient G (fun I => vel (write_back G U v e I)) c q a b = velocity_gradient G v c q a b.
Proof.
  intros P Gs L La. unfold velocity_gradient. apply slope_ext; try assumption. intros I F. apply back_vel; [apply nonzero; assumption|exact La].
Qed.
Lemma newtonian_ext A B a b : (forall a b, (a < dim)%nat -> (b < dim)%nat -> A a b = B a b) -> (a < dim)%nat -> (b < dim)%nat ->
  newtonian par dim A a b = newtonian par dim B a b.
Proof.
  intros E La Lb. unfold newtonian. rewrite !E by assumption.
  rewrite (rsum_ext _ (fun d => A d d) (fun d => B d d)) by (intros d Ld; apply E; exact Ld). reflexivity.
Qed.
Lemma work_ext A B : (forall a b, (a < dim)%nat -> (b < dim)%nat -> A a b = B a b) ->
  contraction dim A (newtonian par dim A) = contraction dim B (newtonian par dim B).
Proof.
  intros E. apply rsum_ext. intros a La. apply rsum_ext. intros b Lb. rewrite E by assumption. rewrite (newtonian_ext A B) by assumption. reflexivity.
Qed.
Lemma new_slope U v e c q b : proper G -> dense G U -> (c < g_n_cells G)%nat ->
  slope G (fun I => specific_energy dim (write_back G U v e I)) c q b = slope G e c q b.
Proof. intros P Gs L. apply slope_ext; try assumption. intros I F. apply back_specific. apply nonzero; assumption. Qed.

(** ** C107 *)
Lemma C107_density_proof : forall eps sv se U t tau U' r I,
  backward_euler_step G par bm init eps sv se U t tau = Some (U', r) -> U' I 0%nat = U I 0%nat.
Proof.
  intros eps sv se U t tau U' r I H. destruct (step_inv _ _ _ _ _ _ _ _ H) as (v0 & b & e0 & v & e & _ & _ & _ & -> & _). apply back_density.
Qed.

Lemma exact_block sv A P x0 b x i d : accurate_block n dim 0 sv -> sv A P x0 b = Some x -> (i < n)%nat -> (d < dim)%nat -> A x i d = b i d.
Proof.
  intros Ac H Li Ld. assert (Q := Ac A P x0 b x H i d Li Ld). assert (Q' := Rabs_pos (A x i d - b i d)).
  assert (Z : Rabs (A x i d - b i d) = 0) by lra. destruct (Req_dec (A x i d - b i d) 0) as [E|E]; [lra|]. apply Rabs_no_R0 in E. contradiction.
Qed.
Lemma exact_scalar se A P x0 b x i : accurate n 0 se -> se A P x0 b = Some x -> (i < n)%nat -> A x i = b i.
Proof.
  intros Ac H Li. assert (Q := Ac A P x0 b x H i Li). assert (Q' := Rabs_pos (A x i - b i)).
  assert (Z : Rabs (A x i - b i) = 0) by lra. destruct (Req_dec (A x i - b i) 0) as [E|E]; [lra|]. apply Rabs_no_R0 in E. contradiction.
Qed.

Lemma C107_momentum_proof : forall eps sv se U t tau U' r I a,
  proper G -> dense G U -> accurate_block n dim 0 sv ->
  backward_euler_step G par bm init eps sv se U t tau = Some (U', r) ->
  free G I -> no_strong_condition bm I -> (a < dim)%nat ->
  nodal_mass G I * U' I (S a)
  + tau * integral G (fun c q => rsum dim (fun b =>
      newtonian par dim (velocity_gradient G (fun J => vel (U' J)) c q) a b * basis_grad G I c q b))
  = nodal_mass G I * U I (S a).
Proof.
  intros eps sv se U t tau U' r I a P Gs Ac H F N La. destruct (step_inv _ _ _ _ _ _ _ _ H) as (v0 & b & e0 & v & e & E1 & Ev & _ & -> & _).
  assert (X := exact_block _ _ _ _ _ _ I a Ac Ev (proj1 F) La). rewrite velocity_vmult_row in X by apply F.
  destruct (step_1_row _ _ _ _ _ _ _ _ _ _ E1 F) as (_ & Eb & _). rewrite Eb in X.
  rewrite fix_inactive, rhs_inactive in X by exact N. rewrite velocity_row in X by (assumption || apply F).
  rewrite rho_free in X by exact F. unfold velocity_rhs_0, momentum in X. rewrite mass_nodal in X by (assumption || apply F).
  rewrite back_momentum by exact La. rewrite <- X. rewrite <- Rmult_assoc. f_equal. f_equal. apply integral_ext. intros c q Lc Lq. apply rsum_ext. intros b0 Lb.
  f_equal. apply newtonian_ext; try assumption. intros a' b' La' _. apply new_gradient; assumption.
Qed.

Lemma C107_energy_proof : forall eps sv se U t tau U' r I,
  proper G -> dense G U -> accurate n 0 se ->
  backward_euler_step G par bm init eps sv se U t tau = Some (U', r) ->
  free G I -> no_dirichlet bm I ->
  let v J := vel (U J) in let v' J := vel (U' J) in
  let e J := specific_energy dim (U J) in let e' J := specific_energy dim (U' J) in
  nodal_mass G I * U I 0%nat * e' I
  + tau * cv_inverse_kappa par * integral G (fun c q => rsum dim (fun b => slope G e' c q b * basis_grad G I c q b))
  = nodal_mass G I * U I 0%nat * (e I + 1 / 2 * rsum dim (fun d => (v' I d - v I d) * (v' I d - v I d)))
  + tau * integral G (fun c q =>
      contraction dim (velocity_gradient G v' c q) (newtonian par dim (velocity_gradient G v' c q)) * basis G I c q).
Proof.
  intros eps sv se U t tau U' r I P Gs Ac H F N vv vv' ee ee'. destruct (step_inv _ _ _ _ _ _ _ _ H) as (v0 & b & e0 & v & e & E1 & _ & Ee & EU & _).
  assert (X := exact_scalar _ _ _ _ _ _ I Ac Ee (proj1 F)). rewrite energy_vmult_row in X by apply F.
  rewrite energy_rhs_row in X by exact F. rewrite energy_fix_inactive, energy_inactive in X by exact N.
  rewrite energy_row in X by (assumption || apply F). unfold energy_rhs_0 in X. cbv zeta in X.
  destruct (step_1_row _ _ _ _ _ _ _ _ _ _ E1 F) as (_ & _ & Eo). rewrite Eo, energy_inactive, specific_old in X by exact N.
  rewrite mass_nodal, heating_row in X by (assumption || apply F). rewrite !rho_free in X by exact F.
  assert (Ei : ee' I = e I) by (unfold ee'; rewrite EU; apply back_specific; apply nonzero; assumption).
  rewrite Ei. rewrite (integral_ext G _ (fun c q => rsum dim (fun b0 => slope G e c q b0 * basis_grad G I c q b0))).
  2:{ intros c q Lc Lq. apply rsum_ext. intros b0 _. f_equal. unfold ee'. rewrite EU. apply new_slope; assumption. }
  rewrite X. f_equal.
  - f_equal. unfold ee. f_equal. f_equal. unfold norm2, dot, vsub. apply rsum_ext. intros d Ld.
    assert (Ed : vv' I d = v I d) by (unfold vv'; rewrite EU; apply back_vel; [apply nonzero; assumption|exact Ld]).
    rewrite Ed. unfold vv, vel, momentum. ring.
  - f_equal. apply integral_ext. intros c q Lc Lq. f_equal. symmetry. apply work_ext. intros a b0 La _. unfold vv'. rewrite EU. apply new_gradient; assumption.
Qed.

(** ** C108: the boundary conditions hold in every iterate *)
Lemma search_row (A P : field -> field) x0 b I :
  (forall y d, (d < dim)%nat -> A y I d = y I d) -> (forall y d, (d < dim)%nat -> y I d = 0 -> P y I d = 0) ->
  (forall d, (d < dim)%nat -> x0 I d = b I d) ->
  forall x r p, search A P x0 b x r p -> forall d, (d < dim)%nat -> x I d = b I d /\ r I d = 0 /\ p I d = 0.
Proof.
  intros HA HP H0 x r p S. induction S as [r|x r p alpha beta S IH r']; intros d L.
  - assert (Z : r I d = 0) by (unfold r, vsub; rewrite HA, H0 by exact L; ring). split; [apply H0; exact L|]. split; [exact Z|apply HP; assumption].
  - destruct (IH d L) as (X & R0 & P0). unfold vadd, vscal. rewrite X, P0.
    assert (Z : r' I d = 0) by (unfold r', vsub, vscal; rewrite HA, R0, P0 by exact L; ring).
    split; [ring|]. split; [exact Z|]. rewrite HP by assumption. ring.
Qed.
Lemma search_slip (A P : field -> field) x0 b I nu :
  (forall y, dot dim (A y I) nu = dot dim (y I) nu) -> (forall y, dot dim (y I) nu = 0 -> dot dim (P y I) nu = 0) ->
  dot dim (x0 I) nu = 0 -> dot dim (b I) nu = 0 ->
  forall x r p, search A P x0 b x r p -> dot dim (x I) nu = 0 /\ dot dim (r I) nu = 0 /\ dot dim (p I) nu = 0.
Proof.
  intros HA HP H0 Hb x r p S. induction S as [r|x r p alpha beta S IH r'].
  - assert (Z : dot dim (r I) nu = 0) by (unfold r; rewrite dot_sub_l, HA, H0, Hb; ring). split; [exact H0|]. split; [exact Z|apply HP; exact Z].
  - destruct IH as (X & R0 & P0). rewrite !dot_add_l, !dot_scal_l, X, P0.
    assert (Z : dot dim (r' I) nu = 0) by (unfold r'; rewrite dot_sub_l, dot_scal_l, HA, R0, P0; ring).
    split; [ring|]. split; [exact Z|]. rewrite HP by exact Z. ring.
Qed.
Lemma search1_row (A P : (nat -> R) -> nat -> R) x0 b I :
  (forall y, A y I = y I) -> (forall y, y I = 0 -> P y I = 0) -> x0 I = b I ->
  forall x r p, search1 A P x0 b x r p -> x I = b I /\ r I = 0 /\ p I = 0.
Proof.
  intros HA HP H0 x r p S. induction S as [r|x r p alpha beta S IH r'].
  - assert (Z : r I = 0) by (unfold r; rewrite HA, H0; ring). split; [exact H0|]. split; [exact Z|apply HP; exact Z].
  - destruct IH as (X & R0 & P0). rewrite X, P0. assert (Z : r' I = 0) by (unfold r'; rewrite HA, R0, P0; ring).
    split; [ring|]. split; [exact Z|]. rewrite HP by exact Z. ring.
Qed.

Lemma precondition_zero rho y I d : y I d = 0 -> precondition_block G rho y I d = 0.
Proof. intros Z. unfold precondition_block. rewrite Z. ring. Qed.

Lemma velocity_no_slip U t tau v0 b e0 v r p I : step_1 G bm init U t tau = (v0, b, e0) -> free G I ->
  (exists e, In e (entries bm I) /\ d_id e = 3%nat) -> no_dirichlet bm I ->
  search (velocity_vmult G par bm tau (rho_ G U)) (precondition_block G (rho_ G U)) v0 b v r p ->
  forall d, (d < dim)%nat -> v I d = 0.
Proof.
  intros E1 F X N S d L. destruct (step_1_row _ _ _ _ _ _ _ _ _ _ E1 F) as (Ev & Eb & _).
  assert (B : forall d, (d < dim)%nat -> b I d = 0) by (intros k Lk; rewrite Eb; apply rhs_no_slip; assumption).
  assert (V0 : forall d, (d < dim)%nat -> v0 I d = 0) by (intros k Lk; rewrite Ev; apply rhs_no_slip; assumption).
  destruct (search_row (velocity_vmult G par bm tau (rho_ G U)) (precondition_block G (rho_ G U)) v0 b I) with (4 := S) (d := d) as (Q & _); try assumption.
  - intros y k Lk. rewrite velocity_vmult_row by apply F. apply fix_identity. destruct X as (x & A & B'). exists x. auto.
  - intros y k Lk Z. apply precondition_zero. exact Z.
  - intros k Lk. rewrite B, V0 by exact Lk. reflexivity.
  - rewrite Q. apply B. exact L.
Qed.

Lemma C108_no_slip_proof : forall eps sv se U t tau U' r I d,
  iterates_block sv ->
  backward_euler_step G par bm init eps sv se U t tau = Some (U', r) ->
  free G I -> (exists e, In e (entries bm I) /\ d_id e = 3%nat) -> no_dirichlet bm I -> (d < dim)%nat ->
  U' I (S d) = 0.
Proof.
  intros eps sv se U t tau U' r I d It H F X N L. destruct (step_inv _ _ _ _ _ _ _ _ H) as (v0 & b & e0 & v & e & E1 & Ev & _ & -> & _).
  destruct (It _ _ _ _ _ Ev) as (r' & p & S). rewrite back_momentum by exact L.
  rewrite (velocity_no_slip _ _ _ _ _ _ _ _ _ _ E1 F X N S d L). ring.
Qed.

Lemma velocity_slip U t tau v0 b e0 v r p I : step_1 G bm init U t tau = (v0, b, e0) -> free G I ->
  soft (entries bm I) -> orthonormal dim (slip_normals bm I) ->
  search (velocity_vmult G par bm tau (rho_ G U)) (precondition_block G (rho_ G U)) v0 b v r p ->
  forall nu, In nu (slip_normals bm I) -> dot dim (v I) nu = 0.
Proof.
  intros E1 F So O S nu X. destruct (step_1_row _ _ _ _ _ _ _ _ _ _ E1 F) as (Ev & Eb & _).
  destruct (search_slip (velocity_vmult G par bm tau (rho_ G U)) (precondition_block G (rho_ G U)) v0 b I nu) with (5 := S) as (Q & _); try assumption.
  - intros y. rewrite velocity_vmult_row by apply F. apply fix_normal; assumption.
  - intros y Z. change (precondition_block G (rho_ G U) y I) with (vscal (diagonal G (rho_ G U) I) (y I)). rewrite dot_scal_l, Z. ring.
  - rewrite Ev. apply rhs_normal; assumption.
  - rewrite Eb. apply rhs_normal; assumption.
Qed.

Lemma C108_slip_proof : forall eps sv se U t tau U' r I nu,
  iterates_block sv ->
  backward_euler_step G par bm init eps sv se U t tau = Some (U', r) ->
  free G I -> (forall e, In e (entries bm I) -> d_id e <> 3%nat /\ d_id e <> 4%nat) ->
  orthonormal dim (slip_normals bm I) -> In nu (slip_normals bm I) ->
  rsum dim (fun d => U' I (S d) * nu d) = 0.
Proof.
  intros eps sv se U t tau U' r I nu It H F N O X. destruct (step_inv _ _ _ _ _ _ _ _ H) as (v0 & b & e0 & v & e & E1 & Ev & _ & -> & _).
  destruct (It _ _ _ _ _ Ev) as (r' & p & S).
  rewrite (rsum_ext _ _ (fun d => U I 0%nat * (v I d * nu d))) by (intros d L; rewrite back_momentum by exact L; ring).
  rewrite rsum_scal. change (rsum dim (fun d => v I d * nu d)) with (dot dim (v I) nu).
  rewrite (velocity_slip _ _ _ _ _ _ _ _ _ _ E1 F N O S nu X). ring.
Qed.

Lemma C108_dirichlet_velocity_proof : forall eps sv se U t tau U' r I x d,
  iterates_block sv -> gas G U ->
  backward_euler_step G par bm init eps sv se U t tau = Some (U', r) ->
  free G I -> (exists e, In e (entries bm I) /\ d_id e = 4%nat) ->
  (forall e, In e (entries bm I) -> d_id e <> 2%nat /\ d_id e <> 3%nat /\ (d_id e = 4%nat -> d_position e = x)) -> (d < dim)%nat ->
  vel (U' I) d = vel (init x (t + tau)) d.
Proof.
  intros eps sv se U t tau U' r I x d It Gs H F X N L. pose proof (gas_dense _ Gs) as Gd. destruct (step_inv _ _ _ _ _ _ _ _ H) as (v0 & b & e0 & v & e & E1 & Ev & _ & -> & _).
  destruct (It _ _ _ _ _ Ev) as (r' & p & S). rewrite back_vel; [|apply nonzero; assumption|exact L].
  destruct (step_1_row _ _ _ _ _ _ _ _ _ _ E1 F) as (Ev0 & Eb & _).
  assert (D : forall w, fold_left (rhs_row G init t tau) (entries bm I) w = dirichlet_velocity init x (t + tau)).
  { apply rhs_dirichlet; [exact X| |]; intros y J; destruct (N y J) as (A & B & C); auto. }
  rewrite D in Ev0, Eb.
  destruct (search_row (velocity_vmult G par bm tau (rho_ G U)) (precondition_block G (rho_ G U)) v0 b I) with (4 := S) (d := d) as (Q & _); try assumption.
  - intros y k Lk. rewrite velocity_vmult_row by apply F. apply fix_identity. destruct X as (z & A & B'). exists z. auto.
  - intros y k Lk Z. apply precondition_zero. exact Z.
  - intros k Lk. rewrite Ev0, Eb. reflexivity.
  - rewrite Q, Eb. reflexivity.
Qed.

Lemma energy_dirichlet_row U t tau v0 b e0 v e r p I x : step_1 G bm init U t tau = (v0, b, e0) -> free G I ->
  (exists y, In y (entries bm I) /\ d_id y = 4%nat) -> (forall y, In y (entries bm I) -> d_id y = 4%nat -> d_position y = x) ->
  search1 (energy_vmult G bm (tau * cv_inverse_kappa par) (rho_ G U)) (precondition G (rho_ G U)) e0 (energy_rhs G par bm init U t tau e0 v) e r p ->
  e I = dirichlet_energy G init x (t + tau).
Proof.
  intros E1 F X N S. destruct (step_1_row _ _ _ _ _ _ _ _ _ _ E1 F) as (_ & _ & Ee0).
  assert (D : forall w, fold_left (energy_row_of G init t tau) (entries bm I) w = dirichlet_energy G init x (t + tau)) by (apply energy_dirichlet; assumption).
  rewrite D in Ee0.
  assert (Er : energy_rhs G par bm init U t tau e0 v I = dirichlet_energy G init x (t + tau)) by (rewrite energy_rhs_row by exact F; apply D).
  destruct (search1_row (energy_vmult G bm (tau * cv_inverse_kappa par) (rho_ G U)) (precondition G (rho_ G U)) e0
    (energy_rhs G par bm init U t tau e0 v) I) with (4 := S) as (Q & _).
  - intros y. rewrite energy_vmult_row by apply F. apply energy_fix_identity. exact X.
  - intros y Z. unfold precondition. rewrite Z. ring.
  - rewrite Ee0, Er. reflexivity.
  - rewrite Q. exact Er.
Qed.

Lemma dirichlet_specific x t : dirichlet_energy G init x t = specific_energy dim (init x t).
Proof.
  unfold dirichlet_energy, specific_energy, internal_energy, total_energy, density, momentum, norm2, dot. cbv zeta. f_equal. unfold Rdiv. ring.
Qed.

Lemma C108_dirichlet_energy_proof : forall eps sv se U t tau U' r I x,
  iterates se -> gas G U ->
  backward_euler_step G par bm init eps sv se U t tau = Some (U', r) ->
  free G I -> (exists e, In e (entries bm I) /\ d_id e = 4%nat) ->
  (forall e, In e (entries bm I) -> d_id e = 4%nat -> d_position e = x) ->
  specific_energy dim (U' I) = specific_energy dim (init x (t + tau)).
Proof.
  intros eps sv se U t tau U' r I x It Gs H F X N. pose proof (gas_dense _ Gs) as Gd. destruct (step_inv _ _ _ _ _ _ _ _ H) as (v0 & b & e0 & v & e & E1 & _ & Ee & -> & _).
  destruct (It _ _ _ _ _ Ee) as (r' & p & S). rewrite back_specific by (apply nonzero; assumption).
  rewrite (energy_dirichlet_row _ _ _ _ _ _ _ _ _ _ _ _ E1 F X N S). apply dirichlet_specific.
Qed.

(** ** C109: balances *)
Definition hard (I : nat) : Prop := exists e, In e (entries bm I) /\ d_id e = 3%nat.
Lemma hard_dec I : hard I \/ forall e, In e (entries bm I) -> d_id e <> 3%nat.
Proof.
  unfold hard. induction (entries bm I) as [|e l IH]; [right; intros e []|]. destruct (Nat.eq_dec (d_id e) 3) as [E|E].
  - left. exists e. split; [left; reflexivity|exact E].
  - destruct IH as [(x & A & B)|IH]; [left; exists x; split; [right; exact A|exact B]|]. right. intros x [<-|J]; auto.
Qed.

(** The velocity respects the conditions of its row. *)
Definition respects (v : field) (I : nat) : Prop :=
  (hard I -> forall d, (d < dim)%nat -> v I d = 0) /\
  ((forall e, In e (entries bm I) -> d_id e <> 3%nat) -> forall nu, In nu (slip_normals bm I) -> dot dim (v I) nu = 0).

Lemma respects_exact U t tau v0 b e0 v I : step_1 G bm init U t tau = (v0, b, e0) -> free G I -> wall dim bm I ->
  (forall d, (d < dim)%nat -> velocity_vmult G par bm tau (rho_ G U) v I d = b I d) -> respects v I.
Proof.
  intros E1 F [N W] X. destruct (step_1_row _ _ _ _ _ _ _ _ _ _ E1 F) as (_ & Eb & _). rewrite velocity_vmult_row in X by apply F. split.
  - intros H d L. assert (Q := X d L). rewrite Eb in Q. rewrite fix_identity in Q by (destruct H as (x & A & B); exists x; auto).
    rewrite Q. apply rhs_no_slip; assumption.
  - intros S nu J. destruct W as [W|O]; [destruct W as (x & A & B); exfalso; exact (S x A B)|].
    assert (So : soft (entries bm I)) by (intros x A; split; [apply S|apply N]; exact A).
    rewrite <- (fix_normal G (v I) (entries bm I) So O nu J (velocity_stiffness G par tau (rho_ G U) v I)).
    rewrite (dot_ext dim _ (b I) nu nu) by (exact X || (intros k Lk; reflexivity)). rewrite Eb. apply rhs_normal; assumption.
Qed.
Lemma respects_search U t tau v0 b e0 v r p I : step_1 G bm init U t tau = (v0, b, e0) -> free G I -> wall dim bm I ->
  search (velocity_vmult G par bm tau (rho_ G U)) (precondition_block G (rho_ G U)) v0 b v r p -> respects v I.
Proof.
  intros E1 F [N W] S. split.
  - intros H. exact (velocity_no_slip _ _ _ _ _ _ _ _ _ _ E1 F H N S).
  - intros A nu J. destruct W as [W|O]; [destruct W as (x & B & C); exfalso; exact (A x B C)|].
    apply (velocity_slip _ _ _ _ _ _ _ _ _ _ E1 F (fun x B => conj (A x B) (N x B)) O S nu J).
Qed.

(** Tested with the velocity, a wall does not show. *)
Lemma wall_tested U t tau v0 b e0 v I : step_1 G bm init U t tau = (v0, b, e0) -> free G I -> wall dim bm I -> respects v I ->
  dot dim (velocity_vmult G par bm tau (rho_ G U) v I) (v I) - dot dim (b I) (v I) =
  dot dim (velocity_stiffness G par tau (rho_ G U) v I) (v I) - dot dim (velocity_rhs_0 G U I) (v I).
Proof.
  intros E1 F [N W] [Z O]. destruct (step_1_row _ _ _ _ _ _ _ _ _ _ E1 F) as (_ & Eb & _).
  destruct (hard_dec I) as [Hd|Sd].
  - assert (Q : forall u, dot dim u (v I) = 0) by (intros u; apply rs_zero; intros d L; rewrite (Z Hd d L); ring). rewrite !Q. reflexivity.
  - assert (So : soft (entries bm I)) by (intros x A; split; [apply Sd|apply N]; exact A).
    rewrite velocity_vmult_row by apply F. rewrite Eb.
    rewrite fix_orthogonal, rhs_orthogonal; [reflexivity|exact So| |exact So|]; intros nu J; rewrite dot_comm; apply O; assumption.
Qed.

Definition work (v : field) : R :=
  integral G (fun c q => contraction dim (velocity_gradient G v c q) (newtonian par dim (velocity_gradient G v c q))).

Lemma contraction_comm (A B : nat -> nat -> R) : contraction dim A B = contraction dim B A.
Proof. apply rsum_ext. intros a _. apply rsum_ext. intros b _. ring. Qed.

Lemma sum_free f g : (forall I, free G I -> f I = g I) -> (forall I, is_constrained G I = true -> f I = g I) -> rsum n f = rsum n g.
Proof. intros A B. apply rsum_ext. intros I L. destruct (dec_free I L); auto. Qed.

Lemma mass_constrained I : is_constrained G I = true -> nodal_mass G I = 0.
Proof. intros X. unfold nodal_mass. rewrite X. reflexivity. Qed.

Lemma test_constrained v I a : proper G -> is_constrained G I = true ->
  integral G (fun c q => rsum dim (fun b => newtonian par dim (velocity_gradient G v c q) a b * basis_grad G I c q b)) = 0.
Proof.
  intros P X. rewrite (integral_ext G _ (fun _ _ => 0 * 0)); [rewrite (integral_scal G 0 (fun _ _ => 0)); ring|].
  intros c q Lc Lq. rewrite rs_zero; [ring|]. intros b _. rewrite basis_grad_constrained by assumption. ring.
Qed.
Lemma slope_constrained e I : proper G -> is_constrained G I = true ->
  integral G (fun c q => rsum dim (fun b => slope G e c q b * basis_grad G I c q b)) = 0.
Proof.
  intros P X. rewrite (integral_ext G _ (fun _ _ => 0 * 0)); [rewrite (integral_scal G 0 (fun _ _ => 0)); ring|].
  intros c q Lc Lq. rewrite rs_zero; [ring|]. intros b _. rewrite basis_grad_constrained by assumption. ring.
Qed.
Lemma heating_constrained v I : proper G -> is_constrained G I = true -> heating G par v I = 0.
Proof.
  intros P X. rewrite heating_row by exact P. rewrite (integral_ext G _ (fun _ _ => 0 * 0)); [rewrite (integral_scal G 0 (fun _ _ => 0)); ring|].
  intros c q Lc Lq. destruct P as (V & C & _). rewrite basis_constrained by assumption. ring.
Qed.

(** The momentum equation tested with the velocity; [res]: the work of the residual. *)
Lemma velocity_balance U t tau v0 b e0 v : proper G -> step_1 G bm init U t tau = (v0, b, e0) ->
  (forall I, free G I -> wall dim bm I /\ respects v I) ->
  rsum n (fun I => nodal_mass G I * U I 0%nat * norm2 dim (v I)) + tau * work v =
  rsum n (fun I => nodal_mass G I * dot dim (fun d => U I (S d)) (v I))
  + rsum n (fun I => if is_constrained G I then 0 else dot dim (vsub (velocity_vmult G par bm tau (rho_ G U) v I) (b I)) (v I)).
Proof.
  intros P E1 W.
  assert (T : tau * work v = rsum n (fun I => tau * rsum dim (fun a => v I a * integral G (fun c q => rsum dim (fun b0 => newtonian par dim (velocity_gradient G v c q) a b0 * basis_grad G I c q b0))))).
  { rewrite rsum_scal. f_equal. rewrite velocity_tested by exact P. unfold work. apply integral_ext. intros c q _ _. apply contraction_comm. }
  rewrite T, <- !rsum_plus. apply sum_free.
  - intros I F. rewrite (free_not_constrained G I F). destruct (W I F) as [Wi Ri]. rewrite dot_sub_l.
    rewrite (wall_tested _ _ _ _ _ _ _ _ E1 F Wi Ri).
    assert (Sx : dot dim (velocity_stiffness G par tau (rho_ G U) v I) (v I) =
      nodal_mass G I * U I 0%nat * norm2 dim (v I) + tau * rsum dim (fun a => v I a * integral G (fun c q => rsum dim (fun b0 => newtonian par dim (velocity_gradient G v c q) a b0 * basis_grad G I c q b0)))).
    { unfold norm2, dot. rewrite <- !rsum_scal, <- rsum_plus. apply rsum_ext. intros a La. rewrite velocity_row by (assumption || apply F).
      rewrite rho_free by exact F. ring. }
    rewrite Sx. unfold velocity_rhs_0, momentum. rewrite mass_nodal by (assumption || apply F).
    change (fun d => nodal_mass G I * U I (S d)) with (vscal (nodal_mass G I) (fun d => U I (S d))). rewrite dot_scal_l. ring.
  - intros I X. rewrite X, mass_constrained by exact X.
    rewrite (rsum_ext _ _ (fun a => v I a * 0)) by (intros a _; rewrite test_constrained by assumption; reflexivity).
    rewrite rs_zero by (intros; ring). ring.
Qed.

(** The energy equation added up. *)
Lemma energy_balance U t tau v0 b e0 v e : proper G -> step_1 G bm init U t tau = (v0, b, e0) ->
  (forall I, free G I -> no_dirichlet bm I) ->
  rsum n (fun I => nodal_mass G I * U I 0%nat * e I) =
  rsum n (fun I => nodal_mass G I * U I 0%nat * (specific_energy dim (U I) + 1 / 2 * norm2 dim (vsub (vel (U I)) (v I)))) + tau * work v
  + rsum n (fun I => if is_constrained G I then 0 else
      energy_vmult G bm (tau * cv_inverse_kappa par) (rho_ G U) e I - energy_rhs G par bm init U t tau e0 v I).
Proof.
  intros P E1 N.
  assert (B := energy_column_sum G e P). assert (H := heating_sum G par v P).
  replace (rsum n (fun I => nodal_mass G I * U I 0%nat * e I)) with
    (rsum n (fun I => nodal_mass G I * U I 0%nat * e I + tau * cv_inverse_kappa par * integral G (fun c q => rsum dim (fun b0 => slope G e c q b0 * basis_grad G I c q b0)))).
  2:{ rewrite rsum_plus, rsum_scal, B. ring. }
  unfold work. rewrite <- H, <- rsum_scal, <- !rsum_plus. apply sum_free.
  - intros I F. rewrite (free_not_constrained G I F). rewrite energy_vmult_row, energy_rhs_row by (exact F || apply F).
    rewrite energy_fix_inactive, energy_inactive by (apply N; exact F). rewrite energy_row by (assumption || apply F).
    unfold energy_rhs_0. cbv zeta. destruct (step_1_row _ _ _ _ _ _ _ _ _ _ E1 F) as (_ & _ & Eo). rewrite Eo, energy_inactive, specific_old by (apply N; exact F).
    rewrite mass_nodal by (assumption || apply F). rewrite !rho_free by exact F.
    change (fun d => momentum (U I) d / U I 0%nat) with (vel (U I)). ring.
  - intros I X. rewrite X, mass_constrained, slope_constrained, heating_constrained by assumption. ring.
Qed.

Lemma total_new U v e : dense G U -> total G (write_back G U v e) (S dim) =
  rsum n (fun I => nodal_mass G I * (U I 0%nat * e I + 1 / 2 * U I 0%nat * norm2 dim (v I))).
Proof.
  intros Gs. apply sum_free.
  - intros I F. rewrite back_energy by (apply nonzero; assumption). reflexivity.
  - intros I X. rewrite mass_constrained by exact X. ring.
Qed.
Lemma energy_split (U : field) I : U I 0%nat <> 0 -> U I (S dim) = U I 0%nat * specific_energy dim (U I) + 1 / 2 * U I 0%nat * norm2 dim (vel (U I)).
Proof.
  intros N. unfold specific_energy, vel, norm2, dot.
  rewrite (rsum_ext _ (fun k => U I (S k) / U I 0%nat * (U I (S k) / U I 0%nat)) (fun k => / (U I 0%nat * U I 0%nat) * (U I (S k) * U I (S k)))) by (intros; field; exact N).
  rewrite rsum_scal. field. exact N.
Qed.

(** The change of the total energy is the work of the residuals. *)
Lemma energy_change U t tau v0 b e0 v e : proper G -> dense G U -> step_1 G bm init U t tau = (v0, b, e0) ->
  (forall I, free G I -> wall dim bm I /\ respects v I) ->
  total G (write_back G U v e) (S dim) - total G U (S dim) =
  rsum n (fun I => if is_constrained G I then 0 else dot dim (vsub (velocity_vmult G par bm tau (rho_ G U) v I) (b I)) (v I))
  + rsum n (fun I => if is_constrained G I then 0 else
      energy_vmult G bm (tau * cv_inverse_kappa par) (rho_ G U) e I - energy_rhs G par bm init U t tau e0 v I).
Proof.
  intros P Gs E1 W. assert (A := velocity_balance _ _ _ _ _ _ _ P E1 W).
  assert (B := energy_balance U t tau v0 b e0 v e P E1 (fun I F => proj1 (proj1 (W I F)))).
  set (R1 := rsum n (fun I => if is_constrained G I then 0 else dot _ _ _)) in *.
  set (R2 := rsum n (fun I => if is_constrained G I then 0 else energy_vmult _ _ _ _ _ _ - _)) in *.
  rewrite total_new by exact Gs.
  assert (C : total G U (S dim) = rsum n (fun I => nodal_mass G I * (U I 0%nat * specific_energy dim (U I) + 1 / 2 * U I 0%nat * norm2 dim (vel (U I))))).
  { apply sum_free; [intros I F; rewrite <- energy_split by (apply nonzero; assumption); reflexivity|intros I X; rewrite mass_constrained by exact X; ring]. }
  rewrite C.
  assert (D : rsum n (fun I => nodal_mass G I * U I 0%nat * (specific_energy dim (U I) + 1 / 2 * norm2 dim (vsub (vel (U I)) (v I)))) =
    rsum n (fun I => nodal_mass G I * U I 0%nat * specific_energy dim (U I)) + 1 / 2 * rsum n (fun I => nodal_mass G I * U I 0%nat * norm2 dim (vel (U I)))
    - rsum n (fun I => nodal_mass G I * dot dim (fun d => U I (S d)) (v I)) + 1 / 2 * rsum n (fun I => nodal_mass G I * U I 0%nat * norm2 dim (v I))).
  { rewrite <- !rsum_scal, <- rsum_plus, <- rs_minus, <- rsum_plus. apply sum_free.
    - intros I F. rewrite norm2_sub.
      assert (E : dot dim (fun d => U I (S d)) (v I) = U I 0%nat * dot dim (vel (U I)) (v I)).
      { rewrite <- dot_scal_l. apply rsum_ext. intros d _. unfold vscal, vel. f_equal. field. apply nonzero; assumption. }
      rewrite E. field.
    - intros I X. rewrite mass_constrained by exact X. ring. }
  assert (E : rsum n (fun I => nodal_mass G I * (U I 0%nat * e I + 1 / 2 * U I 0%nat * norm2 dim (v I))) =
    rsum n (fun I => nodal_mass G I * U I 0%nat * e I) + 1 / 2 * rsum n (fun I => nodal_mass G I * U I 0%nat * norm2 dim (v I))).
  { rewrite <- rsum_scal, <- rsum_plus. apply rsum_ext. intros; ring. }
  assert (E' : rsum n (fun I => nodal_mass G I * (U I 0%nat * specific_energy dim (U I) + 1 / 2 * U I 0%nat * norm2 dim (vel (U I)))) =
    rsum n (fun I => nodal_mass G I * U I 0%nat * specific_energy dim (U I)) + 1 / 2 * rsum n (fun I => nodal_mass G I * U I 0%nat * norm2 dim (vel (U I)))).
  { rewrite <- rsum_scal, <- rsum_plus. apply rsum_ext. intros; ring. }
  lra.
Qed.

Lemma C109_energy_proof : forall eps sv se U t tau U' r,
  proper G -> dense G U -> accurate_block n dim 0 sv -> accurate n 0 se ->
  (forall I, free G I -> wall dim bm I) ->
  backward_euler_step G par bm init eps sv se U t tau = Some (U', r) ->
  total G U' (S dim) = total G U (S dim).
Proof.
  intros eps sv se U t tau U' r P Gs Av Ae W H. destruct (step_inv _ _ _ _ _ _ _ _ H) as (v0 & b & e0 & v & e & E1 & Ev & Ee & -> & _).
  assert (Q := energy_change U t tau v0 b e0 v e P Gs E1).
  assert (W' : forall I, free G I -> wall dim bm I /\ respects v I).
  { intros I F. split; [apply W; exact F|]. apply (respects_exact _ _ _ _ _ _ _ _ E1 F (W I F)). intros d L. apply (exact_block _ _ _ _ _ _ I d Av Ev); [apply F|exact L]. }
  specialize (Q W'). rewrite rs_zero, rs_zero in Q; [lra| |].
  - intros I L. destruct (is_constrained G I); [reflexivity|]. rewrite (exact_scalar _ _ _ _ _ _ I Ae Ee L). ring.
  - intros I L. destruct (is_constrained G I); [reflexivity|]. apply rs_zero. intros d Ld. unfold vsub. rewrite (exact_block _ _ _ _ _ _ I d Av Ev L Ld). ring.
Qed.

Lemma rsum_abs_le m f B : (forall k, (k < m)%nat -> Rabs (f k) <= B k) -> Rabs (rsum m f) <= rsum m B.
Proof.
  induction m as [|m IH]; intros H; cbn [rsum]; [rewrite Rabs_R0; lra|].
  eapply Rle_trans; [apply Rabs_triang|]. apply Rplus_le_compat; [apply IH; intros; apply H; lia|apply H; lia].
Qed.

Lemma C109_tolerance_proof : forall eps tol tol' sv se U t tau U' r,
  proper G -> dense G U -> 0 <= tol -> 0 <= tol' -> accurate_block n dim tol sv -> iterates_block sv -> accurate n tol' se ->
  (forall I, free G I -> wall dim bm I) ->
  backward_euler_step G par bm init eps sv se U t tau = Some (U', r) ->
  Rabs (total G U' (S dim) - total G U (S dim)) <=
  tol * rsum n (fun I => if is_constrained G I then 0 else rsum dim (fun d => Rabs (vel (U' I) d))) + tol' * INR n.
Proof.
  intros eps tol tol' sv se U t tau U' r P Gs T T' Av It Ae W H. destruct (step_inv _ _ _ _ _ _ _ _ H) as (v0 & b & e0 & v & e & E1 & Ev & Ee & -> & _).
  destruct (It _ _ _ _ _ Ev) as (r' & p & Sx).
  rewrite (energy_change U t tau v0 b e0 v e P Gs E1).
  2:{ intros I F. split; [apply W; exact F|]. apply (respects_search _ _ _ _ _ _ _ _ _ _ E1 F (W I F) Sx). }
  eapply Rle_trans; [apply Rabs_triang|]. apply Rplus_le_compat.
  - rewrite <- rsum_scal. apply rsum_abs_le. intros I L. destruct (dec_free I L) as [F|X].
    + rewrite (free_not_constrained G I F). unfold dot. rewrite <- rsum_scal. apply rsum_abs_le. intros d Ld. rewrite Rabs_mult.
      rewrite back_vel by (try apply nonzero; assumption). apply Rmult_le_compat_r; [apply Rabs_pos|]. apply (Av _ _ _ _ _ Ev I d L Ld).
    + rewrite X, Rabs_R0. lra.
  - replace (tol' * INR n) with (rsum n (fun _ => tol')).
    + apply rsum_abs_le. intros I L. destruct (is_constrained G I); [rewrite Rabs_R0; exact T'|]. apply (Ae _ _ _ _ _ Ee I L).
    + clear. induction n as [|m IH]; [cbn; ring|]. cbn [rsum]. rewrite IH, S_INR. ring.
Qed.

Lemma C109_momentum_proof : forall eps sv se U t tau U' r a,
  proper G -> dense G U -> accurate_block n dim 0 sv ->
  (forall I, free G I -> no_strong_condition bm I) -> (a < dim)%nat ->
  backward_euler_step G par bm init eps sv se U t tau = Some (U', r) ->
  total G U' (S a) = total G U (S a).
Proof.
  intros eps sv se U t tau U' r a P Gs Av N La H.
  assert (Q : forall I, free G I -> nodal_mass G I * U' I (S a) + tau * integral G (fun c q => rsum dim (fun b =>
      newtonian par dim (velocity_gradient G (fun J => vel (U' J)) c q) a b * basis_grad G I c q b)) = nodal_mass G I * U I (S a)).
  { intros I F. exact (C107_momentum_proof eps sv se U t tau U' r I a P Gs Av H F (N I F) La). }
  assert (S0 := velocity_column_sum G par (fun J => vel (U' J)) a P).
  unfold total. transitivity (rsum n (fun I => nodal_mass G I * U' I (S a) + tau * integral G (fun c q => rsum dim (fun b =>
      newtonian par dim (velocity_gradient G (fun J => vel (U' J)) c q) a b * basis_grad G I c q b)))).
  - rewrite rsum_plus, rsum_scal, S0. ring.
  - apply sum_free; [exact Q|]. intros I X. rewrite mass_constrained, test_constrained by assumption. ring.
Qed.

Lemma C109_mass_proof : forall eps sv se U t tau U' r,
  backward_euler_step G par bm init eps sv se U t tau = Some (U', r) -> total G U' 0 = total G U 0.
Proof.
  intros eps sv se U t tau U' r H. apply rsum_ext. intros I _. f_equal. apply (C107_density_proof _ _ _ _ _ _ _ _ _ H).
Qed.

Lemma C109_kinetic_proof : forall eps sv se U t tau U' r,
  proper G -> gas G U -> (forall I, free G I -> 0 <= nodal_mass G I) -> accurate_block n dim 0 sv ->
  (forall I, free G I -> wall dim bm I) ->
  backward_euler_step G par bm init eps sv se U t tau = Some (U', r) ->
  kinetic_energy G U' + tau * integral G (fun c q =>
    contraction dim (velocity_gradient G (fun J => vel (U' J)) c q) (newtonian par dim (velocity_gradient G (fun J => vel (U' J)) c q)))
  <= kinetic_energy G U.
Proof.
  intros eps sv se U t tau U' r P Gs M Av W H. pose proof (gas_dense _ Gs) as Gd. destruct (step_inv _ _ _ _ _ _ _ _ H) as (v0 & b & e0 & v & e & E1 & Ev & _ & -> & _).
  assert (W' : forall I, free G I -> wall dim bm I /\ respects v I).
  { intros I F. split; [apply W; exact F|]. apply (respects_exact _ _ _ _ _ _ _ _ E1 F (W I F)). intros d L. apply (exact_block _ _ _ _ _ _ I d Av Ev); [apply F|exact L]. }
  assert (B := velocity_balance _ _ _ _ _ _ _ P E1 W'). rewrite (rs_zero n (fun I => if is_constrained G I then 0 else _)) in B.
  2:{ intros I L. destruct (is_constrained G I); [reflexivity|]. apply rs_zero. intros d Ld. unfold vsub. rewrite (exact_block _ _ _ _ _ _ I d Av Ev L Ld). ring. }
  rewrite (integral_ext G _ (fun c q => contraction dim (velocity_gradient G v c q) (newtonian par dim (velocity_gradient G v c q)))).
  2:{ intros c q Lc Lq. apply work_ext. intros a b0 La _. apply new_gradient; assumption. }
  fold (work v).
  assert (K : kinetic_energy G (write_back G U v e) = 1 / 2 * rsum n (fun I => nodal_mass G I * U I 0%nat * norm2 dim (v I))).
  { unfold kinetic_energy. rewrite <- rsum_scal. apply sum_free.
    - intros I F. rewrite back_density. assert (E : norm2 dim (vel (write_back G U v e I)) = norm2 dim (v I)).
      { apply dot_ext; intros d L; apply back_vel; try exact L; apply nonzero; assumption. } rewrite E. ring.
    - intros I X. rewrite mass_constrained by exact X. ring. }
  assert (C : rsum n (fun I => nodal_mass G I * dot dim (fun d => U I (S d)) (v I)) <=
    kinetic_energy G U + 1 / 2 * rsum n (fun I => nodal_mass G I * U I 0%nat * norm2 dim (v I))).
  { unfold kinetic_energy. rewrite <- rsum_scal, <- rsum_plus. apply rs_le. intros I L. destruct (dec_free I L) as [F|X].
    - assert (E : dot dim (fun d => U I (S d)) (v I) = U I 0%nat * dot dim (vel (U I)) (v I)).
      { rewrite <- dot_scal_l. apply rsum_ext. intros d _. unfold vscal, vel. f_equal. field. apply nonzero; assumption. }
      rewrite E. assert (Q := norm2_nonneg dim (vsub (vel (U I)) (v I))). rewrite norm2_sub in Q.
      assert (Z : 0 <= nodal_mass G I * U I 0%nat) by (apply Rmult_le_pos; [apply M; exact F|left; apply Gs; exact F]).
      assert (Z' := Rmult_le_pos _ _ Z Q). lra.
    - rewrite mass_constrained by exact X. lra. }
  rewrite K. lra.
Qed.
End Final.
