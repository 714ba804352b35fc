(** * The parabolic step: minimum principle, extrapolation, uniqueness *)
From Coq Require Import Reals List Bool Arith Lia Lra Psatz.
From Verif Require Import RVec BoundaryMap EulerSystem Assembly AssemblySpec AssemblyProofs AssemblyFinal Parabolic ParabolicSpec ParabolicProofs ParabolicRows ParabolicFinal.
Import ListNotations.
Local Open Scope R_scope.

Section More.
Variable G : geometry.
Variable par : viscosity.
Variable bm : list description.
Variable init : vec -> R -> vec.
Notation n := (g_n_dofs G).
Notation dim := (g_dim G).

(** ** C109 continued: rigid motions *)
Lemma skew_work A B : (forall a b, (a < dim)%nat -> (b < dim)%nat -> B a b + B b a = 0) -> contraction dim (newtonian par dim A) B = 0.
Proof.
  intros K. assert (E : contraction dim (newtonian par dim A) B = - contraction dim (newtonian par dim A) B); [|lra].
  unfold contraction at 2. rewrite rs_swap. replace (- rsum dim (fun c => rsum dim (fun i => newtonian par dim A i c * B i c))) with
    (-1 * rsum dim (fun c => rsum dim (fun i => newtonian par dim A i c * B i c))) by ring.
  rewrite <- rsum_scal. apply rsum_ext. intros a La. rewrite <- rsum_scal. apply rsum_ext. intros b Lb.
  rewrite (newtonian_symmetric G par A b a). assert (Q := K a b La Lb). replace (B a b) with (- B b a) by lra. ring.
Qed.

Lemma integral_zero u : (forall c q, (c < g_n_cells G)%nat -> (q < g_n_points G)%nat -> u c q = 0) -> integral G u = 0.
Proof.
  intros E. rewrite (integral_ext G u (fun _ _ => 0 * 0)); [rewrite (integral_scal G 0 (fun _ _ => 0)); ring|]. intros c q A B. rewrite E by assumption. ring.
Qed.

Lemma C109_rigid_proof : forall eps sv se U t tau U' r w,
  proper G -> dense G U -> accurate_block n dim 0 sv ->
  (forall I, free G I -> no_strong_condition bm I) -> rigid G w ->
  backward_euler_step G par bm init eps sv se U t tau = Some (U', r) ->
  rsum n (fun I => nodal_mass G I * rsum dim (fun d => w I d * U' I (S d))) =
  rsum n (fun I => nodal_mass G I * rsum dim (fun d => w I d * U I (S d))).
Proof.
  intros eps sv se U t tau U' r w P Gs Av N K H.
  assert (T := velocity_tested G par (fun J => vel (U' J)) w P). rewrite integral_zero in T.
  2:{ intros c q Lc Lq. apply skew_work. intros a b La Lb. apply K; assumption. }
  transitivity (rsum n (fun I => nodal_mass G I * rsum dim (fun d => w I d * U' I (S d)) + tau * rsum dim (fun a => w I a * integral G (fun c q => rsum dim (fun b =>
      newtonian par dim (velocity_gradient G (fun J => vel (U' J)) c q) a b * basis_grad G I c q b))))).
  - rewrite rsum_plus, rsum_scal, T. ring.
  - apply sum_free.
    + intros I F. rewrite <- !rsum_scal, <- rsum_plus. apply rsum_ext. intros a La.
      assert (Q := C107_momentum_proof G par bm init eps sv se U t tau U' r I a P Gs Av H F (N I F) La).
      replace (nodal_mass G I * (w I a * U I (S a))) with (w I a * (nodal_mass G I * U I (S a))) by ring. rewrite <- Q. ring.
    + intros I X. rewrite mass_constrained by exact X. 
      rewrite (rs_zero dim (fun a => w I a * integral G (fun c q => rsum dim (fun b => newtonian par dim (velocity_gradient G (fun J => vel (U' J)) c q) a b * basis_grad G I c q b)))); [ring|].
      intros a _. rewrite test_constrained by assumption. ring.
Qed.

Ltac ids e := unfold id_slip, id_no_slip, id_dirichlet in *;
  repeat match goal with |- context [Nat.eqb (d_id e) ?k] => destruct (Nat.eqb_spec (d_id e) k) end; cbn [orb]; try lia; try congruence.

(** ** C108 continued: a single slip normal of any length *)
Lemma fix_inert src l : soft l -> slips l = [] -> forall dst, fold_left (fix_row G src) l dst = dst.
Proof.
  induction l as [|e l IH]; intros N S dst; [reflexivity|]. cbn [fold_left]. rewrite slips_cons in S. destruct (N e (or_introl eq_refl)) as [A B].
  destruct (Nat.eqb_spec (d_id e) 2) as [E|E]; [discriminate|]. rewrite IH; [|intros x X; apply N; right; exact X|exact S]. unfold fix_row. ids e.
Qed.
Lemma rhs_inert t tau l : soft l -> slips l = [] -> forall dst, fold_left (rhs_row G init t tau) l dst = dst.
Proof.
  induction l as [|e l IH]; intros N S dst; [reflexivity|]. cbn [fold_left]. rewrite slips_cons in S. destruct (N e (or_introl eq_refl)) as [A B].
  destruct (Nat.eqb_spec (d_id e) 2) as [E|E]; [discriminate|]. rewrite IH; [|intros x X; apply N; right; exact X|exact S]. unfold rhs_row. ids e.
Qed.
Lemma fix_single src nu l : soft l -> slips l = [nu] -> forall dst,
  dot dim (fold_left (fix_row G src) l dst) nu = dot dim dst nu + (dot dim src nu - dot dim dst nu) * dot dim nu nu.
Proof.
  induction l as [|e l IH]; intros N S dst; [discriminate|]. cbn [fold_left]. rewrite slips_cons in S. destruct (N e (or_introl eq_refl)) as [A B].
  assert (N' : soft l) by (intros x X; apply N; right; exact X).
  destruct (Nat.eqb_spec (d_id e) 2) as [E|E].
  - injection S as S1 S2. rewrite fix_inert by assumption. unfold fix_row, id_slip. rewrite E. cbn [Nat.eqb]. rewrite slip_dot, S1. reflexivity.
  - rewrite IH by assumption. unfold fix_row. ids e.
Qed.
Lemma rhs_single t tau nu l : soft l -> slips l = [nu] -> forall dst,
  dot dim (fold_left (rhs_row G init t tau) l dst) nu = dot dim dst nu - dot dim dst nu * dot dim nu nu.
Proof.
  induction l as [|e l IH]; intros N S dst; [discriminate|]. cbn [fold_left]. rewrite slips_cons in S. destruct (N e (or_introl eq_refl)) as [A B].
  assert (N' : soft l) by (intros x X; apply N; right; exact X).
  destruct (Nat.eqb_spec (d_id e) 2) as [E|E].
  - injection S as S1 S2. rewrite rhs_inert by assumption. unfold rhs_row, id_slip. rewrite E. cbn [Nat.eqb]. rewrite remove_dot, S1. reflexivity.
  - rewrite IH by assumption. unfold rhs_row. ids e.
Qed.

Lemma C108_slip_length_proof : forall eps sv se U t tau U' r I nu,
  proper G -> dense G U -> accurate_block n dim 0 sv ->
  backward_euler_step G par bm init eps sv se U t tau = Some (U', r) ->
  free G I -> (forall e, In e (entries bm I) -> d_id e <> 3%nat /\ d_id e <> 4%nat) -> slip_normals bm I = [nu] ->
  let imbalance a := nodal_mass G I * U' I (S a)
    + tau * integral G (fun c q => rsum dim (fun b =>
        newtonian par dim (velocity_gradient G (fun J => vel (U' J)) c q) a b * basis_grad G I c q b))
    - nodal_mass G I * U I (S a) in
  dot dim nu nu * dot dim (vel (U' I)) nu = - (1 - dot dim nu nu) * dot dim imbalance nu.
Proof.
  intros eps sv se U t tau U' r I nu P Gs Ac H F N S0 imbalance. destruct (step_inv _ _ _ _ _ _ _ _ _ _ _ _ H) as (v0 & b & e0 & v & e & E1 & Ev & _ & EU & _).
  assert (X : dot dim (velocity_vmult G par bm tau (rho_ G U) v I) nu = dot dim (b I) nu).
  { apply dot_ext; [intros a La; apply (exact_block G _ _ _ _ _ _ I a Ac Ev); [apply F|exact La]|intros a La; reflexivity]. }
  rewrite velocity_vmult_row in X by apply F. destruct (step_1_row _ _ _ _ _ _ _ _ _ _ E1 F) as (_ & Eb & _). rewrite Eb in X.
  rewrite (fix_single _ nu) in X by assumption. rewrite (rhs_single _ _ nu) in X by assumption.
  assert (Ei : dot dim imbalance nu = dot dim (velocity_stiffness G par tau (rho_ G U) v I) nu - dot dim (velocity_rhs_0 G U I) nu).
  { rewrite <- dot_sub_l. apply rsum_ext. intros a La. f_equal. unfold vsub, imbalance. rewrite velocity_row by (assumption || apply F). rewrite rho_free by exact F.
    unfold velocity_rhs_0, momentum. rewrite mass_nodal by (assumption || apply F). assert (Em : U' I (S a) = U I 0%nat * v I a) by (rewrite EU; apply back_momentum; exact La). rewrite Em.
    rewrite Rmult_assoc. f_equal. f_equal. f_equal. apply integral_ext. intros c q Lc Lq. apply rsum_ext. intros b0 Lb.
    f_equal. apply newtonian_ext; try assumption. intros a' b' La' _. rewrite EU. apply new_gradient; assumption. }
  assert (Ew : dot dim (vel (U' I)) nu = dot dim (v I) nu).
  { apply dot_ext; [intros a La; rewrite EU; apply back_vel; [apply (nonzero G); assumption|exact La]|intros a La; reflexivity]. }
  rewrite Ei, Ew. set (s := dot dim nu nu) in *. set (D := dot dim (velocity_stiffness _ _ _ _ _ _) nu) in *. set (B := dot dim (velocity_rhs_0 _ _ _) nu) in *.
  set (V := dot dim (v I) nu) in *. lra.
Qed.

(** ** C110: minimum principle of the internal energy *)
Lemma heating_nonneg v I : proper G -> physical par dim -> positive_weights G -> positive_basis G -> free G I -> 0 <= heating G par v I.
Proof.
  intros P (Hm & Hl & _ & D) J B F. rewrite heating_row by exact P. apply integral_nonneg; [exact J|]. intros c q Lc Lq.
  apply Rmult_le_pos; [apply work_nonneg; assumption|apply B; assumption].
Qed.

(** The energy of a row with a Dirichlet entry is prescribed by one of them. *)
Lemma energy_some t tau l : (exists e, In e l /\ d_id e = 4%nat) ->
  forall x, exists e, In e l /\ d_id e = 4%nat /\ fold_left (energy_row_of G init t tau) l x = dirichlet_energy G init (d_position e) (t + tau).
Proof.
  assert (K : forall l x, (exists e, In e l /\ d_id e = 4%nat /\ fold_left (energy_row_of G init t tau) l x = dirichlet_energy G init (d_position e) (t + tau))
     \/ fold_left (energy_row_of G init t tau) l x = x).
  { clear. induction l as [|y l IH]; intros x; [right; reflexivity|]. cbn [fold_left]. destruct (IH (energy_row_of G init t tau x y)) as [(e & A & B & C)|E].
    - left. exists e. split; [right; exact A|split; assumption].
    - rewrite E. unfold energy_row_of. unfold id_dirichlet. destruct (Nat.eqb_spec (d_id y) 4) as [Z|Z]; [|right; reflexivity].
      left. exists y. split; [left; reflexivity|split; [exact Z|reflexivity]]. }
  induction l as [|y l IH]; intros (e & A & B) x; [destruct A|]. cbn [fold_left]. destruct A as [->|A].
  - destruct (K l (energy_row_of G init t tau x e)) as [(e' & A' & B' & C')|E].
    + exists e'. split; [right; exact A'|split; assumption].
    + exists e. split; [left; reflexivity|split; [exact B|]]. rewrite E. unfold energy_row_of, id_dirichlet. rewrite B. reflexivity.
  - destruct (IH (ex_intro _ e (conj A B)) (energy_row_of G init t tau x y)) as (e' & A' & B' & C'). exists e'. split; [right; exact A'|split; assumption].
Qed.
Lemma dirichlet_dec l : (exists e, In e l /\ d_id e = 4%nat) \/ forall e : description, In e l -> d_id e <> 4%nat.
Proof.
  induction l as [|e l IH]; [right; intros e []|]. destruct (Nat.eq_dec (d_id e) 4) as [E|E].
  - left. exists e. split; [left; reflexivity|exact E].
  - destruct IH as [(x & A & B)|IH]; [left; exists x; split; [right; exact A|exact B]|]. right. intros x [<-|J]; auto.
Qed.

Lemma argmin (e : nat -> R) : (exists I, free G I) -> exists I, free G I /\ forall J, free G J -> e I <= e J.
Proof.
  intros (I0 & F0).
  assert (K : forall m, (m <= n)%nat -> (forall J, (J < m)%nat -> ~ free G J) \/ exists I, free G I /\ forall J, (J < m)%nat -> free G J -> e I <= e J).
  { induction m as [|m IH]; intros L; [left; intros; lia|]. assert (D := dec_free G m L).
    destruct IH as [IH|(I & F & IH)]; [lia| |].
    - destruct D as [D|D].
      + right. exists m. split; [exact D|]. intros J LJ FJ. destruct (Nat.eq_dec J m) as [->|Ne]; [lra|]. exfalso. apply (IH J); [lia|exact FJ].
      + left. intros J LJ FJ. destruct (Nat.eq_dec J m) as [->|Ne]; [rewrite (free_not_constrained G m FJ) in D; discriminate|]. apply (IH J); [lia|exact FJ].
    - destruct D as [D|D].
      + destruct (Rle_dec (e I) (e m)) as [Q|Q].
        * right. exists I. split; [exact F|]. intros J LJ FJ. destruct (Nat.eq_dec J m) as [->|Ne]; [exact Q|]. apply IH; [lia|exact FJ].
        * right. exists m. split; [exact D|]. intros J LJ FJ. destruct (Nat.eq_dec J m) as [->|Ne]; [lra|]. assert (Z := IH J ltac:(lia) FJ). lra.
      + right. exists I. split; [exact F|]. intros J LJ FJ. destruct (Nat.eq_dec J m) as [->|Ne]; [rewrite (free_not_constrained G m FJ) in D; discriminate|].
        apply IH; [lia|exact FJ]. }
  destruct (K n (le_n n)) as [Q|(I & F & Q)].
  - exfalso. exact (Q I0 (proj1 F0) F0).
  - exists I. split; [exact F|]. intros J FJ. apply Q; [apply FJ|exact FJ].
Qed.

Lemma slope_entries e I : proper G ->
  integral G (fun c q => rsum dim (fun b => slope G e c q b * basis_grad G I c q b)) = rsum n (fun J => (e J - e I) * laplace G I J).
Proof.
  intros P. unfold laplace. rewrite (rsum_ext _ (fun J => (e J - e I) * integral G (fun c q => rsum dim (fun b => basis_grad G J c q b * basis_grad G I c q b)))
    (fun J => integral G (fun c q => (e J - e I) * rsum dim (fun b => basis_grad G J c q b * basis_grad G I c q b)))) by (intros; rewrite integral_scal; reflexivity).
  rewrite integral_sum. apply integral_ext. intros c q Lc Lq.
  rewrite (rsum_ext _ (fun k => (e k - e I) * rsum dim (fun b => basis_grad G k c q b * basis_grad G I c q b))
    (fun k => rsum dim (fun b => (e k - e I) * (basis_grad G k c q b * basis_grad G I c q b)))) by (intros; rewrite rsum_scal; reflexivity).
  rewrite rs_swap. apply rsum_ext. intros b _. unfold slope.
  rewrite (rsum_ext _ (fun k => (e k - e I) * (basis_grad G k c q b * basis_grad G I c q b))
    (fun k => basis_grad G I c q b * (e k * basis_grad G k c q b) + (- e I * basis_grad G I c q b) * basis_grad G k c q b)) by (intros; ring).
  rewrite rsum_plus, !rsum_scal, grad_sum by assumption. ring.
Qed.

Lemma laplace_constrained I J : proper G -> is_constrained G J = true -> laplace G I J = 0.
Proof.
  intros P X. apply integral_zero. intros c q Lc Lq. apply rs_zero. intros b _. rewrite basis_grad_constrained by assumption. ring.
Qed.

Lemma C110_minimum_proof : forall eps sv se U t tau U' r low,
  proper G -> gas G U -> physical par dim -> positive_weights G -> positive_basis G -> positive_masses G ->
  (forall I J, free G I -> free G J -> I <> J -> laplace G I J <= 0) -> 0 <= tau ->
  accurate n 0 se ->
  backward_euler_step G par bm init eps sv se U t tau = Some (U', r) ->
  (forall I, free G I -> low <= specific_energy dim (U I)) ->
  (forall I e, free G I -> In e (entries bm I) -> d_id e = 4%nat -> low <= specific_energy dim (init (d_position e) (t + tau))) ->
  forall I, free G I -> low <= specific_energy dim (U' I).
Proof.
  intros eps sv se U t tau U' r low P Gs Ph J B M Off T Ac H Lo Ld I FI. pose proof (gas_dense _ _ Gs) as Gd.
  destruct (step_inv _ _ _ _ _ _ _ _ _ _ _ _ H) as (v0 & b & e0 & v & e & E1 & _ & Ee & -> & _).
  rewrite back_specific by (apply (nonzero G); assumption).
  destruct (argmin e (ex_intro _ I FI)) as (K & FK & Min). apply Rle_trans with (e K); [|apply Min; exact FI].
  assert (X := exact_scalar G _ _ _ _ _ _ K Ac Ee (proj1 FK)). rewrite energy_vmult_row in X by apply FK. rewrite energy_rhs_row in X by exact FK.
  destruct (dirichlet_dec (entries bm K)) as [D|D].
  - rewrite energy_fix_identity in X by exact D. rewrite X.
    destruct (energy_some t tau _ D (energy_rhs_0 G par U tau e0 v K)) as (y & A1 & A2 & ->). rewrite dirichlet_specific. apply Ld with K; assumption.
  - rewrite energy_fix_inactive, energy_inactive in X by exact D. rewrite energy_row in X by (assumption || apply FK).
    unfold energy_rhs_0 in X. cbv zeta in X.
    destruct (step_1_row _ _ _ _ _ _ _ _ _ _ E1 FK) as (_ & _ & Eo). rewrite Eo, energy_inactive, specific_old in X by exact D.
    rewrite mass_nodal in X by (assumption || apply FK). rewrite !(rho_free G) in X by exact FK.
    assert (Hh := heating_nonneg v K P Ph J B FK). assert (Mk := M K FK). assert (Gk := Gs K FK). assert (Lk := Lo K FK).
    rewrite slope_entries in X by exact P.
    assert (S0 : rsum n (fun J0 => (e J0 - e K) * laplace G K J0) <= 0).
    { rewrite <- (rsum_0 n). apply rs_le. intros L LL. destruct (dec_free G L LL) as [FL|XL].
      - destruct (Nat.eq_dec L K) as [->|Ne]; [lra|]. assert (Q := Min L FL). assert (Q' := Off K L FK FL (fun h => Ne (eq_sym h))). nra.
      - rewrite laplace_constrained by assumption. lra. }
    assert (Kp : 0 <= tau * cv_inverse_kappa par) by (apply Rmult_le_pos; [exact T|apply Ph]).
    set (w := norm2 dim _) in X. assert (Wn : 0 <= w) by apply norm2_nonneg.
    assert (Z1 := Rmult_le_pos _ _ T Hh). assert (Z2 : tau * cv_inverse_kappa par * rsum n (fun J0 => (e J0 - e K) * laplace G K J0) <= 0) by nra.
    assert (Mr : 0 < nodal_mass G K * U K 0%nat) by (apply Rmult_lt_0_compat; assumption).
    apply Rmult_le_reg_l with (nodal_mass G K * U K 0%nat); [exact Mr|]. set (q := nodal_mass G K * U K 0%nat) in *.
    assert (Z3 : q * low <= q * specific_energy dim (U K)) by (apply Rmult_le_compat_l; [lra|exact Lk]).
    assert (Z4 : 0 <= q * (1 / 2 * w)) by (apply Rmult_le_pos; lra).
    rewrite Rmult_plus_distr_l in X. lra.
Qed.

(** ** The check of the minimum *)
Lemma minimum_le e i : (i < n)%nat -> minimum G e <= e i.
Proof.
  intros L. unfold minimum. assert (X : In (e i) (map e (seq 0 n))) by (apply in_map; apply in_seq; lia).
  revert X. generalize (map e (seq 0 n)). intros l. induction l as [|y l IH]; [intros []|]. cbn [fold_right]. intros [->|X].
  - apply Rmin_l.
  - eapply Rle_trans; [apply Rmin_r|]. apply IH. exact X.
Qed.
Lemma minimum_ge e low : (0 < n)%nat -> (forall i, (i < n)%nat -> low <= e i) -> low <= minimum G e.
Proof.
  intros P H. unfold minimum. assert (X : forall y, In y (map e (seq 0 n)) -> low <= y).
  { intros y Y. apply in_map_iff in Y. destruct Y as (i & <- & Y). apply in_seq in Y. apply H. lia. }
  revert X. generalize (map e (seq 0 n)). intros l. induction l as [|y l IH]; intros X; cbn [fold_right]; [apply H; exact P|].
  apply Rmin_glb; [apply X; left; reflexivity|]. apply IH. intros z Z. apply X. right. exact Z.
Qed.

(** The energy of the first step, in terms of the state and the prescribed values. *)
Lemma start_energy U t tau v0 b e0 low I : step_1 G bm init U t tau = (v0, b, e0) -> free G I ->
  low <= specific_energy dim (U I) ->
  (forall e, In e (entries bm I) -> d_id e = 4%nat -> low <= specific_energy dim (init (d_position e) (t + tau))) -> low <= e0 I.
Proof.
  intros E1 F L Ld. destruct (step_1_row _ _ _ _ _ _ _ _ _ _ E1 F) as (_ & _ & ->). destruct (dirichlet_dec (entries bm I)) as [D|D].
  - destruct (energy_some t tau _ D (internal_energy_0 G U I)) as (y & A1 & A2 & ->). rewrite dirichlet_specific. apply Ld; assumption.
  - rewrite energy_inactive by exact D. rewrite specific_old. exact L.
Qed.

Lemma C110_flag_proof : forall eps sv se U t tau U' low,
  gas G U -> (forall I, (I < n)%nat -> free G I) -> 0 <= 1 - 1000 * eps ->
  backward_euler_step G par bm init eps sv se U t tau = Some (U', false) ->
  (forall I, free G I -> low <= specific_energy dim (U I)) ->
  (forall I e, free G I -> In e (entries bm I) -> d_id e = 4%nat -> low <= specific_energy dim (init (d_position e) (t + tau))) ->
  forall I, free G I -> low * (1 - 1000 * eps) <= specific_energy dim (U' I).
Proof.
  intros eps sv se U t tau U' low Gs All Pe H Lo Ld I F. pose proof (gas_dense _ _ Gs) as Gd. destruct (step_inv _ _ _ _ _ _ _ _ _ _ _ _ H) as (v0 & b & e0 & v & e & E1 & _ & _ & -> & Fl).
  rewrite back_specific by (apply (nonzero G); assumption). destruct (Rlt_dec _ _) as [Q|Q] in Fl; [discriminate|].
  assert (A := minimum_le e I (proj1 F)).
  assert (B : low <= minimum G e0).
  { apply minimum_ge; [destruct F; lia|]. intros i Li. assert (Fi := All i Li). apply (start_energy U t tau v0 b e0 low i E1 Fi); [apply Lo; exact Fi|].
    intros y Y. apply Ld with i; assumption. }
  apply Rle_trans with (minimum G e0 * (1 - 1000 * eps)); [apply Rmult_le_compat_r; assumption|lra].
Qed.

Lemma C110_nonnegative_proof : forall eps sv se U t tau U',
  gas G U -> 0 <= 1 - 1000 * eps ->
  backward_euler_step G par bm init eps sv se U t tau = Some (U', false) ->
  (forall I, free G I -> 0 <= specific_energy dim (U I)) ->
  (forall I e, free G I -> In e (entries bm I) -> d_id e = 4%nat -> 0 <= specific_energy dim (init (d_position e) (t + tau))) ->
  forall I, free G I -> 0 <= specific_energy dim (U' I).
Proof.
  intros eps sv se U t tau U' Gs Pe H Lo Ld I F. pose proof (gas_dense _ _ Gs) as Gd. destruct (step_inv _ _ _ _ _ _ _ _ _ _ _ _ H) as (v0 & b & e0 & v & e & E1 & _ & _ & -> & Fl).
  rewrite back_specific by (apply (nonzero G); assumption). destruct (Rlt_dec _ _) as [Q|Q] in Fl; [discriminate|].
  assert (A := minimum_le e I (proj1 F)).
  assert (B : 0 <= minimum G e0).
  { apply minimum_ge; [destruct F; lia|]. intros i Li. destruct (dec_free G i Li) as [Fi|Xi].
    - apply (start_energy U t tau v0 b e0 0 i E1 Fi); [apply Lo; exact Fi|]. intros y Y. apply Ld with i; assumption.
    - destruct (step_1_zero _ _ _ _ _ _ _ _ _ _ E1 Xi) as (_ & _ & ->). lra. }
  assert (Z := Rmult_le_pos _ _ B Pe). lra.
Qed.

(** ** C111: extrapolation *)
Lemma C111_total_proof : forall (old new : field) k, total G (extrapolate old new) k = 2 * total G new k - total G old k.
Proof.
  intros old new k. unfold total, extrapolate. rewrite <- rsum_scal, <- rs_minus. apply rsum_ext. intros; ring.
Qed.

Lemma C111_density_proof : forall eps sv se U t tau U' r I,
  backward_euler_step G par bm init eps sv se U t tau = Some (U', r) -> extrapolate U U' I 0%nat = U I 0%nat.
Proof. intros. unfold extrapolate. rewrite (C107_density_proof G par bm init _ _ _ _ _ _ _ _ I H). ring. Qed.

Lemma extrapolate_specific (U U' : field) I : U I 0%nat <> 0 -> U' I 0%nat = U I 0%nat ->
  specific_energy dim (extrapolate U U' I) =
  2 * specific_energy dim (U' I) - specific_energy dim (U I)
  - rsum dim (fun d => (vel (U' I) d - vel (U I) d) * (vel (U' I) d - vel (U I) d)).
Proof.
  intros N E. unfold specific_energy, vel, extrapolate. rewrite E. set (rho := U I 0%nat) in *.
  rewrite (rsum_ext _ (fun d => (U' I (S d) / rho - U I (S d) / rho) * (U' I (S d) / rho - U I (S d) / rho))
    (fun d => / (rho * rho) * (U' I (S d) * U' I (S d)) + (-2 * / (rho * rho)) * (U' I (S d) * U I (S d)) + / (rho * rho) * (U I (S d) * U I (S d)))) by (intros; field; exact N).
  rewrite (rsum_ext _ (fun d => (2 * U' I (S d) + - (1) * U I (S d)) * (2 * U' I (S d) + - (1) * U I (S d)))
    (fun d => 4 * (U' I (S d) * U' I (S d)) + (-4) * (U' I (S d) * U I (S d)) + 1 * (U I (S d) * U I (S d)))) by (intros; ring).
  rewrite !rsum_plus, !rsum_scal. field. exact N.
Qed.

(** The midpoint rule. *)
Lemma C111_energy_proof : forall eps sv se U t tau U' r I,
  proper G -> dense G U -> accurate n 0 se ->
  backward_euler_step G par bm init eps sv se U t tau = Some (U', r) ->
  free G I -> no_dirichlet bm I ->
  let v' J := vel (U' J) in let e' J := specific_energy dim (U' J) in
  nodal_mass G I * U I 0%nat * specific_energy dim (extrapolate U U' I)
  + 2 * tau * cv_inverse_kappa par * integral G (fun c q => rsum dim (fun b => slope G e' c q b * basis_grad G I c q b))
  = nodal_mass G I * U I 0%nat * specific_energy dim (U I)
  + 2 * tau * integral G (fun c q =>
      contraction dim (velocity_gradient G v' c q) (newtonian par dim (velocity_gradient G v' c q)) * basis G I c q).
Proof.
  intros eps sv se U t tau U' r I P Gs Ac H F N v' e'.
  assert (Q := C107_energy_proof G par bm init eps sv se U t tau U' r I P Gs Ac H F N). cbv zeta in Q. fold e' in Q. fold v' in Q.
  rewrite extrapolate_specific; [|apply (nonzero G); assumption|apply (C107_density_proof G par bm init _ _ _ _ _ _ _ _ I H)].
  unfold e' in *. unfold v' in *. set (D := rsum dim (fun d => (vel (U' I) d - vel (U I) d) * (vel (U' I) d - vel (U I) d))) in *.
  set (I1 := integral G _) in *. set (I2 := integral G _) in *. lra.
Qed.

Lemma C111_momentum_proof : forall eps sv se U t tau U' r I a,
  proper G -> dense G U -> accurate_block n dim 0 sv ->
  backward_euler_step G par bm init eps sv se U t tau = Some (U', r) ->
  free G I -> no_strong_condition bm I -> (a < dim)%nat ->
  nodal_mass G I * extrapolate U U' I (S a)
  + 2 * tau * integral G (fun c q => rsum dim (fun b =>
      newtonian par dim (velocity_gradient G (fun J => vel (U' J)) c q) a b * basis_grad G I c q b))
  = nodal_mass G I * U I (S a).
Proof.
  intros eps sv se U t tau U' r I a P Gs Ac H F N La.
  assert (Q := C107_momentum_proof G par bm init eps sv se U t tau U' r I a P Gs Ac H F N La). unfold extrapolate.
  set (I1 := integral G _) in *. lra.
Qed.

Lemma C111_kinetic_proof : forall eps sv se U t tau U' r,
  proper G -> dense G U -> accurate_block n dim 0 sv ->
  (forall I, free G I -> wall dim bm I) ->
  backward_euler_step G par bm init eps sv se U t tau = Some (U', r) ->
  kinetic_energy G (extrapolate U U') + 2 * tau * integral G (fun c q =>
    contraction dim (velocity_gradient G (fun J => vel (U' J)) c q) (newtonian par dim (velocity_gradient G (fun J => vel (U' J)) c q)))
  = kinetic_energy G U.
Proof.
  intros eps sv se U t tau U' r P Gs Av W H. destruct (step_inv _ _ _ _ _ _ _ _ _ _ _ _ H) as (v0 & b & e0 & v & e & E1 & Ev & _ & EU & _).
  assert (W' : forall I, free G I -> wall dim bm I /\ respects G bm v I).
  { intros I F. split; [apply W; exact F|]. apply (respects_exact G par bm init _ _ _ _ _ _ _ _ E1 F (W I F)). intros d L. apply (exact_block G _ _ _ _ _ _ I d Av Ev); [apply F|exact L]. }
  assert (B := velocity_balance G par bm init _ _ _ _ _ _ _ P E1 W'). rewrite (rs_zero n (fun I => if is_constrained G I then 0 else _)) in B.
  2:{ intros I L. destruct (is_constrained G I); [reflexivity|]. apply rs_zero. intros d Ld. unfold vsub. rewrite (exact_block G _ _ _ _ _ _ I d Av Ev L Ld). ring. }
  rewrite (integral_ext G _ (fun c q => contraction dim (velocity_gradient G v c q) (newtonian par dim (velocity_gradient G v c q)))).
  2:{ intros c q Lc Lq. apply work_ext. intros a b0 La _. rewrite EU. apply new_gradient; assumption. }
  fold (work G par v).
  assert (K : kinetic_energy G (extrapolate U U') = kinetic_energy G U +
    2 * (rsum n (fun I => nodal_mass G I * U I 0%nat * norm2 dim (v I)) - rsum n (fun I => nodal_mass G I * dot dim (fun d => U I (S d)) (v I)))).
  { unfold kinetic_energy. rewrite <- rs_minus, <- rsum_scal, <- rsum_plus. apply sum_free.
    - intros I F. assert (Nz := nonzero G U I Gs F).
      assert (Ed : extrapolate U U' I 0%nat = U I 0%nat) by (unfold extrapolate; rewrite EU, back_density; ring).
      assert (Ev' : norm2 dim (vel (extrapolate U U' I)) = 4 * norm2 dim (v I) - 4 * dot dim (vel (U I)) (v I) + norm2 dim (vel (U I))).
      { unfold norm2 at 1. rewrite (dot_ext dim _ (vsub (vscal 2 (v I)) (vel (U I))) _ (vsub (vscal 2 (v I)) (vel (U I)))).
        - change (dot dim (vsub (vscal 2 (v I)) (vel (U I))) (vsub (vscal 2 (v I)) (vel (U I)))) with (norm2 dim (vsub (vscal 2 (v I)) (vel (U I)))).
          rewrite norm2_sub, norm2_scal, dot_scal_l, (dot_comm dim (v I)). ring.
        - intros d Ld. unfold vel at 1. rewrite Ed. unfold extrapolate. rewrite EU, back_momentum by exact Ld. unfold vsub, vscal, vel. field. exact Nz.
        - intros d Ld. unfold vel at 1. rewrite Ed. unfold extrapolate. rewrite EU, back_momentum by exact Ld. unfold vsub, vscal, vel. field. exact Nz. }
      rewrite Ed, Ev'.
      assert (E : dot dim (fun d => U I (S d)) (v I) = U I 0%nat * dot dim (vel (U I)) (v I)).
      { rewrite <- dot_scal_l. apply rsum_ext. intros d _. unfold vscal, vel. f_equal. field. exact Nz. }
      rewrite E. field.
    - intros I X. rewrite mass_constrained by exact X. ring. }
  rewrite K. lra.
Qed.

(** ** C112: uniqueness *)
Lemma newtonian_sub A B a b :
  newtonian par dim (fun a b => A a b - B a b) a b = newtonian par dim A a b - newtonian par dim B a b.
Proof. unfold newtonian. rewrite rs_minus. destruct (Nat.eqb a b); ring. Qed.
Lemma slope_sub u v c q b : slope G (fun I => u I - v I) c q b = slope G u c q b - slope G v c q b.
Proof. unfold slope. rewrite <- rs_minus. apply rsum_ext. intros; ring. Qed.
Lemma integral_sub u v : integral G (fun c q => u c q - v c q) = integral G u - integral G v.
Proof.
  unfold integral. rewrite <- rs_minus. apply rsum_ext. intros c _. rewrite <- rs_minus. apply rsum_ext. intros; ring.
Qed.

Lemma stiffness_sub tau rho v w I a : proper G -> (I < n)%nat -> (a < dim)%nat ->
  velocity_stiffness G par tau rho v I a - velocity_stiffness G par tau rho w I a = velocity_stiffness G par tau rho (fun I => vsub (v I) (w I)) I a.
Proof.
  intros P LI La. rewrite !velocity_row by assumption.
  rewrite (integral_ext G (fun c q => rsum dim (fun b => newtonian par dim (velocity_gradient G (fun I0 => vsub (v I0) (w I0)) c q) a b * basis_grad G I c q b))
    (fun c q => rsum dim (fun b => newtonian par dim (velocity_gradient G v c q) a b * basis_grad G I c q b)
              - rsum dim (fun b => newtonian par dim (velocity_gradient G w c q) a b * basis_grad G I c q b))).
  - rewrite integral_sub. unfold vsub. ring.
  - intros c q Lc Lq. rewrite <- rs_minus. apply rsum_ext. intros b Lb.
    rewrite (newtonian_ext G par (velocity_gradient G (fun I0 => vsub (v I0) (w I0)) c q) (fun a b => velocity_gradient G v c q a b - velocity_gradient G w c q a b)).
    + rewrite newtonian_sub. ring.
    + intros a' b' _ _. unfold velocity_gradient, vsub. apply slope_sub.
    + exact La.
    + exact Lb.
Qed.
Lemma energy_stiffness_sub k rho v w I : proper G -> (I < n)%nat ->
  energy_stiffness G k rho v I - energy_stiffness G k rho w I = energy_stiffness G k rho (fun I => v I - w I) I.
Proof.
  intros P LI. rewrite !energy_row by assumption.
  rewrite (integral_ext G (fun c q => rsum dim (fun b => slope G (fun I0 => v I0 - w I0) c q b * basis_grad G I c q b))
    (fun c q => rsum dim (fun b => slope G v c q b * basis_grad G I c q b) - rsum dim (fun b => slope G w c q b * basis_grad G I c q b))).
  - rewrite integral_sub. ring.
  - intros c q Lc Lq. rewrite <- rs_minus. apply rsum_ext. intros b Lb. rewrite slope_sub. ring.
Qed.

Lemma zero_sum (f : nat -> R) m : (forall k, (k < m)%nat -> 0 <= f k) -> rsum m f <= 0 -> forall k, (k < m)%nat -> f k = 0.
Proof.
  induction m as [|m IH]; intros P S k L; [lia|]. cbn [rsum] in S.
  assert (A : 0 <= rsum m f) by (apply rsum_nonneg; intros; apply P; lia). assert (B := P m (le_n _)).
  destruct (Nat.eq_dec k m) as [->|Ne]; [lra|]. apply IH; [intros; apply P; lia|lra|lia].
Qed.

Lemma velocity_unique U t tau v0 b e0 v w : proper G -> gas G U -> physical par dim -> positive_weights G -> positive_masses G -> 0 <= tau ->
  (forall I, free G I -> posed dim bm I) -> step_1 G bm init U t tau = (v0, b, e0) ->
  (forall I d, free G I -> (d < dim)%nat -> velocity_vmult G par bm tau (rho_ G U) v I d = b I d) ->
  (forall I d, free G I -> (d < dim)%nat -> velocity_vmult G par bm tau (rho_ G U) w I d = b I d) ->
  forall I d, free G I -> (d < dim)%nat -> v I d = w I d.
Proof.
  intros P Gs (Hm & Hl & _ & D3) J M T W E1 Hv Hw. pose proof (gas_dense _ _ Gs) as Gd. set (z := fun I => vsub (v I) (w I)).
  assert (R0 : forall I, free G I -> dot dim (velocity_stiffness G par tau (rho_ G U) z I) (z I) = 0).
  { intros I F.
    assert (Ez : dot dim (velocity_stiffness G par tau (rho_ G U) z I) (z I) =
      dot dim (velocity_stiffness G par tau (rho_ G U) v I) (z I) - dot dim (velocity_stiffness G par tau (rho_ G U) w I) (z I)).
    { rewrite <- dot_sub_l. apply rsum_ext. intros a La. unfold vsub at 1. rewrite stiffness_sub by (assumption || apply F). reflexivity. }
    rewrite Ez. assert (Hard : (exists e, In e (entries bm I) /\ (d_id e = 3%nat \/ d_id e = 4%nat)) -> dot dim (velocity_stiffness G par tau (rho_ G U) v I) (z I) - dot dim (velocity_stiffness G par tau (rho_ G U) w I) (z I) = 0).
    { intros X. assert (Z : forall d, (d < dim)%nat -> z I d = 0).
      { intros d L. assert (A := Hv I d F L). assert (B := Hw I d F L). rewrite velocity_vmult_row in A, B by apply F.
        rewrite fix_identity in A, B by exact X. unfold z, vsub. rewrite A, B. ring. }
      unfold dot. rewrite !rs_zero; [ring| |]; intros d L; rewrite (Z d L); ring. }
    assert (Dec : (exists e, In e (entries bm I) /\ (d_id e = 3%nat \/ d_id e = 4%nat)) \/ soft (entries bm I)).
    { clear. induction (entries bm I) as [|e l IH]; [right; intros e []|]. destruct (Nat.eq_dec (d_id e) 3) as [E|E]; [left; exists e; split; [left; reflexivity|auto]|].
      destruct (Nat.eq_dec (d_id e) 4) as [E'|E']; [left; exists e; split; [left; reflexivity|auto]|].
      destruct IH as [(x & A & B)|IH]; [left; exists x; split; [right; exact A|exact B]|]. right. intros x [<-|Q]; auto. }
    destruct Dec as [Dec|So]; [apply Hard; exact Dec|]. destruct (W I F) as [X|O]; [apply Hard; exact X|].
    assert (Zn : forall nu, In nu (slip_normals bm I) -> dot dim nu (z I) = 0).
    { intros nu Q. rewrite dot_comm. unfold z. rewrite dot_sub_l.
      rewrite <- (fix_normal G (v I) (entries bm I) So O nu Q (velocity_stiffness G par tau (rho_ G U) v I)).
      rewrite <- (fix_normal G (w I) (entries bm I) So O nu Q (velocity_stiffness G par tau (rho_ G U) w I)).
      rewrite <- !velocity_vmult_row by apply F.
      rewrite (dot_ext dim _ (b I) nu nu) by ((intros k Lk; apply Hv; assumption) || (intros k Lk; reflexivity)).
      rewrite (dot_ext dim (velocity_vmult G par bm tau (rho_ G U) w I) (b I) nu nu) by ((intros k Lk; apply Hw; assumption) || (intros k Lk; reflexivity)). ring. }
    rewrite <- (fix_orthogonal G (v I) (z I) (entries bm I) So Zn). rewrite <- (fix_orthogonal G (w I) (z I) (entries bm I) So Zn (velocity_stiffness G par tau (rho_ G U) w I)).
    rewrite <- !velocity_vmult_row by apply F.
    rewrite (dot_ext dim _ (b I) (z I) (z I)) by ((intros k Lk; apply Hv; assumption) || (intros k Lk; reflexivity)).
    rewrite (dot_ext dim (velocity_vmult G par bm tau (rho_ G U) w I) (b I) (z I) (z I)) by ((intros k Lk; apply Hw; assumption) || (intros k Lk; reflexivity)). ring. }
  assert (Sum : rsum n (fun I => nodal_mass G I * U I 0%nat * norm2 dim (z I)) + tau * work G par z = 0).
  { assert (Te : tau * work G par z = rsum n (fun I => tau * rsum dim (fun a => z I a * integral G (fun c q => rsum dim (fun b0 => newtonian par dim (velocity_gradient G z c q) a b0 * basis_grad G I c q b0))))).
    { rewrite rsum_scal. f_equal. rewrite velocity_tested by exact P. unfold work. apply integral_ext. intros c q _ _. apply contraction_comm. }
    rewrite Te, <- rsum_plus. rewrite <- (rsum_0 n). apply sum_free.
    - intros I F. rewrite <- (R0 I F). unfold norm2, dot. rewrite <- !rsum_scal, <- rsum_plus. apply rsum_ext. intros a La. rewrite velocity_row by (assumption || apply F).
      rewrite (rho_free G) by exact F. ring.
    - intros I X. rewrite mass_constrained by exact X. rewrite rs_zero; [ring|]. intros a _. rewrite test_constrained by assumption. ring. }
  assert (Wn : 0 <= tau * work G par z).
  { apply Rmult_le_pos; [exact T|]. apply integral_nonneg; [exact J|]. intros c q _ _. apply work_nonneg; assumption. }
  intros I d F L.
  assert (Q : nodal_mass G I * U I 0%nat * norm2 dim (z I) = 0).
  { apply (zero_sum (fun I => nodal_mass G I * U I 0%nat * norm2 dim (z I)) n); [|lra|apply F]. intros k Lk. destruct (dec_free G k Lk) as [Fk|Xk].
    - apply Rmult_le_pos; [|apply norm2_nonneg]. apply Rmult_le_pos; left; [apply M|apply Gs]; exact Fk.
    - rewrite mass_constrained by exact Xk. lra. }
  assert (Mi := M I F). assert (Gi := Gs I F).
  assert (N0 : norm2 dim (z I) = 0) by (apply Rmult_integral in Q; destruct Q as [Q|Q]; [apply Rmult_integral in Q; destruct Q; lra|exact Q]).
  assert (Zd : z I d * z I d = 0) by (apply (zero_sum (fun d => z I d * z I d) dim); [intros; apply Rle_0_sqr|unfold norm2, dot in N0; lra|exact L]).
  apply Rmult_integral in Zd. unfold z, vsub in Zd. destruct Zd; lra.
Qed.

Lemma energy_unique U tau (rhs : nat -> R) e w : proper G -> gas G U -> physical par dim -> positive_weights G -> positive_masses G -> 0 <= tau ->
  (forall I, free G I -> energy_vmult G bm (tau * cv_inverse_kappa par) (rho_ G U) e I = rhs I) ->
  (forall I, free G I -> energy_vmult G bm (tau * cv_inverse_kappa par) (rho_ G U) w I = rhs I) ->
  forall I, free G I -> e I = w I.
Proof.
  intros P Gs (_ & _ & Hk & _) J M T He Hw. pose proof (gas_dense _ _ Gs) as Gd. set (k := tau * cv_inverse_kappa par) in *. assert (Kp : 0 <= k) by (apply Rmult_le_pos; assumption).
  set (z := fun I => e I - w I).
  assert (R0 : forall I, free G I -> energy_stiffness G k (rho_ G U) z I * z I = 0).
  { intros I F. unfold z at 1. rewrite <- energy_stiffness_sub by (assumption || apply F).
    assert (A := He I F). assert (B := Hw I F). rewrite energy_vmult_row in A, B by apply F. destruct (dirichlet_dec (entries bm I)) as [D|D].
    - rewrite energy_fix_identity in A, B by exact D. unfold z. rewrite A, B. ring.
    - rewrite energy_fix_inactive in A, B by exact D. rewrite A, B. ring. }
  assert (Te : rsum n (fun I => z I * integral G (fun c q => rsum dim (fun b0 => slope G z c q b0 * basis_grad G I c q b0))) =
    integral G (fun c q => rsum dim (fun b => slope G z c q b * slope G z c q b))).
  { rewrite (rsum_ext _ _ (fun I => integral G (fun c q => z I * rsum dim (fun b0 => slope G z c q b0 * basis_grad G I c q b0)))) by (intros; rewrite integral_scal; reflexivity).
    rewrite integral_sum. apply integral_ext. intros c q _ _.
    rewrite (rsum_ext n _ (fun I => rsum dim (fun b0 => z I * (slope G z c q b0 * basis_grad G I c q b0)))) by (intros; rewrite rsum_scal; reflexivity).
    rewrite rs_swap. apply rsum_ext. intros b0 _. unfold slope at 3. rewrite <- rsum_scal. apply rsum_ext. intros; ring. }
  assert (Sum : rsum n (fun I => nodal_mass G I * U I 0%nat * (z I * z I)) + k * integral G (fun c q => rsum dim (fun b => slope G z c q b * slope G z c q b)) = 0).
  { rewrite <- Te, <- rsum_scal, <- rsum_plus. rewrite <- (rsum_0 n). apply sum_free.
    - intros I F. rewrite <- (R0 I F). rewrite energy_row by (assumption || apply F). rewrite (rho_free G) by exact F. ring.
    - intros I X. rewrite mass_constrained, slope_constrained by assumption. ring. }
  assert (Wn : 0 <= k * integral G (fun c q => rsum dim (fun b => slope G z c q b * slope G z c q b))).
  { apply Rmult_le_pos; [exact Kp|]. apply integral_nonneg; [exact J|]. intros c q _ _. apply rsum_nonneg. intros; apply Rle_0_sqr. }
  intros I F.
  assert (Q : nodal_mass G I * U I 0%nat * (z I * z I) = 0).
  { apply (zero_sum (fun I => nodal_mass G I * U I 0%nat * (z I * z I)) n); [|lra|apply F]. intros i Li. destruct (dec_free G i Li) as [Fk|Xk].
    - apply Rmult_le_pos; [|apply Rle_0_sqr]. apply Rmult_le_pos; left; [apply M|apply Gs]; exact Fk.
    - rewrite mass_constrained by exact Xk. lra. }
  assert (Mi := M I F). assert (Gi := Gs I F).
  apply Rmult_integral in Q. destruct Q as [Q|Q]; [apply Rmult_integral in Q; destruct Q; lra|]. apply Rmult_integral in Q. unfold z in Q. destruct Q; lra.
Qed.

Lemma energy_rhs_ext U t tau e0 v w I : proper G -> free G I -> (forall I d, free G I -> (d < dim)%nat -> v I d = w I d) ->
  energy_rhs G par bm init U t tau e0 v I = energy_rhs G par bm init U t tau e0 w I.
Proof.
  intros P F E. rewrite !energy_rhs_row by exact F. f_equal. unfold energy_rhs_0. cbv zeta. f_equal.
  - f_equal. f_equal. f_equal. apply dot_ext; intros d L; unfold vsub; rewrite E by assumption; reflexivity.
  - f_equal. rewrite !heating_row by exact P. apply integral_ext. intros c q Lc Lq. f_equal. apply work_ext. intros a b La _.
    unfold velocity_gradient. apply slope_ext; try assumption. intros J FJ. apply E; assumption.
Qed.

Lemma C112_unique_proof : forall eps sv se sv' se' U t tau U1 U2 r1 r2,
  proper G -> gas G U -> physical par dim -> positive_weights G -> positive_masses G -> 0 <= tau ->
  (forall I, free G I -> posed dim bm I) ->
  accurate_block n dim 0 sv -> accurate n 0 se -> accurate_block n dim 0 sv' -> accurate n 0 se' ->
  backward_euler_step G par bm init eps sv se U t tau = Some (U1, r1) ->
  backward_euler_step G par bm init eps sv' se' U t tau = Some (U2, r2) ->
  forall I k, free G I -> U1 I k = U2 I k.
Proof.
  intros eps sv se sv' se' U t tau U1 U2 r1 r2 P Gs Ph J M T W Av Ae Av' Ae' H1 H2 I k F. pose proof (gas_dense _ _ Gs) as Gd.
  destruct (step_inv _ _ _ _ _ _ _ _ _ _ _ _ H1) as (v0 & b & e0 & v & e & E1 & Ev & Ee & -> & _).
  destruct (step_inv _ _ _ _ _ _ _ _ _ _ _ _ H2) as (v0' & b' & e0' & w & f & E1' & Ev' & Ee' & -> & _).
  rewrite E1 in E1'. injection E1' as <- <- <-.
  assert (V : forall I d, free G I -> (d < dim)%nat -> v I d = w I d).
  { apply (velocity_unique U t tau v0 b e0 v w P Gs Ph J M T W E1); intros i d Fi Ld; [apply (exact_block G _ _ _ _ _ _ i d Av Ev)|apply (exact_block G _ _ _ _ _ _ i d Av' Ev')]; try exact Ld; apply Fi. }
  assert (E : forall I, free G I -> e I = f I).
  { apply (energy_unique U tau (energy_rhs G par bm init U t tau e0 v) e f P Gs Ph J M T).
    - intros i Fi. apply (exact_scalar G _ _ _ _ _ _ i Ae Ee). apply Fi.
    - intros i Fi. rewrite (exact_scalar G _ _ _ _ _ _ i Ae' Ee' (proj1 Fi)). symmetry. apply energy_rhs_ext; assumption. }
  unfold write_back. rewrite (E I F). destruct (Nat.eqb k (1 + dim)).
  - f_equal. f_equal. f_equal. apply dot_ext; intros d L; rewrite V by assumption; reflexivity.
  - destruct (Nat.leb_spec 1 k) as [L1|L1]; cbn [andb]; [|reflexivity]. destruct (Nat.leb_spec k dim) as [L2|L2]; [|reflexivity]. rewrite V by (assumption || lia). reflexivity.
Qed.

(** ** Rigid motion with uniform temperature is kept *)
Lemma compatible_fold t tau V (l : list description) :
  (forall e, In e l -> (d_id e = 2%nat -> dot dim V (d_normal e) = 0) /\ (d_id e = 3%nat -> forall d, (d < dim)%nat -> V d = 0) /\
     (d_id e = 4%nat -> forall d, (d < dim)%nat -> V d = vel (init (d_position e) (t + tau)) d)) ->
  forall dst dst' : vec, (forall d, (d < dim)%nat -> dst d = dst' d) ->
  forall d, (d < dim)%nat -> fold_left (fix_row G V) l dst d = fold_left (rhs_row G init t tau) l dst' d.
Proof.
  induction l as [|e l IH]; intros C dst dst' E; [exact E|]. cbn [fold_left]. apply IH; [intros x X; apply C; right; exact X|].
  intros d L. destruct (C e (or_introl eq_refl)) as (C2 & C3 & C4). unfold fix_row, rhs_row, id_slip, id_no_slip, id_dirichlet.
  destruct (Nat.eqb_spec (d_id e) 2) as [X|X].
  - unfold vadd, remove_normal, vsub, vscal. rewrite E by exact L. rewrite (dot_ext dim dst dst' (d_normal e) (d_normal e)) by (exact E || (intros ? _; reflexivity)).
    rewrite rs_scal_r. rewrite rsum_scal. change (rsum dim (fun k => V k * d_normal e k)) with (dot dim V (d_normal e)). rewrite C2 by exact X. ring.
  - destruct (Nat.eqb_spec (d_id e) 3) as [Y|Y]; [apply C3; assumption|]. cbn [orb].
    destruct (Nat.eqb_spec (d_id e) 4) as [Z|Z]; [apply C4; assumption|apply E; exact L].
Qed.
Lemma energy_constant t tau x l : (forall e, In e l -> d_id e = 4%nat -> x = specific_energy dim (init (d_position e) (t + tau))) ->
  fold_left (energy_row_of G init t tau) l x = x.
Proof.
  induction l as [|e l IH]; intros C; [reflexivity|]. cbn [fold_left]. replace (energy_row_of G init t tau x e) with x; [apply IH; intros y Y; apply C; right; exact Y|].
  unfold energy_row_of, id_dirichlet. destruct (Nat.eqb_spec (d_id e) 4) as [Z|Z]; [|reflexivity]. rewrite dirichlet_specific. apply C; [left; reflexivity|exact Z].
Qed.
Lemma energy_fix_constant x y l : x = y -> fold_left (energy_fix_row x) l y = x.
Proof.
  intros ->. induction l as [|e l IH]; [reflexivity|]. cbn [fold_left]. unfold energy_fix_row at 2. destruct (Nat.eqb _ _); exact IH.
Qed.

Lemma rigid_stress A a b : (forall a b, (a < dim)%nat -> (b < dim)%nat -> A a b + A b a = 0) -> (a < dim)%nat -> (b < dim)%nat ->
  newtonian par dim A a b = 0.
Proof.
  intros K La Lb. unfold newtonian. rewrite (K a b La Lb). rewrite rs_zero; [destruct (Nat.eqb a b); ring|]. intros d Ld. assert (Q := K d d Ld Ld). lra.
Qed.

Lemma C112_rigid_proof : forall eps sv se U t tau U' r temperature,
  proper G -> gas G U -> physical par dim -> positive_weights G -> positive_masses G -> 0 <= tau ->
  (forall I, free G I -> posed dim bm I) ->
  accurate_block n dim 0 sv -> accurate n 0 se ->
  rigid G (fun I => vel (U I)) ->
  (forall I, free G I -> specific_energy dim (U I) = temperature) ->
  (forall I, free G I -> compatible dim bm init (t + tau) I (U I)) ->
  backward_euler_step G par bm init eps sv se U t tau = Some (U', r) ->
  forall I k, free G I -> U' I k = U I k.
Proof.
  intros eps sv se U t tau U' r temperature P Gs Ph J M T W Av Ae K Te C H I k F. pose proof (gas_dense _ _ Gs) as Gd.
  destruct (step_inv _ _ _ _ _ _ _ _ _ _ _ _ H) as (v0 & b & e0 & v & e & E1 & Ev & Ee & -> & _).
  assert (V : forall I d, free G I -> (d < dim)%nat -> v I d = vel (U I) d).
  { apply (velocity_unique U t tau v0 b e0 v (fun I => vel (U I)) P Gs Ph J M T W E1).
    - intros i d Fi Ld. apply (exact_block G _ _ _ _ _ _ i d Av Ev); [apply Fi|exact Ld].
    - intros i d Fi Ld. rewrite velocity_vmult_row by apply Fi. destruct (step_1_row _ _ _ _ _ _ _ _ _ _ E1 Fi) as (_ & -> & _).
      apply compatible_fold; [|intros a La|exact Ld].
      + intros y Y. destruct (C i Fi y Y) as (C2 & C3 & C4). split; [exact C2|]. split; [exact C3|]. intros Z. apply C4. exact Z.
      + rewrite velocity_row by (assumption || apply Fi). rewrite integral_zero.
        * rewrite (rho_free G) by exact Fi. unfold velocity_rhs_0, momentum, vel. rewrite mass_nodal by (assumption || apply Fi). field. apply (nonzero G); assumption.
        * intros c q Lc Lq. apply rs_zero. intros b' Lb. rewrite rigid_stress; [ring| |exact La|exact Lb]. intros x y Lx Ly. apply K; assumption. }
  assert (E : forall I, free G I -> e I = specific_energy dim (U I)).
  { apply (energy_unique U tau (energy_rhs G par bm init U t tau e0 v) e (fun I => specific_energy dim (U I)) P Gs Ph J M T).
    - intros i Fi. apply (exact_scalar G _ _ _ _ _ _ i Ae Ee). apply Fi.
    - intros i Fi. rewrite (energy_rhs_ext U t tau e0 v (fun I => vel (U I)) i P Fi V). rewrite energy_vmult_row by apply Fi. rewrite energy_rhs_row by exact Fi.
      assert (X1 : energy_stiffness G (tau * cv_inverse_kappa par) (rho_ G U) (fun I => specific_energy dim (U I)) i = nodal_mass G i * U i 0%nat * specific_energy dim (U i)).
      { rewrite energy_row by (assumption || apply Fi). rewrite integral_zero; [rewrite (rho_free G) by exact Fi; ring|].
        intros c q Lc Lq. apply rs_zero. intros b' _. rewrite (slope_ext G _ (fun _ => temperature)) by (try assumption; intros; apply Te; assumption).
        unfold slope. rewrite rsum_scal, grad_sum by assumption. ring. }
      assert (X2 : energy_rhs_0 G par U tau e0 (fun I => vel (U I)) i = nodal_mass G i * U i 0%nat * specific_energy dim (U i)).
      { unfold energy_rhs_0. cbv zeta. destruct (step_1_row _ _ _ _ _ _ _ _ _ _ E1 Fi) as (_ & _ & ->). rewrite specific_old.
        rewrite energy_constant by (intros y Y Z; apply (C i Fi y Y); exact Z).
        rewrite mass_nodal by (assumption || apply Fi). rewrite !(rho_free G) by exact Fi. rewrite heating_row by exact P. rewrite integral_zero.
        - change (fun d => momentum (U i) d / U i 0%nat) with (vel (U i)). unfold norm2, dot, vsub. rewrite rs_zero by (intros; ring). ring.
        - intros c q Lc Lq. rewrite contraction_comm, skew_work; [ring|]. intros x y Lx Ly. apply K; assumption. }
      rewrite X1, X2. destruct (dirichlet_dec (entries bm i)) as [D|D].
      + rewrite energy_fix_identity by exact D. destruct (energy_some t tau _ D (nodal_mass G i * U i 0%nat * specific_energy dim (U i))) as (y & A1 & A2 & ->).
        rewrite dirichlet_specific. apply (C i Fi y A1). exact A2.
      + rewrite energy_fix_inactive, energy_inactive by exact D. reflexivity. }
  assert (Nz := nonzero G U I Gd F).
  destruct (Nat.eq_dec k (S dim)) as [->|N1].
  - rewrite back_energy by exact Nz. rewrite (energy_split G U I Nz), E by exact F. f_equal. f_equal. apply dot_ext; intros d L; apply V; assumption.
  - destruct k as [|k]; [apply back_density|]. destruct (Nat.lt_ge_cases k dim) as [L|L].
    + rewrite back_momentum by exact L. rewrite V by assumption. unfold vel. field. exact Nz.
    + unfold write_back. destruct (Nat.eqb_spec (S k) (1 + dim)); [lia|]. destruct (Nat.leb_spec (S k) dim); [lia|]. reflexivity.
Qed.
End More.

(** ** Initial guess and preconditioner *)
Section Guess.
Variables (G : geometry) (par : viscosity) (bm : list description) (init : vec -> R -> vec).
Local Notation dim := (g_dim G).

Lemma back_same U v e I k : U I 0%nat <> 0 -> (forall d, (d < dim)%nat -> v I d = vel (U I) d) -> e I = specific_energy dim (U I) ->
  write_back G U v e I k = U I k.
Proof using Type.
  intros Nz V E. destruct (Nat.eq_dec k (S dim)) as [->|N1].
  - rewrite back_energy by exact Nz. rewrite (energy_split G U I Nz), E. f_equal. f_equal. apply dot_ext; intros d L; apply V; assumption.
  - destruct k as [|k]; [apply back_density|]. destruct (Nat.lt_ge_cases k dim) as [L|L].
    + rewrite back_momentum by exact L. rewrite V by assumption. unfold vel. field. exact Nz.
    + unfold write_back. destruct (Nat.eqb_spec (S k) (1 + dim)); [lia|]. destruct (Nat.leb_spec (S k) dim); [lia|]. reflexivity.
Qed.

Lemma compatible_guess t tau V (l : list description) :
  (forall e, In e l -> (d_id e = 2%nat -> dot dim V (d_normal e) = 0) /\ (d_id e = 3%nat -> forall d, (d < dim)%nat -> V d = 0) /\
     (d_id e = 4%nat -> forall d, (d < dim)%nat -> V d = vel (init (d_position e) (t + tau)) d)) ->
  forall dst : vec, (forall d, (d < dim)%nat -> dst d = V d) ->
  forall d, (d < dim)%nat -> fold_left (rhs_row G init t tau) l dst d = V d.
Proof using Type.
  induction l as [|e l IH]; intros C dst E; [exact E|]. cbn [fold_left]. apply IH; [intros x X; apply C; right; exact X|].
  intros d L. destruct (C e (or_introl eq_refl)) as (C2 & C3 & C4). unfold rhs_row, id_slip, id_no_slip, id_dirichlet.
  destruct (Nat.eqb_spec (d_id e) 2) as [X|X].
  - unfold remove_normal, vsub, vscal. rewrite (dot_ext dim dst V (d_normal e) (d_normal e)) by (exact E || (intros ? _; reflexivity)).
    rewrite C2 by exact X. rewrite E by exact L. ring.
  - destruct (Nat.eqb_spec (d_id e) 3) as [Y|Y]; [symmetry; apply C3; assumption|].
    destruct (Nat.eqb_spec (d_id e) 4) as [Z|Z]; [symmetry; apply C4; assumption|apply E; exact L].
Qed.

Lemma C112_guess_proof : forall eps U t tau U' r,
  dense G U -> (forall I, free G I -> compatible dim bm init (t + tau) I (U I)) ->
  backward_euler_step G par bm init eps (fun _ _ x _ => Some x) (fun _ _ x _ => Some x) U t tau = Some (U', r) ->
  forall I k, free G I -> U' I k = U I k.
Proof using Type.
  intros eps U t tau U' r Gd C H I k F. destruct (step_inv _ _ _ _ _ _ _ _ _ _ _ _ H) as (v0 & b & e0 & v & e & E1 & Ev & Ee & -> & _).
  injection Ev as <-. injection Ee as <-. apply back_same; [apply (nonzero G U I Gd F)| |].
  - intros d L. destruct (step_1_row _ _ _ _ _ _ _ _ _ _ E1 F) as (-> & _ & _).
    apply compatible_guess; [|intros; apply vel_old|exact L].
    intros y Y. destruct (C I F y Y) as (C2 & C3 & C4). split; [exact C2|]. split; [exact C3|]. intros Z. apply C4. exact Z.
  - destruct (step_1_row _ _ _ _ _ _ _ _ _ _ E1 F) as (_ & _ & ->). rewrite specific_old. apply energy_constant. intros y Y Z. apply (C I F y Y). exact Z.
Qed.
End Guess.

Lemma C112_inviscid_proof : forall G par init eps U t tau U' r,
  proper G -> dense G U -> positive_masses G -> mu par = 0 -> lambda par = 0 ->
  backward_euler_step G par [] init eps (fun _ P _ b => Some (P b)) (fun _ P _ b => Some (P b)) U t tau = Some (U', r) ->
  forall I k, free G I -> U' I k = U I k.
Proof.
  intros G par init eps U t tau U' r Pr Gd Pm Z1 Z2 H I k F. destruct (step_inv _ _ _ _ _ _ _ _ _ _ _ _ H) as (v0 & b & e0 & v & e & E1 & Ev & Ee & -> & _).
  assert (Nz := nonzero G U I Gd F). assert (Nm : nodal_mass G I <> 0) by (pose proof (Pm I F); lra).
  injection Ev as <-. injection Ee as <-. destruct (step_1_row _ _ _ _ _ _ _ _ _ _ E1 F) as (_ & Eb & Ee). cbn [entries filter fold_left] in Eb, Ee.
  assert (Di : forall x, diagonal G (rho_ G U) I * (nodal_mass G I * U I 0%nat * x) = x).
  { intros x. unfold diagonal, set_zero. rewrite (free_not_constrained G I F), (rho_free G), mass_nodal by (assumption || apply F). field. split; assumption. }
  assert (V : forall d, (d < g_dim G)%nat -> precondition_block G (rho_ G U) b I d = vel (U I) d).
  { intros d L. unfold precondition_block. rewrite Eb. rewrite <- (Di (vel (U I) d)). f_equal. unfold velocity_rhs_0, momentum, vel. rewrite mass_nodal by (assumption || apply F). field. exact Nz. }
  apply back_same; [exact Nz|exact V|].
  unfold precondition. rewrite <- (Di (specific_energy (g_dim G) (U I))). f_equal. rewrite energy_rhs_row by exact F. cbn [entries filter fold_left].
  unfold energy_rhs_0. cbv zeta. rewrite Ee, specific_old, mass_nodal, !(rho_free G) by (assumption || apply F). rewrite heating_row by exact Pr. rewrite integral_zero.
  - change (fun d => momentum (U I) d / U I 0%nat) with (vel (U I)). unfold norm2, dot, vsub. rewrite rs_zero by (intros d L; rewrite V by exact L; ring). ring.
  - intros c q Lc Lq. unfold contraction. rewrite rs_zero; [ring|]. intros a _. apply rs_zero. intros b' _. unfold newtonian. rewrite Z1, Z2. destruct (Nat.eqb a b'); ring.
Qed.
