(** * Shallow water: physical properties, proofs *)
From Coq Require Import Reals Arith Lia Lra Psatz FunctionalExtensionality.
From Verif Require Import RVec Simd EulerSystem SWSystem PhysLib EulerPhysProofs AeosPhysProofs.
Local Open Scope R_scope.

Lemma positive_part_max x : positive_part x = Rmax 0 x.
Proof. unfold positive_part, Rabs, Rmax. destruct (Rcase_abs x), (Rle_dec 0 x); lra. Qed.

Lemma sharp_wet s eps U : cutoff_small s eps <= water_depth U -> inverse_water_depth_sharp s eps U = 1 / water_depth U.
Proof.
  intros H. unfold inverse_water_depth_sharp, water_depth_sharp. fold (cutoff_small s eps).
  rewrite Rmax_left by exact H. reflexivity.
Qed.

(** ** C31 *)

Lemma w_to_from_primitive s eps dim p : 0 < p 0%nat -> cutoff_small s eps <= p 0%nat ->
  forall k, w_to_primitive_state s eps dim (w_from_primitive_state dim p) k = p k.
Proof.
  intros H0 Hc k. unfold w_to_primitive_state. rewrite sharp_wet by exact Hc.
  change (water_depth (w_from_primitive_state dim p)) with (p 0%nat).
  unfold w_from_primitive_state.
  destruct (Nat.eqb k 0); [reflexivity|]. destruct (Nat.leb k dim); [|reflexivity]. field. lra.
Qed.

Lemma w_from_to_primitive s eps dim U : 0 < water_depth U -> cutoff_small s eps <= water_depth U ->
  forall k, w_from_primitive_state dim (w_to_primitive_state s eps dim U) k = U k.
Proof.
  intros H0 Hc k. unfold w_from_primitive_state, w_to_primitive_state. rewrite sharp_wet by exact Hc.
  unfold water_depth in *. simpl.
  destruct (Nat.eqb k 0); [reflexivity|]. destruct (Nat.leb k dim); [|reflexivity]. field. lra.
Qed.

Lemma w_expand_m dim dim2 U k : w_momentum (w_expand_state dim dim2 U) k = if Nat.ltb k dim2 then U (S k) else 0.
Proof.
  unfold w_momentum, w_expand_state. destruct (Nat.leb_spec (S k) dim2), (Nat.ltb_spec k dim2); try lia; reflexivity.
Qed.

Lemma w_expand_norm dim dim2 U : (dim2 <= dim)%nat ->
  norm2 dim (w_momentum (w_expand_state dim dim2 U)) = norm2 dim2 (w_momentum U).
Proof.
  intros H. unfold norm2, dot. rewrite <- (rsum_truncate (fun k => w_momentum U k * w_momentum U k) dim dim2 H).
  apply rsum_ext. intros k Hk. rewrite !w_expand_m. unfold w_momentum. destruct (Nat.ltb k dim2); ring.
Qed.

Lemma w_expand_quantities s eps dim dim2 U : (dim2 <= dim)%nat ->
  let V := w_expand_state dim dim2 U in
  water_depth V = water_depth U /\ w_pressure s V = w_pressure s U /\
  kinetic_energy s eps dim V = kinetic_energy s eps dim2 U /\
  w_mathematical_entropy s eps dim V = w_mathematical_entropy s eps dim2 U.
Proof.
  intros H V.
  assert (K : kinetic_energy s eps dim V = kinetic_energy s eps dim2 U).
  { unfold kinetic_energy. rewrite !norm2_scal. unfold V. rewrite w_expand_norm by exact H. reflexivity. }
  split; [reflexivity|]. split; [reflexivity|]. split; [exact K|].
  unfold w_mathematical_entropy. rewrite K. reflexivity.
Qed.

Lemma w_initial_state dim dim2 p : (dim2 <= dim)%nat ->
  let V := w_from_initial_state dim dim2 p in
  water_depth V = p 0%nat /\
  forall k, (k < dim)%nat -> w_momentum V k = p 0%nat * (if Nat.ltb k dim2 then p (S k) else 0).
Proof.
  intros H V. split; [reflexivity|]. intros k Hk. unfold V, w_from_initial_state, w_from_primitive_state, w_momentum.
  rewrite eqb_S0. destruct (Nat.leb_spec (S k) dim); [|lia].
  assert (X := w_expand_m dim dim2 p k). unfold w_momentum in X. rewrite X. unfold w_expand_state. simpl. ring.
Qed.

(** ** C32 *)

Lemma set_momentum_m dim U m : veq dim (w_momentum (set_momentum dim U m)) m.
Proof.
  intros k Hk. unfold w_momentum, set_momentum. rewrite eqb_S0. destruct (Nat.leb_spec (S k) dim); [|lia]. f_equal. lia.
Qed.

Lemma inverse_sharp_pos s eps U : 0 < cutoff_small s eps -> 0 < inverse_water_depth_sharp s eps U.
Proof.
  intros H. unfold inverse_water_depth_sharp, water_depth_sharp. fold (cutoff_small s eps).
  apply Rdiv_lt_0_compat; [lra|]. assert (X := Rmax_r (water_depth U) (cutoff_small s eps)). lra.
Qed.

Lemma w_slip_spec s eps dim U n data : norm2 dim n = 1 ->
  let V := w_apply_boundary_conditions s eps dim slip U n data in
  water_depth V = water_depth U /\
  dot dim (w_momentum V) n = 0 /\
  (forall t, dot dim n t = 0 -> dot dim (w_momentum V) t = dot dim (w_momentum U) t) /\
  (0 <= water_depth U -> w_mathematical_entropy s eps dim V <= w_mathematical_entropy s eps dim U) /\
  w_is_admissible s eps V = w_is_admissible s eps U /\
  (forall k, (k < dim + 1)%nat -> w_apply_boundary_conditions s eps dim slip V n data k = V k).
Proof.
  intros Hn V.
  assert (M : veq dim (w_momentum V) (vsub (w_momentum U) (vscal (dot dim (w_momentum U) n) n))).
  { intros k Hk. unfold V, w_apply_boundary_conditions. rewrite set_momentum_m by exact Hk. unfold vsub, vscal. ring. }
  assert (D : forall a, dot dim (w_momentum V) a = dot dim (w_momentum U) a - dot dim (w_momentum U) n * dot dim n a).
  { intros a. rewrite (dot_ext _ _ _ a a M) by (intros ? ?; reflexivity). rewrite dot_sub_l, dot_scal_l. reflexivity. }
  assert (N : dot dim n n = 1) by exact Hn.
  assert (Z : dot dim (w_momentum V) n = 0) by (rewrite D, N; ring).
  split; [reflexivity|]. split; [exact Z|]. split; [intros t Ht; rewrite D, Ht; ring|]. split; [|split].
  - intros Hh. unfold w_mathematical_entropy.
    change (w_pressure s V) with (w_pressure s U).
    apply Rplus_le_compat_l. unfold kinetic_energy. change (water_depth V) with (water_depth U).
    change (inverse_water_depth_sharp s eps V) with (inverse_water_depth_sharp s eps U).
    rewrite !norm2_scal.
    assert (NV : norm2 dim (w_momentum V) <= norm2 dim (w_momentum U)).
    { unfold norm2. rewrite D, (dot_comm dim (w_momentum U) (w_momentum V)), (dot_comm dim n (w_momentum V)), !D, N.
      rewrite (dot_comm dim n (w_momentum U)).
      assert (Y := Rle_0_sqr (dot dim (w_momentum U) n)). unfold Rsqr in Y. lra. }
    apply Rmult_le_compat_l; [lra|]. apply Rmult_le_compat_l; [|exact NV].
    assert (Y := Rle_0_sqr (inverse_water_depth_sharp s eps U)). exact Y.
  - reflexivity.
  - intros k Hk. unfold w_apply_boundary_conditions at 1. rewrite Z. unfold set_momentum.
    destruct k as [|k]; [reflexivity|]. rewrite eqb_S0. destruct (Nat.leb_spec (S k) dim); [|reflexivity].
    unfold vsub, vscal, w_momentum. replace (S k - 1)%nat with k by lia. ring.
Qed.

Lemma w_no_slip_spec s eps dim U n data :
  let V := w_apply_boundary_conditions s eps dim no_slip U n data in
  water_depth V = water_depth U /\
  (forall k, (k < dim)%nat -> w_momentum V k = 0) /\
  (0 <= water_depth U -> w_mathematical_entropy s eps dim V <= w_mathematical_entropy s eps dim U) /\
  w_is_admissible s eps V = w_is_admissible s eps U /\
  (forall k, (k < dim + 1)%nat -> w_apply_boundary_conditions s eps dim no_slip V n data k = V k).
Proof.
  intros V.
  assert (M : veq dim (w_momentum V) (fun _ => 0)).
  { intros k Hk. unfold V, w_apply_boundary_conditions. rewrite set_momentum_m by exact Hk. reflexivity. }
  split; [reflexivity|]. split; [exact M|]. split; [|split].
  - intros Hh. unfold w_mathematical_entropy. change (w_pressure s V) with (w_pressure s U).
    apply Rplus_le_compat_l. unfold kinetic_energy. change (water_depth V) with (water_depth U).
    change (inverse_water_depth_sharp s eps V) with (inverse_water_depth_sharp s eps U).
    rewrite !norm2_scal.
    apply Rmult_le_compat_l; [lra|]. apply Rmult_le_compat_l.
    + assert (Y := Rle_0_sqr (inverse_water_depth_sharp s eps U)). exact Y.
    + unfold norm2 at 1. rewrite (dot_ext _ _ _ _ _ M M).
      unfold dot. rewrite (rsum_ext dim _ (fun _ => 0)) by (intros; ring). rewrite rsum_0. apply norm2_nonneg.
  - reflexivity.
  - intros k Hk. unfold V, w_apply_boundary_conditions, set_momentum. destruct k as [|k]; [reflexivity|].
    destruct (Nat.eqb _ _); [reflexivity|]. destruct (Nat.leb _ _); reflexivity.
Qed.

(** ** C33 *)

Definition w_core (s : shallow) (dim : nat) (n : vec) (R_1 R_2 : R) (U : vec) : vec :=
  let vperp := vsub (vscal (1 / water_depth U) (w_momentum U)) (vscal (w_normal_velocity dim n U) n) in
  let x := (R_2 - R_1) / 4 in
  let h_new := x * x / gravity s in
  mkwater dim h_new (fun d => h_new * (vadd (vscal (1 / 2 * (R_1 + R_2)) n) vperp) d).

Lemma w_normal_sharp s eps dim n U : cutoff_small s eps <= water_depth U ->
  dot dim (w_momentum U) n * inverse_water_depth_sharp s eps U = w_normal_velocity dim n U.
Proof. intros H. rewrite sharp_wet by exact H. unfold w_normal_velocity, Rdiv. ring. Qed.

Lemma w_prescribe_1 s eps dim n U U_bar : cutoff_small s eps <= water_depth U -> cutoff_small s eps <= water_depth U_bar ->
  w_prescribe_riemann_characteristic s eps dim 1 U U_bar n =
  w_core s dim n (w_invariant_1 s dim n U_bar) (w_invariant_2 s dim n U) U.
Proof.
  intros H1 H2. unfold w_prescribe_riemann_characteristic. rewrite !w_normal_sharp by assumption.
  rewrite sharp_wet by exact H1. reflexivity.
Qed.

Lemma w_prescribe_2 s eps dim n U U_bar : cutoff_small s eps <= water_depth U -> cutoff_small s eps <= water_depth U_bar ->
  w_prescribe_riemann_characteristic s eps dim 2 U U_bar n =
  w_core s dim n (w_invariant_1 s dim n U) (w_invariant_2 s dim n U_bar) U.
Proof.
  intros H1 H2. unfold w_prescribe_riemann_characteristic. rewrite !w_normal_sharp by assumption.
  rewrite sharp_wet by exact H1. reflexivity.
Qed.

Lemma w_core_spec s dim n R_1 R_2 U : norm2 dim n = 1 -> 0 < gravity s -> 0 < water_depth U -> R_1 < R_2 ->
  let V := w_core s dim n R_1 R_2 U in
  0 < water_depth V /\ w_invariant_1 s dim n V = R_1 /\ w_invariant_2 s dim n V = R_2 /\
  (forall t, dot dim n t = 0 -> dot dim (w_momentum V) t / water_depth V = dot dim (w_momentum U) t / water_depth U).
Proof.
  intros Hn Hg Hh Hgap V.
  set (x := (R_2 - R_1) / 4). set (h := x * x / gravity s).
  set (vperp := vsub (vscal (1 / water_depth U) (w_momentum U)) (vscal (w_normal_velocity dim n U) n)).
  assert (Hx : 0 < x) by (unfold x; lra).
  assert (Hhn : 0 < h) by (unfold h; apply Rdiv_lt_0_compat; [apply Rmult_lt_0_compat; lra|lra]).
  assert (N : dot dim n n = 1) by exact Hn.
  assert (H0 : water_depth V = h) by reflexivity.
  assert (M : veq dim (w_momentum V) (vscal h (vadd (vscal (1 / 2 * (R_1 + R_2)) n) vperp))).
  { intros k Hk. unfold w_momentum at 1, V, w_core, mkwater. rewrite eqb_S0. replace (S k - 1)%nat with k by lia. reflexivity. }
  assert (P : dot dim vperp n = 0).
  { unfold vperp. rewrite dot_sub_l, !dot_scal_l, N. unfold w_normal_velocity. field. lra. }
  assert (VN : w_normal_velocity dim n V = 1 / 2 * (R_1 + R_2)).
  { unfold w_normal_velocity. rewrite H0. rewrite (dot_ext _ _ _ n n M) by (intros ? ?; reflexivity).
    rewrite dot_scal_l, dot_add_l, dot_scal_l, P, N. field. lra. }
  assert (A : w_speed_of_sound s V = x).
  { unfold w_speed_of_sound. change (V 0%nat) with h. replace (gravity s * h) with (x * x) by (unfold h; field; lra).
    apply sqrt_square. lra. }
  split; [rewrite H0; exact Hhn|]. split; [|split].
  - unfold w_invariant_1. rewrite VN, A. unfold x. field.
  - unfold w_invariant_2. rewrite VN, A. unfold x. field.
  - intros t Ht. rewrite H0. rewrite (dot_ext _ _ _ t t M) by (intros ? ?; reflexivity).
    unfold vperp. rewrite dot_scal_l, dot_add_l, dot_scal_l, dot_sub_l, !dot_scal_l, Ht. field. lra.
Qed.

Lemma w_core_same s dim n U : norm2 dim n = 1 -> 0 < gravity s -> 0 < water_depth U ->
  forall k, (k < dim + 1)%nat -> w_core s dim n (w_invariant_1 s dim n U) (w_invariant_2 s dim n U) U k = U k.
Proof.
  intros Hn Hg Hh k Hk.
  assert (A : w_speed_of_sound s U * w_speed_of_sound s U = gravity s * water_depth U).
  { unfold w_speed_of_sound. apply sqrt_sqrt. left. apply Rmult_lt_0_compat; assumption. }
  set (a := w_speed_of_sound s U) in *.
  assert (E1 : (w_invariant_2 s dim n U - w_invariant_1 s dim n U) / 4 = a)
    by (unfold w_invariant_1, w_invariant_2; fold a; field).
  assert (E2 : 1 / 2 * (w_invariant_1 s dim n U + w_invariant_2 s dim n U) = w_normal_velocity dim n U)
    by (unfold w_invariant_1, w_invariant_2; fold a; field).
  unfold w_core. rewrite E1, E2, A.
  replace (gravity s * water_depth U / gravity s) with (water_depth U) by (field; lra).
  destruct k as [|k]; [reflexivity|]. unfold mkwater. rewrite eqb_S0. replace (S k - 1)%nat with k by lia.
  unfold vadd, vsub, vscal, w_momentum. field. lra.
Qed.

Lemma w_dynamic_consistent s eps dim U n : 0 < gravity s -> norm2 dim n = 1 ->
  0 < water_depth U -> cutoff_small s eps <= water_depth U ->
  forall k, (k < dim + 1)%nat -> w_apply_boundary_conditions s eps dim dynamic U n U k = U k.
Proof.
  intros Hg Hn Hh Hc k Hk. unfold w_apply_boundary_conditions.
  rewrite w_prescribe_1, w_prescribe_2 by assumption.
  assert (X := w_core_same s dim n U Hn Hg Hh k Hk).
  repeat match goal with |- context [if ?d then _ else _] => destruct d end; try exact X; reflexivity.
Qed.

Lemma w_dynamic_regimes s eps dim U n data :
  cutoff_small s eps <= water_depth U -> cutoff_small s eps <= water_depth data ->
  let a := w_speed_of_sound s U in let vn := w_normal_velocity dim n U in
  let V := w_apply_boundary_conditions s eps dim dynamic U n data in
  (vn < - a -> V = data) /\ (a < vn -> V = U) /\
  (- a <= vn <= 0 -> V = w_core s dim n (w_invariant_1 s dim n data) (w_invariant_2 s dim n U) data) /\
  (0 < vn <= a -> V = w_core s dim n (w_invariant_1 s dim n data) (w_invariant_2 s dim n U) U).
Proof.
  intros Hc1 Hc2 a vn V.
  assert (Ha : 0 <= a) by apply sqrt_pos.
  unfold V, w_apply_boundary_conditions. rewrite w_prescribe_1, w_prescribe_2, w_normal_sharp by assumption.
  fold vn. fold a.
  repeat split; intros; repeat match goal with |- context [if ?d then _ else _] => destruct d end; try lra; reflexivity.
Qed.

(** ** C34 *)

Lemma w_f_direction s eps dim U c : 0 < water_depth U -> cutoff_small s eps <= water_depth U ->
  dot dim (w_f s eps U 0%nat) c = dot dim (w_momentum U) c /\
  (forall k, (k < dim)%nat -> dot dim (w_f s eps U (S k)) c =
     w_momentum U k / water_depth U * dot dim (w_momentum U) c + w_pressure s U * c k).
Proof.
  intros Hh Hc. split.
  - unfold w_f. simpl. rewrite sharp_wet by exact Hc.
    apply dot_ext; intros l Hl; [|reflexivity]. unfold w_momentum, water_depth in *. field. lra.
  - intros k Hk. unfold w_f. rewrite eqb_S0, sharp_wet by exact Hc.
    unfold dot at 1. replace (S k - 1)%nat with k by lia.
    rewrite (rsum_ext dim _ (fun l => vscal (w_momentum U k / water_depth U) (w_momentum U) l * c l +
       (if Nat.eqb l k then w_pressure s U else 0) * c l))
      by (intros; unfold vscal; field; lra).
    rewrite rsum_plus, dot_unit_row by exact Hk.
    fold (dot dim (vscal (w_momentum U k / water_depth U) (w_momentum U)) c). rewrite dot_scal_l. reflexivity.
Qed.

(** In terms of the primitive variables (h, u). *)
Lemma w_f_primitive s eps dim p c : 0 < p 0%nat -> cutoff_small s eps <= p 0%nat ->
  let U := w_from_primitive_state dim p in
  let h := p 0%nat in let u := w_momentum p in let un := dot dim u c in
  dot dim (w_f s eps U 0%nat) c = h * un /\
  (forall k, (k < dim)%nat -> dot dim (w_f s eps U (S k)) c = h * un * u k + 1 / 2 * gravity s * (h * h) * c k).
Proof.
  intros H0 Hc U h u un.
  assert (M : veq dim (w_momentum U) (vscal h u)).
  { intros k Hk. unfold w_momentum at 1, U, w_from_primitive_state. rewrite eqb_S0.
    destruct (Nat.leb_spec (S k) dim); [|lia]. unfold vscal, u, w_momentum, h. ring. }
  assert (D : dot dim (w_momentum U) c = h * un).
  { rewrite (dot_ext _ _ _ c c M) by (intros ? ?; reflexivity). apply dot_scal_l. }
  destruct (w_f_direction s eps dim U c H0 Hc) as (A & B).
  split; [rewrite A; exact D|]. intros k Hk. rewrite B, D, M by exact Hk.
  change (water_depth U) with h. change (w_pressure s U) with (1 / 2 * gravity s * (h * h)).
  unfold vscal. field. unfold h. lra.
Qed.

Lemma w_flux_covariant s eps dim U lambda c : isometry dim lambda ->
  0 < water_depth U -> cutoff_small s eps <= water_depth U ->
  forall k, (k < dim + 1)%nat ->
  contract dim (w_f s eps (w_apply_galilei_transform dim U lambda)) (lambda c) k =
  w_apply_galilei_transform dim (contract dim (w_f s eps U) c) lambda k.
Proof.
  intros H Hh Hc k Hk. set (V := w_apply_galilei_transform dim U lambda).
  destruct (w_f_direction s eps dim V (lambda c) Hh Hc) as (A & B).
  destruct (w_f_direction s eps dim U c Hh Hc) as (A' & B').
  assert (G0 : veq dim (w_momentum V) (lambda (w_momentum U))) by apply set_momentum_m.
  assert (M : dot dim (w_momentum V) (lambda c) = dot dim (w_momentum U) c).
  { rewrite (dot_ext _ _ _ (lambda c) (lambda c) G0) by (intros ? ?; reflexivity). apply H. }
  unfold contract. destruct k as [|k].
  - rewrite A, M. symmetry. exact A'.
  - rewrite B, M, G0 by lia.
    assert (G := set_momentum_m dim (fun k => dot dim (w_f s eps U k) c)
       (lambda (w_momentum (fun k => dot dim (w_f s eps U k) c))) k ltac:(lia)).
    unfold w_momentum at 1 in G. unfold w_apply_galilei_transform. rewrite G. clear G.
    rewrite (isometry_ext dim lambda (w_momentum (fun k => dot dim (w_f s eps U k) c))
      (vadd (vscal (1 / water_depth U * dot dim (w_momentum U) c) (w_momentum U)) (vscal (w_pressure s U) c)) k H).
    + destruct H as (L1 & L2 & _). rewrite L1, !L2 by lia.
      change (w_pressure s V) with (w_pressure s U). change (water_depth V) with (water_depth U). field. lra.
    + intros j Hj. unfold w_momentum at 1. rewrite B' by exact Hj. unfold vadd, vscal. field. lra.
    + lia.
Qed.

(** star states of wet states over a flat bottom *)
Lemma star_flat s eps U Z : 0 < water_depth U -> cutoff_large s eps <= water_depth U -> star_state s eps U Z Z = U.
Proof.
  intros Hh Hc. apply functional_extensionality. intros k. unfold star_state, inverse_water_depth_mollified. rewrite positive_part_max.
  fold (cutoff_large s eps). unfold water_depth in *.
  rewrite (Rmax_left Z Z) by lra. rewrite (Rmax_left (U 0%nat)) by exact Hc.
  replace (U 0%nat + Z - Z) with (U 0%nat) by ring.
  rewrite (Rmax_right 0 (U 0%nat)) by lra. field. nra.
Qed.

Lemma w_fluxdiv_direction dim F f c (g_i g_j : nat -> vec) :
  F = contract dim (sub_diag f (fun k l => - fadd g_i g_j k l)) c ->
  F 0%nat = - (dot dim (g_i 0%nat) c + dot dim (g_j 0%nat) c) /\
  (forall k, (k < dim)%nat -> F (S k) = - (dot dim (g_i (S k)) c + dot dim (g_j (S k)) c) - f * c k).
Proof.
  intros ->. unfold contract, sub_diag, fadd. split.
  - simpl. replace (fun l => - vadd (g_i 0%nat) (g_j 0%nat) l) with (vscal (-1) (vadd (g_i 0%nat) (g_j 0%nat)))
      by (apply functional_extensionality; intros; unfold vscal; ring).
    rewrite dot_scal_l, dot_add_l. ring.
  - intros k Hk. rewrite eqb_S0. replace (S k - 1)%nat with k by lia. unfold dot at 1.
    rewrite (rsum_ext dim _ (fun l => vscal (-1) (vadd (g_i (S k)) (g_j (S k))) l * c l +
       (if Nat.eqb l k then - f else 0) * c l))
      by (intros l Hl; unfold vscal; destruct (Nat.eqb l k); ring).
    rewrite rsum_plus, dot_unit_row by exact Hk.
    fold (dot dim (vscal (-1) (vadd (g_i (S k)) (g_j (S k)))) c). rewrite dot_scal_l, dot_add_l. ring.
Qed.

Lemma w_g_f s eps dim U c : dot dim (w_g s eps U 0%nat) c = dot dim (w_f s eps U 0%nat) c /\
  (forall k, (k < dim)%nat -> dot dim (w_g s eps U (S k)) c = dot dim (w_f s eps U (S k)) c - w_pressure s U * c k).
Proof.
  split; [reflexivity|]. intros k Hk. unfold w_g, w_f. rewrite eqb_S0. replace (S k - 1)%nat with k by lia.
  rewrite <- (dot_unit_row dim (w_pressure s U) c k Hk).
  unfold dot. unfold Rminus. rewrite <- (Rmult_1_l (rsum dim (fun l => (if Nat.eqb l k then w_pressure s U else 0) * c l))).
  replace (- (1 * rsum dim (fun l => (if Nat.eqb l k then w_pressure s U else 0) * c l)))
    with (rsum dim (fun l => (-1) * ((if Nat.eqb l k then w_pressure s U else 0) * c l))) by (rewrite rsum_scal; ring).
  rewrite <- rsum_plus. apply rsum_ext. intros l Hl. destruct (Nat.eqb l k); ring.
Qed.

Lemma w_fluxdiv_0 dim f c (g_i g_j : nat -> vec) :
  contract dim (sub_diag f (fun k l => - fadd g_i g_j k l)) c 0%nat = - (dot dim (g_i 0%nat) c + dot dim (g_j 0%nat) c).
Proof. exact (proj1 (w_fluxdiv_direction dim _ f c g_i g_j eq_refl)). Qed.

Lemma w_fluxdiv_S dim f c (g_i g_j : nat -> vec) k : (k < dim)%nat ->
  contract dim (sub_diag f (fun k l => - fadd g_i g_j k l)) c (S k) =
  - (dot dim (g_i (S k)) c + dot dim (g_j (S k)) c) - f * c k.
Proof. exact (proj2 (w_fluxdiv_direction dim _ f c g_i g_j eq_refl) k). Qed.

(** Over a flat bottom the low order flux is the central flux. *)
Lemma w_flux_divergence_flat s eps dim U_i U_j Z c :
  0 < water_depth U_i -> cutoff_large s eps <= water_depth U_i ->
  0 < water_depth U_j -> cutoff_large s eps <= water_depth U_j ->
  forall k, (k < dim + 1)%nat ->
  w_flux_divergence s eps dim (U_i, Z) (U_j, Z) c k =
  - (contract dim (w_f s eps U_i) c k + contract dim (w_f s eps U_j) c k).
Proof.
  intros Hi Hci Hj Hcj k Hk. unfold w_flux_divergence, equilibrated_states. rewrite !star_flat by assumption.
  cbn [fst].
  destruct (w_g_f s eps dim U_i c) as (A1 & B1). destruct (w_g_f s eps dim U_j c) as (A2 & B2).
  destruct k as [|k]; [rewrite w_fluxdiv_0, A1, A2; reflexivity|].
  rewrite w_fluxdiv_S, B1, B2 by lia. unfold contract, w_pressure, water_depth. field.
Qed.

(** The discharge components of both fluxes are antisymmetric over any bottom. *)
Lemma w_flux_divergence_mass s eps dim F_i F_j c :
  w_flux_divergence s eps dim F_j F_i (vscal (-1) c) 0%nat = - w_flux_divergence s eps dim F_i F_j c 0%nat /\
  w_high_order_flux_divergence s eps dim F_j F_i (vscal (-1) c) 0%nat =
    - w_high_order_flux_divergence s eps dim F_i F_j c 0%nat.
Proof.
  destruct F_i as [U_i Z_i], F_j as [U_j Z_j]. split.
  - unfold w_flux_divergence, equilibrated_states. rewrite !w_fluxdiv_0, !dot_scal_r. ring.
  - unfold w_high_order_flux_divergence. rewrite !w_fluxdiv_0, !dot_scal_r. ring.
Qed.

(** The high order flux over a flat bottom: the pressure term is g h_i h_j. *)
Lemma w_high_order_flat s eps dim U_i U_j Z c :
  let F_ij := w_high_order_flux_divergence s eps dim (U_i, Z) (U_j, Z) c in
  let F_ji := w_high_order_flux_divergence s eps dim (U_j, Z) (U_i, Z) (vscal (-1) c) in
  let F_ii := w_high_order_flux_divergence s eps dim (U_i, Z) (U_i, Z) c in
  forall k, (k < dim + 1)%nat -> F_ji k = - F_ij k /\ F_ii k = -2 * contract dim (w_f s eps U_i) c k.
Proof.
  intros F_ij F_ji F_ii k Hk. unfold F_ij, F_ji, F_ii, w_high_order_flux_divergence.
  destruct (w_g_f s eps dim U_i c) as (A4 & B4).
  destruct k as [|k].
  - rewrite !w_fluxdiv_0, !dot_scal_r, A4. unfold contract. split; ring.
  - rewrite !w_fluxdiv_S, !dot_scal_r, B4 by lia. unfold contract, w_pressure, water_depth, vscal. split; [ring|field].
Qed.

(** ** C35 *)

Lemma dot_mkwater dim h m P : dot (dim + 1) (mkwater dim h m) P = h * P 0%nat + dot dim m (fun k => P (S k)).
Proof.
  unfold dot at 1. rewrite rsum_water. f_equal. apply rsum_ext. intros k Hk. unfold mkwater. rewrite eqb_S0.
  replace (S k - 1)%nat with k by lia. reflexivity.
Qed.

Lemma w_entropy_deriv s eps dim U P : 0 < water_depth U -> cutoff_small s eps < water_depth U ->
  derivable_pt_lim (fun t => w_mathematical_entropy s eps dim (line U P t)) 0
    (dot (dim + 1) (w_mathematical_entropy_derivative s eps dim U) P).
Proof.
  intros Hh Hc.
  set (h := water_depth U) in *. set (dh := water_depth P).
  (* the entropy near t = 0 *)
  set (eta := fun t => (1 / 2 * gravity s * h * h + t * (gravity s * h * dh) + t * t * (1 / 2 * gravity s * dh * dh)) +
     (1 / 2 * norm2 dim (w_momentum U) + t * dot dim (w_momentum U) (w_momentum P) + t * t * (1 / 2 * norm2 dim (w_momentum P)))
      * (1 / (h + t * dh))).
  assert (D1 : derivable_pt_lim (fun t => 1 / (h + t * dh)) 0 (- dh / (h * h))).
  { assert (X := inv_comp_deriv (fun t => h + t * dh) 0 dh). cbv beta in X.
    replace (h + 0 * dh) with h in X by ring. apply X; [lra|apply affine_deriv]. }
  assert (D : derivable_pt_lim eta 0 (dot (dim + 1) (w_mathematical_entropy_derivative s eps dim U) P)).
  { eapply deriv_transfer; [intros t; reflexivity| |apply (derivable_pt_lim_plus _ _ _ _ _
      (quad_deriv _ _ _ 0) (derivable_pt_lim_mult _ _ _ _ _ (quad_deriv _ _ _ 0) D1))].
    unfold w_mathematical_entropy_derivative. rewrite dot_mkwater, dot_scal_l, norm2_scal.
    rewrite sharp_wet by (fold h; lra). change (fun k => P (S k)) with (w_momentum P).
    change (U 0%nat) with h. change (water_depth U) with h. change (P 0%nat) with dh. field. lra. }
  assert (E : exists d, 0 < d /\ forall t, Rabs t < d -> w_mathematical_entropy s eps dim (line U P t) = eta t).
  { set (gap := Rmin h (h - cutoff_small s eps)).
    assert (Hgap : 0 < gap) by (unfold gap; apply Rmin_glb_lt; lra).
    exists (gap / (Rabs dh + 1)). assert (Hd := Rabs_pos dh).
    split; [apply Rdiv_lt_0_compat; lra|]. intros t Ht.
    assert (T : Rabs (t * dh) < gap).
    { rewrite Rabs_mult.
      assert (Rabs t * (Rabs dh + 1) < gap).
      { apply (Rmult_lt_compat_r (Rabs dh + 1)) in Ht; [|lra].
        replace (gap / (Rabs dh + 1) * (Rabs dh + 1)) with gap in Ht by (field; lra). exact Ht. }
      assert (Rabs t * Rabs dh <= Rabs t * (Rabs dh + 1)) by (apply Rmult_le_compat_l; [apply Rabs_pos|lra]). lra. }
    assert (G1 : gap <= h) by apply Rmin_l. assert (G2 : gap <= h - cutoff_small s eps) by apply Rmin_r.
    apply Rabs_def2 in T.
    assert (LH : water_depth (line U P t) = h + t * dh) by reflexivity.
    unfold w_mathematical_entropy, kinetic_energy, w_pressure.
    rewrite sharp_wet by (rewrite LH; lra). rewrite LH.
    change (line U P t 0%nat) with (h + t * dh).
    change (w_momentum (line U P t)) with (vadd (w_momentum U) (vscal t (w_momentum P))).
    rewrite norm2_scal, norm2_line. unfold eta. field. lra. }
  destruct E as (d & Hd & E). intros e He. destruct (D e He) as (del & Hdel).
  assert (Hm : 0 < Rmin del d) by (apply Rmin_glb_lt; [apply cond_pos|exact Hd]).
  exists (mkposreal _ Hm). intros t Ht0 Ht. simpl in Ht.
  assert (M1 := Rmin_l del d). assert (M2 := Rmin_r del d).
  rewrite !E; [apply Hdel; [exact Ht0|lra]|rewrite Rabs_R0; exact Hd|rewrite Rplus_0_l; lra].
Qed.

(** ** C45 *)

Lemma friction_damps s eps dim U h_star tau :
  0 <= gravity s -> 0 <= tau -> 0 < h_star ->
  let S := manning_friction s eps dim U h_star tau in
  S 0%nat = 0 /\
  exists theta, 0 < theta <= 1 /\
    forall k, (k < dim)%nat -> w_momentum U k + tau * w_momentum S k = theta * w_momentum U k.
Proof.
  intros Hg Ht Hh S. split; [reflexivity|].
  set (f := 2 * gravity s * manning_friction_coefficient s * manning_friction_coefficient s *
            sqrt (norm2 dim (vscal (inverse_water_depth_mollified s eps U) (w_momentum U)))).
  assert (Hf : 0 <= f).
  { unfold f. apply Rmult_le_pos; [|apply sqrt_pos].
    replace (2 * gravity s * manning_friction_coefficient s * manning_friction_coefficient s)
      with (2 * gravity s * (manning_friction_coefficient s * manning_friction_coefficient s)) by ring.
    apply Rmult_le_pos; [lra|]. apply Rle_0_sqr. }
  assert (Htf : 0 <= tau * f) by (apply Rmult_le_pos; assumption).
  set (den := h_star + Rmax h_star (tau * f)).
  assert (M1 := Rmax_l h_star (tau * f)). assert (M2 := Rmax_r h_star (tau * f)).
  assert (Hden : 0 < den) by (unfold den; lra).
  assert (Q : 0 <= tau * f / den < 1).
  { split; [apply Rmult_le_pos; [exact Htf|left; apply Rinv_0_lt_compat; exact Hden]|].
    apply (Rmult_lt_reg_r den); [exact Hden|]. unfold Rdiv. rewrite Rmult_assoc, Rinv_l, Rmult_1_r, Rmult_1_l by lra.
    unfold den. lra. }
  exists (1 - tau * f / den). split; [lra|]. intros k Hk.
  assert (X : w_momentum S k = - f * (1 / den) * w_momentum U k).
  { unfold w_momentum at 1, S, manning_friction, mkwater. rewrite eqb_S0. replace (Datatypes.S k - 1)%nat with k by lia. reflexivity. }
  rewrite X. field. lra.
Qed.

(** ** C46 *)

Lemma mollified_inverse s eps U : 0 < cutoff_large s eps ->
  let h := water_depth U in let i := inverse_water_depth_mollified s eps U in
  0 <= i /\ (h <= 0 -> i = 0) /\ (0 < h -> 0 < i <= 1 / h) /\ (cutoff_large s eps <= h -> i = 1 / h) /\
  i <= 2 / cutoff_large s eps.
Proof.
  intros Hc h i. unfold i, inverse_water_depth_mollified. rewrite positive_part_max. fold (cutoff_large s eps). fold h.
  set (c := cutoff_large s eps) in *.
  set (mx := Rmax h c). assert (M1 : h <= mx) by apply Rmax_l. assert (M2 : c <= mx) by apply Rmax_r.
  assert (Hm2 : 0 < mx * mx) by (apply Rmult_lt_0_compat; lra).
  assert (Hh2 : 0 <= h * h) by apply Rle_0_sqr.
  assert (Hd : 0 < h * h + mx * mx) by lra.
  assert (Hp := Rmax_l 0 h).
  assert (A : 0 <= 2 * Rmax 0 h / (h * h + mx * mx)).
  { apply Rmult_le_pos; [lra|left; apply Rinv_0_lt_compat; exact Hd]. }
  assert (B : h <= 0 -> 2 * Rmax 0 h / (h * h + mx * mx) = 0).
  { intros H. rewrite Rmax_left by exact H. unfold Rdiv. ring. }
  assert (C : 0 < h -> 0 < 2 * Rmax 0 h / (h * h + mx * mx) <= 1 / h).
  { intros H. rewrite Rmax_right by lra. split; [apply Rdiv_lt_0_compat; lra|].
    apply (Rmult_le_reg_r (h * (h * h + mx * mx))); [apply Rmult_lt_0_compat; lra|].
    replace (2 * h / (h * h + mx * mx) * (h * (h * h + mx * mx))) with (2 * (h * h)) by (field; lra).
    replace (1 / h * (h * (h * h + mx * mx))) with (h * h + mx * mx) by (field; lra).
    assert (h * h <= mx * mx) by (apply Rmult_le_compat; lra). lra. }
  split; [exact A|]. split; [exact B|]. split; [exact C|]. split.
  - intros H. unfold mx. rewrite (Rmax_left h c) by exact H. rewrite Rmax_right by lra. field. nra.
  - destruct (Rle_dec h 0) as [H|H].
    + rewrite B by exact H. apply Rlt_le, Rdiv_lt_0_compat; lra.
    + assert (H' : 0 < h) by lra. rewrite Rmax_right by lra.
      apply (Rmult_le_reg_r (c * (h * h + mx * mx))); [apply Rmult_lt_0_compat; lra|].
      replace (2 * h / (h * h + mx * mx) * (c * (h * h + mx * mx))) with (2 * (h * c)) by (field; lra).
      replace (2 / c * (c * (h * h + mx * mx))) with (2 * (h * h + mx * mx)) by (field; lra).
      assert (h * c <= mx * mx) by (apply Rmult_le_compat; lra). lra.
Qed.

(** The regularised velocity. *)
Lemma mollified_velocity s eps dim U : 0 < cutoff_large s eps ->
  let h := water_depth U in
  let v := vscal (inverse_water_depth_mollified s eps U) (w_momentum U) in
  (0 < h -> sqrt (norm2 dim v) <= sqrt (norm2 dim (w_momentum U)) / h) /\
  (cutoff_large s eps <= h -> forall k, v k = w_momentum U k / h) /\
  (h <= 0 -> forall k, v k = 0).
Proof.
  intros Hc h v. destruct (mollified_inverse s eps U Hc) as (A & B & C & D & _). fold h in B, C, D.
  split; [|split].
  - intros Hh. unfold v. rewrite norm2_scal, sqrt_mult_alt by apply Rle_0_sqr. rewrite sqrt_square by exact A.
    unfold Rdiv. rewrite (Rmult_comm (sqrt _) (/ h)). apply Rmult_le_compat_r; [apply sqrt_pos|].
    specialize (C Hh). lra.
  - intros Hh k. unfold v, vscal. rewrite D by exact Hh. unfold Rdiv. ring.
  - intros Hh k. unfold v, vscal. rewrite B by exact Hh. ring.
Qed.
