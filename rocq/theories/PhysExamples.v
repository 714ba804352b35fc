(** * Concrete states for PhysThms.v, and the combined statements proved there *)
From Coq Require Import Reals Arith Lia Lra Psatz.
From Verif Require Import RVec EulerSystem AeosSystem SWSystem PhysSpec PhysLib EulerPhysProofs AeosPhysProofs SWPhysProofs.
Local Open Scope R_scope.

Lemma euler_bijection : forall s dim, gamma s <> 1 ->
  (forall p, p 0%nat <> 0 -> forall k, to_primitive_state s dim (from_primitive_state s dim p) k = p k) /\
  (forall U, density U <> 0 -> forall k, from_primitive_state s dim (to_primitive_state s dim U) k = U k).
Proof. intros. split; intros; [apply to_from_primitive|apply from_to_primitive]; assumption. Qed.

Lemma aeos_bijection : forall dim,
  (forall p, p 0%nat <> 0 -> forall k, a_to_primitive_state dim (a_from_primitive_state dim p) k = p k) /\
  (forall U, a_density U <> 0 -> forall k, a_from_primitive_state dim (a_to_primitive_state dim U) k = U k).
Proof. intros. split; intros; [apply a_to_from_primitive|apply a_from_to_primitive]; assumption. Qed.

Lemma sw_bijection : forall s eps dim,
  (forall p, 0 < p 0%nat -> cutoff_small s eps <= p 0%nat ->
     forall k, w_to_primitive_state s eps dim (w_from_primitive_state dim p) k = p k) /\
  (forall U, 0 < water_depth U -> cutoff_small s eps <= water_depth U ->
     forall k, w_from_primitive_state dim (w_to_primitive_state s eps dim U) k = U k).
Proof. intros. split; intros; [apply w_to_from_primitive|apply w_from_to_primitive]; assumption. Qed.

Lemma euler_regimes : forall s dim U n data,
  1 < gamma s -> norm2 dim n = 1 -> 0 < density U -> 0 < pressure s dim U ->
  0 < density data -> 0 < pressure s dim data ->
  invariant_1 s dim n data < invariant_2 s dim n U ->
  let a := speed_of_sound s dim U in
  let vn := normal_velocity dim n U in
  let V := apply_boundary_conditions s dim dynamic U n data in
  (vn < - a -> V = data) /\
  (a < vn -> V = U) /\
  (- a <= vn <= a ->
     let upstream := if Rle_dec vn 0 then data else U in
     0 < density V /\ 0 < pressure s dim V /\
     invariant_1 s dim n V = invariant_1 s dim n data /\
     invariant_2 s dim n V = invariant_2 s dim n U /\
     isentropic s dim V = isentropic s dim upstream /\
     (forall t, dot dim n t = 0 ->
        dot dim (momentum V) t / density V = dot dim (momentum upstream) t / density upstream)).
Proof.
  intros s dim U n data Hg Hn Hr Hp Hrd Hpd Hgap a vn V.
  destruct (dynamic_regimes s dim U n data Hg Hn (sqrt_pos _)) as (A & B & C & D).
  fold a vn V in A, B, C, D. split; [exact A|]. split; [exact B|].
  intros [H1 H2] upstream. unfold upstream. destruct (Rle_dec vn 0) as [H|H].
  - rewrite C by lra. exact (core_spec s dim n Hn Hg _ _ data Hrd Hpd Hgap).
  - rewrite D by lra. exact (core_spec s dim n Hn Hg _ _ U Hr Hp Hgap).
Qed.

Lemma sw_regimes : forall s eps dim U n data,
  0 < gravity s -> norm2 dim n = 1 -> 0 < water_depth U -> cutoff_small s eps <= water_depth U ->
  0 < water_depth data -> cutoff_small s eps <= water_depth data ->
  w_invariant_1 s dim n data < w_invariant_2 s dim n U ->
  let a := w_speed_of_sound s U in
  let vn := w_normal_velocity dim n U in
  let V := w_apply_boundary_conditions s eps dim dynamic U n data in
  (vn < - a -> V = data) /\
  (a < vn -> V = U) /\
  (- a <= vn <= a ->
     let upstream := if Rle_dec vn 0 then data else U in
     0 < water_depth V /\
     w_invariant_1 s dim n V = w_invariant_1 s dim n data /\
     w_invariant_2 s dim n V = w_invariant_2 s dim n U /\
     (forall t, dot dim n t = 0 ->
        dot dim (w_momentum V) t / water_depth V = dot dim (w_momentum upstream) t / water_depth upstream)).
Proof.
  intros s eps dim U n data Hg Hn Hh Hc Hhd Hcd Hgap a vn V.
  destruct (w_dynamic_regimes s eps dim U n data Hc Hcd) as (A & B & C & D).
  fold a vn V in A, B, C, D. split; [exact A|]. split; [exact B|].
  intros [H1 H2] upstream. unfold upstream. destruct (Rle_dec vn 0) as [H|H].
  - rewrite C by lra. apply w_core_spec; assumption.
  - rewrite D by lra. apply w_core_spec; assumption.
Qed.

Lemma euler_conservative : forall dim f_i f_j c k,
  flux_divergence dim f_j f_i (vscal (-1) c) k = - flux_divergence dim f_i f_j c k /\
  flux_divergence dim f_i f_i c k = - 2 * contract dim f_i c k.
Proof. intros. split; [apply flux_divergence_antisymmetric|apply flux_divergence_consistent]. Qed.

Lemma aeos_conservative : forall dim f_i f_j c k,
  a_flux_divergence dim f_j f_i (vscal (-1) c) k = - a_flux_divergence dim f_i f_j c k /\
  a_flux_divergence dim f_i f_i c k = - 2 * contract dim f_i c k.
Proof. exact euler_conservative. Qed.

Lemma h_star_pos : forall s eps dim U, 0 < cutoff_small s eps -> 0 < snd (w_precomputed s eps dim U).
Proof.
  intros s eps dim U H. unfold w_precomputed. cbn [snd]. apply powr_gt0.
  unfold water_depth_sharp. fold (cutoff_small s eps). assert (X := Rmax_r (water_depth U) (cutoff_small s eps)). lra.
Qed.

Lemma friction_law : forall s eps dim U tau,
  0 <= tau -> 0 < water_depth U -> cutoff_small s eps <= water_depth U -> cutoff_large s eps <= water_depth U ->
  let g := gravity s in let n := manning_friction_coefficient s in
  let h := water_depth U in let m := w_momentum U in
  let speed := sqrt (norm2 dim m) / h in
  tau * (2 * g * n ^ 2 * speed) <= powr h (4 / 3) ->
  forall k, (k < dim)%nat ->
  w_momentum (manning_friction s eps dim U (snd (w_precomputed s eps dim U)) tau) k = - (g * n ^ 2 * speed * m k) / powr h (4 / 3).
Proof.
  intros s eps dim U tau Ht Hh Hs Hl g n h m speed Hn k Hk.
  assert (Hp : 0 < powr h (4 / 3)) by (apply powr_gt0; exact Hh).
  assert (HS : snd (w_precomputed s eps dim U) = powr h (4 / 3)).
  { unfold w_precomputed. cbn [snd]. unfold water_depth_sharp. fold (cutoff_small s eps). rewrite Rmax_left by exact Hs. reflexivity. }
  rewrite HS. unfold w_momentum at 1, manning_friction, mkwater. cbn [Nat.eqb]. replace (S k - 1)%nat with k by lia.
  assert (HI : inverse_water_depth_mollified s eps U = 1 / h).
  { unfold inverse_water_depth_mollified. fold (cutoff_large s eps). rewrite Rmax_left by exact Hl.
    rewrite positive_part_max, Rmax_right by exact (Rlt_le _ _ Hh). fold h. fold h in Hh. field. nra. }
  rewrite HI, norm2_scal.
  assert (HV : sqrt (1 / h * (1 / h) * norm2 dim (w_momentum U)) = speed).
  { rewrite sqrt_mult; [|apply Rle_0_sqr|apply norm2_nonneg].
    rewrite sqrt_square; [unfold speed, m; field; unfold h; lra|]. left. apply Rdiv_lt_0_compat; [lra|exact Hh]. }
  rewrite HV. fold g n m. rewrite Rmax_left.
  - field. lra.
  - replace (2 * g * n * n * speed) with (2 * g * n ^ 2 * speed) by ring. exact Hn.
Qed.

(** ** Concrete states *)

Definition ex_euler : euler := {| gamma := 7 / 5; reference_density := 1; vacuum_state_relaxation_small := 100;
  vacuum_state_relaxation_large := 10000 |}.
(** density 7/5, velocity (1/2, 0), pressure 1: sound speed 1 *)
Definition ex_U : vec := fun k => match k with 0%nat => 7 / 5 | 1%nat => 7 / 10 | 2%nat => 0 | _ => 5 / 2 + 7 / 40 end.
(** density 35/5, velocity 0, pressure 5: sound speed 1 *)
Definition ex_D : vec := fun k => match k with 0%nat => 7 | 1%nat => 0 | 2%nat => 0 | _ => 25 / 2 end.
Definition ex_n : vec := fun k => match k with 0%nat => 3 / 5 | _ => 4 / 5 end.
Definition ex_eos : eos := {| eos_pressure := fun rho e => 2 / 5 * rho * e;
  eos_specific_internal_energy := fun rho p => p / (2 / 5 * rho);
  eos_speed_of_sound := fun rho e => sqrt (14 / 25 * e); interp_b := 1 / 10; interp_pinf := 1 / 2; interp_q := 1 / 10 |}.
Definition ex_shallow : shallow := {| gravity := 10; manning_friction_coefficient := 1; reference_water_depth := 1;
  dry_state_relaxation_factor := 1; dry_state_relaxation_small := 1; dry_state_relaxation_large := 100 |}.
Definition ex_W : vec := fun k => match k with 0%nat => 5 / 2 | 1%nat => 5 / 2 | _ => 0 end.

Lemma ex_pressure : pressure ex_euler 2 ex_U = 1.
Proof. unfold pressure, internal_energy, total_energy, density, norm2, dot, momentum, ex_U. simpl. field. Qed.
Lemma ex_pressure_D : pressure ex_euler 2 ex_D = 5.
Proof. unfold pressure, internal_energy, total_energy, density, norm2, dot, momentum, ex_D. simpl. field. Qed.
Lemma ex_sound : speed_of_sound ex_euler 2 ex_U = 1.
Proof.
  unfold speed_of_sound. rewrite ex_pressure. unfold density, ex_U. simpl.
  replace (7 / 5 * 1 * (1 / (7 / 5))) with 1 by field. apply sqrt_1.
Qed.
Lemma ex_sound_D : speed_of_sound ex_euler 2 ex_D = 1.
Proof.
  unfold speed_of_sound. rewrite ex_pressure_D. unfold density, ex_D. simpl.
  replace (7 / 5 * 5 * (1 / 7)) with 1 by field. apply sqrt_1.
Qed.

Lemma ex_bijection : gamma ex_euler <> 1 /\ ex_U 0%nat <> 0 /\
  to_primitive_state ex_euler 2 ex_U 1%nat = 1 / 2 /\ to_primitive_state ex_euler 2 ex_U 3%nat = 1.
Proof.
  split; [simpl; lra|]. split; [simpl; lra|]. split; [unfold to_primitive_state; simpl; field|].
  unfold to_primitive_state. simpl. apply ex_pressure.
Qed.

Lemma ex_initial : let V := from_initial_state ex_euler 3 1 (fun k => INR (S k)) in
  density V = 1 /\ pressure ex_euler 3 V = 3 /\ momentum V 0%nat = 2 /\ momentum V 2%nat = 0.
Proof.
  destruct (initial_state ex_euler 3 1 (fun k => INR (S k)) ltac:(lia) ltac:(simpl; lra) ltac:(simpl; lra)) as (A & B & C).
  cbv zeta. rewrite A, B, !C by lia. simpl. repeat split; ring.
Qed.

Lemma ex_eos_inverse : eos_pressure ex_eos 2 (eos_specific_internal_energy ex_eos 2 3) = 3.
Proof. simpl. field. Qed.

Lemma ex_wet : 0 < water_depth ex_W /\ cutoff_small ex_shallow (1 / 1000) <= water_depth ex_W.
Proof. unfold cutoff_small, water_depth. simpl. lra. Qed.
Lemma ex_wet_large : 0 < water_depth ex_W /\ cutoff_large ex_shallow (1 / 1000) <= water_depth ex_W.
Proof. unfold cutoff_large, water_depth. simpl. lra. Qed.
Lemma ex_cutoff_large : 0 < cutoff_large ex_shallow (1 / 1000).
Proof. unfold cutoff_large. simpl. lra. Qed.

Lemma ex_unit : norm2 2 ex_n = 1.
Proof. unfold norm2, dot, ex_n. simpl. field. Qed.

Lemma ex_slip : norm2 2 ex_n = 1 /\
  let V := apply_boundary_conditions ex_euler 2 slip ex_U ex_n ex_U in
  momentum V 0%nat = 56 / 125 /\ momentum V 1%nat = - (42 / 125).
Proof.
  split; [exact ex_unit|]. unfold apply_boundary_conditions, momentum, vsub, vscal, dot, ex_U, ex_n. simpl. split; field.
Qed.

Lemma ex_admissible : is_admissible ex_euler 2 ex_U = true.
Proof.
  rewrite admissible_physical. assert (P := ex_pressure). unfold pressure in P. simpl gamma in P.
  split; [unfold density; simpl; lra|lra].
Qed.

Lemma ex_a_admissible : a_is_admissible ex_eos 2 ex_U = true.
Proof.
  rewrite a_admissible_iff. unfold a_internal_energy, a_total_energy, a_density, norm2, dot, a_momentum, ex_U. simpl. lra.
Qed.

Lemma ex_dynamic : 1 < gamma ex_euler /\ norm2 2 ex_n = 1 /\ 0 < density ex_U /\ 0 < pressure ex_euler 2 ex_U.
Proof. rewrite ex_pressure. split; [simpl; lra|]. split; [exact ex_unit|]. split; [unfold density; simpl; lra|lra]. Qed.

Lemma ex_regimes : 0 < density ex_D /\ 0 < pressure ex_euler 2 ex_D /\
  invariant_1 ex_euler 2 ex_n ex_D < invariant_2 ex_euler 2 ex_n ex_U /\
  - speed_of_sound ex_euler 2 ex_U <= normal_velocity 2 ex_n ex_U <= speed_of_sound ex_euler 2 ex_U /\
  ex_D 0%nat <> ex_U 0%nat.
Proof.
  unfold invariant_1, invariant_2. rewrite ex_pressure_D, ex_sound, ex_sound_D.
  unfold normal_velocity, dot, momentum, density, ex_D, ex_U, ex_n. simpl. lra.
Qed.

Lemma ex_sw_sound : w_speed_of_sound ex_shallow ex_W = 5.
Proof. unfold w_speed_of_sound. simpl. replace (10 * (5 / 2)) with (5 * 5) by field. apply sqrt_square. lra. Qed.

Lemma ex_sw_regimes :
  0 < gravity ex_shallow /\ 0 < water_depth ex_W /\ cutoff_small ex_shallow (1 / 1000) <= water_depth ex_W /\
  w_invariant_1 ex_shallow 2 ex_n ex_W < w_invariant_2 ex_shallow 2 ex_n ex_W /\
  - w_speed_of_sound ex_shallow ex_W <= w_normal_velocity 2 ex_n ex_W <= w_speed_of_sound ex_shallow ex_W.
Proof.
  unfold w_invariant_1, w_invariant_2. rewrite ex_sw_sound.
  unfold w_normal_velocity, cutoff_small, dot, w_momentum, water_depth, ex_W, ex_n. simpl. lra.
Qed.

Lemma ex_rotation : isometry 2 (fun a k => if Nat.eqb k 0 then - a 1%nat else a 0%nat).
Proof.
  split; [|split].
  - intros a b k Hk. unfold vadd. destruct (Nat.eqb k 0); ring.
  - intros x a k Hk. unfold vscal. destruct (Nat.eqb k 0); ring.
  - intros a b. unfold dot. simpl. ring.
Qed.

Lemma ex_harten : 0 < gamma ex_euler + 1 /\
  0 < density ex_U * total_energy 2 ex_U - 1 / 2 * norm2 2 (momentum ex_U).
Proof. unfold density, total_energy, norm2, dot, momentum, ex_U. simpl. lra. Qed.

Lemma ex_a_harten :
  0 < 1 - interp_b ex_eos * a_density ex_U /\
  0 < a_density ex_U * a_total_energy 2 ex_U - 1 / 2 * norm2 2 (a_momentum ex_U)
      - a_density ex_U * a_density ex_U * interp_q ex_eos
      - a_density ex_U * interp_pinf ex_eos * (1 - interp_b ex_eos * a_density ex_U).
Proof. unfold a_density, a_total_energy, norm2, dot, a_momentum, ex_U. simpl. lra. Qed.

Lemma ex_friction :
  0 <= gravity ex_shallow /\ 0 < cutoff_small ex_shallow (1 / 1000) /\
  w_momentum (manning_friction ex_shallow (1 / 1000) 2 ex_W 1 1) 0%nat < 0.
Proof.
  split; [simpl; lra|]. split; [unfold cutoff_small; simpl; lra|].
  destruct (mollified_inverse ex_shallow (1 / 1000) ex_W ex_cutoff_large) as (_ & _ & _ & D & _).
  specialize (D (proj2 ex_wet_large)).
  unfold manning_friction. rewrite D, norm2_scal.
  replace (1 / water_depth ex_W * (1 / water_depth ex_W) * norm2 2 (w_momentum ex_W)) with 1
    by (unfold water_depth, norm2, dot, w_momentum, ex_W; simpl; field).
  rewrite sqrt_1. unfold w_momentum, mkwater, ex_W. simpl. rewrite (Rmax_right 1) by lra. lra.
Qed.

(** ** Filters *)

Lemma C80_filters_proof : forall eps,
  (forall s, roundoff_filter (reference_density s * vacuum_state_relaxation_large s * eps) (filter_vacuum_density s eps)) /\
  (forall s, roundoff_filter (a_reference_density s * a_relaxation_large s * eps) (a_filter_vacuum_density s eps)) /\
  (forall s, roundoff_filter (cutoff_large s eps) (filter_dry_water_depth s eps)).
Proof.
  intros eps. repeat split; intros; cbv [filter_vacuum_density a_filter_vacuum_density filter_dry_water_depth cutoff_large] in *;
    destruct (Rlt_dec _ _); lra.
Qed.

Lemma C80_ex_proof : filter_dry_water_depth ex_shallow (1 / 1000) (-1) = -1 /\
  filter_dry_water_depth ex_shallow (1 / 1000) 0 = 0.
Proof.
  destruct (C80_filters_proof (1 / 1000)) as (_ & _ & H). split.
  - apply H. unfold cutoff_large, ex_shallow. cbn. rewrite (Rabs_left (-1)); lra.
  - apply H. rewrite Rabs_R0. exact ex_cutoff_large.
Qed.

Lemma ex_manning :
  0 < water_depth ex_W /\ cutoff_small ex_shallow (1 / 1000) <= water_depth ex_W /\ cutoff_large ex_shallow (1 / 1000) <= water_depth ex_W /\
  1 / 100 * (2 * gravity ex_shallow * manning_friction_coefficient ex_shallow ^ 2 * (sqrt (norm2 2 (w_momentum ex_W)) / water_depth ex_W))
    <= powr (water_depth ex_W) (4 / 3).
Proof.
  unfold water_depth, cutoff_small, cutoff_large, norm2, dot, w_momentum, ex_W, ex_shallow. cbn.
  repeat split; try lra.
  replace (0 + 5 / 2 * (5 / 2) + 0 * 0) with (5 / 2 * (5 / 2)) by ring. rewrite sqrt_square by lra.
  replace (1 / 100 * (2 * 10 * (1 * (1 * 1)) * (5 / 2 / (5 / 2)))) with (1 / 5) by field.
  apply Rle_trans with (powr 1 (4 / 3)).
  - unfold powr. destruct (Rlt_dec 0 1); [|lra]. unfold Rpower. rewrite ln_1, Rmult_0_r, exp_0. lra.
  - apply powr_mono; lra.
Qed.
