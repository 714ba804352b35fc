(** * The wave speed estimate of the shallow water Riemann solver: C39, C73 (shallow water) *)
From Coq Require Import Reals Arith Lra.
From Verif Require Import RVec SWSystem EulerSystem PhysSpec SWRiemann SWRiemannSpec SWRiemannFinal.
Local Open Scope R_scope.

(** C39: for two wet states and every normal the exact Riemann problem has a solution, and
    every signal speed xi of every solution is bounded by the computed speed. *)
Theorem C39_wave_speed : forall s eps dim U_i U_j n,
  0 < gravity s ->
  0 < water_depth U_i -> cutoff_small s eps <= water_depth U_i ->
  0 < water_depth U_j -> cutoff_small s eps <= water_depth U_j ->
  let u U := w_normal_velocity dim n U in
  (exists sl sr, extreme_speeds (gravity s) (water_depth U_i) (u U_i) (water_depth U_j) (u U_j) sl sr) /\
  forall sl sr xi, extreme_speeds (gravity s) (water_depth U_i) (u U_i) (water_depth U_j) (u U_j) sl sr ->
    sl <= xi <= sr -> Rabs xi <= sw_wavespeed s eps dim U_i U_j n.
Proof. exact C39_wave_speed_proof. Qed.
Print Assumptions C39_wave_speed.

(** Two colliding streams: the exact shocks run with the speeds -1 and 1. *)
Example C39_wave_speed_ex :
  let s := {| gravity := 4 / 3; manning_friction_coefficient := 0; reference_water_depth := 1;
              dry_state_relaxation_factor := 1; dry_state_relaxation_small := 1; dry_state_relaxation_large := 1 |} in
  let U_i := mkwater 1 1 (fun _ => 1) in let U_j := mkwater 1 1 (fun _ => -1) in let n := fun _ : nat => 1 in
  0 < gravity s /\ cutoff_small s (1 / 1000) <= water_depth U_i /\ cutoff_small s (1 / 1000) <= water_depth U_j /\
  extreme_speeds (gravity s) (water_depth U_i) (w_normal_velocity 1 n U_i)
    (water_depth U_j) (w_normal_velocity 1 n U_j) (-1) 1.
Proof.
  cbv zeta. unfold cutoff_small, w_normal_velocity, dot, rsum, w_momentum, water_depth, mkwater; simpl.
  split; [lra|]. split; [lra|]. split; [lra|].
  replace ((0 + 1 * 1) / 1) with 1 by field. replace ((0 + -1 * 1) / 1) with (-1) by field. exact ex_collision.
Qed.

(** C39, all states: for any two states, also dry ones, the computed speed bounds all
    signal speeds of the Riemann problem with the depths raised to the cutoff. *)
Theorem C39_regularised_depth : forall s eps dim U_i U_j n,
  0 < gravity s -> 0 < cutoff_small s eps ->
  let h U := Rmax (water_depth U) (cutoff_small s eps) in
  let u U := dot dim (w_momentum U) n / h U in
  (exists sl sr, extreme_speeds (gravity s) (h U_i) (u U_i) (h U_j) (u U_j) sl sr) /\
  forall sl sr xi, extreme_speeds (gravity s) (h U_i) (u U_i) (h U_j) (u U_j) sl sr ->
    sl <= xi <= sr -> Rabs xi <= sw_wavespeed s eps dim U_i U_j n.
Proof. exact C39_regularised_depth_proof. Qed.
Print Assumptions C39_regularised_depth.

Example C39_regularised_depth_ex :
  0 < gravity ex_dry_system /\ 0 < cutoff_small ex_dry_system (1 / 100) /\
  Rmax (water_depth ex_dry) (cutoff_small ex_dry_system (1 / 100)) = 1 / 100 /\
  extreme_speeds 1 1 (-3) 1 3 (-4) 4.
Proof.
  unfold cutoff_small; simpl. split; [lra|]. split; [lra|]. split.
  - unfold water_depth, ex_dry, mkwater; simpl. rewrite Rmax_right; lra.
  - exact ex_separation.
Qed.

(** The unregularised claim is false: water next to a dry state (depth and momentum zero);
    the exact front advances with v.n + 2 sqrt(g h), the computed speed is smaller. *)
Theorem C39_dry_front_refuted : exists s eps dim U_i U_j n,
  0 < gravity s /\ 0 < cutoff_small s eps /\
  cutoff_small s eps <= water_depth U_i /\
  dot dim n n = 1 /\
  water_depth U_j = 0 /\ (forall k, w_momentum U_j k = 0) /\
  sw_wavespeed s eps dim U_i U_j n < w_normal_velocity dim n U_i + 2 * w_speed_of_sound s U_i.
Proof. exact C39_dry_front_refuted_proof. Qed.
Print Assumptions C39_dry_front_refuted.

(** C73 (ShallowWater): exchanging the states and reversing the normal does not change the
    computed speed; it is never negative. *)
Theorem C73_shallow_symmetric : forall s eps dim U_i U_j n,
  sw_wavespeed s eps dim U_j U_i (fun k => - n k) = sw_wavespeed s eps dim U_i U_j n.
Proof. exact sw_wavespeed_symmetric. Qed.
Print Assumptions C73_shallow_symmetric.

Theorem C73_shallow_nonneg : forall s eps dim U_i U_j n, 0 <= sw_wavespeed s eps dim U_i U_j n.
Proof. exact sw_wavespeed_nonneg. Qed.
Print Assumptions C73_shallow_nonneg.

(** No hypotheses; the speed is positive for instance for the water next to the dry state. *)
Example C73_shallow_ex : exists s eps U_i U_j, U_i <> U_j /\
  0 <= sw_wavespeed s eps 1 U_i U_j (fun _ => 1) < w_normal_velocity 1 (fun _ => 1) U_i + 2 * w_speed_of_sound s U_i.
Proof.
  exists ex_dry_system, (1 / 100), ex_water, ex_dry. split.
  - intros E. assert (H : ex_water 0%nat = ex_dry 0%nat) by (rewrite E; reflexivity).
    unfold ex_water, ex_dry, mkwater in H; simpl in H. lra.
  - split; [apply sw_wavespeed_nonneg|exact dry_front].
Qed.
