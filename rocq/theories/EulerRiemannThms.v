(** * Property theorems for the Euler Riemann solver (C37, C73) *)
From Coq Require Import Reals Lra.
From Verif Require Import RVec EulerSystem PhysSpec EulerRiemann EulerRiemannSpec EulerRiemannFinal.
Local Open Scope R_scope.

(** C37: the exact Riemann problem between any two states of positive density and pressure
    has a solution in the sense of the specification, so the bounds below are not void. *)
Theorem C37_exact_exists : forall s dim U_i U_j n,
  1 < gamma s <= 5 / 3 -> 0 < density U_i -> 0 < pressure s dim U_i -> 0 < density U_j -> 0 < pressure s dim U_j ->
  exists sl sr,
    (exists us ps, e_fan (gamma s) (density U_i) (normal_velocity dim n U_i) (pressure s dim U_i)
                         (density U_j) (normal_velocity dim n U_j) (pressure s dim U_j) us ps sl sr) \/
    e_vacuum (gamma s) (density U_i) (normal_velocity dim n U_i) (pressure s dim U_i)
             (density U_j) (normal_velocity dim n U_j) (pressure s dim U_j) sl sr.
Proof. exact C37_exact_exists_proof. Qed.
Print Assumptions C37_exact_exists.

(** C37 for two waves of the same kind: if the pressure ps between the waves is not above
    both pressures (two rarefactions) or not below both (two shocks), the computed speed
    bounds every signal speed.  Any tolerance and any number of Newton iterations (with
    iterations: exact arithmetic, eps = 0).  Missing: a rarefaction and a shock, where the
    claim is false, see C37_mixed_refuted. *)
Theorem C37_wave_speed_partial : forall s eps tolerance newton_max_iterations dim U_i U_j n us ps sl sr xi,
  1 < gamma s <= 5 / 3 -> dot dim n n = 1 ->
  0 < density U_i -> 0 < pressure s dim U_i -> 0 < density U_j -> 0 < pressure s dim U_j ->
  (newton_max_iterations = 0%nat \/ eps = 0) ->
  e_fan (gamma s) (density U_i) (normal_velocity dim n U_i) (pressure s dim U_i)
        (density U_j) (normal_velocity dim n U_j) (pressure s dim U_j) us ps sl sr ->
  (ps <= Rmin (pressure s dim U_i) (pressure s dim U_j) \/ Rmax (pressure s dim U_i) (pressure s dim U_j) <= ps) ->
  sl <= xi <= sr ->
  Rabs xi <= er_wavespeed s eps tolerance newton_max_iterations dim U_i U_j n.
Proof. exact C37_wave_speed_proof. Qed.
Print Assumptions C37_wave_speed_partial.

(** Two colliding streams, shocks of speed -1/2 and 1/2. *)
Example C37_wave_speed_ex : let U_i := ex_stream (3 / 5) in let U_j := ex_stream (- (3 / 5)) in
  let n : vec := fun _ => 1 in
  1 < gamma ex_air <= 5 / 3 /\ dot 1 n n = 1 /\
  0 < density U_i /\ 0 < pressure ex_air 1 U_i /\ 0 < density U_j /\ 0 < pressure ex_air 1 U_j /\
  e_fan (gamma ex_air) (density U_i) (normal_velocity 1 n U_i) (pressure ex_air 1 U_i)
        (density U_j) (normal_velocity 1 n U_j) (pressure ex_air 1 U_j) 0 1 (- (1 / 2)) (1 / 2) /\
  Rmax (pressure ex_air 1 U_i) (pressure ex_air 1 U_j) <= 1.
Proof.
  cbv zeta. destruct (ex_stream_values (3 / 5) ltac:(lra)) as (A1 & A2 & A3).
  destruct (ex_stream_values (- (3 / 5)) ltac:(lra)) as (B1 & B2 & B3).
  rewrite A1, A2, A3, B1, B2, B3. change (gamma ex_air) with (7 / 5).
  repeat match goal with |- _ /\ _ => split end; try lra.
  - unfold dot, rsum; simpl; lra.
  - replace (5 / 4 * (3 / 5)) with (3 / 4) by field. replace (5 / 4 * - (3 / 5)) with (- (3 / 4)) by field. exact collision_fan.
  - rewrite Rmax_left; lra.
Qed.

(** C37 when a vacuum opens. *)
Theorem C37_vacuum : forall s eps tolerance newton_max_iterations dim U_i U_j n sl sr xi,
  1 < gamma s -> dot dim n n = 1 ->
  0 < density U_i -> 0 < pressure s dim U_i -> 0 < density U_j -> 0 < pressure s dim U_j ->
  e_vacuum (gamma s) (density U_i) (normal_velocity dim n U_i) (pressure s dim U_i)
           (density U_j) (normal_velocity dim n U_j) (pressure s dim U_j) sl sr ->
  sl <= xi <= sr ->
  Rabs xi <= er_wavespeed s eps tolerance newton_max_iterations dim U_i U_j n.
Proof. exact C37_vacuum_proof. Qed.
Print Assumptions C37_vacuum.

Example C37_vacuum_ex : let U_i := ex_tear (- (42 / 5)) in let U_j := ex_tear (42 / 5) in
  let n : vec := fun _ => 1 in
  0 < density U_i /\ 0 < pressure ex_air 1 U_i /\ 0 < density U_j /\ 0 < pressure ex_air 1 U_j /\
  e_vacuum (gamma ex_air) (density U_i) (normal_velocity 1 n U_i) (pressure ex_air 1 U_i)
        (density U_j) (normal_velocity 1 n U_j) (pressure ex_air 1 U_j) (- (7)) 7.
Proof.
  cbv zeta. destruct (ex_tear_values (42 / 5) ltac:(lra)) as (A1 & A2 & A3).
  destruct (ex_tear_values (- (42 / 5)) ltac:(lra)) as (B1 & B2 & B3).
  rewrite A1, A2, A3, B1, B2, B3. change (gamma ex_air) with (7 / 5).
  repeat match goal with |- _ /\ _ => split end; try lra; try exact (proj1 tear_vacuum).
  replace (5 / 7 * (42 / 5)) with 6 by field. replace (5 / 7 * - (42 / 5)) with (- (6)) by field. exact tear_vacuum.
Qed.

(** C37 for all pairs of states: the computed speed bounds the outgoing acoustic
    characteristics of both states, whatever waves appear. *)
Theorem C37_characteristics : forall s eps tolerance newton_max_iterations dim U_i U_j n,
  1 < gamma s -> dot dim n n = 1 ->
  0 < density U_i -> 0 < pressure s dim U_i -> 0 < density U_j -> 0 < pressure s dim U_j ->
  let lambda := er_wavespeed s eps tolerance newton_max_iterations dim U_i U_j n in
  - lambda <= normal_velocity dim n U_i - speed_of_sound s dim U_i /\
  normal_velocity dim n U_j + speed_of_sound s dim U_j <= lambda.
Proof. exact C37_characteristics_proof. Qed.
Print Assumptions C37_characteristics.

Example C37_characteristics_ex :
  1 < gamma ex_air /\ 0 < density ex_dense /\ 0 < pressure ex_air 1 ex_dense /\
  0 < density ex_light /\ 0 < pressure ex_air 1 ex_light /\ ex_dense <> ex_light.
Proof.
  destruct ex_dense_values as (D1 & D2 & D3). destruct ex_light_values as (L1 & L2 & L3).
  split; [simpl; lra|]. repeat match goal with |- _ /\ _ => split end; try lra.
  intros E. rewrite E in D1. lra.
Qed.

(** The full claim is false with a rarefaction on one side and a shock on the other side,
    without Newton iterations (the default), for air (gamma = 7/5): the exact fan ends with a
    shock of speed sr, the computed speed is smaller. *)
Theorem C37_mixed_refuted : exists s dim U_i U_j n us ps sl sr,
  gamma s = 7 / 5 /\ dot dim n n = 1 /\
  0 < density U_i /\ 0 < pressure s dim U_i /\ 0 < density U_j /\ 0 < pressure s dim U_j /\
  e_fan (gamma s) (density U_i) (normal_velocity dim n U_i) (pressure s dim U_i)
        (density U_j) (normal_velocity dim n U_j) (pressure s dim U_j) us ps sl sr /\
  forall eps tolerance, er_wavespeed s eps tolerance 0 dim U_i U_j n < sr.
Proof. exact C37_mixed_refuted_proof. Qed.
Print Assumptions C37_mixed_refuted.

(** C73 (Euler): exchanging the states and reversing the normal does not change the computed
    speed, with or without Newton iterations; it is never negative. *)
Theorem C73_euler_symmetric : forall s eps tolerance newton_max_iterations dim U_i U_j n,
  1 < gamma s -> dot dim n n = 1 ->
  0 < density U_i -> 0 < pressure s dim U_i -> 0 < density U_j -> 0 < pressure s dim U_j ->
  er_wavespeed s eps tolerance newton_max_iterations dim U_j U_i (fun k => - n k) =
  er_wavespeed s eps tolerance newton_max_iterations dim U_i U_j n.
Proof. exact er_wavespeed_symmetric. Qed.
Print Assumptions C73_euler_symmetric.

Theorem C73_euler_nonneg : forall s eps tolerance newton_max_iterations dim U_i U_j n,
  0 <= er_wavespeed s eps tolerance newton_max_iterations dim U_i U_j n.
Proof. exact er_wavespeed_nonneg. Qed.
Print Assumptions C73_euler_nonneg.

(** The hypotheses hold for the pair of C37_characteristics_ex with the normal 1; the speed
    there is positive. *)
Example C73_euler_ex : 1 / 100 <= er_wavespeed ex_air (1 / 100) 0 0 1 ex_dense ex_light (fun _ => 1).
Proof.
  destruct ex_dense_values as (D1 & D2 & D3). destruct ex_light_values as (L1 & L2 & L3).
  pose proof (C37_characteristics ex_air (1 / 100) 0 0 1 ex_dense ex_light (fun _ => 1)) as C.
  cbv zeta in C. rewrite speed_of_sound_eq, D1, D2, D3 in C by lra. change (gamma ex_air) with (7 / 5) in C.
  rewrite mixed_sound in C. destruct C as [C _]; try lra. unfold dot, rsum; simpl; lra.
Qed.
