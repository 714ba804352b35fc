(** * Property theorems: thin films (C126) *)
From Coq Require Import Reals List Arith Bool Lia Lra.
From Verif Require Import RVec SWSystem SWLimiter SWLimiterSpec SWThinSpec SWThinProofs.
Import ListNotations.
Local Open Scope R_scope.

(** On a mesh of size h the limiter does not thin the water out below the depth of a film,
    and a film that stays a film is taken from the low-order update. *)
Theorem C126_thin :
  forall s eps tiny tol on_kin on_v2 factor h dim lanes ts b,
  0 <= eps -> 0 < tiny -> (dim = 1 \/ dim = 2)%nat -> 0 < h ->
  Forall (fun L => depth_call L /\ exists l, wl_b L = w_get_bounds s eps factor dim l (h ^ dim)) lanes ->
  w_limit s eps tiny tol on_kin on_v2 dim lanes = (ts, b) ->
  Forall2 (fun L t =>
    Rmin (depth_at L 0) (film s h) <= depth_at L t /\
    (depth_at L 0 < film s h -> depth_at L (wl_tmax L) < film s h -> t = 0)) lanes ts.
Proof. exact C126_thin_proof. Qed.
Print Assumptions C126_thin.

(** A film of depth 1/100 with an update to 3/100, where films are below 1/20. *)
Example C126_ex :
  let s := {| gravity := 10; manning_friction_coefficient := 0; reference_water_depth := 1;
              dry_state_relaxation_factor := 1 / 5; dry_state_relaxation_small := 1; dry_state_relaxation_large := 1 |} in
  let l := {| w_U_i := fun _ => 1 / 100; w_bounds := {| h_min := 0; h_max := 1; h_small := 0; kin_max := 1; v2_max := 1 |};
              h_relaxation_numerator := 1; kin_relaxation_numerator := 1; v2_relaxation_numerator := 1; relaxation_denominator := 1 |} in
  let L := {| wl_b := w_get_bounds s 0 0 1 l ((1 / 4) ^ 1); wl_U := fun _ => 1 / 100; wl_P := fun _ => 1 / 50; wl_tmin := 0; wl_tmax := 1 |} in
  depth_call L /\ film s (1 / 4) = 1 / 20 /\ depth_at L 0 < film s (1 / 4) /\ depth_at L 1 < film s (1 / 4).
Proof. exact C126_setting. Qed.
