(** * What the shallow water limiter is supposed to guarantee *)
From Coq Require Import Reals.
From Verif Require Import RVec SWLimiter.
Local Open Scope R_scope.

(** The water depth and the momentum of the state U + t P. *)
Definition depth_at (L : wlane) (t : R) : R := wl_U L 0%nat + t * wl_P L 0%nat.
Definition momentum_at (L : wlane) (t : R) : vec := fun d => wl_U L (S d) + t * wl_P L (S d).

Definition depth_within (L : wlane) (t : R) : Prop :=
  h_min (wl_b L) <= depth_at L t <= h_max (wl_b L).

(** |q|^2 <= v2_max h^2 *)
Definition velocity_within (dim : nat) (L : wlane) (t : R) : Prop :=
  norm2 dim (momentum_at L t) <= v2_max (wl_b L) * (depth_at L t * depth_at L t).

(** 1/2 |q|^2 <= kin_max h *)
Definition kinetic_within (dim : nat) (L : wlane) (t : R) : Prop :=
  1 / 2 * norm2 dim (momentum_at L t) <= kin_max (wl_b L) * depth_at L t.

(** A call of limit(): a range of coefficients starting with zero (the only value of
    t_min in the code), nonnegative bounds, the low-order state U within the depth
    bounds. *)
Definition depth_call (L : wlane) : Prop :=
  wl_tmin L = 0 /\ 0 <= wl_tmax L /\ 0 <= h_min (wl_b L) /\ depth_within L 0.
