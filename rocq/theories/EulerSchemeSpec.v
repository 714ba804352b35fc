(** * Notions for the Euler scheme *)
From Coq Require Import Reals List.
From Verif Require Import RVec EulerSystem EulerLimiter EulerScheme SchemeSpec.
From Verif Require Import Scheme.
Local Open Scope R_scope.

(** Density, specific internal energy (total energy minus kinetic energy) and
    hence pressure and temperature are positive. *)
Definition positive_gas (dim : nat) (u : state nat) : Prop :=
  0 < u 0%nat /\
  0 < u (Datatypes.S dim) - lsum (fun k => u (Datatypes.S k) * u (Datatypes.S k)) (seq 0 dim) / (2 * u 0%nat).

(** The density of [u] is positive and within the bounds. *)
Definition mass_inside (b : ebounds) (u : state nat) : Prop :=
  0 < rho_min b /\ rho_min b <= u 0%nat <= rho_max b.

(** In addition, the specific entropy (internal energy over density to the power
    gamma) is at least the lower bound of the row, which is positive. *)
Definition entropy_inside (s : euler) (dim : nat) (b : ebounds) (u : state nat) : Prop :=
  mass_inside b u /\ 0 < s_min b /\
  s_min b * powr (u 0%nat) (gamma s) <=
    u (Datatypes.S dim) - lsum (fun k => u (Datatypes.S k) * u (Datatypes.S k)) (seq 0 dim) / (2 * u 0%nat).

(** All pairs of a row have a viscosity above hundred times the smallest
    positive number (the cut off in scaled_c_ij; about 1e-306). *)
Definition e_fast (p : eparameters) (dim : nat) (M : mesh) (nm : R)
    (old : (nat -> state nat) * PC nat (euler_scheme p dim)) (d0 : nat -> nat -> R) (i : nat) : Prop :=
  forall j, In j (neighbours M i) ->
    100 * nm <= dij_matrix (euler_scheme p dim) M nm old d0 i j.

(** The relaxation window of no row reaches down to zero. *)
Definition moderate_relaxation (p : eparameters) (dim : nat) (M : mesh) : Prop :=
  forall i, (i < n_rows M)%nat ->
    relaxation_radius dim (mass M i * (1 / measure_of_omega M)) * ep_relaxation p < 1.
