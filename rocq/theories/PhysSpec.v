(** * Physical notions used in the statements of C31 to C35 *)
From Coq Require Import Reals Arith.
From Verif Require Import RVec EulerSystem SWSystem.
Local Open Scope R_scope.

(** The state at parameter t on the line U + t P. *)
Definition line (U P : vec) (t : R) : vec := vadd U (vscal t P).

(** A linear isometry of the momentum space. *)
Definition isometry (dim : nat) (lambda : vec -> vec) : Prop :=
  (forall a b k, (k < dim)%nat -> lambda (vadd a b) k = lambda a k + lambda b k) /\
  (forall x a k, (k < dim)%nat -> lambda (vscal x a) k = x * lambda a k) /\
  (forall a b, dot dim (lambda a) (lambda b) = dot dim a b).

(** Euler: normal velocity, Riemann invariants v.n -+ 2 a / (gamma - 1) and the entropy p / rho^gamma. *)
Definition normal_velocity (dim : nat) (n U : vec) : R := dot dim (momentum U) n / density U.
Definition invariant_1 (s : euler) (dim : nat) (n U : vec) : R :=
  normal_velocity dim n U - 2 * speed_of_sound s dim U / (gamma s - 1).
Definition invariant_2 (s : euler) (dim : nat) (n U : vec) : R :=
  normal_velocity dim n U + 2 * speed_of_sound s dim U / (gamma s - 1).
Definition isentropic (s : euler) (dim : nat) (U : vec) : R := pressure s dim U / powr (density U) (gamma s).

(** Shallow water: the two cut off depths. *)
Definition cutoff_small (s : shallow) (eps : R) : R := reference_water_depth s * dry_state_relaxation_small s * eps.
Definition cutoff_large (s : shallow) (eps : R) : R := reference_water_depth s * dry_state_relaxation_large s * eps.

(** Shallow water: normal velocity and the Riemann invariants v.n -+ 2 a. *)
Definition w_normal_velocity (dim : nat) (n U : vec) : R := dot dim (w_momentum U) n / water_depth U.
Definition w_invariant_1 (s : shallow) (dim : nat) (n U : vec) : R := w_normal_velocity dim n U - 2 * w_speed_of_sound s U.
Definition w_invariant_2 (s : shallow) (dim : nat) (n U : vec) : R := w_normal_velocity dim n U + 2 * w_speed_of_sound s U.


(** A filter for roundoff: values of magnitude at least [c] are unchanged, all
    other values become zero. *)
Definition roundoff_filter (c : R) (f : R -> R) : Prop :=
  forall x, (c <= Rabs x -> f x = x) /\ (Rabs x < c -> f x = 0).
