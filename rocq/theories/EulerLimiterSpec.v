(** * What the Euler limiter is supposed to guarantee *)
From Coq Require Import Reals.
From Verif Require Import RVec EulerSystem EulerLimiter.
Local Open Scope R_scope.

(** The state U + t P. *)
Definition updated (L : lane) (t : R) : vec := fun k => l_U L k + t * l_P L k.

(** The density of a state is within given bounds. *)
Definition density_within (b : ebounds) (U : vec) : Prop :=
  rho_min b <= U 0%nat <= rho_max b.

(** Arguments with which limit() is called: a non-empty range of coefficients,
    positive bounds, and the densities of U and U + t_min P within the bounds
    (in the code t_min = 0, so the last two coincide). *)
Definition density_call (L : lane) : Prop :=
  l_tmin L <= l_tmax L /\ 0 <= l_tmax L /\ 0 < rho_max (l_bounds L) /\
  density_within (l_bounds L) (l_U L) /\
  density_within (l_bounds L) (updated L (l_tmin L)).

(** In addition: positive lower bounds and the specific entropy of U + t_min P at
    least s_min. *)
Definition entropy_call (s : euler) (dim : nat) (L : lane) : Prop :=
  density_call L /\ 0 < rho_min (l_bounds L) /\ 0 <= s_min (l_bounds L) /\
  s_min (l_bounds L) <= specific_entropy s dim (updated L (l_tmin L)).
