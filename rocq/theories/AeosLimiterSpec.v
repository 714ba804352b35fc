(** * What the limiter for an arbitrary equation of state is supposed to guarantee *)
From Coq Require Import Reals.
From Verif Require Import RVec AeosSystem AeosLimiter.
Local Open Scope R_scope.

(** The state U + t P. *)
Definition a_updated (L : alane) (t : R) : vec := fun k => al_U L k + t * al_P L k.

(** The density of a state is within given bounds. *)
Definition a_density_within (b : abounds) (U : vec) : Prop :=
  arho_min b <= U 0%nat <= arho_max b.

(** Arguments with which limit() is called: a non-empty range of coefficients,
    positive bounds, and the densities of U and U + t_min P within the bounds
    (in the code t_min = 0, so the last two coincide). *)
Definition a_density_call (L : alane) : Prop :=
  al_tmin L <= al_tmax L /\ 0 <= al_tmax L /\ 0 < arho_max (al_b L) /\
  a_density_within (al_b L) (al_U L) /\
  a_density_within (al_b L) (a_updated L (al_tmin L)).

(** In addition: positive lower bounds, gamma_min > 1, an upper density bound
    below the maximal density 1/b, and the surrogate entropy of U + t_min P at least
    s_min. *)
Definition a_entropy_call (s : aeos) (dim : nat) (L : alane) : Prop :=
  a_density_call L /\ 0 < arho_min (al_b L) /\ 0 <= as_min (al_b L) /\
  1 < agamma_min (al_b L) /\ 0 <= interp_b (a_eos s) /\
  interp_b (a_eos s) * arho_max (al_b L) < 1 /\
  as_min (al_b L) <=
    surrogate_specific_entropy (a_eos s) dim (a_updated L (al_tmin L)) (agamma_min (al_b L)).
