(** * What the success flag of the limiters is supposed to say *)
From Coq Require Import Reals.
From Verif Require Import RVec EulerSystem AeosSystem EulerLimiter EulerLimiterSpec AeosLimiter AeosLimiterSpec SWLimiter SWLimiterSpec.
Local Open Scope R_scope.

(** Arguments of limit(): t_min = 0, positive bounds; nothing about the states. *)
Definition plain_call (L : lane) : Prop :=
  l_tmin L = 0 /\ 0 <= l_tmax L /\ 0 < rho_min (l_bounds L) /\ 0 < rho_max (l_bounds L) /\ 0 <= s_min (l_bounds L).

(** The returned coefficient: density within the bounds, and the specific entropy at least s_min, unless the density bounds leave no positive coefficient. *)
Definition verdict (s : euler) (dim : nat) (L : lane) (t : R) : Prop :=
  density_within (l_bounds L) (updated L t) /\
  (s_min (l_bounds L) <= specific_entropy s dim (updated L t) \/
   t = l_tmin L /\ forall t', l_tmin L < t' <= l_tmax L -> ~ density_within (l_bounds L) (updated L t')).

(** Arguments of limit(): t_min = 0, positive bounds, gamma_min > 1, densities below 1/b; nothing about the states. *)
Definition a_plain_call (s : aeos) (L : alane) : Prop :=
  al_tmin L = 0 /\ 0 <= al_tmax L /\ 0 < arho_min (al_b L) /\ 0 < arho_max (al_b L) /\ 0 <= as_min (al_b L) /\
  1 < agamma_min (al_b L) /\ 0 <= interp_b (a_eos s) /\ interp_b (a_eos s) * arho_max (al_b L) < 1.

(** The same. *)
Definition a_verdict (s : aeos) (dim : nat) (L : alane) (t : R) : Prop :=
  a_density_within (al_b L) (a_updated L t) /\
  (as_min (al_b L) <= surrogate_specific_entropy (a_eos s) dim (a_updated L t) (agamma_min (al_b L)) \/
   t = al_tmin L /\ forall t', al_tmin L < t' <= al_tmax L -> ~ a_density_within (al_b L) (a_updated L t')).

(** Arguments of limit(): t_min = 0, nonnegative bounds; nothing about the states. *)
Definition w_plain_call (L : wlane) : Prop :=
  wl_tmin L = 0 /\ 0 <= wl_tmax L /\ 0 <= h_min (wl_b L) /\ 0 <= v2_max (wl_b L).

