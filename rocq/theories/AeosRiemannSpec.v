(** * The exact solution of the Riemann problem with the surrogate equation of state

    The gas on either side of the contact obeys the Noble-Abel stiffened gas equation of state
    with the covolume b, the reference pressure pinf and the reference energy q, but each
    side has its own gamma:

      p + pinf = (gamma - 1) (rho e - rho q - pinf (1 - b rho)) / (1 - b rho).

    Independent of the model. *)
From Coq Require Import Reals.
Local Open Scope R_scope.

(** The speed of sound. *)
Definition n_sound (b pinf g rho p : R) : R := sqrt (g * (p + pinf) / (rho * (1 - b * rho))).

(** Total energy per volume. *)
Definition n_energy (b pinf q g rho u p : R) : R :=
  (p + pinf) * (1 - b * rho) / (g - 1) + rho * q + pinf * (1 - b * rho) + rho * u * u / 2.

(** A wave running to the left into the state (rho, u, p), behind it the velocity us and the
    pressure ps, its fastest signal has the speed sp: a rarefaction keeps
    (p + pinf) (1 / rho - b)^gamma and u + 2 a (1 - b rho) / (gamma - 1) and starts with the
    characteristic u - a; a shock satisfies the Rankine-Hugoniot conditions of mass, momentum
    and energy and runs into the fluid. *)
Definition n_left_wave (b pinf q g rho u p us ps sp : R) : Prop :=
  (exists rhos, 0 < rhos /\ 0 < 1 - b * rhos /\ 0 < ps + pinf /\ ps <= p /\
     (ps + pinf) * Rpower (1 / rhos - b) g = (p + pinf) * Rpower (1 / rho - b) g /\
     us + 2 * n_sound b pinf g rhos ps * (1 - b * rhos) / (g - 1) =
     u + 2 * n_sound b pinf g rho p * (1 - b * rho) / (g - 1) /\
     sp = u - n_sound b pinf g rho p)
  \/
  (exists rhos, 0 < rhos /\ 0 < 1 - b * rhos /\ p < ps /\ sp < u /\
     rho * u - rhos * us = sp * (rho - rhos) /\
     (rho * u * u + p) - (rhos * us * us + ps) = sp * (rho * u - rhos * us) /\
     u * (n_energy b pinf q g rho u p + p) - us * (n_energy b pinf q g rhos us ps + ps) =
     sp * (n_energy b pinf q g rho u p - n_energy b pinf q g rhos us ps)).

(** A wave running to the right is the mirror image. *)
Definition n_right_wave (b pinf q g rho u p us ps sp : R) : Prop :=
  n_left_wave b pinf q g rho (- u) p (- us) ps (- sp).

(** The slowest and the fastest signal when the waves meet in the velocity us and the
    pressure ps. *)
Definition n_fan (b pinf q g_i rho_i u_i p_i g_j rho_j u_j p_j us ps sl sr : R) : Prop :=
  n_left_wave b pinf q g_i rho_i u_i p_i us ps sl /\ n_right_wave b pinf q g_j rho_j u_j p_j us ps sr.

(** The case that the waves do not meet (p + pinf = 0 between two rarefactions). *)
Definition n_vacuum (b pinf g_i rho_i u_i p_i g_j rho_j u_j p_j sl sr : R) : Prop :=
  u_i + 2 * n_sound b pinf g_i rho_i p_i * (1 - b * rho_i) / (g_i - 1) <=
  u_j - 2 * n_sound b pinf g_j rho_j p_j * (1 - b * rho_j) / (g_j - 1) /\
  sl = u_i - n_sound b pinf g_i rho_i p_i /\ sr = u_j + n_sound b pinf g_j rho_j p_j.

(** A state of density rho, internal energy rho_e per volume and pressure p is described by
    the surrogate equation of state with gamma = g. *)
Definition n_gas (b pinf q g rho rho_e p : R) : Prop :=
  1 < g /\ 0 < rho /\ 0 < 1 - b * rho /\ 0 < p + pinf /\ rho_e = n_energy b pinf q g rho 0 p.
