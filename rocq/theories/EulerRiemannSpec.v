(** * The exact solution of the one dimensional Riemann problem of the Euler equations

    Textbook description for the polytropic gas equation of state with 1 < gamma:
    the states (rho_i, u_i, p_i) and (rho_j, u_j, p_j) are connected by a left wave, a
    contact and a right wave; velocity us and pressure ps do not jump at the contact.
    Independent of the model. *)
From Coq Require Import Reals.
Local Open Scope R_scope.

(** The speed of sound sqrt(gamma p / rho). *)
Definition sound (g rho p : R) : R := sqrt (g * p / rho).

(** Total energy per volume. *)
Definition energy (g rho u p : R) : R := p / (g - 1) + rho * u * u / 2.

(** A wave running to the left into the state (rho, u, p), behind it the velocity us and the
    pressure ps, its fastest signal has the speed sp: a rarefaction keeps p / rho^gamma and
    u + 2 a / (gamma - 1) and starts with the characteristic u - a; a shock satisfies the
    Rankine-Hugoniot conditions of mass, momentum and energy and runs into the fluid. *)
Definition e_left_wave (g rho u p us ps sp : R) : Prop :=
  (exists rhos, 0 < rhos /\ 0 < ps <= p /\
     ps / Rpower rhos g = p / Rpower rho g /\
     us + 2 * sound g rhos ps / (g - 1) = u + 2 * sound g rho p / (g - 1) /\
     sp = u - sound g rho p)
  \/
  (exists rhos, 0 < rhos /\ p < ps /\ sp < u /\
     rho * u - rhos * us = sp * (rho - rhos) /\
     (rho * u * u + p) - (rhos * us * us + ps) = sp * (rho * u - rhos * us) /\
     u * (energy g rho u p + p) - us * (energy g rhos us ps + ps) =
     sp * (energy g rho u p - energy g rhos us ps)).

(** A wave running to the right is the mirror image. *)
Definition e_right_wave (g rho u p us ps sp : R) : Prop := e_left_wave g rho (- u) p (- us) ps (- sp).

(** The slowest and the fastest signal when the waves meet in the velocity us and the
    pressure ps. *)
Definition e_fan (g rho_i u_i p_i rho_j u_j p_j us ps sl sr : R) : Prop :=
  e_left_wave g rho_i u_i p_i us ps sl /\ e_right_wave g rho_j u_j p_j us ps sr.

(** The case that a vacuum opens between two rarefactions. *)
Definition e_vacuum (g rho_i u_i p_i rho_j u_j p_j sl sr : R) : Prop :=
  u_i + 2 * sound g rho_i p_i / (g - 1) <= u_j - 2 * sound g rho_j p_j / (g - 1) /\
  sl = u_i - sound g rho_i p_i /\ sr = u_j + sound g rho_j p_j.
