(** * The exact solution of the one dimensional Riemann problem of the shallow water equations

    Textbook description (Toro, Shock-Capturing Methods for Free-Surface Shallow Flows): the
    states (h_i, u_i) and (h_j, u_j) are connected by a left and a right wave with a
    constant state (hs, us) in between.  Independent of the model. *)
From Coq Require Import Reals.
Local Open Scope R_scope.

(** A wave running to the left into the state (h, u), behind it (hs, us), its fastest
    signal has the speed sp: a rarefaction keeps u + 2 sqrt(g h) and starts with the
    characteristic u - sqrt(g h); a shock satisfies the Rankine-Hugoniot conditions of mass
    and momentum and runs into the fluid. *)
Definition left_wave (g h u hs us sp : R) : Prop :=
  (0 <= hs <= h /\ us + 2 * sqrt (g * hs) = u + 2 * sqrt (g * h) /\ sp = u - sqrt (g * h))
  \/
  (h < hs /\ sp < u /\
   h * u - hs * us = sp * (h - hs) /\
   (h * u * u + g * h * h / 2) - (hs * us * us + g * hs * hs / 2) = sp * (h * u - hs * us)).

(** A wave running to the right is the mirror image. *)
Definition right_wave (g h u hs us sp : R) : Prop := left_wave g h (- u) hs (- us) (- sp).

(** The slowest and the fastest signal of the Riemann problem: either the waves meet in a
    common state, or the water separates and a dry bed appears. *)
Definition extreme_speeds (g h_i u_i h_j u_j sl sr : R) : Prop :=
  (exists hs us, left_wave g h_i u_i hs us sl /\ right_wave g h_j u_j hs us sr)
  \/
  (u_i + 2 * sqrt (g * h_i) <= u_j - 2 * sqrt (g * h_j) /\
   sl = u_i - sqrt (g * h_i) /\ sr = u_j + sqrt (g * h_j)).
