(** * What an equation of state has to satisfy; independent of the model *)
From Coq Require Import Reals.
From Verif Require Import RVec AeosSystem.
Local Open Scope R_scope.

(** The speed of sound c of the pressure law p(rho, e): c^2 = dp/drho + p / rho^2 dp/de. *)
Definition sound_law (p : R -> R -> R) (c rho e : R) : Prop :=
  exists p_rho p_e,
    derivable_pt_lim (fun r => p r e) rho p_rho /\ derivable_pt_lim (fun x => p rho x) e p_e /\
    c = sqrt (p_rho + p rho e / (rho * rho) * p_e).

(** The energy e(rho, p) inverts the pressure p(rho, e) at (rho, e) and (rho, p). *)
Definition inverse_at (p sie : R -> R -> R) (rho x : R) : Prop := sie rho (p rho x) = x /\ p rho (sie rho x) = x.

(** The thermal equation of state of a gas with specific gas constant R_s, covolume b, internal
    attraction pi: (p + pi) (1 - b rho) = rho R_s T. *)
Definition thermal_law (R_s b pi p rho T : R) : Prop := (p + pi) * (1 - b * rho) = rho * R_s * T.

(** Pressure and speed of sound of a state, from its density and specific internal energy. *)
Definition state_pressure (e : eos) (dim : nat) (U : vec) : R := eos_pressure e (a_density U) (a_internal_energy dim U / a_density U).
Definition state_sound (e : eos) (dim : nat) (U : vec) : R := eos_speed_of_sound e (a_density U) (a_internal_energy dim U / a_density U).
