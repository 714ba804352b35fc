(** * Notions for the scheme with an arbitrary equation of state *)
From Coq Require Import Reals List.
From Verif Require Import RVec EulerSystem EulerLimiter AeosSystem AeosLimiter AeosPrecompute AeosScheme SchemeSpec EulerSchemeSpec.
From Verif Require Import Scheme.
Local Open Scope R_scope.

(** Internal energy per volume: total energy minus kinetic energy. *)
Definition inner_energy (dim : nat) (u : state nat) : R :=
  u (Datatypes.S dim) - lsum (fun k => u (Datatypes.S k) * u (Datatypes.S k)) (seq 0 dim) / (2 * u 0%nat).

(** The internal energy above that of the cold gas with the interpolation
    covolume b, reference pressure pinf and reference energy q. *)
Definition excess_energy (e : eos) (dim : nat) (u : state nat) : R :=
  inner_energy dim u - u 0%nat * interp_q e - interp_pinf e * (1 - interp_b e * u 0%nat).

(** The states accepted by is_admissible: density and excess energy are
    positive. *)
Definition admissible_gas (e : eos) (dim : nat) (u : state nat) : Prop :=
  0 < u 0%nat /\ 0 < excess_energy e dim u.

(** In addition, the density is below the maximal density 1 / b, and the
    equation of state returns a pressure above -pinf. *)
Definition aeos_gas (e : eos) (dim : nat) (u : state nat) : Prop :=
  admissible_gas e dim u /\ interp_b e * u 0%nat < 1 /\
  0 < eos_pressure e (u 0%nat) (inner_energy dim u / u 0%nat) + interp_pinf e.

(** The pressure is above -pinf wherever the excess energy is positive. *)
Definition compatible_eos (e : eos) : Prop :=
  forall rho en, 0 < rho -> interp_b e * rho < 1 ->
    0 < rho * en - rho * interp_q e - interp_pinf e * (1 - interp_b e * rho) ->
    0 < eos_pressure e rho en + interp_pinf e.

(** The density is positive, within the bounds and the bounds are below the
    maximal density; the surrogate entropy (excess energy per volume of the gas
    not taken by the covolume, times (1 / rho - b) to the power gamma_min) is at
    least the lower bound. *)
Definition a_mass_inside (e : eos) (b : abounds) (u : state nat) : Prop :=
  0 < arho_min b /\ arho_min b <= u 0%nat <= arho_max b /\ interp_b e * arho_max b < 1.
Definition a_entropy_inside (e : eos) (dim : nat) (b : abounds) (u : state nat) : Prop :=
  a_mass_inside e b u /\ 1 < agamma_min b /\ 0 < as_min b /\
  as_min b <= excess_energy e dim u * powr (1 / u 0%nat - interp_b e) (agamma_min b)
              / (1 - interp_b e * u 0%nat).

(** All pairs of a row have a viscosity above hundred times the smallest
    positive number (the cut off in scaled_c_ij; about 1e-306). *)
Definition a_fast (p : aparameters) (dim : nat) (M : mesh) (nm : R)
    (old : (nat -> state nat) * PC nat (aeos_scheme p dim)) (d0 : nat -> nat -> R) (i : nat) : Prop :=
  forall j, In j (neighbours M i) ->
    100 * nm <= dij_matrix (aeos_scheme p dim) M nm old d0 i j.

(** The relaxation window of no row reaches down to zero. *)
Definition a_moderate (p : aparameters) (dim : nat) (M : mesh) : Prop :=
  forall i, (i < n_rows M)%nat ->
    relaxation_radius dim (mass M i * (1 / measure_of_omega M)) * ap_relaxation p < 1.

(** The setting in which the limiter keeps its bounds: a mesh with symmetric
    sparsity pattern, positive masses and vanishing row sums of the c_ij; a step
    size at most the smallest one of all rows; exact arithmetic (no slack of the
    order of the machine precision); an interpolation with pinf = 0; states
    inside of the admissible set with the quantities precomputed for them; and
    viscosities above the cut off. *)
Definition limited_step (p : aparameters) (dim : nat) (M : mesh) (num_min cfl : R) (order : list nat) (d0 : nat -> nat -> R)
    (old : (nat -> state nat) * PC nat (aeos_scheme p dim)) (pc0 : nat -> prec) (tau : R) : Prop :=
  (symmetric_pattern M /\ positive_masses M /\ valid_numbering M /\ pairs_listed M /\ mesh_dimension M dim /\
   (forall i, active M i -> zero_row_sum M i) /\ (forall i, In i order -> (i < n_rows M)%nat)) /\
  (0 < num_min /\ 0 < cfl <= 1 /\ 0 <= tau /\ (forall t, In t (row_tau (aeos_scheme p dim) M num_min cfl old d0) -> tau <= t)) /\
  (ap_eps p = 0 /\ 0 < ap_big p /\ 0 <= ap_relaxation p /\ a_moderate p dim M) /\
  interp_pinf (a_eos (ap_system p)) = 0 /\ 0 <= interp_b (a_eos (ap_system p)) /\
  (forall i, active M i -> aeos_gas (a_eos (ap_system p)) dim (fst old i)) /\
  snd old = aeos_precomputed p dim M (fst old) pc0 /\
  (forall i, active M i -> a_fast p dim M num_min old d0 i).
