(** * EulerAEOS::HyperbolicSystemView

    The functions of source/euler_aeos/hyperbolic_system.h, for an arbitrary
    space dimension [dim], real numbers and an arbitrary equation of state.  The
    precomputation loop is in AeosPrecompute.v. *)
From Coq Require Import Reals Arith.
From Verif Require Import RVec EulerSystem.
Local Open Scope R_scope.

(** The interface of an equation of state,
    source/euler_aeos/equation_of_state.h:71-228 (scalar functions and the
    interpolation constants). *)
Record eos := {
  eos_pressure : R -> R -> R;
  eos_specific_internal_energy : R -> R -> R;
  eos_speed_of_sound : R -> R -> R;
  interp_b : R;
  interp_pinf : R;
  interp_q : R
}.

(** Run time parameters, source/euler_aeos/hyperbolic_system.h:73-83. *)
Record aeos := {
  a_eos : eos;
  a_reference_density : R;
  a_relaxation_small : R;
  a_relaxation_large : R;
  compute_strict_bounds : bool
}.

(** source/euler_aeos/hyperbolic_system.h:979-984 *)
Definition a_density (U : vec) : R := U 0%nat.

(** source/euler_aeos/hyperbolic_system.h:987-998 *)
Definition a_filter_vacuum_density (s : aeos) (eps rho : R) : R :=
  let rho_cutoff_large := a_reference_density s * a_relaxation_large s * eps in
  if Rlt_dec (Rabs rho) rho_cutoff_large then 0 else rho.

(** source/euler_aeos/hyperbolic_system.h:1001-1009 *)
Definition a_momentum (U : vec) : vec := fun i => U (S i).

(** source/euler_aeos/hyperbolic_system.h:1012-1017 *)
Definition a_total_energy (dim : nat) (U : vec) : R := U (S dim).

(** source/euler_aeos/hyperbolic_system.h:1020-1031 *)
Definition a_internal_energy (dim : nat) (U : vec) : R :=
  let rho_inverse := 1 / a_density U in
  a_total_energy dim U - 1 / 2 * norm2 dim (a_momentum U) * rho_inverse.

(** source/euler_aeos/hyperbolic_system.h:1034-1058 *)
Definition a_internal_energy_derivative (dim : nat) (U : vec) : vec :=
  let rho_inverse := 1 / a_density U in
  let u := vscal rho_inverse (a_momentum U) in
  mkstate dim (1 / 2 * norm2 dim u) (fun i => - u i) 1.

(** source/euler_aeos/hyperbolic_system.h:1061-1078 *)
Definition surrogate_specific_entropy (e : eos) (dim : nat) (U : vec) (gamma_min : R) : R :=
  let b := interp_b e in
  let rho := a_density U in
  let rho_inverse := 1 / rho in
  let covolume := 1 - b * rho in
  let shift := a_internal_energy dim U - rho * interp_q e - interp_pinf e * covolume in
  shift * powr (rho_inverse - b) gamma_min / covolume.

(** source/euler_aeos/hyperbolic_system.h:1081-1104 *)
Definition surrogate_harten_entropy (e : eos) (dim : nat) (U : vec) (gamma_min : R) : R :=
  let b := interp_b e in
  let rho := a_density U in
  let m := a_momentum U in
  let E := a_total_energy dim U in
  let rho_rho_e_q := rho * E - 1 / 2 * norm2 dim m - rho * rho * interp_q e in
  let exponent := 1 / (gamma_min + 1) in
  let covolume := 1 - b * rho in
  let covolume_term := powr covolume (gamma_min - 1) in
  let rho_pinfcov := rho * interp_pinf e * covolume in
  powr ((rho_rho_e_q - rho_pinfcov) * covolume_term) exponent.

(** source/euler_aeos/hyperbolic_system.h:1107-1157 *)
Definition surrogate_harten_entropy_derivative (e : eos) (dim : nat) (U : vec)
    (eta gamma_min : R) : vec :=
  let b := interp_b e in
  let pinf := interp_pinf e in
  let q := interp_q e in
  let rho := a_density U in
  let m := a_momentum U in
  let E := a_total_energy dim U in
  let covolume := 1 - b * rho in
  let covolume_inverse := 1 / covolume in
  let shift := rho * E - 1 / 2 * norm2 dim m - rho * rho * q - rho * pinf * covolume in
  let factor := powr (eta * covolume_inverse) (- gamma_min) *
                (covolume_inverse * covolume_inverse) / (gamma_min + 1) in
  let first_term := E - 2 * rho * q - pinf * (1 - 2 * b * rho) in
  let second_term := - (gamma_min - 1) * shift * b in
  mkstate dim (factor * (covolume * first_term + second_term))
    (fun i => - factor * covolume * m i) (factor * covolume * rho).

(** source/euler_aeos/hyperbolic_system.h:1160-1176 *)
Definition surrogate_gamma (e : eos) (dim : nat) (U : vec) (p : R) : R :=
  let b := interp_b e in
  let rho := a_density U in
  let rho_e := a_internal_energy dim U in
  let covolume := 1 - b * rho in
  let numerator := (p + interp_pinf e) * covolume in
  let denominator := rho_e - rho * interp_q e - covolume * interp_pinf e in
  1 + numerator / denominator.

(** source/euler_aeos/hyperbolic_system.h:1179-1194 *)
Definition surrogate_pressure (e : eos) (dim : nat) (U : vec) (gamma : R) : R :=
  let b := interp_b e in
  let rho := a_density U in
  let rho_e := a_internal_energy dim U in
  let covolume := 1 - b * rho in
  (gamma - 1) * (rho_e - rho * interp_q e) / covolume - gamma * interp_pinf e.

(** source/euler_aeos/hyperbolic_system.h:1197-1227 (one lane) *)
Definition a_is_admissible (e : eos) (dim : nat) (U : vec) : bool :=
  let rho := a_density U in
  let rho_e := a_internal_energy dim U in
  let covolume := 1 - interp_b e * rho in
  let shift := rho_e - rho * interp_q e - interp_pinf e * covolume in
  let gt a := if Rgt_dec a 0 then 0 else -1 in
  let test := gt rho + gt shift in
  if Req_EM_T test 0 then true else false.

(** source/euler_aeos/hyperbolic_system.h:1303-1368; [None] is __builtin_trap
    (dynamic boundary conditions are disabled by lines 1328-1364). *)
Definition a_apply_boundary_conditions (dim : nat) (id : boundary) (U normal data : vec)
    : option vec :=
  match id with
  | dirichlet => Some data
  | slip =>
      let m := a_momentum U in
      let m' := vsub m (vscal (1 * dot dim m normal) normal) in
      Some (fun k => if Nat.eqb k 0 then U k
                     else if Nat.leb k dim then m' (k - 1)%nat else U k)
  | no_slip =>
      Some (fun k => if Nat.eqb k 0 then U k else if Nat.leb k dim then 0 else U k)
  | dynamic => None
  | _ => Some U
  end.

(** source/euler_aeos/hyperbolic_system.h:1371-1390 *)
Definition a_flux (dim : nat) (U : vec) (p : R) : nat -> vec :=
  let rho_inverse := 1 / a_density U in
  let m := a_momentum U in
  let E := a_total_energy dim U in
  fun k => if Nat.eqb k 0 then m
           else if Nat.eqb k (S dim) then vscal (rho_inverse * (E + p)) m
           else fun l => vscal (m (k - 1)%nat * rho_inverse) m l +
                         (if Nat.eqb l (k - 1) then p else 0).

(** source/euler_aeos/hyperbolic_system.h:1421-1429 *)
Definition a_flux_divergence (dim : nat) (flux_i flux_j : nat -> vec) (c_ij : vec) : vec :=
  fun k => - contract dim (fadd flux_i flux_j) c_ij k.

(** source/euler_aeos/hyperbolic_system.h:1432-1452; components that are not
    assigned are zero. *)
Definition a_expand_state (dim dim2 : nat) (state : vec) : vec :=
  fun k => if Nat.eqb k 0 then state 0%nat
           else if Nat.eqb k (S dim) then state (S dim2)
           else if Nat.leb k dim2 then state k else 0.

(** source/euler_aeos/hyperbolic_system.h:1473-1493 *)
Definition a_from_primitive_state (dim : nat) (prim : vec) : vec :=
  let rho := prim 0%nat in
  let u := a_momentum prim in
  let e := prim (S dim) in
  fun k => if Nat.eqb k (S dim) then rho * e + 1 / 2 * rho * norm2 dim u
           else if Nat.eqb k 0 then rho
           else if Nat.leb k dim then prim k * rho else prim k.

(** source/euler_aeos/hyperbolic_system.h:1455-1470 *)
Definition a_from_initial_state (e : eos) (dim dim2 : nat) (initial_state : vec) : vec :=
  let prim := a_expand_state dim dim2 initial_state in
  let rho := prim 0%nat in
  let p := prim (S dim) in
  a_from_primitive_state dim
    (fun k => if Nat.eqb k (S dim) then eos_specific_internal_energy e rho p else prim k).

(** source/euler_aeos/hyperbolic_system.h:1496-1513 *)
Definition a_to_primitive_state (dim : nat) (state : vec) : vec :=
  let rho := state 0%nat in
  let rho_inverse := 1 / rho in
  let rho_e := a_internal_energy dim state in
  fun k => if Nat.eqb k (S dim) then rho_e * rho_inverse
           else if Nat.eqb k 0 then rho
           else if Nat.leb k dim then state k * rho_inverse else state k.

(** source/euler_aeos/hyperbolic_system.h:1516-1526 *)
Definition a_apply_galilei_transform (dim : nat) (state : vec) (lambda : vec -> vec) : vec :=
  let M := lambda (a_momentum state) in
  fun k => if Nat.eqb k 0 then state k else if Nat.leb k dim then M (k - 1)%nat else state k.
