(** * Euler::HyperbolicSystemView

    The functions of source/euler/hyperbolic_system.h, for an arbitrary space
    dimension [dim] and real numbers.  A state is a Tensor<1, dim + 2>.  The
    cached inverses (lines 167-187, 690-695) are written as divisions. *)
From Coq Require Import Reals Arith.
From Verif Require Import RVec.
Local Open Scope R_scope.

(** Run time parameters, source/euler/hyperbolic_system.h:70-74. *)
Record euler := {
  gamma : R;
  reference_density : R;
  vacuum_state_relaxation_small : R;
  vacuum_state_relaxation_large : R
}.

(** A state [rho, m_1, ..., m_dim, E],
    source/euler/hyperbolic_system.h:218-223,240-249. *)
Definition mkstate (dim : nat) (rho : R) (m : vec) (E : R) : vec :=
  fun k => if Nat.eqb k 0 then rho else if Nat.eqb k (S dim) then E else m (k - 1)%nat.

(** source/euler/hyperbolic_system.h:740-745 *)
Definition density (U : vec) : R := U 0%nat.

(** source/euler/hyperbolic_system.h:748-759; [eps] is the machine epsilon. *)
Definition filter_vacuum_density (s : euler) (eps rho : R) : R :=
  let rho_cutoff_large := reference_density s * vacuum_state_relaxation_large s * eps in
  if Rlt_dec (Rabs rho) rho_cutoff_large then 0 else rho.

(** source/euler/hyperbolic_system.h:762-770 *)
Definition momentum (U : vec) : vec := fun i => U (S i).

(** source/euler/hyperbolic_system.h:773-778 *)
Definition total_energy (dim : nat) (U : vec) : R := U (S dim).

(** source/euler/hyperbolic_system.h:781-792 *)
Definition internal_energy (dim : nat) (U : vec) : R :=
  let rho_inverse := 1 / density U in
  total_energy dim U - 1 / 2 * norm2 dim (momentum U) * rho_inverse.

(** source/euler/hyperbolic_system.h:795-819 *)
Definition internal_energy_derivative (dim : nat) (U : vec) : vec :=
  let rho_inverse := 1 / density U in
  let u := vscal rho_inverse (momentum U) in
  mkstate dim (1 / 2 * norm2 dim u) (fun i => - u i) 1.

(** source/euler/hyperbolic_system.h:822-828 *)
Definition pressure (s : euler) (dim : nat) (U : vec) : R :=
  (gamma s - 1) * internal_energy dim U.

(** source/euler/hyperbolic_system.h:831-839 *)
Definition speed_of_sound (s : euler) (dim : nat) (U : vec) : R :=
  let rho_inverse := 1 / density U in
  sqrt (gamma s * pressure s dim U * rho_inverse).

(** source/euler/hyperbolic_system.h:842-850 *)
Definition specific_entropy (s : euler) (dim : nat) (U : vec) : R :=
  let rho_inverse := 1 / density U in
  internal_energy dim U * powr rho_inverse (gamma s).

(** source/euler/hyperbolic_system.h:853-865 *)
Definition harten_entropy (s : euler) (dim : nat) (U : vec) : R :=
  let rho_rho_e := density U * total_energy dim U - 1 / 2 * norm2 dim (momentum U) in
  powr rho_rho_e (1 / (gamma s + 1)).

(** source/euler/hyperbolic_system.h:868-902 *)
Definition harten_entropy_derivative (s : euler) (dim : nat) (U : vec) : vec :=
  let rho := density U in
  let m := momentum U in
  let E := total_energy dim U in
  let rho_rho_e := rho * E - 1 / 2 * norm2 dim m in
  let factor := 1 / (gamma s + 1) * powr rho_rho_e (- gamma s * (1 / (gamma s + 1))) in
  mkstate dim (factor * E) (fun i => - factor * m i) (factor * rho).

(** source/euler/hyperbolic_system.h:905-913 *)
Definition mathematical_entropy (s : euler) (dim : nat) (U : vec) : R :=
  powr (pressure s dim U) (1 / gamma s).

(** source/euler/hyperbolic_system.h:916-950 *)
Definition mathematical_entropy_derivative (s : euler) (dim : nat) (U : vec) : vec :=
  let rho := density U in
  let rho_inverse := 1 / rho in
  let u := vscal rho_inverse (momentum U) in
  let p := pressure s dim U in
  let factor := (gamma s - 1) * (1 / gamma s) * powr p (1 / gamma s - 1) in
  mkstate dim (factor * (1 / 2) * norm2 dim u) (fun i => - factor * u i) factor.

(** source/euler/hyperbolic_system.h:953-979 (one lane) *)
Definition is_admissible (s : euler) (dim : nat) (U : vec) : bool :=
  let rho_new := density U in
  let e_new := internal_energy dim U in
  let s_new := specific_entropy s dim U in
  let gt a := if Rgt_dec a 0 then 0 else -1 in
  let test := gt rho_new + gt e_new + gt s_new in
  if Req_EM_T test 0 then true else false.

(** prescribe_riemann_characteristic<component>,
    source/euler/hyperbolic_system.h:1037-1093. *)
Definition prescribe_riemann_characteristic (s : euler) (dim component : nat)
    (U U_bar normal : vec) : vec :=
  let m := momentum U in
  let rho := density U in
  let a := speed_of_sound s dim U in
  let vn := dot dim m normal / rho in
  let m_bar := momentum U_bar in
  let rho_bar := density U_bar in
  let a_bar := speed_of_sound s dim U_bar in
  let vn_bar := dot dim m_bar normal / rho_bar in
  let R_1 := if Nat.eqb component 1 then vn_bar - 2 * a_bar / (gamma s - 1)
             else vn - 2 * a / (gamma s - 1) in
  let R_2 := if Nat.eqb component 2 then vn_bar + 2 * a_bar / (gamma s - 1)
             else vn + 2 * a / (gamma s - 1) in
  let p := pressure s dim U in
  let sc := p / powr rho (gamma s) in
  let vperp := vsub (vscal (1 / rho) m) (vscal vn normal) in
  let vn_new := 1 / 2 * (R_1 + R_2) in
  let x := (gamma s - 1) / 4 * (R_2 - R_1) in
  let rho_new := powr (1 / (gamma s * sc) * (x * x)) (1 / (gamma s - 1)) in
  let p_new := sc * powr rho_new (gamma s) in
  mkstate dim rho_new
    (fun d => rho_new * (vadd (vscal vn_new normal) vperp) d)
    (p_new / (gamma s - 1) + 1 / 2 * rho_new * (vn_new * vn_new + norm2 dim vperp)).

(** Boundary ids, source/discretization.h :48-123 (enum Boundary); other ids fall
    through all branches of apply_boundary_conditions. *)
Inductive boundary := do_nothing | periodic | slip | no_slip | dirichlet | dynamic | dirichlet_momentum.

(** source/euler/hyperbolic_system.h:1096-1159; [data] is the value of
    get_dirichlet_data(). *)
Definition apply_boundary_conditions (s : euler) (dim : nat) (id : boundary)
    (U normal data : vec) : vec :=
  match id with
  | dirichlet => data
  | slip =>
      let m := momentum U in
      let m' := vsub m (vscal (1 * dot dim m normal) normal) in
      fun k => if Nat.eqb k 0 then U k else if Nat.leb k dim then m' (k - 1)%nat else U k
  | no_slip =>
      fun k => if Nat.eqb k 0 then U k else if Nat.leb k dim then 0 else U k
  | dynamic =>
      let m := momentum U in
      let rho := density U in
      let a := speed_of_sound s dim U in
      let vn := dot dim m normal / rho in
      let result := U in
      let result := if Rlt_dec vn (- a) then data else result in
      let result := if Rle_dec (- a) vn then
                      if Rle_dec vn 0 then
                        prescribe_riemann_characteristic s dim 2 data U normal
                      else result
                    else result in
      let result := if Rlt_dec 0 vn then
                      if Rle_dec vn a then
                        prescribe_riemann_characteristic s dim 1 U data normal
                      else result
                    else result in
      result
  | _ => U
  end.

(** source/euler/hyperbolic_system.h:1162-1181: component k of the flux is a
    vector of space dimension. *)
Definition flux (s : euler) (dim : nat) (U : vec) : nat -> vec :=
  let rho_inverse := 1 / density U in
  let m := momentum U in
  let p := pressure s dim U in
  let E := total_energy dim U in
  fun k => if Nat.eqb k 0 then m
           else if Nat.eqb k (S dim) then vscal (rho_inverse * (E + p)) m
           else fun l => vscal (m (k - 1)%nat * rho_inverse) m l +
                         (if Nat.eqb l (k - 1) then p else 0).

(** contract and add, source/convenience_macros.h:79-104. *)
Definition contract (dim : nat) (f : nat -> vec) (c : vec) : vec := fun k => dot dim (f k) c.
(** See the comment above, source/convenience_macros.h:79-104. *)
Definition fadd (f g : nat -> vec) : nat -> vec := fun k => vadd (f k) (g k).

(** source/euler/hyperbolic_system.h:1208-1216 *)
Definition flux_divergence (dim : nat) (flux_i flux_j : nat -> vec) (c_ij : vec) : vec :=
  fun k => - contract dim (fadd flux_i flux_j) c_ij k.

(** source/euler/hyperbolic_system.h:1219-1239; components that are not
    assigned are zero. *)
Definition expand_state (dim dim2 : nat) (state : vec) : vec :=
  fun k => if Nat.eqb k 0 then state 0%nat
           else if Nat.eqb k (S dim) then state (S dim2)
           else if Nat.leb k dim2 then state k else 0.

(** source/euler/hyperbolic_system.h:1253-1272 *)
Definition from_primitive_state (s : euler) (dim : nat) (prim : vec) : vec :=
  let rho := prim 0%nat in
  let u := momentum prim in
  let p := prim (S dim) in
  fun k => if Nat.eqb k (S dim) then p / (gamma s - 1) + 1 / 2 * rho * norm2 dim u
           else if Nat.eqb k 0 then rho
           else if Nat.leb k dim then prim k * rho else prim k.

(** source/euler/hyperbolic_system.h:1242-1250 *)
Definition from_initial_state (s : euler) (dim dim2 : nat) (initial_state : vec) : vec :=
  from_primitive_state s dim (expand_state dim dim2 initial_state).

(** source/euler/hyperbolic_system.h:1275-1292 *)
Definition to_primitive_state (s : euler) (dim : nat) (state : vec) : vec :=
  let rho := state 0%nat in
  let rho_inverse := 1 / rho in
  let p := pressure s dim state in
  fun k => if Nat.eqb k (S dim) then p
           else if Nat.eqb k 0 then rho
           else if Nat.leb k dim then state k * rho_inverse else state k.

(** source/euler/hyperbolic_system.h:1295-1305 *)
Definition apply_galilei_transform (dim : nat) (state : vec) (lambda : vec -> vec) : vec :=
  let M := lambda (momentum state) in
  fun k => if Nat.eqb k 0 then state k else if Nat.leb k dim then M (k - 1)%nat else state k.
