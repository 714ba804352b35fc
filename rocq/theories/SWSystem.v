(** * ShallowWater::HyperbolicSystemView

    The functions of source/shallow_water/hyperbolic_system.h, for an arbitrary
    space dimension [dim] and real numbers.  A state is a Tensor<1, dim + 1>; the
    machine epsilon is a parameter [eps]. *)
From Coq Require Import Reals Arith.
From Verif Require Import RVec Simd EulerSystem.
Local Open Scope R_scope.

(** Run time parameters, source/shallow_water/hyperbolic_system.h:70-76. *)
Record shallow := {
  gravity : R;
  manning_friction_coefficient : R;
  reference_water_depth : R;
  dry_state_relaxation_factor : R;
  dry_state_relaxation_small : R;
  dry_state_relaxation_large : R
}.

(** A state [h, m_1, ..., m_dim], source/shallow_water/hyperbolic_system.h:185-190,207-216. *)
Definition mkwater (dim : nat) (h : R) (m : vec) : vec :=
  fun k => if Nat.eqb k 0 then h else m (k - 1)%nat.

(** source/shallow_water/hyperbolic_system.h:719-724 *)
Definition water_depth (U : vec) : R := U 0%nat.

(** source/shallow_water/hyperbolic_system.h:727-742 *)
Definition inverse_water_depth_mollified (s : shallow) (eps : R) (U : vec) : R :=
  let h_cutoff_mollified := reference_water_depth s * dry_state_relaxation_large s * eps in
  let h := water_depth U in
  let h_pos := positive_part (water_depth U) in
  let h_max := Rmax h h_cutoff_mollified in
  let denom := h * h + h_max * h_max in
  2 * h_pos / denom.

(** source/shallow_water/hyperbolic_system.h:745-758 *)
Definition water_depth_sharp (s : shallow) (eps : R) (U : vec) : R :=
  let h_cutoff_small := reference_water_depth s * dry_state_relaxation_small s * eps in
  Rmax (water_depth U) h_cutoff_small.

(** source/shallow_water/hyperbolic_system.h:761-767 *)
Definition inverse_water_depth_sharp (s : shallow) (eps : R) (U : vec) : R :=
  1 / water_depth_sharp s eps U.

(** source/shallow_water/hyperbolic_system.h:770-783 *)
Definition filter_dry_water_depth (s : shallow) (eps h : R) : R :=
  let h_cutoff_large := reference_water_depth s * dry_state_relaxation_large s * eps in
  if Rlt_dec (Rabs h) h_cutoff_large then 0 else h.

(** source/shallow_water/hyperbolic_system.h:786-795 *)
Definition w_momentum (U : vec) : vec := fun i => U (S i).

(** source/shallow_water/hyperbolic_system.h:798-807 *)
Definition kinetic_energy (s : shallow) (eps : R) (dim : nat) (U : vec) : R :=
  let h := water_depth U in
  let vel := vscal (inverse_water_depth_sharp s eps U) (w_momentum U) in
  1 / 2 * h * norm2 dim vel.

(** source/shallow_water/hyperbolic_system.h:810-818 *)
Definition w_pressure (s : shallow) (U : vec) : R :=
  let h_sqd := U 0%nat * U 0%nat in
  1 / 2 * gravity s * h_sqd.

(** source/shallow_water/hyperbolic_system.h:821-827 *)
Definition w_speed_of_sound (s : shallow) (U : vec) : R := sqrt (gravity s * U 0%nat).

(** source/shallow_water/hyperbolic_system.h:830-838 *)
Definition w_mathematical_entropy (s : shallow) (eps : R) (dim : nat) (U : vec) : R :=
  w_pressure s U + kinetic_energy s eps dim U.

(** source/shallow_water/hyperbolic_system.h:841-871 *)
Definition w_mathematical_entropy_derivative (s : shallow) (eps : R) (dim : nat) (U : vec) : vec :=
  let h := U 0%nat in
  let vel := vscal (inverse_water_depth_sharp s eps U) (w_momentum U) in
  mkwater dim (gravity s * h - 1 / 2 * norm2 dim vel) vel.

(** source/shallow_water/hyperbolic_system.h:874-894 (one lane, no debug output) *)
Definition w_is_admissible (s : shallow) (eps : R) (U : vec) : bool :=
  let h := filter_dry_water_depth s eps (water_depth U) in
  let test := if Rge_dec h 0 then 0 else -1 in
  if Req_EM_T test 0 then true else false.

(** prescribe_riemann_characteristic<component>,
    source/shallow_water/hyperbolic_system.h:897-943 *)
Definition w_prescribe_riemann_characteristic (s : shallow) (eps : R) (dim component : nat)
    (U U_bar normal : vec) : vec :=
  let m := w_momentum U in
  let a := w_speed_of_sound s U in
  let vn := dot dim m normal * inverse_water_depth_sharp s eps U in
  let m_bar := w_momentum U_bar in
  let a_bar := w_speed_of_sound s U_bar in
  let vn_bar := dot dim m_bar normal * inverse_water_depth_sharp s eps U_bar in
  let R_1 := if Nat.eqb component 1 then vn_bar - 2 * a_bar else vn - 2 * a in
  let R_2 := if Nat.eqb component 2 then vn_bar + 2 * a_bar else vn + 2 * a in
  let vperp := vsub (vscal (inverse_water_depth_sharp s eps U) m) (vscal vn normal) in
  let vn_new := 1 / 2 * (R_1 + R_2) in
  let x := (R_2 - R_1) / 4 in
  let h_new := x * x / gravity s in
  mkwater dim h_new (fun d => h_new * (vadd (vscal vn_new normal) vperp) d).

(** Replace the momentum of a state (components 1, ..., dim),
    source/shallow_water/hyperbolic_system.h:967-968,973-974,977-978. *)
Definition set_momentum (dim : nat) (U m : vec) : vec :=
  fun k => if Nat.eqb k 0 then U k else if Nat.leb k dim then m (k - 1)%nat else U k.

(** source/shallow_water/hyperbolic_system.h:946-1019; [data] is the value of
    get_dirichlet_data(). *)
Definition w_apply_boundary_conditions (s : shallow) (eps : R) (dim : nat) (id : boundary)
    (U normal data : vec) : vec :=
  match id with
  | dirichlet => data
  | dirichlet_momentum => set_momentum dim U (w_momentum data)
  | slip =>
      let m := w_momentum U in
      set_momentum dim U (vsub m (vscal (1 * dot dim m normal) normal))
  | no_slip => set_momentum dim U (fun _ => 0)
  | dynamic =>
      let m := w_momentum U in
      let h_inverse := inverse_water_depth_sharp s eps U in
      let a := w_speed_of_sound s U in
      let vn := dot dim m normal * h_inverse in
      let result := U in
      let result := if Rlt_dec vn (- a) then data else result in
      let result := if Rle_dec (- a) vn then
                      if Rle_dec vn 0 then
                        w_prescribe_riemann_characteristic s eps dim 2 data U normal
                      else result
                    else result in
      let result := if Rlt_dec 0 vn then
                      if Rle_dec vn a then
                        w_prescribe_riemann_characteristic s eps dim 1 U data normal
                      else result
                    else result in
      result
  | _ => U
  end.

(** f, source/shallow_water/hyperbolic_system.h:1022-1038 *)
Definition w_f (s : shallow) (eps : R) (U : vec) : nat -> vec :=
  let h_inverse := inverse_water_depth_sharp s eps U in
  let m := w_momentum U in
  let p := w_pressure s U in
  fun k => if Nat.eqb k 0 then fun l => m l * h_inverse * U 0%nat
           else fun l => m l * h_inverse * m (k - 1)%nat + (if Nat.eqb l (k - 1) then p else 0).

(** g, source/shallow_water/hyperbolic_system.h:1041-1055 *)
Definition w_g (s : shallow) (eps : R) (U : vec) : nat -> vec :=
  let h_inverse := inverse_water_depth_sharp s eps U in
  let m := w_momentum U in
  fun k => if Nat.eqb k 0 then fun l => m l * h_inverse * U 0%nat
           else fun l => m l * h_inverse * m (k - 1)%nat.

(** source/shallow_water/hyperbolic_system.h:1058-1070 *)
Definition star_state (s : shallow) (eps : R) (U : vec) (Z_left Z_right : R) : vec :=
  let Z_max := Rmax Z_left Z_right in
  let h := water_depth U in
  let H_star := Rmax 0 (h + Z_left - Z_max) in
  fun k => U k * H_star * inverse_water_depth_mollified s eps U.

(** flux_contribution_type, source/shallow_water/hyperbolic_system.h:201; the
    functions flux_contribution, lines 1089-1112, form the pair (U_i, Z_i). *)
Definition wflux := (vec * R)%type.

(** source/shallow_water/hyperbolic_system.h:1073-1086 *)
Definition equilibrated_states (s : shallow) (eps : R) (flux_i flux_j : wflux) : vec * vec :=
  let '(U_i, Z_i) := flux_i in
  let '(U_j, Z_j) := flux_j in
  (star_state s eps U_i Z_i Z_j, star_state s eps U_j Z_j Z_i).

(** Subtract [factor] from the diagonal of the momentum part of a flux,
    source/shallow_water/hyperbolic_system.h:1139-1141,1166-1168. *)
Definition sub_diag (factor : R) (f : nat -> vec) : nat -> vec :=
  fun k => if Nat.eqb k 0 then f k
           else fun l => f k l - (if Nat.eqb l (k - 1) then factor else 0).

(** source/shallow_water/hyperbolic_system.h:1115-1144 *)
Definition w_flux_divergence (s : shallow) (eps : R) (dim : nat) (flux_i flux_j : wflux) (c_ij : vec) : vec :=
  let '(U_star_ij, U_star_ji) := equilibrated_states s eps flux_i flux_j in
  let H_i := water_depth (fst flux_i) in
  let H_star_ij := water_depth U_star_ij in
  let H_star_ji := water_depth U_star_ji in
  let g_i := w_g s eps U_star_ij in
  let g_j := w_g s eps U_star_ji in
  let result := fun k l => - fadd g_i g_j k l in
  let factor := (1 / 2 * (H_star_ji * H_star_ji - H_star_ij * H_star_ij) + H_i * H_i) * gravity s in
  contract dim (sub_diag factor result) c_ij.

(** source/shallow_water/hyperbolic_system.h:1147-1171 *)
Definition w_high_order_flux_divergence (s : shallow) (eps : R) (dim : nat) (flux_i flux_j : wflux)
    (c_ij : vec) : vec :=
  let '(U_i, Z_i) := flux_i in
  let '(U_j, Z_j) := flux_j in
  let H_i := water_depth U_i in
  let H_j := water_depth U_j in
  let g_i := w_g s eps U_i in
  let g_j := w_g s eps U_j in
  let result := fun k l => - fadd g_i g_j k l in
  let factor := gravity s * H_i * (H_j + Z_j - Z_i) in
  contract dim (sub_diag factor result) c_ij.

(** source/shallow_water/hyperbolic_system.h:1174-1191 *)
Definition affine_shift (s : shallow) (eps : R) (dim : nat) (flux_i flux_j : wflux) (c_ij : vec) (d_ij : R) : vec :=
  let '(U_i, Z_i) := flux_i in
  let '(U_j, Z_j) := flux_j in
  let U_star_ij := star_state s eps U_i Z_i Z_j in
  let h_inverse := inverse_water_depth_sharp s eps U_i in
  let m := w_momentum U_i in
  let factor := 2 * (d_ij + h_inverse * dot dim m c_ij) in
  fun k => - factor * (U_star_ij k - U_i k).

(** source/shallow_water/hyperbolic_system.h:1194-1218; result[0] is zero.  The
    functions nodal_source, lines 1221-1248, pass on the precomputed h_star. *)
Definition manning_friction (s : shallow) (eps : R) (dim : nat) (U : vec) (h_star tau : R) : vec :=
  let g := gravity s in
  let n := manning_friction_coefficient s in
  let h_inverse := inverse_water_depth_mollified s eps U in
  let m := w_momentum U in
  let v_norm := sqrt (norm2 dim (vscal h_inverse m)) in
  let factor := 2 * g * n * n * v_norm in
  let denominator := h_star + Rmax h_star (tau * factor) in
  let denominator_inverse := 1 / denominator in
  mkwater dim 0 (fun d => - factor * denominator_inverse * m d).

(** The precomputed values eta_m and h_star,
    source/shallow_water/hyperbolic_system.h:706-714. *)
Definition w_precomputed (s : shallow) (eps : R) (dim : nat) (U_i : vec) : R * R :=
  let eta_m := w_mathematical_entropy s eps dim U_i in
  let h_sharp := water_depth_sharp s eps U_i in
  let h_star := powr h_sharp (4 / 3) in
  (eta_m, h_star).

(** source/shallow_water/hyperbolic_system.h:1251-1271; components that are not
    assigned are zero. *)
Definition w_expand_state (dim dim2 : nat) (state : vec) : vec :=
  fun k => if Nat.leb k dim2 then state k else 0.

(** source/shallow_water/hyperbolic_system.h:1284-1297 *)
Definition w_from_primitive_state (dim : nat) (prim : vec) : vec :=
  let h := prim 0%nat in
  fun k => if Nat.eqb k 0 then prim k else if Nat.leb k dim then prim k * h else prim k.

(** source/shallow_water/hyperbolic_system.h:1273-1281 *)
Definition w_from_initial_state (dim dim2 : nat) (initial_state : vec) : vec :=
  w_from_primitive_state dim (w_expand_state dim dim2 initial_state).

(** source/shallow_water/hyperbolic_system.h:1300-1313 *)
Definition w_to_primitive_state (s : shallow) (eps : R) (dim : nat) (state : vec) : vec :=
  let h_inverse := inverse_water_depth_sharp s eps state in
  fun k => if Nat.eqb k 0 then state k else if Nat.leb k dim then state k * h_inverse else state k.

(** source/shallow_water/hyperbolic_system.h:1316-1327 *)
Definition w_apply_galilei_transform (dim : nat) (state : vec) (lambda : vec -> vec) : vec :=
  set_momentum dim state (lambda (w_momentum state)).
