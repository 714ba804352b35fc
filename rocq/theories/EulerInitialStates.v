(** * Initial states of the compressible Euler equations

    The functions [compute] of source/euler/initial_state_*.h.  [point] is the
    position in the reference coordinate system, [t] the time.  A function of
    the class HyperbolicSystemView is taken from EulerSystem.v or passed as an
    argument where the initial state is shared with the arbitrary equation of
    state.  Real numbers instead of [Number] and double. *)
From Coq Require Import Reals Arith List.
From Verif Require Import RVec EulerSystem.
Import ListNotations.
Local Open Scope R_scope.

(** A braced initializer list of a dealii::Tensor<1, n>, missing components are
    zero; as in source/euler/initial_state_isentropic_vortex.h:84. *)
Definition tensor (l : list R) : vec := fun k => nth k l 0.

(** source/euler/initial_state_isentropic_vortex.h:53-91.  The result for [dim]
    other than 2 and 3 is __builtin_trap(). *)
Definition isentropic_vortex (dim : nat) (gamma_ mach_number_ beta_ : R) (point : vec) (t : R) : option vec :=
  let x := point 0%nat - mach_number_ * t in
  let y := point 1%nat in
  let r_square := x * x + y * y in
  let factor := beta_ / (2 * PI) * exp (1 / 2 - 1 / 2 * r_square) in
  let T := 1 - (gamma_ - 1) / (2 * gamma_) * factor * factor in
  let u := mach_number_ - factor * y in
  let v := factor * x in
  let rho := powr T (1 / (gamma_ - 1)) in
  let p := powr rho gamma_ in
  let E := p / (gamma_ - 1) + 1 / 2 * rho * (u * u + v * v) in
  match dim with
  | 2%nat => Some (tensor [rho; rho * u; rho * v; E])
  | 3%nat => Some (tensor [rho; rho * u; rho * v; 0; E])
  | _ => None
  end.

(** The state behind the shock and its speed S3,
    source/euler/initial_state_shock_front.h:66-94; the same computation in
    source/euler/initial_state_icf_like.h:101-123.  [b] is zero for
    HyperbolicSystemViews without eos_interpolation_b(). *)
Definition shock_left (gamma_ b mach_number_ rho_R u_R p_R : R) : (R * R * R) * R :=
  let a_R := sqrt (gamma_ * p_R / rho_R / (1 - b * rho_R)) in
  let mach_R := u_R / a_R in
  let S3_ := mach_number_ * a_R in
  let delta_mach := mach_R - mach_number_ in
  let rho_L := rho_R * (gamma_ + 1) * delta_mach * delta_mach
               / ((gamma_ - 1) * delta_mach * delta_mach + 2) in
  let u_L := (1 - rho_R / rho_L) * S3_ + rho_R / rho_L * u_R in
  let p_L := p_R * (2 * gamma_ * delta_mach * delta_mach - (gamma_ - 1)) / (gamma_ + 1) in
  ((rho_L, u_L, p_L), S3_).

(** source/euler/initial_state_shock_front.h:96-109; [from] is the function
    from_initial_state of the view, applied to a state of dimension 1. *)
Definition shock_front (from : vec -> vec) (gamma_ b mach_number_ rho_R u_R p_R : R) (point : vec) (t : R) : vec :=
  let '((rho_L, u_L, p_L), S3_) := shock_left gamma_ b mach_number_ rho_R u_R p_R in
  let state_left_ := from (tensor [rho_L; u_L; p_L]) in
  let state_right_ := from (tensor [rho_R; u_R; p_R]) in
  let position_1d := point 0%nat - S3_ * t in
  if Rlt_dec 0 position_1d then state_right_ else state_left_.

(** source/euler/initial_state_icf_like.h:93-159.  [gamma_] is the member, which
    is 1.4 unless it is a parameter (lines 41-44); [from dim2] is
    from_initial_state of the view for a state of dimension [dim2]; [angle] is
    the argument of the cosine of line 147, of no relevance for the shock. *)
Definition icf_like (dim : nat) (from : nat -> vec -> vec) (gamma_ b mach_number_ : R)
    (inside outside : R * R * R) (interface_radius_ amplitude_ num_modes_ shock_radius_ : R)
    (angle : vec -> R) (point : vec) : vec :=
  let norm := sqrt (norm2 dim point) in
  let '(rho_R, u_R, p_R) := outside in
  let '(rho_I, u_I, p_I) := inside in
  let '((rho_L, u_L, p_L), _) := shock_left gamma_ b mach_number_ rho_R u_R p_R in
  let primitive_shock_state := fun k =>
    if Nat.eqb k 0 then rho_L else if Nat.eqb k (S dim) then p_L
    else if Rlt_dec 0 norm then - u_L * (point (k - 1)%nat / norm) else 0 in
  let conserved_shock_state := from dim primitive_shock_state in
  let perturbation := amplitude_ * cos (num_modes_ * angle point) in
  if Rlt_dec shock_radius_ norm then conserved_shock_state
  else if Rlt_dec (interface_radius_ + perturbation) norm
       then from 1%nat (tensor [rho_R; u_R; p_R])
       else from 1%nat (tensor [rho_I; u_I; p_I]).

(** The member gamma_ of ICFLike for the Euler equations: it is set to 1.4 and,
    as the view has a gamma, not declared as a parameter,
    source/euler/initial_state_icf_like.h:41-44. *)
Definition icf_gamma : R := 14 / 10.

(** ICFLike::compute, source/euler/initial_state_icf_like.h:93-159, for the Euler
    equations with the state outside of the interface at rest; it does not
    depend on the time (line 93). *)
Definition icf (s : euler) (dim : nat) (mach_number_ : R) (inside : R * R * R) (rho p : R)
    (interface_radius_ amplitude_ num_modes_ shock_radius_ : R) (angle : vec -> R) (_ : R) (point : vec) : vec :=
  icf_like dim (fun d => from_initial_state s dim d) icf_gamma 0 mach_number_ inside (rho, 0, p)
    interface_radius_ amplitude_ num_modes_ shock_radius_ angle point.

(** A one-dimensional primitive state [rho, u, p, c],
    source/euler/initial_state_rarefaction.h:35. *)
Record prim1d := { p_rho : R; p_u : R; p_p : R; p_c : R }.

(** source/euler/initial_state_rarefaction.h:50-52 *)
Definition rare_sound (gamma_ rho p : R) : R := sqrt (gamma_ * p / rho).

(** source/euler/initial_state_rarefaction.h:57-74 *)
Definition rare_right (gamma_ : R) (left : prim1d) (rho_right : R) : prim1d :=
  let p := powr (rho_right / p_rho left) gamma_ * p_p left in
  let c_right := rare_sound gamma_ rho_right p in
  {| p_rho := rho_right; p_u := p_u left + 2 * (p_c left - c_right) / (gamma_ - 1);
     p_p := p; p_c := c_right |}.

(** source/euler/initial_state_rarefaction.h:87-96 *)
Definition rare_left_state (gamma_ : R) : prim1d :=
  let c_left := rare_sound gamma_ 3 1 in
  {| p_rho := 3; p_u := c_left; p_p := 1; p_c := c_left |}.
(** See the comment above, source/euler/initial_state_rarefaction.h:87-96. *)
Definition rare_right_state (gamma_ : R) : prim1d := rare_right gamma_ (rare_left_state gamma_) (1 / 2).

(** The constant t_0, source/euler/initial_state_rarefaction.h:122. *)
Definition rare_t0 (gamma_ : R) : R :=
  (2 / 10) / (p_u (rare_right_state gamma_) - p_u (rare_left_state gamma_)).

(** source/euler/initial_state_rarefaction.h:112-154 with the constants of lines
    101-105. *)
Definition rarefaction (dim : nat) (gamma_ : R) (point : vec) (delta_t : R) : vec :=
  let left := rare_left_state gamma_ in
  let right := rare_right_state gamma_ in
  let k1 := 2 / (gamma_ + 1) in
  let k2 := (gamma_ - 1) / ((gamma_ + 1) * p_c left) in
  let density_exponent := 2 / (gamma_ - 1) in
  let k3 := p_c left + (gamma_ - 1) / 2 * p_u left in
  let pressure_exponent := 2 * gamma_ / (gamma_ - 1) in
  let x := point 0%nat in
  let t := rare_t0 gamma_ + delta_t in
  let '(rho, u, p) :=
    if Rle_dec x (t * (p_u left - p_c left)) then (p_rho left, p_u left, p_p left)
    else if Rle_dec x (t * (p_u right - p_c right)) then
      let chi := x / t in
      (p_rho left * powr (k1 + k2 * (p_u left - chi)) density_exponent,
       k1 * (k3 + chi),
       p_p left * powr (k1 + k2 * (p_u left - chi)) pressure_exponent)
    else (p_rho right, p_u right, p_p right) in
  mkstate dim rho (fun i => if Nat.eqb i 0 then rho * u else 0)
    (p / (gamma_ - 1) + 1 / 2 * rho * u * u).

(** source/euler/initial_state_leblanc.h:45-110; pow with exponents 3.0 and 5.0 is
    written as a product. *)
Definition leblanc_contact_velocity : R := 62183867139173454 / 10 ^ 17.
(** See the comment above, source/euler/initial_state_leblanc.h:45-110. *)
Definition leblanc_rarefaction_speed : R := 49578489518897934 / 10 ^ 17.
(** See the comment above, source/euler/initial_state_leblanc.h:45-110. *)
Definition leblanc_shock_speed : R := 82911836253346982 / 10 ^ 17.
(** See the comment above, source/euler/initial_state_leblanc.h:45-110. *)
Definition leblanc (dim : nat) (point : vec) (t : R) : vec :=
  let contact_velocity := leblanc_contact_velocity in
  let pre_contact_density := 54079335349316249 / 10 ^ 18 in
  let post_contact_density := 39999980604299963 / 10 ^ 19 in
  let contact_pressure := 51557792765096996 / 10 ^ 20 in
  let x := point 0%nat in
  let '(rho, u, p) :=
    if Rle_dec x (- 1 / 3 * t) then (1, 0, 2 / 3 * (1 / 10))
    else if Rlt_dec x (leblanc_rarefaction_speed * t) then
      let chi := x / t in
      ((3 / 4 - 3 / 4 * chi) ^ 3, 3 / 4 * (1 / 3 + chi), 1 / 15 * (3 / 4 - 3 / 4 * chi) ^ 5)
    else if Rlt_dec x (contact_velocity * t) then (pre_contact_density, contact_velocity, contact_pressure)
    else if Rlt_dec x (leblanc_shock_speed * t) then (post_contact_density, contact_velocity, contact_pressure)
    else (1 / 1000, 0, 2 / 3 * (1 / 10 ^ 10)) in
  mkstate dim rho (fun i => if Nat.eqb i 0 then rho * u else 0)
    (p / (5 / 3 - 1) + 1 / 2 * rho * u * u).

(** source/euler/initial_state_noh.h:71-106; [min] is ten times
    numeric_limits::min(), [from] the function from_initial_state of the view. *)
Definition noh (dim : nat) (from : vec -> vec) (min gamma_ rho0_ u0_ p0_ : R) (point : vec) (t : R) : vec :=
  let norm := sqrt (norm2 dim point) in
  let D := u0_ * (gamma_ - 1) / 2 in
  let interior :=
    mkstate dim (rho0_ * ((gamma_ + 1) / (gamma_ - 1)) ^ dim) (fun i => 0 * point i)
      (1 / 2 * rho0_ * u0_ * u0_ * ((gamma_ + 1) ^ dim / (gamma_ - 1) ^ (dim - 1))) in
  let exterior :=
    mkstate dim (rho0_ * (1 + t / (norm + min)) ^ (dim - 1)) (fun i => - u0_ * point i / (norm + min)) p0_ in
  from (if Req_EM_T t 0 then exterior
        else if Rlt_dec (norm / t) D then interior else exterior).

(** source/euler/initial_state_smooth_wave.h:62-87 with left_ and right_ of lines
    58-59; [from] is from_initial_state of the view. *)
Definition smooth_wave_density (density_ref_ x : R) : R :=
  let left_ := 1 / 10 in
  let right_ := 3 / 10 in
  let polynomial := 64 * (x - left_) ^ 3 * (right_ - x) ^ 3 / (right_ - left_) ^ 6 in
  if Rle_dec left_ x then if Rle_dec x right_ then density_ref_ + polynomial else density_ref_
  else density_ref_.
(** See the comment above, source/euler/initial_state_smooth_wave.h:62-87. *)
Definition smooth_wave (dim : nat) (from : vec -> vec) (density_ref_ pressure_ref_ mach_number_ : R)
    (point : vec) (t : R) : vec :=
  let x := point 0%nat - mach_number_ * t in
  from (mkstate dim (smooth_wave_density density_ref_ x)
          (fun i => if Nat.eqb i 0 then mach_number_ else 0) pressure_ref_).

(** source/euler/initial_state_ramp_up.h:69-88 with the conserved states of lines
    60-64. *)
Definition ramp_up (state_initial_ state_final_ : vec) (t_initial_ t_final_ t : R) : vec :=
  if Rle_dec t t_initial_ then state_initial_
  else if Rle_dec t_final_ t then state_final_
  else
    let factor := cos (1 / 2 * PI * (t - t_initial_) / (t_final_ - t_initial_)) in
    let alpha := factor * factor in
    let beta := 1 - alpha in
    vadd (vscal alpha state_initial_) (vscal beta state_final_).
