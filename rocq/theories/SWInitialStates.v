(** * Initial states of the shallow water equations

    The functions [compute] and compute_bathymetry of
    source/shallow_water/initial_state_*.h; [g] is view.gravity(), [n] is
    view.manning_friction_coefficient().  Real numbers instead of [Number] and double. *)
From Coq Require Import Reals Arith List Bool.
From Verif Require Import RVec EulerSystem EulerInitialStates.
Import ListNotations.
Local Open Scope R_scope.

(** source/shallow_water/initial_state_ritter_dam_break.h:58-80 *)
Definition ritter_dam_break (g t_initial_ left_depth : R) (point : vec) (t : R) : vec :=
  let x := point 0%nat in
  let aL := sqrt (g * left_depth) in
  let xA := - (t + t_initial_) * aL in
  let xB := 2 * (t + t_initial_) * aL in
  let tmp := aL - x / (2 * (t + t_initial_)) in
  let h_expansion := 4 / (9 * g) * tmp * tmp in
  let v_expansion := 2 / 3 * (x / (t + t_initial_) + aL) in
  if Rle_dec x xA then tensor [left_depth; 0]
  else if Rle_dec x xB then tensor [h_expansion; h_expansion * v_expansion]
  else tensor [0; 0].

(** source/shallow_water/initial_state_paraboloid.h:136-143 *)
Definition paraboloid_bathymetry (dim : nat) (a_ h_0_ length_ : R) (point : vec) : R :=
  if Nat.eqb dim 1 then h_0_ / (a_ * a_) * ((point 0%nat - 5 / 10 * length_) * (point 0%nat - 5 / 10 * length_))
  else - h_0_ * (1 - norm2 dim point / (a_ * a_)).

(** The 1d branch, source/shallow_water/initial_state_paraboloid.h:70-103. *)
Definition paraboloid_1d (g k a_ h_0_ length_ B_ : R) (point : vec) (t : R) : vec :=
  let p := sqrt (8 * g * h_0_) / a_ in
  let s := sqrt (p * p - k * k) / 2 in
  let term1 := a_ * a_ * B_ * B_ / (8 * g * g * h_0_) * exp (- k * t)
               * ((1 / 4 * k * k - s * s) * cos (2 * s * t) - s * k * sin (2 * s * t)) in
  let term2 := - (B_ * B_ / (4 * g)) * exp (- k * t) in
  let term3 := - (B_ / g) * exp (- (1) / 2 * k * t)
               * ((s * cos (s * t) + 1 / 2 * k * sin (s * t)) * (point 0%nat - 1 / 2 * length_)) in
  let htilde := h_0_ - paraboloid_bathymetry 1 a_ h_0_ length_ point + (term1 + term2 + term3) in
  let h := Rmax htilde 0 in
  let v_x := B_ * exp (- (1) / 2 * k * t) * sin (s * t) in
  tensor [h; h * v_x].

(** The 2d branch, source/shallow_water/initial_state_paraboloid.h:70-73, 104-116. *)
Definition paraboloid_2d (g a_ h_0_ eta_ : R) (point : vec) (t : R) : vec :=
  let z := paraboloid_bathymetry 2 a_ h_0_ 0 point in
  let omega := sqrt (2 * g * h_0_) / a_ in
  let x := point 0%nat in
  let y := point 1%nat in
  let elevation := eta_ * h_0_ / (a_ * a_) * (2 * x * cos (omega * t) + 2 * y * sin (omega * t)) in
  let h := Rmax (elevation - z) 0 in
  let v_x := - eta_ * omega * sin (omega * t) in
  let v_y := eta_ * omega * cos (omega * t) in
  tensor [h; h * v_x; h * v_y].

(** source/shallow_water/initial_state_smooth_vortex.h:67-69, 106-108 *)
Definition vortex_factor (beta_ r_square : R) : R :=
  beta_ / (2 * PI) * exp (1 / 2 - 1 / 2 * r_square).

(** source/shallow_water/initial_state_smooth_vortex.h:100-115 *)
Definition vortex_bathymetry (with_bathymetry : bool) (depth_ beta_ : R) (point : vec) : R :=
  if with_bathymetry then depth_ / 4 * vortex_factor beta_ (norm2 2 point) else 0.

(** source/shallow_water/initial_state_smooth_vortex.h:55-87 for dim equal to 2. *)
Definition smooth_vortex (g : R) (with_bathymetry : bool) (depth_ mach_number_ beta_ : R) (point : vec) (t : R) : vec :=
  let x_bar := point 0%nat - mach_number_ * t in
  let y_bar := point 1%nat in
  let r_square := x_bar * x_bar + y_bar * y_bar in
  let factor := vortex_factor beta_ r_square in
  let h0 := depth_ - 1 / (2 * g) * factor * factor in
  let h := if with_bathymetry then h0 - vortex_bathymetry with_bathymetry depth_ beta_ point else h0 in
  let u := mach_number_ - factor * y_bar in
  let v := factor * x_bar in
  tensor [h; h * u; h * v].

(** source/shallow_water/initial_state_sloping_friction.h:53-70 *)
Definition sloping_friction (n slope_ q_0_ : R) (point : vec) (t : R) : vec :=
  let exponent := 1 / (2 + 4 / 3) in
  let profile := n * n * q_0_ * q_0_ / slope_ in
  tensor [powr profile exponent; q_0_].

(** source/shallow_water/initial_state_sloping_friction.h:83-87 *)
Definition sloping_bathymetry (slope_ : R) (point : vec) : R := - slope_ * point 0%nat.

(** source/shallow_water/initial_state_flow_over_bump.h:119-131 *)
Definition bump_bathymetry (point : vec) : R :=
  let x := point 0%nat in
  if Rle_dec 8 x then if Rle_dec x 12 then 2 / 10 / 64 * (x - 8) ^ 3 * (12 - x) ^ 3 else 0 else 0.

(** The constants, source/shallow_water/initial_state_flow_over_bump.h:63-77. *)
Definition bump_depth (subsonic : bool) : R := if subsonic then 2 else 28205279813802181 / 10 ^ 17.
(** See the comment above, source/shallow_water/initial_state_flow_over_bump.h:63-77. *)
Definition bump_discharge (subsonic : bool) : R := if subsonic then 442 / 100 else 18 / 100.
(** See the comment above, source/shallow_water/initial_state_flow_over_bump.h:63-77. *)
Definition bump_bernoulli (g : R) (subsonic : bool) : R :=
  let q := bump_discharge subsonic in
  if subsonic then (q / bump_depth subsonic) * (q / bump_depth subsonic) / (2 * g) + bump_depth subsonic
  else 2 / 10 + 15 / 10 * powr (q * q / g) (1 / 3).

(** source/shallow_water/initial_state_flow_over_bump.h:55-106; [subsonic] is
    which_case_ == "subsonic".  The power with exponent -1.5 is the inverse of a
    power. *)
Definition flow_over_bump (g : R) (subsonic : bool) (point : vec) (t : R) : vec :=
  let x := point 0%nat in
  let q_inflow := bump_discharge subsonic in
  let h_inflow := bump_depth subsonic in
  let d := q_inflow * q_inflow / (2 * g) in
  let b := bump_bathymetry point - bump_bernoulli g subsonic in
  let Q := - (b * b) / 9 in
  let R := - (27 * d + 2 * b ^ 3) / 54 in
  let theta := acos (/ powr (- Q) (15 / 10) * R) in
  if Rlt_dec t (1 / 10 ^ 12) then tensor [h_inflow - bump_bathymetry point; q_inflow]
  else
    let h1 := 2 * sqrt (- Q) * cos (theta / 3) - b / 3 in
    let h3 := 2 * sqrt (- Q) * cos ((4 * PI + theta) / 3) - b / 3 in
    let h_exact :=
      if subsonic then h1
      else if Rle_dec 10 x then
        if Rlt_dec x (117 / 10) then h3
        else if Rlt_dec (117 / 10) x then 28205279813802181 / 10 ^ 17 else h1
      else h1 in
    tensor [h_exact; q_inflow].
