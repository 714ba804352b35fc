(** * ShallowWater::RiemannSolver

    source/shallow_water/riemann_solver.template.h for real numbers and one SIMD lane. *)
From Coq Require Import Reals Arith.
From Verif Require Import RVec Simd Newton SWSystem.
Local Open Scope R_scope.

(** primitive_type: depth, velocity, speed of sound,
    source/shallow_water/riemann_solver.template.h:33,222. *)
Record wdata := { wd_h : R; wd_u : R; wd_a : R }.

(** dealii::compare_and_apply_mask<SIMDComparison::less_than_or_equal>(a, b, x, y) for one
    lane, as used in source/shallow_water/riemann_solver.template.h:41-43,195-197. *)
Definition mask_le (a b x y : R) : R := if Rle_dec a b then x else y.

(** f, source/shallow_water/riemann_solver.template.h:25-44 *)
Definition wr_f (g : R) (Z : wdata) (h : R) : R :=
  let left_value := 2 * (sqrt (g * h) - wd_a Z) in
  let radicand := 1 / 2 * g * (h + wd_h Z) / (h * wd_h Z) in
  let right_value := (h - wd_h Z) * sqrt radicand in
  mask_le h (wd_h Z) left_value right_value.

(** phi, source/shallow_water/riemann_solver.template.h:47-61 *)
Definition wr_phi (g : R) (di dj : wdata) (h : R) : R :=
  wr_f g di h + wr_f g dj h + wd_u dj - wd_u di.

(** lambda1_minus, source/shallow_water/riemann_solver.template.h:64-76 *)
Definition wr_lambda1_minus (d : wdata) (h_star : R) : R :=
  let factor := positive_part ((h_star - wd_h d) / wd_h d) in
  let half_factor := 1 / 2 * factor in
  wd_u d - wd_a d * sqrt ((1 + half_factor) * (1 + factor)).

(** lambda3_plus, source/shallow_water/riemann_solver.template.h:79-91 *)
Definition wr_lambda3_plus (d : wdata) (h_star : R) : R :=
  let factor := positive_part ((h_star - wd_h d) / wd_h d) in
  let half_factor := 1 / 2 * factor in
  wd_u d + wd_a d * sqrt ((1 + half_factor) * (1 + factor)).

(** compute_lambda, source/shallow_water/riemann_solver.template.h:94-105 *)
Definition wr_compute_lambda (di dj : wdata) (h_star : R) : R :=
  let lambda1 := wr_lambda1_minus di h_star in
  let lambda3 := wr_lambda3_plus dj h_star in
  Rmax (negative_part lambda1) (positive_part lambda3).

(** compute_h_star, source/shallow_water/riemann_solver.template.h:108-204 (the value of
    lines 195-197 is overwritten in lines 199-201) *)
Definition wr_compute_h_star (g : R) (di dj : wdata) : R :=
  let h_min := Rmin (wd_h di) (wd_h dj) in
  let h_max := Rmax (wd_h di) (wd_h dj) in
  let a_min := sqrt (g * h_min) in
  let a_max := sqrt (g * h_max) in
  let sqrt_two := sqrt 2 in
  let x0 := 9 - 4 * sqrt_two in
  let phi_value_min := wr_phi g di dj (x0 * h_min) in
  let phi_value_max := wr_phi g di dj (x0 * h_max) in
  let tmp := positive_part (wd_u di - wd_u dj + 2 * (wd_a di + wd_a dj)) in
  let h_star_left := 625 / 10000 * (1 / g) * tmp * tmp in
  let tmp := 1 + sqrt_two * (wd_u di - wd_u dj) / (a_min + a_max) in
  let h_star_middle := sqrt (h_min * h_max) * tmp in
  let left_radicand := 3 * h_min + 2 * sqrt_two * sqrt (h_min * h_max) in
  let right_radicand := sqrt_two * sqrt (1 / g * h_min) * (wd_u di - wd_u dj) in
  let tmp := sqrt (positive_part (left_radicand + right_radicand)) - sqrt_two * sqrt h_min in
  let h_star_right := tmp * tmp in
  let h_star := mask_le 0 phi_value_min h_star_left h_star_right in
  let h_star := mask_lt phi_value_max 0 h_star_middle h_star_right in
  h_star.

(** riemann_data_from_state, source/shallow_water/riemann_solver.template.h:207-223 *)
Definition wr_data (s : shallow) (eps : R) (dim : nat) (U n_ij : vec) : wdata :=
  let h := water_depth_sharp s eps U in
  {| wd_h := h;
     wd_u := dot dim n_ij (fun k => w_momentum U k / h);
     wd_a := sqrt (h * gravity s) |}.

(** compute for Riemann data, source/shallow_water/riemann_solver.template.h:226-237 *)
Definition wr_compute (g : R) (di dj : wdata) : R :=
  let h_star := wr_compute_h_star g di dj in
  wr_compute_lambda di dj h_star.

(** compute for states, source/shallow_water/riemann_solver.template.h:240-251 *)
Definition sw_wavespeed (s : shallow) (eps : R) (dim : nat) (U_i U_j n_ij : vec) : R :=
  wr_compute (gravity s) (wr_data s eps dim U_i n_ij) (wr_data s eps dim U_j n_ij).
