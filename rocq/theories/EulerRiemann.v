(** * Euler::RiemannSolver

    source/euler/riemann_solver.template.h for real numbers and one SIMD lane.  The cached
    inverses gamma_inverse(), gamma_minus_one_inverse() and gamma_plus_one_inverse() are
    written as divisions. *)
From Coq Require Import Reals Arith.
From Verif Require Import RVec Simd Newton EulerSystem.
Local Open Scope R_scope.

(** primitive_type: density, normal velocity, pressure, speed of sound,
    source/euler/riemann_solver.h:76-81 and riemann_solver.template.h:402. *)
Record edata := { ed_rho : R; ed_u : R; ed_p : R; ed_a : R }.

(** dealii::compare_and_apply_mask<SIMDComparison::greater_than_or_equal>(a, b, x, y) for one
    lane, as used in source/euler/riemann_solver.template.h:43-45,81-83. *)
Definition mask_ge (a b x y : R) : R := if Rge_dec a b then x else y.

(** f, source/euler/riemann_solver.template.h:21-46 *)
Definition er_f (g : R) (Z : edata) (p_star : R) : R :=
  let Az := 2 / (ed_rho Z * (g + 1)) in
  let Bz := (g - 1) / (g + 1) * ed_p Z in
  let radicand := Az / (p_star + Bz) in
  let true_value := (p_star - ed_p Z) * sqrt radicand in
  let exponent := 1 / 2 * (g - 1) / g in
  let factor := powr (p_star / ed_p Z) exponent - 1 in
  let false_value := 2 * ed_a Z * factor / (g - 1) in
  mask_ge p_star (ed_p Z) true_value false_value.

(** df, source/euler/riemann_solver.template.h:49-84 *)
Definition er_df (g : R) (Z : edata) (p_star : R) : R :=
  let radicand_inverse := 1 / 2 * ed_rho Z * ((g + 1) * p_star + (g - 1) * ed_p Z) in
  let denominator := p_star + (g - 1) * (1 / (g + 1)) * ed_p Z in
  let true_value := (denominator - 1 / 2 * (p_star - ed_p Z)) / (denominator * sqrt radicand_inverse) in
  let exponent := (- 1 - g) * (1 / 2) * (1 / g) in
  let factor := (g - 1) * (1 / 2) * (1 / g) * powr (p_star / ed_p Z) exponent / ed_p Z in
  let false_value := factor * 2 * ed_a Z * (1 / (g - 1)) in
  mask_ge p_star (ed_p Z) true_value false_value.

(** phi, source/euler/riemann_solver.template.h:87-97 *)
Definition er_phi (g : R) (di dj : edata) (p : R) : R :=
  er_f g di p + er_f g dj p + ed_u dj - ed_u di.

(** dphi, source/euler/riemann_solver.template.h:100-107 *)
Definition er_dphi (g : R) (di dj : edata) (p : R) : R := er_df g di p + er_df g dj p.

(** phi_of_p_max, source/euler/riemann_solver.template.h:122-149 *)
Definition er_phi_of_p_max (g : R) (di dj : edata) : R :=
  let p_max := Rmax (ed_p di) (ed_p dj) in
  let radicand_inverse_i := 1 / 2 * ed_rho di * ((g + 1) * p_max + (g - 1) * ed_p di) in
  let value_i := (p_max - ed_p di) / sqrt radicand_inverse_i in
  let radicand_inverse_j := 1 / 2 * ed_rho dj * ((g + 1) * p_max + (g - 1) * ed_p dj) in
  let value_j := (p_max - ed_p dj) / sqrt radicand_inverse_j in
  value_i + value_j + ed_u dj - ed_u di.

(** lambda1_minus, source/euler/riemann_solver.template.h:164-181 *)
Definition er_lambda1_minus (g : R) (d : edata) (p_star : R) : R :=
  let factor := (g + 1) * (1 / 2) * (1 / g) in
  let inv_p := 1 / ed_p d in
  let tmp := positive_part ((p_star - ed_p d) * inv_p) in
  ed_u d - ed_a d * sqrt (1 + factor * tmp).

(** lambda3_plus, source/euler/riemann_solver.template.h:189-205 *)
Definition er_lambda3_plus (g : R) (d : edata) (p_star : R) : R :=
  let factor := (g + 1) * (1 / 2) * (1 / g) in
  let inv_p := 1 / ed_p d in
  let tmp := positive_part ((p_star - ed_p d) * inv_p) in
  ed_u d + ed_a d * sqrt (1 + factor * tmp).

(** compute_gap, source/euler/riemann_solver.template.h:217-238: the pair (gap, lambda_max). *)
Definition er_compute_gap (g : R) (di dj : edata) (p_1 p_2 : R) : R * R :=
  let nu_11 := er_lambda1_minus g di p_2 in
  let nu_12 := er_lambda1_minus g di p_1 in
  let nu_31 := er_lambda3_plus g dj p_1 in
  let nu_32 := er_lambda3_plus g dj p_2 in
  let lambda_max := Rmax (positive_part nu_32) (negative_part nu_11) in
  let gap := Rmax (Rabs (nu_32 - nu_31)) (Rabs (nu_12 - nu_11)) in
  (gap, lambda_max).

(** compute_lambda, source/euler/riemann_solver.template.h:252-263 *)
Definition er_compute_lambda (g : R) (di dj : edata) (p_star : R) : R :=
  let nu_11 := er_lambda1_minus g di p_star in
  let nu_32 := er_lambda3_plus g dj p_star in
  Rmax (positive_part nu_32) (negative_part nu_11).

(** p_star_two_rarefaction, source/euler/riemann_solver.template.h:274-319 *)
Definition er_p_star_two_rarefaction (g : R) (di dj : edata) : R :=
  let inv_p_j := 1 / ed_p dj in
  let factor := (g - 1) * (1 / 2) in
  let numerator := positive_part (ed_a di + ed_a dj - factor * (ed_u dj - ed_u di)) in
  let denominator := ed_a di * powr (ed_p di * inv_p_j) (- factor * (1 / g)) + ed_a dj in
  let exponent := 2 * g * (1 / (g - 1)) in
  ed_p dj * powr (numerator / denominator) exponent.

(** p_star_failsafe, source/euler/riemann_solver.template.h:330-374 *)
Definition er_p_star_failsafe (g : R) (di dj : edata) : R :=
  let p_max := Rmax (ed_p di) (ed_p dj) in
  let radicand_i := 2 * p_max / (ed_rho di * ((g + 1) * p_max + (g - 1) * ed_p di)) in
  let x_i := sqrt radicand_i in
  let radicand_j := 2 * p_max / (ed_rho dj * ((g + 1) * p_max + (g - 1) * ed_p dj)) in
  let x_j := sqrt radicand_j in
  let a := x_i + x_j in
  let b := ed_u dj - ed_u di in
  let c := - ed_p di * x_i - ed_p dj * x_j in
  let base := (- b + sqrt (b * b - 4 * a * c)) / (2 * a) in
  base * base.

(** The initial upper bound p_2 of compute(), source/euler/riemann_solver.template.h:472-486. *)
Definition er_p_2 (g : R) (di dj : edata) : R :=
  let p_max := Rmax (ed_p di) (ed_p dj) in
  let rarefaction := er_p_star_two_rarefaction g di dj in
  let failsafe := er_p_star_failsafe g di dj in
  let p_star_tilde := Rmin rarefaction failsafe in
  let phi_p_max := er_phi_of_p_max g di dj in
  mask_lt phi_p_max 0 p_star_tilde (Rmin p_max p_star_tilde).

(** The initial lower bound p_1 of compute(), source/euler/riemann_solver.template.h:514-521. *)
Definition er_p_1 (g : R) (di dj : edata) (p_2 : R) : R :=
  let p_max := Rmax (ed_p di) (ed_p dj) in
  let p_min := Rmin (ed_p di) (ed_p dj) in
  let p_1 := mask_lt (er_phi_of_p_max g di dj) 0 p_max p_min in
  if Rle_dec p_1 p_2 then p_1 else p_2.

(** The Newton loop of compute(), source/euler/riemann_solver.template.h:540-575, for one
    lane: with SIMD the loop stops when all lanes have reached the tolerance.  [eps] is the
    machine epsilon of the Newton step. *)
Fixpoint er_newton (eps tolerance g : R) (di dj : edata) (n : nat) (p_1 p_2 gap lambda_max : R) : R :=
  match n with
  | O => lambda_max
  | S n =>
      if Req_EM_T (Rmax 0 (gap - tolerance)) 0 then lambda_max
      else
        let (q_1, q_2) := quadratic_newton_step eps 1 p_1 p_2
          (er_phi g di dj p_1) (er_phi g di dj p_2) (er_dphi g di dj p_1) (er_dphi g di dj p_2) in
        let (gap_new, lambda_max_new) := er_compute_gap g di dj q_1 q_2 in
        er_newton eps tolerance g di dj n q_1 q_2 gap_new lambda_max_new
  end.

(** compute for Riemann data, source/euler/riemann_solver.template.h:406-582. *)
Definition er_compute (eps tolerance : R) (newton_max_iterations : nat) (g : R) (di dj : edata) : R :=
  let p_2 := er_p_2 g di dj in
  match newton_max_iterations with
  | O => er_compute_lambda g di dj p_2
  | n =>
      let p_1 := er_p_1 g di dj p_2 in
      let (gap, lambda_max) := er_compute_gap g di dj p_1 p_2 in
      er_newton eps tolerance g di dj n p_1 p_2 gap lambda_max
  end.

(** riemann_data_from_state, source/euler/riemann_solver.template.h:377-403 *)
Definition er_data (s : euler) (dim : nat) (U n_ij : vec) : edata :=
  let rho := density U in
  let rho_inverse := 1 / rho in
  let m := momentum U in
  let proj_m := dot dim n_ij m in
  let perp := vsub m (vscal proj_m n_ij) in
  let E := total_energy dim U - 1 / 2 * norm2 dim perp * rho_inverse in
  let state := mkstate 1 rho (fun _ => proj_m) E in
  {| ed_rho := rho; ed_u := proj_m * rho_inverse; ed_p := pressure s 1 state; ed_a := speed_of_sound s 1 state |}.

(** compute for states, source/euler/riemann_solver.template.h:585-597. *)
Definition er_wavespeed (s : euler) (eps tolerance : R) (newton_max_iterations dim : nat) (U_i U_j n_ij : vec) : R :=
  er_compute eps tolerance newton_max_iterations (gamma s) (er_data s dim U_i n_ij) (er_data s dim U_j n_ij).
