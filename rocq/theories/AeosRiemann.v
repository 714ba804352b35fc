(** * EulerAEOS::RiemannSolver

    source/euler_aeos/riemann_solver.template.h for real numbers and one SIMD lane.  The
    interpolation constants b and pinf come from the equation of state [e].  Not modelled: f
    and phi (lines 390-439), which are used for debug output only. *)
From Coq Require Import Reals Arith.
From Verif Require Import RVec Simd Newton EulerSystem AeosSystem EulerRiemann.
Local Open Scope R_scope.

(** primitive_type: density, normal velocity, pressure, surrogate gamma, surrogate speed of
    sound, source/euler_aeos/riemann_solver.h:61-66 and riemann_solver.template.h:566. *)
Record adata := { ad_rho : R; ad_u : R; ad_p : R; ad_gamma : R; ad_a : R }.

(** c, source/euler_aeos/riemann_solver.template.h:51-82 *)
Definition ar_c (gamma : R) : R :=
  let slope := - (34976871477801828189920753948709 / 100000000000000000000000000000000) in
  let first_radicand := (3 * gamma + 11) / (6 * gamma + 6) in
  let second_radicand := 5 / 6 + slope * (gamma - 3) in
  let radicand := Rmin first_radicand second_radicand in
  let radicand := Rmin 1 radicand in
  let radicand := Rmax (1 / 2) radicand in
  sqrt radicand.

(** alpha, source/euler_aeos/riemann_solver.template.h:85-98 *)
Definition ar_alpha (e : eos) (rho gamma a : R) : R :=
  let numerator := 2 * a * (1 - interp_b e * rho) in
  let denominator := gamma - 1 in
  numerator / denominator.

(** alpha of Riemann data, as in source/euler_aeos/riemann_solver.template.h:112-113. *)
Definition ar_alpha_of (e : eos) (d : adata) : R := ar_alpha e (ad_rho d) (ad_gamma d) (ad_a d).

(** p_star_RS_full, source/euler_aeos/riemann_solver.template.h:101-201 *)
Definition ar_p_star_RS_full (e : eos) (di dj : adata) : R :=
  let pinf := interp_pinf e in
  let alpha_i := ar_alpha_of e di in
  let alpha_j := ar_alpha_of e dj in
  let p_min := Rmin (ad_p di) (ad_p dj) in
  let p_max := Rmax (ad_p di) (ad_p dj) in
  let gamma_min := mask_lt (ad_p di) (ad_p dj) (ad_gamma di) (ad_gamma dj) in
  let alpha_min := mask_lt (ad_p di) (ad_p dj) alpha_i alpha_j in
  let alpha_hat_min := ar_c gamma_min * alpha_min in
  let alpha_max := mask_ge (ad_p di) (ad_p dj) alpha_i alpha_j in
  let gamma_m := Rmin (ad_gamma di) (ad_gamma dj) in
  let gamma_M := Rmax (ad_gamma di) (ad_gamma dj) in
  let numerator := positive_part (alpha_hat_min + alpha_max - (ad_u dj - ad_u di)) in
  let p_ratio := (p_min + pinf) / (p_max + pinf) in
  let r_exponent := (gamma_M - gamma_min) / (2 * gamma_min * gamma_M) in
  let first_exponent := (gamma_M - 1) / (2 * gamma_M) in
  let first_exponent_inverse := 1 / first_exponent in
  let first_denom := alpha_hat_min * powr p_ratio (r_exponent - first_exponent) + alpha_max in
  let p_1_tilde := (p_max + pinf) * powr (numerator / first_denom) first_exponent_inverse - pinf in
  let second_exponent := (gamma_m - 1) / (2 * gamma_m) in
  let second_exponent_inverse := 1 / second_exponent in
  let second_denom := alpha_hat_min * powr p_ratio (- second_exponent) + alpha_max * powr p_ratio r_exponent in
  let p_2_tilde := (p_max + pinf) * powr (numerator / second_denom) second_exponent_inverse - pinf in
  Rmin p_1_tilde p_2_tilde.

(** p_star_failsafe, source/euler_aeos/riemann_solver.template.h:253-300 *)
Definition ar_p_star_failsafe (e : eos) (di dj : adata) : R :=
  let b := interp_b e in
  let pinf := interp_pinf e in
  let p_max := Rmax (ad_p di) (ad_p dj) + pinf in
  let radicand_i := 2 * (1 - b * ad_rho di) * p_max /
    (ad_rho di * ((ad_gamma di + 1) * p_max + (ad_gamma di - 1) * (ad_p di + pinf))) in
  let x_i := sqrt radicand_i in
  let radicand_j := 2 * (1 - b * ad_rho dj) * p_max /
    (ad_rho dj * ((ad_gamma dj + 1) * p_max + (ad_gamma dj - 1) * (ad_p dj + pinf))) in
  let x_j := sqrt radicand_j in
  let a := x_i + x_j in
  let b := ad_u dj - ad_u di in
  let c := - (ad_p di + pinf) * x_i - (ad_p dj + pinf) * x_j in
  let base := (- b + sqrt (b * b - 4 * a * c)) / (2 * a) in
  base * base - pinf.

(** p_star_SS_full, source/euler_aeos/riemann_solver.template.h:204-250 *)
Definition ar_p_star_SS_full (e : eos) (di dj : adata) : R :=
  let pinf := interp_pinf e in
  let gamma_m := Rmin (ad_gamma di) (ad_gamma dj) in
  let alpha_hat_i := ar_c (ad_gamma di) * ar_alpha_of e di in
  let alpha_hat_j := ar_c (ad_gamma dj) * ar_alpha_of e dj in
  let exponent := (gamma_m - 1) / (2 * gamma_m) in
  let exponent_inverse := 1 / exponent in
  let numerator := positive_part (alpha_hat_i + alpha_hat_j - (ad_u dj - ad_u di)) in
  let denominator := alpha_hat_i * powr ((ad_p di + pinf) / (ad_p dj + pinf)) (- exponent) + alpha_hat_j in
  let p_1_tilde := (ad_p dj + pinf) * powr (numerator / denominator) exponent_inverse - pinf in
  let p_2_tilde := ar_p_star_failsafe e di dj in
  Rmin p_1_tilde p_2_tilde.

(** p_star_interpolated, source/euler_aeos/riemann_solver.template.h:303-387 *)
Definition ar_p_star_interpolated (e : eos) (di dj : adata) : R :=
  let pinf := interp_pinf e in
  let alpha_i := ar_alpha_of e di in
  let alpha_j := ar_alpha_of e dj in
  let p_min := Rmin (ad_p di) (ad_p dj) + pinf in
  let p_max := Rmax (ad_p di) (ad_p dj) + pinf in
  let gamma_min := mask_lt (ad_p di) (ad_p dj) (ad_gamma di) (ad_gamma dj) in
  let alpha_min := mask_lt (ad_p di) (ad_p dj) alpha_i alpha_j in
  let alpha_hat_min := ar_c gamma_min * alpha_min in
  let gamma_max := mask_ge (ad_p di) (ad_p dj) (ad_gamma di) (ad_gamma dj) in
  let alpha_max := mask_ge (ad_p di) (ad_p dj) alpha_i alpha_j in
  let alpha_hat_max := ar_c gamma_max * alpha_max in
  let gamma_m := Rmin (ad_gamma di) (ad_gamma dj) in
  let gamma_M := Rmax (ad_gamma di) (ad_gamma dj) in
  let p_ratio := p_min / p_max in
  let r_exponent := (gamma_M - gamma_min) / (2 * gamma_min * gamma_M) in
  let exponent := (gamma_m - 1) / (2 * gamma_m) in
  let exponent_inverse := 1 / exponent in
  let numerator := positive_part (alpha_hat_min + alpha_max - (ad_u dj - ad_u di)) in
  let denominator := alpha_hat_min * powr p_ratio (- exponent) + alpha_hat_max * powr p_ratio r_exponent in
  p_max * powr (numerator / denominator) exponent_inverse - pinf.

(** phi_of_p_max, source/euler_aeos/riemann_solver.template.h:442-472 *)
Definition ar_phi_of_p_max (e : eos) (di dj : adata) : R :=
  let b := interp_b e in
  let pinf := interp_pinf e in
  let p_max := Rmax (ad_p di) (ad_p dj) + pinf in
  let radicand_inverse_i := 1 / 2 * ad_rho di / (1 - b * ad_rho di) *
    ((ad_gamma di + 1) * p_max + (ad_gamma di - 1) * (ad_p di + pinf)) in
  let value_i := (p_max - ad_p di) / sqrt radicand_inverse_i in
  let radicand_inverse_j := 1 / 2 * ad_rho dj / (1 - b * ad_rho dj) *
    ((ad_gamma dj + 1) * p_max + (ad_gamma dj - 1) * (ad_p dj + pinf)) in
  let value_j := (p_max - ad_p dj) / sqrt radicand_inverse_j in
  value_i + value_j + ad_u dj - ad_u di.

(** lambda1_minus, source/euler_aeos/riemann_solver.template.h:475-491 *)
Definition ar_lambda1_minus (e : eos) (d : adata) (p_star : R) : R :=
  let factor := 1 / 2 * (ad_gamma d + 1) / ad_gamma d in
  let tmp := positive_part ((p_star - ad_p d) / (ad_p d + interp_pinf e)) in
  ad_u d - ad_a d * sqrt (1 + factor * tmp).

(** lambda3_plus, source/euler_aeos/riemann_solver.template.h:494-510 *)
Definition ar_lambda3_plus (e : eos) (d : adata) (p_star : R) : R :=
  let factor := 1 / 2 * (ad_gamma d + 1) / ad_gamma d in
  let tmp := positive_part ((p_star - ad_p d) / (ad_p d + interp_pinf e)) in
  ad_u d + ad_a d * sqrt (1 + factor * tmp).

(** compute_lambda, source/euler_aeos/riemann_solver.template.h:513-524 *)
Definition ar_compute_lambda (e : eos) (di dj : adata) (p_star : R) : R :=
  let nu_11 := ar_lambda1_minus e di p_star in
  let nu_32 := ar_lambda3_plus e dj p_star in
  Rmax (positive_part nu_32) (negative_part nu_11).

(** The pressure p_2 chosen by compute(),
    source/euler_aeos/riemann_solver.template.h:594-595,612-622,636-641. *)
Definition ar_p_2 (e : eos) (strict : bool) (di dj : adata) : R :=
  let p_max := Rmax (ad_p di) (ad_p dj) + interp_pinf e in
  let phi_p_max := ar_phi_of_p_max e di dj in
  if negb strict then
    let p_star_tilde := ar_p_star_interpolated e di dj in
    let p_star_backup := ar_p_star_failsafe e di dj in
    mask_lt phi_p_max 0 (Rmin p_star_tilde p_star_backup) (Rmin p_max p_star_tilde)
  else
    let p_star_RS := ar_p_star_RS_full e di dj in
    let p_star_SS := ar_p_star_SS_full e di dj in
    mask_lt phi_p_max 0 p_star_SS (Rmin p_max p_star_RS).

(** compute for Riemann data, source/euler_aeos/riemann_solver.template.h:570-653 (without the
    debug output). *)
Definition ar_compute (e : eos) (strict : bool) (di dj : adata) : R :=
  ar_compute_lambda e di dj (ar_p_2 e strict di dj).

(** riemann_data_from_state, source/euler_aeos/riemann_solver.template.h:527-567 *)
Definition ar_data (e : eos) (dim : nat) (U : vec) (p : R) (n_ij : vec) : adata :=
  let rho := a_density U in
  let rho_inverse := 1 / rho in
  let m := a_momentum U in
  let proj_m := dot dim n_ij m in
  let gamma := surrogate_gamma e dim U p in
  let x := 1 - interp_b e * rho in
  let a := sqrt (gamma * (p + interp_pinf e) / (rho * x)) in
  {| ad_rho := rho; ad_u := proj_m * rho_inverse; ad_p := p; ad_gamma := gamma; ad_a := a |}.

(** compute for states, source/euler_aeos/riemann_solver.template.h:656-674: p_i and p_j are
    the precomputed pressures of the two states. *)
Definition ar_wavespeed (s : aeos) (dim : nat) (U_i U_j : vec) (p_i p_j : R) (n_ij : vec) : R :=
  let e := a_eos s in
  ar_compute e (compute_strict_bounds s) (ar_data e dim U_i p_i n_ij) (ar_data e dim U_j p_j n_ij).
