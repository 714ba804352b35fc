(** * Euler::Limiter

    source/euler/limiter.h and source/euler/limiter.template.h for real numbers;
    the machine epsilon is a parameter [eps].  The compile time option
    EXPENSIVE_BOUNDS_CHECK (off by default) and debug output are not modelled. *)
From Coq Require Import Reals List Bool Arith.
From Verif Require Import RVec Newton EulerSystem.
Import ListNotations.
Local Open Scope R_scope.

(** Bounds: rho_min, rho_max, s_min; source/euler/limiter.h:142-147. *)
Record ebounds := { rho_min : R; rho_max : R; s_min : R }.

(** The fields of a Limiter object, source/euler/limiter.h:240-246. *)
Record elimiter := {
  lim_U_i : vec;
  lim_bounds : ebounds;
  rho_relaxation_numerator : R;
  rho_relaxation_denominator : R;
  s_interp_max : R
}.

(** Limiter::reset, source/euler/limiter.h:255-276; [big] is
    std::numeric_limits<ScalarNumber>::max(). *)
Definition lim_reset (big : R) (U_i : vec) : elimiter :=
  {| lim_U_i := U_i;
     lim_bounds := {| rho_min := big; rho_max := 0; s_min := big |};
     rho_relaxation_numerator := 0;
     rho_relaxation_denominator := 0;
     s_interp_max := 0 |}.

(** Limiter::accumulate, source/euler/limiter.h:279-327; [s_j] is the
    precomputed specific entropy of U_j (line 313-314). *)
Definition lim_accumulate (s : euler) (dim : nat) (l : elimiter)
    (s_j : R) (U_j scaled_c_ij affine_shift : vec) : elimiter :=
  let b := lim_bounds l in
  let rho_i := density (lim_U_i l) in
  let m_i := momentum (lim_U_i l) in
  let rho_j := density U_j in
  let m_j := momentum U_j in
  let rho_affine_shift := density affine_shift in
  let rho_ij_bar :=
    1 / 2 * (rho_i + rho_j + dot dim (vsub m_i m_j) scaled_c_ij) + rho_affine_shift in
  let beta_ij := 1 in
  let s_interp := specific_entropy s dim (vscal (1 / 2) (vadd (lim_U_i l) U_j)) in
  {| lim_U_i := lim_U_i l;
     lim_bounds := {| rho_min := Rmin (rho_min b) rho_ij_bar;
                      rho_max := Rmax (rho_max b) rho_ij_bar;
                      s_min := Rmin (s_min b) s_j |};
     rho_relaxation_numerator := rho_relaxation_numerator l + beta_ij * (rho_i + rho_j);
     rho_relaxation_denominator := rho_relaxation_denominator l + Rabs beta_ij;
     s_interp_max := Rmax (s_interp_max l) s_interp |}.

(** r_i = (m_i / |Omega|) ^ (1.5 / d), source/euler/limiter.h:339-343 (the same
    lines appear in the limiters of the other equations). *)
Definition relaxation_radius (dim : nat) (hd_i : R) : R :=
  let r := sqrt hd_i in
  if Nat.eqb dim 2 then sqrt r * sqrt r * sqrt r
  else if Nat.eqb dim 1 then r * r * r
  else r.

(** Limiter::bounds, source/euler/limiter.h:330-363; [factor] is the parameter
    "relaxation factor". *)
Definition lim_get_bounds (eps factor : R) (dim : nat) (l : elimiter) (hd_i : R) : ebounds :=
  let b := lim_bounds l in
  let r_i := relaxation_radius dim hd_i * factor in
  let rho_relaxation :=
    Rabs (rho_relaxation_numerator l) / (Rabs (rho_relaxation_denominator l) + eps) in
  let relaxation := 2 * factor * rho_relaxation in
  let entropy_relaxation := factor * (s_interp_max l - s_min b) in
  {| rho_min := Rmax ((1 - r_i) * rho_min b) (rho_min b - relaxation);
     rho_max := Rmin ((1 + r_i) * rho_max b) (rho_max b + relaxation);
     s_min := Rmax ((1 - r_i) * s_min b) (s_min b - entropy_relaxation) |}.

(** Limiter::combine_bounds, source/euler/limiter.h:366-377. *)
Definition combine_bounds (l r : ebounds) : ebounds :=
  {| rho_min := Rmin (rho_min l) (rho_min r);
     rho_max := Rmax (rho_max l) (rho_max r);
     s_min := Rmin (s_min l) (s_min r) |}.

(** The arguments of Limiter::limit for one SIMD lane,
    source/euler/limiter.template.h:17-21. *)
Record lane := {
  l_bounds : ebounds;
  l_U : vec;
  l_P : vec;
  l_tmin : R;
  l_tmax : R
}.

(** relax_small and relax, source/euler/limiter.template.h:28-32. *)
Definition relax_small (s : euler) (eps : R) : R := 1 + vacuum_state_relaxation_small s * eps.
(** See the comment above, source/euler/limiter.template.h:28-32. *)
Definition relax (s : euler) (eps : R) : R := 1 + vacuum_state_relaxation_large s * eps.

(** The test of line 51-55 of source/euler/limiter.template.h for one lane. *)
Definition density_test (s : euler) (eps : R) (L : lane) : bool :=
  let rho_U := density (l_U L) in
  let test_min := filter_vacuum_density s eps
                    (Rmax 0 (rho_U - relax s eps * rho_max (l_bounds L))) in
  let test_max := filter_vacuum_density s eps
                    (Rmax 0 (rho_min (l_bounds L) - relax s eps * rho_U)) in
  (if Req_EM_T test_min 0 then true else false) &&
  (if Req_EM_T test_max 0 then true else false).

(** The density limit t_r, source/euler/limiter.template.h:26,41-45,71-108. *)
Definition limit_density (eps : R) (L : lane) : R :=
  let rho_U := density (l_U L) in
  let rho_P := density (l_P L) in
  let rmin := rho_min (l_bounds L) in
  let rmax := rho_max (l_bounds L) in
  let denominator := 1 / (Rabs rho_P + eps * rmax) in
  let t_r := l_tmax L in
  let t_r := mask_lt rmax (rho_U + t_r * rho_P) ((rmax - rho_U) * denominator) t_r in
  let t_r := mask_lt (rho_U + t_r * rho_P) rmin ((rho_U - rmin) * denominator) t_r in
  let t_r := Rmin t_r (l_tmax L) in
  Rmax t_r (l_tmin L).

(** U + t P.  Used in source/euler/limiter.template.h:175, 219. *)
Definition along (L : lane) (t : R) : vec := vadd (l_U L) (vscal t (l_P L)).

(** psi, source/euler/limiter.template.h:175-181 (right) and 219-225 (left). *)
Definition psi (s : euler) (eps : R) (dim : nat) (L : lane) (t : R) : R :=
  let U := along L t in
  let rho := density U in
  let rho_gamma := powr rho (gamma s) in
  let rho_e := internal_energy dim U in
  relax_small s eps * rho * rho_e - s_min (l_bounds L) * rho * rho_gamma.

(** lower_bound, source/euler/limiter.template.h:231-232. *)
Definition lower_bound (s : euler) (eps : R) (L : lane) (t : R) : R :=
  let rho := density (along L t) in
  (1 - relax s eps) * s_min (l_bounds L) * rho * powr rho (gamma s).

(** dpsi, source/euler/limiter.template.h:272-278. *)
Definition dpsi (s : euler) (dim : nat) (L : lane) (t : R) : R :=
  let gp1 := gamma s + 1 in
  let U := along L t in
  let rho := density U in
  let rho_gamma := powr rho (gamma s) in
  let rho_e := internal_energy dim U in
  let drho := density (l_P L) in
  let drho_e := dot (dim + 2) (internal_energy_derivative dim U) (l_P L) in
  rho * drho_e + (rho_e - gp1 * s_min (l_bounds L) * rho_gamma) * drho.

(** The lanes together with their current t_l and t_r.
    source/euler/limiter.template.h:173. *)
Definition iterate := list (lane * (R * R)).

(** source/euler/limiter.template.h:188-190 for all lanes. *)
Definition accept_right (s : euler) (eps : R) (dim : nat) (it : iterate) : iterate :=
  map (fun x => let '(L, (t_l, t_r)) := x in
                (L, (mask_gt (psi s eps dim L t_r) 0 t_r t_l, t_r))) it.

(** [t_l == t_r] (all lanes), source/euler/limiter.template.h:207. *)
Definition all_equal (it : iterate) : bool :=
  forallb (fun x => let '(_, (t_l, t_r)) := x in
                    if Req_EM_T t_l t_r then true else false) it.

(** source/euler/limiter.template.h:233-234 (all lanes). *)
Definition entropy_test (s : euler) (eps : R) (dim : nat) (it : iterate) : bool :=
  forallb (fun x => let '(L, (t_l, _)) := x in
    if Req_EM_T (Rmin 0 (psi s eps dim L t_l - lower_bound s eps L t_l)) 0
    then true else false) it.

(** source/euler/limiter.template.h:258-259 (all lanes). *)
Definition within_tolerance (tol : R) (it : iterate) : bool :=
  forallb (fun x => let '(_, (t_l, t_r)) := x in
    if Req_EM_T (Rmax 0 (t_r - t_l - tol)) 0 then true else false) it.

(** source/euler/limiter.template.h:280-281 for all lanes. *)
Definition newton_all (s : euler) (eps : R) (dim : nat) (it : iterate) : iterate :=
  map (fun x => let '(L, (t_l, t_r)) := x in
    (L, quadratic_newton_step eps (-1) t_l t_r (psi s eps dim L t_l) (psi s eps dim L t_r)
          (dpsi s dim L t_l) (dpsi s dim L t_r))) it.

(** The loop, source/euler/limiter.template.h:173-291.  [fuel] is the number
    of remaining iterations, [first] is [n == 0]. *)
Fixpoint newton_loop (s : euler) (eps tol : R) (dim fuel : nat) (first : bool)
    (success : bool) (it : iterate) : iterate * bool :=
  match fuel with
  | O => (it, success)
  | S fuel' =>
      let it := accept_right s eps dim it in
      if all_equal it then (it, success)
      else
        let success := if first && negb (entropy_test s eps dim it) then false else success in
        if within_tolerance tol it then (it, success)
        else newton_loop s eps tol dim fuel' false success (newton_all s eps dim it)
  end.

(** Limiter::limit, source/euler/limiter.template.h:15-327: one coefficient t_l
    per lane and the common flag. *)
Definition limit (s : euler) (eps tol : R) (newton_max_iterations dim : nat)
    (lanes : list lane) : list R * bool :=
  let success := forallb (density_test s eps) lanes in
  let start := map (fun L => (L, (l_tmin L, limit_density eps L))) lanes in
  let '(it, success) := newton_loop s eps tol dim newton_max_iterations true success start in
  (map (fun x => fst (snd x)) it, success).
