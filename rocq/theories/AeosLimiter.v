(** * EulerAEOS::Limiter

    source/euler_aeos/limiter.h and source/euler_aeos/limiter.template.h for
    real numbers; the machine epsilon is a parameter [eps].  The compile time
    option EXPENSIVE_BOUNDS_CHECK (off by default) and debug output are not
    modelled. *)
From Coq Require Import Reals List Bool Arith.
From Verif Require Import RVec Newton EulerSystem AeosSystem EulerLimiter.
Import ListNotations.
Local Open Scope R_scope.

(** Bounds: rho_min, rho_max, s_min, gamma_min; source/euler_aeos/limiter.h:149,273. *)
Record abounds := { arho_min : R; arho_max : R; as_min : R; agamma_min : R }.

(** The fields of a Limiter object, source/euler_aeos/limiter.h:242-249. *)
Record alimiter := {
  al_U_i : vec;
  al_flux_i : nat -> vec;
  al_bounds : abounds;
  al_num : R;
  al_den : R;
  al_s_interp_max : R
}.

(** Limiter::reset, source/euler_aeos/limiter.h:261-288; [big] is
    std::numeric_limits<ScalarNumber>::max(), [gamma_min_i] the precomputed value. *)
Definition al_reset (big gamma_min_i : R) (U_i : vec) (flux_i : nat -> vec) : alimiter :=
  {| al_U_i := U_i;
     al_flux_i := flux_i;
     al_bounds := {| arho_min := big; arho_max := 0; as_min := big; agamma_min := gamma_min_i |};
     al_num := 0;
     al_den := 0;
     al_s_interp_max := 0 |}.

(** The bar state, source/euler_aeos/limiter.h:316-319. *)
Definition a_bar_state (dim : nat) (U_i : vec) (flux_i : nat -> vec)
    (U_j : vec) (flux_j : nat -> vec) (c affine_shift : vec) : vec :=
  let neg := fun k l => - flux_i k l in
  fun k => 1 / 2 * (U_i k + U_j k) - 1 / 2 * contract dim (fadd flux_j neg) c k + affine_shift k.

(** Limiter::accumulate, source/euler_aeos/limiter.h:291-376; [s_j_precomputed]
    is the precomputed surrogate entropy of index j (used for
    compute_strict_bounds = false only). *)
Definition al_accumulate (s : aeos) (dim : nat) (l : alimiter)
    (s_j_precomputed : R) (U_j : vec) (flux_j : nat -> vec) (c affine_shift : vec) : alimiter :=
  let b := al_bounds l in
  let gamma_min := agamma_min b in
  let rho_i := a_density (al_U_i l) in
  let rho_j := a_density U_j in
  let U_ij_bar := a_bar_state dim (al_U_i l) (al_flux_i l) U_j flux_j c affine_shift in
  let rho_ij_bar := a_density U_ij_bar in
  let beta_ij := 1 in
  let s_j := if compute_strict_bounds s
             then surrogate_specific_entropy (a_eos s) dim U_j gamma_min
             else s_j_precomputed in
  let s_ij_bar := surrogate_specific_entropy (a_eos s) dim U_ij_bar gamma_min in
  let s_interp := if compute_strict_bounds s
                  then surrogate_specific_entropy (a_eos s) dim
                         (vscal (1 / 2) (vadd (al_U_i l) U_j)) gamma_min
                  else s_ij_bar in
  {| al_U_i := al_U_i l;
     al_flux_i := al_flux_i l;
     al_bounds := {| arho_min := Rmin (arho_min b) rho_ij_bar;
                     arho_max := Rmax (arho_max b) rho_ij_bar;
                     as_min := Rmin (Rmin (as_min b) s_j) s_ij_bar;
                     agamma_min := gamma_min |};
     al_num := al_num l + beta_ij * (rho_i + rho_j);
     al_den := al_den l + Rabs beta_ij;
     al_s_interp_max := Rmax (al_s_interp_max l) s_interp |}.

(** Limiter::bounds, source/euler_aeos/limiter.h:379-430; lines 388-394 are
    [relaxation_radius]. *)
Definition al_get_bounds (s : aeos) (eps factor : R) (dim : nat) (l : alimiter) (hd_i : R)
    : abounds :=
  let b := al_bounds l in
  let r_i := relaxation_radius dim hd_i * factor in
  let rho_relaxation := Rabs (al_num l) / (Rabs (al_den l) + eps) in
  let relaxation := 2 * factor * rho_relaxation in
  let rmin := Rmax ((1 - r_i) * arho_min b) (arho_min b - relaxation) in
  let rmax := Rmin ((1 + r_i) * arho_max b) (arho_max b + relaxation) in
  let entropy_relaxation := factor * (al_s_interp_max l - as_min b) in
  let smin := Rmax ((1 - r_i) * as_min b) (as_min b - entropy_relaxation) in
  let numerator := (agamma_min b + 1) * rmax in
  let denominator := agamma_min b - 1 + 2 * interp_b (a_eos s) * rmax in
  let upper_bound := numerator / denominator in
  {| arho_min := rmin; arho_max := Rmin upper_bound rmax; as_min := smin;
     agamma_min := agamma_min b |}.

(** Limiter::combine_bounds, source/euler_aeos/limiter.h:433-445. *)
Definition a_combine_bounds (l r : abounds) : abounds :=
  {| arho_min := Rmin (arho_min l) (arho_min r);
     arho_max := Rmax (arho_max l) (arho_max r);
     as_min := Rmin (as_min l) (as_min r);
     agamma_min := Rmin (agamma_min l) (agamma_min r) |}.

(** The arguments of Limiter::limit for one SIMD lane,
    source/euler_aeos/limiter.template.h:17-21. *)
Record alane := {
  al_b : abounds;
  al_U : vec;
  al_P : vec;
  al_tmin : R;
  al_tmax : R
}.

(** source/euler_aeos/limiter.template.h:28-32 *)
Definition a_relax_small (s : aeos) (eps : R) : R := 1 + a_relaxation_small s * eps.
(** See the comment above, source/euler_aeos/limiter.template.h:28-32. *)
Definition a_relax (s : aeos) (eps : R) : R := 1 + a_relaxation_large s * eps.

(** source/euler_aeos/limiter.template.h:51-55 for one lane *)
Definition a_density_test (s : aeos) (eps : R) (L : alane) : bool :=
  let rho_U := a_density (al_U L) in
  let test_min := a_filter_vacuum_density s eps
                    (Rmax 0 (rho_U - a_relax s eps * arho_max (al_b L))) in
  let test_max := a_filter_vacuum_density s eps
                    (Rmax 0 (arho_min (al_b L) - a_relax s eps * rho_U)) in
  (if Req_EM_T test_min 0 then true else false) &&
  (if Req_EM_T test_max 0 then true else false).

(** The density limit t_r, source/euler_aeos/limiter.template.h:26,41-45,71-107. *)
Definition a_limit_density (eps : R) (L : alane) : R :=
  let rho_U := a_density (al_U L) in
  let rho_P := a_density (al_P L) in
  let rmin := arho_min (al_b L) in
  let rmax := arho_max (al_b L) in
  let denominator := 1 / (Rabs rho_P + eps * rmax) in
  let t_r := al_tmax L in
  let t_r := mask_lt rmax (rho_U + t_r * rho_P) ((rmax - rho_U) * denominator) t_r in
  let t_r := mask_lt (rho_U + t_r * rho_P) rmin ((rho_U - rmin) * denominator) t_r in
  let t_r := Rmin t_r (al_tmax L) in
  Rmax t_r (al_tmin L).

(** U + t P.  Used in source/euler_aeos/limiter.template.h:180, 228. *)
Definition a_along (L : alane) (t : R) : vec := vadd (al_U L) (vscal t (al_P L)).

(** psi, source/euler_aeos/limiter.template.h:145-150,180-190 (right) and
    228-237 (left). *)
Definition a_psi (s : aeos) (eps : R) (dim : nat) (L : alane) (t : R) : R :=
  let gamma := agamma_min (al_b L) in
  let gm1 := gamma - 1 in
  let b := interp_b (a_eos s) in
  let U := a_along L t in
  let rho := a_density U in
  let rho_gamma := powr rho gamma in
  let covolume := 1 - b * rho in
  let rho_e := a_internal_energy dim U in
  let shift := rho_e - rho * interp_q (a_eos s) - interp_pinf (a_eos s) * covolume in
  a_relax_small s eps * rho * shift -
  as_min (al_b L) * rho * rho_gamma * powr covolume (- gm1).

(** lower_bound, source/euler_aeos/limiter.template.h:243-244 *)
Definition a_lower_bound (s : aeos) (eps : R) (L : alane) (t : R) : R :=
  let gamma := agamma_min (al_b L) in
  let rho := a_density (a_along L t) in
  let covolume := 1 - interp_b (a_eos s) * rho in
  (1 - a_relax s eps) * as_min (al_b L) * rho * powr rho gamma * powr covolume (- (gamma - 1)).

(** dpsi, source/euler_aeos/limiter.template.h:284-305 *)
Definition a_dpsi (s : aeos) (dim : nat) (L : alane) (t : R) : R :=
  let gamma := agamma_min (al_b L) in
  let b := interp_b (a_eos s) in
  let q := interp_q (a_eos s) in
  let pinf := interp_pinf (a_eos s) in
  let U := a_along L t in
  let rho := a_density U in
  let covolume := 1 - b * rho in
  let rho_e := a_internal_energy dim U in
  let drho := a_density (al_P L) in
  let drho_e := dot (dim + 2) (a_internal_energy_derivative dim U) (al_P L) in
  let q_pinf_term := 2 * rho * q + pinf * (1 - 2 * b * rho) in
  let extra_term := as_min (al_b L) * powr (rho / covolume) gamma * (covolume + gamma - b * rho) in
  rho * drho_e + (rho_e - q_pinf_term - extra_term) * drho.

(** The lanes together with their current t_l and t_r.
    source/euler_aeos/limiter.template.h:178. *)
Definition aiterate := list (alane * (R * R)).

(** source/euler_aeos/limiter.template.h:197-199 for all lanes *)
Definition a_accept_right (s : aeos) (eps : R) (dim : nat) (it : aiterate) : aiterate :=
  map (fun x => let '(L, (t_l, t_r)) := x in
                (L, (mask_gt (a_psi s eps dim L t_r) 0 t_r t_l, t_r))) it.

(** source/euler_aeos/limiter.template.h:216 (all lanes) *)
Definition a_all_equal (it : aiterate) : bool :=
  forallb (fun x => let '(_, (t_l, t_r)) := x in
                    if Req_EM_T t_l t_r then true else false) it.

(** source/euler_aeos/limiter.template.h:245-246 (all lanes) *)
Definition a_entropy_test (s : aeos) (eps : R) (dim : nat) (it : aiterate) : bool :=
  forallb (fun x => let '(L, (t_l, _)) := x in
    if Req_EM_T (Rmin 0 (a_psi s eps dim L t_l - a_lower_bound s eps L t_l)) 0
    then true else false) it.

(** source/euler_aeos/limiter.template.h:270-271 (all lanes) *)
Definition a_within_tolerance (tol : R) (it : aiterate) : bool :=
  forallb (fun x => let '(_, (t_l, t_r)) := x in
    if Req_EM_T (Rmax 0 (t_r - t_l - tol)) 0 then true else false) it.

(** source/euler_aeos/limiter.template.h:307-308 for all lanes *)
Definition a_newton_all (s : aeos) (eps : R) (dim : nat) (it : aiterate) : aiterate :=
  map (fun x => let '(L, (t_l, t_r)) := x in
    (L, quadratic_newton_step eps (-1) t_l t_r (a_psi s eps dim L t_l) (a_psi s eps dim L t_r)
          (a_dpsi s dim L t_l) (a_dpsi s dim L t_r))) it.

(** The loop, source/euler_aeos/limiter.template.h:178-318.  [fuel] is the
    number of remaining iterations, [first] is [n == 0]. *)
Fixpoint a_newton_loop (s : aeos) (eps tol : R) (dim fuel : nat) (first : bool)
    (success : bool) (it : aiterate) : aiterate * bool :=
  match fuel with
  | O => (it, success)
  | S fuel' =>
      let it := a_accept_right s eps dim it in
      if a_all_equal it then (it, success)
      else
        let success := if first && negb (a_entropy_test s eps dim it) then false else success in
        if a_within_tolerance tol it then (it, success)
        else a_newton_loop s eps tol dim fuel' false success (a_newton_all s eps dim it)
  end.

(** Limiter::limit, source/euler_aeos/limiter.template.h:15-361: one coefficient
    t_l per lane and the common flag. *)
Definition a_limit (s : aeos) (eps tol : R) (newton_max_iterations dim : nat)
    (lanes : list alane) : list R * bool :=
  let success := forallb (a_density_test s eps) lanes in
  let start := map (fun L => (L, (al_tmin L, a_limit_density eps L))) lanes in
  let '(it, success) := a_newton_loop s eps tol dim newton_max_iterations true success start in
  (map (fun x => fst (snd x)) it, success).
