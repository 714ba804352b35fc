(** * ShallowWater::Limiter

    source/shallow_water/limiter.h and source/shallow_water/limiter.template.h
    for real numbers; the machine epsilon is a parameter [eps], the smallest
    positive number a parameter [tiny].  The compile time option
    EXPENSIVE_BOUNDS_CHECK (off by default) and debug output are not modelled. *)
From Coq Require Import Reals List Bool Arith.
From Verif Require Import RVec Newton EulerSystem EulerLimiter SWSystem.
Import ListNotations.
Local Open Scope R_scope.

(** Bounds: h_min, h_max, h_small, kin_max, v2_max;
    source/shallow_water/limiter.h:131-136,255. *)
Record wbounds := { h_min : R; h_max : R; h_small : R; kin_max : R; v2_max : R }.

(** The fields of a Limiter object, source/shallow_water/limiter.h:225-234. *)
Record wlimiter := {
  w_U_i : vec;
  w_bounds : wbounds;
  h_relaxation_numerator : R;
  kin_relaxation_numerator : R;
  v2_relaxation_numerator : R;
  relaxation_denominator : R
}.

(** Limiter::reset, source/shallow_water/limiter.h:247-267; [big] is
    std::numeric_limits<ScalarNumber>::max(). *)
Definition w_reset (big : R) (U_i : vec) : wlimiter :=
  {| w_U_i := U_i;
     w_bounds := {| h_min := big; h_max := 0; h_small := 0; kin_max := 0; v2_max := 0 |};
     h_relaxation_numerator := 0;
     kin_relaxation_numerator := 0;
     v2_relaxation_numerator := 0;
     relaxation_denominator := 0 |}.

(** The bar state, source/shallow_water/limiter.h:282-290. *)
Definition w_bar_state (s : shallow) (eps : R) (dim : nat) (U_star_ij U_star_ji scaled_c_ij affine_shift : vec) : vec :=
  let f_star_ij := w_f s eps U_star_ij in
  let f_star_ji := w_f s eps U_star_ji in
  let neg := fun k l => - f_star_ji k l in
  fun k => 1 / 2 * (U_star_ij k + U_star_ji k + contract dim (fadd f_star_ij neg) scaled_c_ij k)
           + affine_shift k.

(** The square of the mollified velocity,
    source/shallow_water/limiter.h:303-305,323-328. *)
Definition mollified_v2 (s : shallow) (eps : R) (dim : nat) (U : vec) : R :=
  norm2 dim (vscal (inverse_water_depth_mollified s eps U) (w_momentum U)).

(** Limiter::accumulate, source/shallow_water/limiter.h:270-329. *)
Definition w_accumulate (s : shallow) (eps : R) (dim : nat) (l : wlimiter)
    (U_j U_star_ij U_star_ji scaled_c_ij affine_shift : vec) : wlimiter :=
  let b := w_bounds l in
  let U_ij_bar := w_bar_state s eps dim U_star_ij U_star_ji scaled_c_ij affine_shift in
  let h_bar_ij := water_depth U_ij_bar in
  let kin_bar_ij := kinetic_energy s eps dim U_ij_bar in
  let v2_bar_ij := mollified_v2 s eps dim U_ij_bar in
  let beta_ij := 1 in
  let h_i := water_depth (w_U_i l) in
  let h_j := water_depth U_j in
  let kin_i := kinetic_energy s eps dim (w_U_i l) in
  let kin_j := kinetic_energy s eps dim U_j in
  {| w_U_i := w_U_i l;
     w_bounds := {| h_min := Rmin (h_min b) h_bar_ij;
                    h_max := Rmax (h_max b) h_bar_ij;
                    h_small := h_small b;
                    kin_max := Rmax (kin_max b) kin_bar_ij;
                    v2_max := Rmax (v2_max b) v2_bar_ij |};
     h_relaxation_numerator := h_relaxation_numerator l + beta_ij * (h_i + h_j);
     kin_relaxation_numerator := kin_relaxation_numerator l + beta_ij * (kin_i + kin_j);
     v2_relaxation_numerator := v2_relaxation_numerator l +
       beta_ij * (- mollified_v2 s eps dim (w_U_i l) + mollified_v2 s eps dim U_j);
     relaxation_denominator := relaxation_denominator l + Rabs beta_ij |}.

(** Limiter::bounds, source/shallow_water/limiter.h:332-381; lines 343-348 are
    [relaxation_radius]; [factor] is the parameter "relaxation factor". *)
Definition w_get_bounds (s : shallow) (eps factor : R) (dim : nat) (l : wlimiter) (hd_i : R) : wbounds :=
  let b := w_bounds l in
  let r_i := relaxation_radius dim hd_i * factor in
  let h_relaxed := 2 * Rabs (h_relaxation_numerator l) / (relaxation_denominator l + eps) in
  let kin_relaxed := 2 * Rabs (kin_relaxation_numerator l) / (relaxation_denominator l + eps) in
  let v2_relaxed := 2 * Rabs (v2_relaxation_numerator l) / (relaxation_denominator l + eps) in
  let r_small := (if Nat.eqb dim 2 then sqrt hd_i else hd_i) * dry_state_relaxation_factor s in
  {| h_min := Rmax ((1 - r_i) * h_min b) (h_min b - h_relaxed);
     h_max := Rmin ((1 + r_i) * h_max b) (h_max b + h_relaxed);
     h_small := reference_water_depth s * r_small;
     kin_max := Rmin ((1 + r_i) * kin_max b) (kin_max b + kin_relaxed);
     v2_max := Rmin ((1 + r_i) * v2_max b) (v2_max b + v2_relaxed) |}.

(** Limiter::combine_bounds, source/shallow_water/limiter.h:384-397 (the fourth
    entry takes h_max of the right bounds, line 395). *)
Definition w_combine_bounds (l r : wbounds) : wbounds :=
  {| h_min := Rmin (h_min l) (h_min r);
     h_max := Rmax (h_max l) (h_max r);
     h_small := Rmin (h_small l) (h_small r);
     kin_max := Rmax (kin_max l) (h_max r);
     v2_max := Rmax (v2_max l) (v2_max r) |}.

(** The arguments of Limiter::limit for one SIMD lane,
    source/shallow_water/limiter.template.h:18-22. *)
Record wlane := {
  wl_b : wbounds;
  wl_U : vec;
  wl_P : vec;
  wl_tmin : R;
  wl_tmax : R
}.

(** source/shallow_water/limiter.template.h:34-37 *)
Definition w_relax_small (s : shallow) (eps : R) : R := 1 + dry_state_relaxation_small s * eps.
(** See the comment above, source/shallow_water/limiter.template.h:34-37. *)
Definition w_relax (s : shallow) (eps : R) : R := 1 + dry_state_relaxation_large s * eps.

(** source/shallow_water/limiter.template.h:46-54 for one lane *)
Definition w_depth_test (s : shallow) (eps : R) (L : wlane) : bool :=
  let h_U := water_depth (wl_U L) in
  let test_min := filter_dry_water_depth s eps (Rmax 0 (h_U - w_relax s eps * h_max (wl_b L))) in
  let test_max := filter_dry_water_depth s eps (Rmax 0 (h_min (wl_b L) - w_relax s eps * h_U)) in
  (if Req_EM_T test_min 0 then true else false) &&
  (if Req_EM_T test_max 0 then true else false).

(** The depth limit t_r, source/shallow_water/limiter.template.h:28,46-47,68-111. *)
Definition w_limit_depth (eps tiny : R) (L : wlane) : R :=
  let h_U := water_depth (wl_U L) in
  let h_P := water_depth (wl_P L) in
  let hmax := h_max (wl_b L) in
  let denominator := 1 / (Rabs h_P + eps * hmax + tiny) in
  let t_r := wl_tmax L in
  let t_r := mask_lt hmax (h_U + t_r * h_P) ((hmax - h_U) * denominator) t_r in
  let h_min_tilde := Rmax (h_small (wl_b L)) (h_min (wl_b L)) in
  let t_r := mask_lt (h_U + t_r * h_P) h_min_tilde ((h_U - h_min_tilde) * denominator) t_r in
  let t_r := Rmin t_r (wl_tmax L) in
  Rmax t_r (wl_tmin L).

(** U + t P.  Used in source/shallow_water/limiter.template.h:165, 192, 314, 340. *)
Definition w_along (L : wlane) (t : R) : vec := vadd (wl_U L) (vscal t (wl_P L)).

(** psi of the kinetic energy limiter,
    source/shallow_water/limiter.template.h:165-170 (right), 192-197 (left) *)
Definition psi_kin (s : shallow) (eps : R) (dim : nat) (L : wlane) (t : R) : R :=
  let U := w_along L t in
  w_relax_small s eps * water_depth U * kin_max (wl_b L) - 1 / 2 * norm2 dim (w_momentum U).

(** dpsi of the kinetic energy limiter,
    source/shallow_water/limiter.template.h:243-248 *)
Definition dpsi_kin (dim : nat) (L : wlane) (t : R) : R :=
  let h_P := water_depth (wl_P L) in
  let q_U := w_momentum (wl_U L) in
  let q_P := w_momentum (wl_P L) in
  h_P * kin_max (wl_b L) - dot dim q_U q_P - dot dim q_P q_P * t.

(** lower_bound of the kinetic energy limiter,
    source/shallow_water/limiter.template.h:207-209 *)
Definition lower_kin (s : shallow) (eps : R) (L : wlane) (t : R) : R :=
  let filtered_h_l := filter_dry_water_depth s eps (water_depth (w_along L t)) in
  (1 - w_relax s eps) * filtered_h_l * kin_max (wl_b L) - eps.

(** psi of the square velocity limiter,
    source/shallow_water/limiter.template.h:314-318 (right), 340-344 (left) *)
Definition psi_v2 (s : shallow) (eps : R) (dim : nat) (L : wlane) (t : R) : R :=
  let U := w_along L t in
  w_relax_small s eps * water_depth U * water_depth U * v2_max (wl_b L) - norm2 dim (w_momentum U).

(** dpsi of the square velocity limiter,
    source/shallow_water/limiter.template.h:391-401 *)
Definition dpsi_v2 (dim : nat) (L : wlane) (t : R) : R :=
  let h_U := water_depth (wl_U L) in
  let h_P := water_depth (wl_P L) in
  let q_U := w_momentum (wl_U L) in
  let q_P := w_momentum (wl_P L) in
  (h_U + t * h_P) * h_P * v2_max (wl_b L) - 2 * (dot dim q_U q_P - dot dim q_P q_P * t).

(** lower_bound of the square velocity limiter,
    source/shallow_water/limiter.template.h:354-357 *)
Definition lower_v2 (s : shallow) (eps : R) (L : wlane) (t : R) : R :=
  let filtered_h_l := filter_dry_water_depth s eps (water_depth (w_along L t)) in
  (1 - w_relax s eps) * filtered_h_l * filtered_h_l * v2_max (wl_b L) - 100 * eps.

(** The lanes together with their current t_l and t_r.
    source/shallow_water/limiter.template.h:165, 192. *)
Definition witerate := list (wlane * (R * R)).

(** source/shallow_water/limiter.template.h:176-177,324-325 for all lanes *)
Definition w_accept (psi : wlane -> R -> R) (it : witerate) : witerate :=
  map (fun x => let '(L, (t_l, t_r)) := x in (L, (mask_gt (psi L t_r) 0 t_r t_l, t_r))) it.

(** [t_l == t_r] (all lanes), source/shallow_water/limiter.template.h:180,328 *)
Definition w_all_equal (it : witerate) : bool :=
  forallb (fun x => let '(_, (t_l, t_r)) := x in
                    if Req_EM_T t_l t_r then true else false) it.

(** source/shallow_water/limiter.template.h:210,358 (all lanes) *)
Definition w_psi_test (psi lower : wlane -> R -> R) (it : witerate) : bool :=
  forallb (fun x => let '(L, (t_l, _)) := x in
    if Req_EM_T (Rmin 0 (psi L t_l - lower L t_l)) 0 then true else false) it.

(** source/shallow_water/limiter.template.h:224-225,372-373 (all lanes) *)
Definition w_within_tolerance (tol : R) (it : witerate) : bool :=
  forallb (fun x => let '(_, (t_l, t_r)) := x in
    if Req_EM_T (Rmax 0 (t_r - t_l - tol)) 0 then true else false) it.

(** source/shallow_water/limiter.template.h:250-251,403-404 for all lanes *)
Definition w_newton (eps : R) (psi dpsi : wlane -> R -> R) (it : witerate) : witerate :=
  map (fun x => let '(L, (t_l, t_r)) := x in
    (L, quadratic_newton_step eps (-1) t_l t_r (psi L t_l) (psi L t_r) (dpsi L t_l) (dpsi L t_r))) it.

(** Flip the bounds, source/shallow_water/limiter.template.h:294-297, for all lanes *)
Definition w_flip (it : witerate) : witerate :=
  map (fun x => let '(L, (t_l, _)) := x in (L, (wl_tmin L, t_l))) it.

(** Limiter::limit, source/shallow_water/limiter.template.h:16-449: one
    coefficient t_l per lane and the common flag; [on_kin] and [on_v2] are the
    parameters limit_on_kinetic_energy and limit_on_square_velocity. *)
Definition w_limit (s : shallow) (eps tiny tol : R) (on_kin on_v2 : bool) (dim : nat)
    (lanes : list wlane) : list R * bool :=
  let result := map (fun x : wlane * (R * R) => fst (snd x)) in
  let success := forallb (w_depth_test s eps) lanes in
  let it := map (fun L => (L, (wl_tmin L, w_limit_depth eps tiny L))) lanes in
  if negb on_v2 && negb on_kin then (result it, success)
  else
    let kin_it := w_accept (psi_kin s eps dim) it in
    if on_kin && negb on_v2 && w_all_equal kin_it then (result kin_it, success)
    else
      let success := if on_kin && negb (w_psi_test (psi_kin s eps dim) (lower_kin s eps) kin_it)
                     then false else success in
      let it := if on_kin then
                  let it := if w_within_tolerance tol kin_it then kin_it
                            else w_newton eps (psi_kin s eps dim) (dpsi_kin dim) kin_it in
                  if on_v2 then w_flip it else it
                else it in
      if on_v2 then
        let it := w_accept (psi_v2 s eps dim) it in
        if w_all_equal it then (result it, success)
        else
          let success := if negb (w_psi_test (psi_v2 s eps dim) (lower_v2 s eps) it)
                         then false else success in
          let it := if w_within_tolerance tol it then it
                    else w_newton eps (psi_v2 s eps dim) (dpsi_v2 dim) it in
          (result it, success)
      else (result it, success).
