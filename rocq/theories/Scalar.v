(** * ScalarConservation: hyperbolic system, Riemann solver and limiter

    The functions of source/scalar_conservation/ for an arbitrary flux function,
    an arbitrary space dimension [dim] and real numbers; a state is the number
    state(U) = U[0] (source/scalar_conservation/hyperbolic_system.h:645-650). *)
From Coq Require Import Reals List Bool Arith.
From Verif Require Import RVec Newton EulerSystem EulerLimiter.
Import ListNotations.
Local Open Scope R_scope.

(** A flux description, source/scalar_conservation/flux.h:30-91:
    value(state, direction), gradient(state, direction) and
    derivative_approximation_delta. *)
Record flux := {
  fl_value : R -> nat -> R;
  fl_gradient : R -> nat -> R;
  fl_delta : R
}.

(** FluxLibrary::Burgers, source/scalar_conservation/flux_burgers.h:29-40;
    [delta] is set in source/scalar_conservation/flux.h:43-44. *)
Definition burgers (delta : R) : flux :=
  {| fl_value := fun u _ => 1 / 2 * u * u; fl_gradient := fun u _ => u; fl_delta := delta |}.

(** FluxLibrary::KPP, source/scalar_conservation/flux_kpp.h:29-60; simplified: a direction
    other than 0 and 1 throws, here it is 0 (only dim = 1, 2 are meant). *)
Definition kpp (delta : R) : flux :=
  {| fl_value := fun u k => match k with 0%nat => sin u | 1%nat => cos u | _ => 0 end;
     fl_gradient := fun u k => match k with 0%nat => cos u | 1%nat => - sin u | _ => 0 end;
     fl_delta := delta |}.

(** flux_function and flux_gradient_function,
    source/scalar_conservation/hyperbolic_system.h:552-594, one lane. *)
Definition sc_flux (F : flux) (u : R) : vec := fun k => fl_value F u k.
(** See the comment above, source/scalar_conservation/hyperbolic_system.h:552-594. *)
Definition sc_flux_gradient (F : flux) (u : R) : vec := fun k => fl_gradient F u k.

(** source/scalar_conservation/hyperbolic_system.h:653-667 *)
Definition square_entropy (u : R) : R := 1 / 2 * u * u.
(** See the comment above, source/scalar_conservation/hyperbolic_system.h:653-667. *)
Definition square_entropy_derivative (u : R) : R := u.

(** source/scalar_conservation/hyperbolic_system.h:670-687 *)
Definition kruzkov_entropy (k u : R) : R := Rabs (k - u).
(** See the comment above, source/scalar_conservation/hyperbolic_system.h:670-687. *)
Definition kruzkov_entropy_derivative (k u : R) : R := if Rge_dec u k then 1 else -1.

(** The precomputed values of one node, source/scalar_conservation/hyperbolic_system.h:627-640:
    the first [dim] entries are the flux, the following the gradient. *)
Definition sc_precomputed (F : flux) (dim : nat) (u : R) : vec :=
  fun k => if Nat.ltb k dim then sc_flux F u k else sc_flux_gradient F u (k - dim)%nat.

(** source/scalar_conservation/hyperbolic_system.h:733-784 for dim = 1, 2, 3 *)
Definition construct_flux_tensor (dim : nat) (prec : vec) : vec := fun k => prec k.
(** See the comment above, source/scalar_conservation/hyperbolic_system.h:733-784. *)
Definition construct_flux_gradient_tensor (dim : nat) (prec : vec) : vec := fun k => prec (dim + k)%nat.

(** ** RiemannSolver *)

(** The helper enforce_entropy, source/scalar_conservation/riemann_solver.template.h:134-173. *)
Definition enforce_entropy (F : flux) (dim : nat) (n_ij : vec) (h2 u_i u_j f_i f_j lambda_max k : R) : R :=
  let f_k := dot dim (sc_flux F k) n_ij in
  let eta_i := kruzkov_entropy k u_i in
  let q_i := kruzkov_entropy_derivative k u_i * (f_i - f_k) in
  let eta_j := kruzkov_entropy k u_j in
  let q_j := kruzkov_entropy_derivative k u_j * (f_j - f_k) in
  let a := u_i + u_j - 2 * k in
  let b := f_j - f_i in
  let c := eta_i + eta_j in
  let d := q_j - q_i in
  let lambda_left := Rabs (d + b) / (Rabs (c + a) + h2) in
  let lambda_right := Rabs (d - b) / (Rabs (c - a) + h2) in
  Rmax (Rmax lambda_max lambda_left) lambda_right.

(** RiemannSolver::compute, source/scalar_conservation/riemann_solver.template.h:22-192;
    [greedy] and [averaged] are the parameters use_greedy_wavespeed and
    use_averaged_entropy, [draws] the random numbers in [0,1] drawn in line 183 (as many as
    the parameter random_entropies). *)
Definition sc_compute (F : flux) (greedy averaged : bool) (draws : list R) (dim : nat)
    (u_i u_j : R) (prec_i prec_j n_ij : vec) : R :=
  let f_i := dot dim (construct_flux_tensor dim prec_i) n_ij in
  let f_j := dot dim (construct_flux_tensor dim prec_j) n_ij in
  let df_i := dot dim (construct_flux_gradient_tensor dim prec_i) n_ij in
  let df_j := dot dim (construct_flux_gradient_tensor dim prec_j) n_ij in
  let h2 := 2 * fl_delta F in
  let lambda_max := Rabs (f_i - f_j) / Rmax (Rabs (u_i - u_j)) h2 in
  let lambda_max := if greedy then
      if Rge_dec (Rabs (u_i - u_j)) h2 then lambda_max else Rabs (1 / 2 * (df_i + df_j))
    else Rmax (Rmax lambda_max (Rabs df_i)) (Rabs df_j) in
  let lambda_max := if averaged then
      enforce_entropy F dim n_ij h2 u_i u_j f_i f_j lambda_max (1 / 2 * (u_i + u_j))
    else lambda_max in
  fold_left (fun lambda_max factor =>
    enforce_entropy F dim n_ij h2 u_i u_j f_i f_j lambda_max (factor * u_i + (1 - factor) * u_j))
    draws lambda_max.

(** The second compute() with the precomputed values of the two states,
    source/scalar_conservation/riemann_solver.template.h:195-215. *)
Definition sc_wavespeed (F : flux) (greedy averaged : bool) (draws : list R) (dim : nat)
    (u_i u_j : R) (n_ij : vec) : R :=
  sc_compute F greedy averaged draws dim u_i u_j (sc_precomputed F dim u_i) (sc_precomputed F dim u_j) n_ij.

(** ** Limiter *)

(** Bounds and fields, source/scalar_conservation/limiter.h:189-195. *)
Record sbounds := { u_min : R; u_max : R }.
(** See the comment above, source/scalar_conservation/limiter.h:189-195. *)
Record slimiter := {
  sl_u_i : R;
  sl_flux_i : vec;
  sl_bounds : sbounds;
  u_relaxation_numerator : R;
  u_relaxation_denominator : R
}.

(** reset, source/scalar_conservation/limiter.h:207-227; [big] is
    std::numeric_limits<ScalarNumber>::max(), lowest() is its negative. *)
Definition sc_reset (big u_i : R) (flux_i : vec) : slimiter :=
  {| sl_u_i := u_i; sl_flux_i := flux_i;
     sl_bounds := {| u_min := big; u_max := - big |};
     u_relaxation_numerator := 0; u_relaxation_denominator := 0 |}.

(** The bar state, source/scalar_conservation/limiter.h:246-251. *)
Definition sc_bar_state (dim : nat) (u_i u_j : R) (flux_i flux_j scaled_c_ij : vec) (affine_shift : R) : R :=
  1 / 2 * (u_i + u_j) - 1 / 2 * dot dim (vsub flux_j flux_i) scaled_c_ij + affine_shift.

(** accumulate, source/scalar_conservation/limiter.h:230-264 *)
Definition sc_accumulate (dim : nat) (l : slimiter) (u_j : R) (flux_j scaled_c_ij : vec) (affine_shift : R) : slimiter :=
  let u_ij_bar := sc_bar_state dim (sl_u_i l) u_j (sl_flux_i l) flux_j scaled_c_ij affine_shift in
  let beta_ij := 1 in
  {| sl_u_i := sl_u_i l; sl_flux_i := sl_flux_i l;
     sl_bounds := {| u_min := Rmin (u_min (sl_bounds l)) u_ij_bar;
                     u_max := Rmax (u_max (sl_bounds l)) u_ij_bar |};
     u_relaxation_numerator := u_relaxation_numerator l + beta_ij * (sl_u_i l + u_j);
     u_relaxation_denominator := u_relaxation_denominator l + Rabs beta_ij |}.

(** bounds, source/scalar_conservation/limiter.h:267-297 *)
Definition sc_get_bounds (eps factor : R) (dim : nat) (l : slimiter) (hd_i : R) : sbounds :=
  let b := sl_bounds l in
  let r_i := relaxation_radius dim hd_i * factor in
  let u_relaxation := Rabs (u_relaxation_numerator l) / (Rabs (u_relaxation_denominator l) + eps) in
  {| u_min := Rmax (Rmin ((1 - r_i) * u_min b) ((1 + r_i) * u_min b)) (u_min b - 2 * u_relaxation);
     u_max := Rmin (Rmax ((1 + r_i) * u_max b) ((1 - r_i) * u_max b)) (u_max b + 2 * u_relaxation) |}.

(** combine_bounds, source/scalar_conservation/limiter.h:300-309 *)
Definition sc_combine_bounds (l r : sbounds) : sbounds :=
  {| u_min := Rmin (u_min l) (u_min r); u_max := Rmax (u_max l) (u_max r) |}.

(** The arguments of limit() of one lane,
    source/scalar_conservation/limiter.template.h:16-20. *)
Record slane := { sl_b : sbounds; sl_U : R; sl_P : R; sl_tmin : R; sl_tmax : R }.

(** source/scalar_conservation/limiter.template.h:27-28,42-46 for one lane *)
Definition sc_test (eps : R) (L : slane) : bool :=
  let relax := 1 + 10000 * eps in
  let u_U := sl_U L in
  let test_max := Rmax 0 (Rmin (u_U - relax * u_max (sl_b L)) (relax * u_U - u_max (sl_b L))) in
  let test_min := Rmax 0 (Rmin (u_min (sl_b L) - relax * u_U) (relax * u_min (sl_b L) - u_U)) in
  (if Req_EM_T test_max 0 then true else false) && (if Req_EM_T test_min 0 then true else false).

(** source/scalar_conservation/limiter.template.h:25,60-99 for one lane; [tiny] is
    std::numeric_limits<ScalarNumber>::min() *)
Definition sc_limit1 (eps tiny : R) (L : slane) : R :=
  let u_U := sl_U L in
  let u_P := sl_P L in
  let regularization := 100 * tiny in
  let denominator := 1 / Rmax regularization (Rabs u_P + eps * u_max (sl_b L)) in
  let t_r := sl_tmax L in
  let t_r := mask_lt (u_max (sl_b L)) (u_U + t_r * u_P) ((u_max (sl_b L) - u_U) * denominator) t_r in
  let t_r := mask_lt (u_U + t_r * u_P) (u_min (sl_b L)) ((u_U - u_min (sl_b L)) * denominator) t_r in
  let t_r := Rmin t_r (sl_tmax L) in
  Rmax t_r (sl_tmin L).

(** limit, source/scalar_conservation/limiter.template.h:14-127 (EXPENSIVE_BOUNDS_CHECK off):
    one coefficient per lane and the common flag *)
Definition sc_limit (eps tiny : R) (lanes : list slane) : list R * bool :=
  (map (sc_limit1 eps tiny) lanes, forallb (sc_test eps) lanes).
