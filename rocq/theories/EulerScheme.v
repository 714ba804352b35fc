(** * Steps 2 to 7 of HyperbolicModule::step for the Euler equations

    The functions of source/euler/ collected in the interface of Scheme.v.  A
    component of a state is a natural number; the components 0, ..., dim + 1 are
    meaningful. *)
From Coq Require Import Reals List Bool Arith.
From Verif Require Import RVec Newton EulerSystem EulerRiemann EulerLimiter Indicator SWScheme Scheme.
Import ListNotations.
Local Open Scope R_scope.

(** Run time parameters: source/euler/hyperbolic_system.h:70-74 ([ep_system]),
    source/euler/riemann_solver.h:20-47, source/euler/limiter.h:20-62 (without
    the number of limiter passes), source/euler/indicator.h:21-40; machine
    constants epsilon and max. *)
Record eparameters := {
  ep_system : euler;
  ep_eps : R; ep_big : R;
  ep_riemann_tol : R; ep_riemann_iterations : nat;
  ep_tol : R; ep_iterations : nat; ep_relaxation : R;
  ep_evc : R }.

(** Limiter::limit for a single lane with the default arguments t_min = 0,
    t_max = 1, source/euler/limiter.h:207-213.  (In a SIMD loop the
    lanes share the early returns; see C25, C26 for the lanes.) *)
Definition euler_limit (p : eparameters) (dim : nat) (b : ebounds) (U P : vec) : R * bool :=
  let r := limit (ep_system p) (ep_eps p) (ep_tol p) (ep_iterations p) dim
             [{| l_bounds := b; l_U := U; l_P := P; l_tmin := 0; l_tmax := 1 |}] in
  (hd 0 (fst r), snd r).

(** source/euler/hyperbolic_system.h (precomputed values 732-735,
    flux_contribution 1184-1205, flux_divergence 1208-1216,
    have_high_order_flux 573, have_source_terms 587),
    source/euler/riemann_solver.template.h:585-597,
    source/euler/indicator.h:187-258, source/euler/limiter.h:255-377.  The
    precomputed values of a row are (specific_entropy, harten_entropy).  An
    undefined indicator (0 / 0) is 0. *)
Definition euler_scheme (p : eparameters) (dim : nat) : system nat :=
  let s := ep_system p in {|
  PC := nat -> R * R; FC := nat -> vec; IS := eindicator; LS := elimiter; BD := ebounds;
  flux_contribution := fun _ _ U => EulerSystem.flux s dim U;
  flux_divergence := fun a b c => EulerSystem.flux_divergence dim a b (vec_of c);
  have_high_order_flux := false;
  high_order_flux_divergence := fun _ _ _ => szero;
  have_source_terms := false;
  nodal_source := fun _ _ _ _ => szero;
  shallow_water := false;
  equilibrated_states := fun _ _ => (szero, szero);
  affine_shift := fun _ _ _ _ => szero;
  riemann_compute := fun _ u v _ _ n =>
    er_wavespeed s (ep_eps p) (ep_riemann_tol p) (ep_riemann_iterations p) dim u v (vec_of n);
  indicator_reset := fun pc i U => e_reset s dim U (snd (pc i));
  indicator_accumulate := fun pc l j U c =>
    e_accumulate s dim l {| ie_U := U; ie_eta := snd (pc j); ie_c := vec_of c |};
  indicator_alpha := fun l hd_i =>
    match e_alpha (ep_evc p) dim l hd_i with Some a => a | None => 0 end;
  limiter_reset := fun _ _ U _ => lim_reset (ep_big p) U;
  limiter_accumulate := fun pc l j U _ c shift =>
    lim_accumulate s dim l (fst (pc j)) U (vec_of c) shift;
  limiter_accumulate_sw := fun l _ _ _ _ _ => l;
  limiter_bounds := fun l hd_i => lim_get_bounds (ep_eps p) (ep_relaxation p) dim l hd_i;
  limiter_limit := euler_limit p dim;
  combine_bounds := EulerLimiter.combine_bounds |}.

(** The precomputed values of a state vector after the precomputation loop,
    source/euler/hyperbolic_system.h:702-738 (all rows that are not
    constrained, other rows keep their values [pc0]). *)
Definition euler_precomputed (p : eparameters) (dim : nat) (M : mesh) (U : nat -> state nat)
    (pc0 : nat -> R * R) : nat -> R * R :=
  fun i => if constrained M i then pc0 i
           else (specific_entropy (ep_system p) dim (U i), harten_entropy (ep_system p) dim (U i)).
