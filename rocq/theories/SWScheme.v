(** * Steps 2 to 7 of HyperbolicModule::step for the shallow water equations

    The functions of source/shallow_water/ collected in the interface of
    Scheme.v.  A component of a state is a natural number; the components
    0, ..., dim are meaningful.  [initial_precomputed_] (the bathymetry) is a
    parameter [Z]. *)
From Coq Require Import Reals List Bool Arith.
From Verif Require Import RVec Newton SWSystem SWRiemann SWLimiter Indicator Scheme.
Import ListNotations.
Local Open Scope R_scope.

(** Coordinates of a Tensor<1, dim, Number> given as a list,
    source/shallow_water/hyperbolic_system.h:1115-1119 (argument c_ij). *)
Definition vec_of (c : cvec) : vec := fun x => nth x c 0.

(** Run time parameters: source/shallow_water/hyperbolic_system.h:70-76
    ([wp_system]), source/shallow_water/limiter.h:21-79 (Newton tolerance,
    options, relaxation factor), source/shallow_water/indicator.h:22-40
    (evc_factor); machine constants epsilon, min and max. *)
Record wparameters := {
  wp_system : shallow;
  wp_eps : R; wp_tiny : R; wp_big : R;
  wp_tol : R; wp_on_kin : bool; wp_on_v2 : bool; wp_relaxation : R;
  wp_evc : R }.

(** Limiter::limit for a single lane with the default arguments t_min = 0,
    t_max = 1, source/shallow_water/limiter.h:192-196.  (In a SIMD loop the
    lanes share the early returns; see C28, C29 for the lanes.) *)
Definition sw_limit (p : wparameters) (dim : nat) (b : wbounds) (U P : vec) : R * bool :=
  let r := w_limit (wp_system p) (wp_eps p) (wp_tiny p) (wp_tol p) (wp_on_kin p) (wp_on_v2 p) dim
             [{| wl_b := b; wl_U := U; wl_P := P; wl_tmin := 0; wl_tmax := 1 |}] in
  (hd 0 (fst r), snd r).

(** source/shallow_water/hyperbolic_system.h (flux_contribution 1089-1112,
    nodal_source 1221-1248, have_high_order_flux 529,
    have_source_terms 558),
    source/shallow_water/riemann_solver.template.h:240-251,
    source/shallow_water/indicator.h:155-222,
    source/shallow_water/limiter.h:247-397.  The precomputed values of a row are
    (eta_m, h_star).  An undefined indicator (impossible for a positive [wp_tiny])
    is 0.  limiter_accumulate is not used for shallow water
    (source/hyperbolic_module.template.h:773-795). *)
Definition sw_scheme (p : wparameters) (dim : nat) (Z : nat -> R) : system nat :=
  let s := wp_system p in
  let eps := wp_eps p in {|
  PC := nat -> R * R; FC := wflux; IS := windicator; LS := wlimiter; BD := wbounds;
  flux_contribution := fun _ i U => (U, Z i);
  flux_divergence := fun a b c => w_flux_divergence s eps dim a b (vec_of c);
  have_high_order_flux := true;
  high_order_flux_divergence := fun a b c => w_high_order_flux_divergence s eps dim a b (vec_of c);
  have_source_terms := true;
  nodal_source := fun pc i U tau => manning_friction s eps dim U (snd (pc i)) tau;
  shallow_water := true;
  equilibrated_states := SWSystem.equilibrated_states s eps;
  affine_shift := fun a b c d => SWSystem.affine_shift s eps dim a b (vec_of c) d;
  riemann_compute := fun _ u v _ _ n => sw_wavespeed s eps dim u v (vec_of n);
  indicator_reset := fun pc i U => w_reset_indicator s eps dim U (fst (pc i));
  indicator_accumulate := fun pc l j U c =>
    w_accumulate_indicator s eps dim l {| ie_U := U; ie_eta := fst (pc j); ie_c := vec_of c |};
  indicator_alpha := fun l hd_i =>
    match w_alpha (wp_tiny p) (wp_evc p) dim l hd_i with Some a => a | None => 0 end;
  limiter_reset := fun _ _ U _ => w_reset (wp_big p) U;
  limiter_accumulate := fun _ l _ _ _ _ _ => l;
  limiter_accumulate_sw := fun l U_j U_star_ij U_star_ji c shift =>
    w_accumulate s eps dim l U_j U_star_ij U_star_ji (vec_of c) shift;
  limiter_bounds := fun l hd_i => w_get_bounds s eps (wp_relaxation p) dim l hd_i;
  limiter_limit := sw_limit p dim;
  combine_bounds := w_combine_bounds |}.
