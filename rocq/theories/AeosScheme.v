(** * Steps 2 to 7 of HyperbolicModule::step for the Euler equations with an
    arbitrary equation of state

    The functions of source/euler_aeos/ collected in the interface of Scheme.v.  A
    component of a state is a natural number; the components 0, ..., dim + 1 are
    meaningful. *)
From Coq Require Import Reals List Bool Arith.
From Verif Require Import RVec Newton EulerSystem AeosSystem AeosRiemann AeosLimiter AeosPrecompute Indicator SWScheme Scheme.
Import ListNotations.
Local Open Scope R_scope.

(** Run time parameters: source/euler_aeos/hyperbolic_system.h:73-83 ([ap_system]),
    source/euler_aeos/limiter.h:20-62 (without the number of limiter passes),
    source/euler_aeos/indicator.h:21-40; machine constants epsilon and max. *)
Record aparameters := {
  ap_system : aeos;
  ap_eps : R; ap_big : R;
  ap_tol : R; ap_iterations : nat; ap_relaxation : R;
  ap_evc : R }.

(** Limiter::limit for a single lane with the arguments t_min = 0, t_max = 1,
    source/euler_aeos/limiter.template.h:15-361.  (In a SIMD loop the lanes share the early
    returns; see C63, C64 for the lanes.) *)
Definition aeos_limit (p : aparameters) (dim : nat) (b : abounds) (U P : vec) : R * bool :=
  let r := a_limit (ap_system p) (ap_eps p) (ap_tol p) (ap_iterations p) dim
             [{| al_b := b; al_U := U; al_P := P; al_tmin := 0; al_tmax := 1 |}] in
  (hd 0 (fst r), snd r).

(** source/euler_aeos/hyperbolic_system.h (flux_contribution 1393-1418,
    flux_divergence 1421-1429, have_high_order_flux 681, have_source_terms 694),
    source/euler_aeos/riemann_solver.template.h:656-674,
    source/euler_aeos/indicator.h:189-265, source/euler_aeos/limiter.h:261-445.  The fluxes
    and the wave speeds use the precomputed pressure of the row.  The indicator keeps the
    precomputed gamma_min of the row (source/euler_aeos/indicator.h:200) as first
    component.  An undefined indicator (0 / 0) is 0. *)
Definition aeos_scheme (p : aparameters) (dim : nat) : system nat :=
  let s := ap_system p in
  let e := a_eos s in {|
  PC := nat -> prec; FC := nat -> vec; IS := R * eindicator; LS := alimiter; BD := abounds;
  flux_contribution := fun pc i U => a_flux dim U (prec_p (pc i));
  flux_divergence := fun a b c => a_flux_divergence dim a b (vec_of c);
  have_high_order_flux := false;
  high_order_flux_divergence := fun _ _ _ => szero;
  have_source_terms := false;
  nodal_source := fun _ _ _ _ => szero;
  shallow_water := false;
  equilibrated_states := fun _ _ => (szero, szero);
  affine_shift := fun _ _ _ _ => szero;
  riemann_compute := fun pc u v i j n =>
    ar_wavespeed s dim u v (prec_p (pc i)) (prec_p (pc j)) (vec_of n);
  indicator_reset := fun pc i U =>
    (prec_gamma (pc i), a_reset_indicator e dim (prec_gamma (pc i)) U (prec_eta (pc i)));
  indicator_accumulate := fun pc l j U c =>
    (fst l, a_accumulate_indicator e dim (fst l) (snd l) {| ie_U := U; ie_eta := prec_eta (pc j); ie_c := vec_of c |});
  indicator_alpha := fun l hd_i =>
    match e_alpha (ap_evc p) dim (snd l) hd_i with Some a => a | None => 0 end;
  limiter_reset := fun pc i U f => al_reset (ap_big p) (prec_gamma (pc i)) U f;
  limiter_accumulate := fun pc l j U f c shift =>
    al_accumulate s dim l (prec_s (pc j)) U f (vec_of c) shift;
  limiter_accumulate_sw := fun l _ _ _ _ _ => l;
  limiter_bounds := fun l hd_i => al_get_bounds s (ap_eps p) (ap_relaxation p) dim l hd_i;
  limiter_limit := aeos_limit p dim;
  combine_bounds := a_combine_bounds |}.

(** The precomputed values of a state vector after both cycles of the precomputation loop,
    source/euler_aeos/hyperbolic_system.h:840-976 (all rows that are not constrained, other
    rows keep their values [pc0]).  Simplified: no loop in place and no halo exchange; that
    the loop computes these values is the subject of C43. *)
Definition aeos_first (p : aparameters) (dim : nat) (M : mesh) (U : nat -> state nat)
    (pc0 : nat -> prec) : nat -> prec :=
  fun i => if constrained M i then pc0 i
           else prec_of (a_eos (ap_system p)) dim (U i)
                  (eos_pressure (a_eos (ap_system p)) (a_density (U i)) (a_internal_energy dim (U i) / a_density (U i))).

(** Both cycles of the precomputation, source/euler_aeos/hyperbolic_system.h:860-975. *)
Definition aeos_precomputed (p : aparameters) (dim : nat) (M : mesh) (U : nat -> state nat)
    (pc0 : nat -> prec) : nat -> prec :=
  fun i => if constrained M i then pc0 i
           else cycle1_row (Scheme.columns M) (a_eos (ap_system p)) dim U (aeos_first p dim M U pc0) i.
