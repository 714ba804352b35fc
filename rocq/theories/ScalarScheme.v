(** * Steps 2 to 7 of HyperbolicModule::step for scalar conservation equations

    The functions of source/scalar_conservation/ collected in the interface of
    Scheme.v.  A state has one component. *)
From Coq Require Import Reals List Bool Arith.
From Verif Require Import RVec Newton EulerSystem EulerLimiter Scalar Indicator SWScheme Scheme.
Import ListNotations.
Local Open Scope R_scope.

(** Run time parameters: the flux, source/scalar_conservation/riemann_solver.h:20-60,
    source/scalar_conservation/limiter.h:18-42 (without the number of limiter
    passes), source/scalar_conservation/indicator.h:21-40; machine constants
    epsilon, min and max.  [sp_draws i j] are the random numbers drawn for the
    wave speed of row i and column j
    (source/scalar_conservation/riemann_solver.template.h:109-129,181-186);
    simplified: the call for the pair (j, i) in the boundary fix up of row i
    uses the numbers of row j and column i. *)
Record sparameters := {
  sp_flux : Scalar.flux;
  sp_greedy : bool; sp_averaged : bool; sp_draws : nat -> nat -> list R;
  sp_eps : R; sp_tiny : R; sp_big : R;
  sp_relaxation : R; sp_evc : R }.

(** Limiter::limit for a single lane with the default arguments t_min = 0,
    t_max = 1, source/scalar_conservation/limiter.h:157-161. *)
Definition scalar_limit (p : sparameters) (b : sbounds) (U P : state unit) : R * bool :=
  let r := sc_limit (sp_eps p) (sp_tiny p)
             [{| sl_b := b; sl_U := U tt; sl_P := P tt; sl_tmin := 0; sl_tmax := 1 |}] in
  (hd 0 (fst r), snd r).

(** source/scalar_conservation/hyperbolic_system.h (flux_contribution 787-818,
    flux_divergence 819-827, have_high_order_flux 424, have_source_terms 438),
    source/scalar_conservation/riemann_solver.template.h:195-215,
    source/scalar_conservation/indicator.h:151-208,
    source/scalar_conservation/limiter.h:207-309.  The precomputed values of a
    row are the fluxes and their derivatives.  An undefined indicator (0 / 0)
    is 0. *)
Definition scalar_scheme (p : sparameters) (dim : nat) : system unit := {|
  PC := nat -> vec; FC := vec; IS := sindicator; LS := slimiter; BD := sbounds;
  flux_contribution := fun pc i _ => construct_flux_tensor dim (pc i);
  flux_divergence := fun a b c _ => - dot dim (vadd a b) (vec_of c);
  have_high_order_flux := false;
  high_order_flux_divergence := fun _ _ _ => szero;
  have_source_terms := false;
  nodal_source := fun _ _ _ _ => szero;
  shallow_water := false;
  equilibrated_states := fun _ _ => (szero, szero);
  affine_shift := fun _ _ _ _ => szero;
  riemann_compute := fun pc u v i j n =>
    sc_compute (sp_flux p) (sp_greedy p) (sp_averaged p) (sp_draws p i j) dim
      (u tt) (v tt) (pc i) (pc j) (vec_of n);
  indicator_reset := fun pc i U => sc_reset_indicator dim (U tt) (pc i);
  indicator_accumulate := fun pc l j U c =>
    sc_accumulate_indicator dim l {| sie_u := U tt; sie_prec := pc j; sie_c := vec_of c |};
  indicator_alpha := fun l hd_i =>
    match sc_alpha (sp_tiny p) (sp_evc p) l hd_i with Some a => a | None => 0 end;
  limiter_reset := fun _ _ U f => sc_reset (sp_big p) (U tt) f;
  limiter_accumulate := fun _ l _ U f c shift => sc_accumulate dim l (U tt) f (vec_of c) (shift tt);
  limiter_accumulate_sw := fun l _ _ _ _ _ => l;
  limiter_bounds := fun l hd_i => sc_get_bounds (sp_eps p) (sp_relaxation p) dim l hd_i;
  limiter_limit := scalar_limit p;
  combine_bounds := sc_combine_bounds |}.

(** The precomputed values of a state vector after the precomputation loop,
    source/scalar_conservation/hyperbolic_system.h:597-641 (rows that are
    constrained keep their values [pc0]). *)
Definition scalar_precomputed (p : sparameters) (dim : nat) (M : mesh) (U : nat -> state unit)
    (pc0 : nat -> vec) : nat -> vec :=
  fun i => if constrained M i then pc0 i else sc_precomputed (sp_flux p) dim (U i tt).

(** apply_boundary_conditions, source/scalar_conservation/hyperbolic_system.h:690-730:
    [None] is the exception (and trap) of the unavailable kinds. *)
Definition sc_apply_boundary_conditions (id : boundary) (u data : R) : option R :=
  match id with
  | dirichlet => Some data
  | slip | no_slip | dynamic => None
  | _ => Some u
  end.

(** The loop over the entries of the boundary map in prepare_state_vector,
    source/hyperbolic_module.template.h:122-145: row, kind and Dirichlet data. *)
Fixpoint sc_boundary_loop (entries : list (nat * boundary * R)) (U : nat -> state unit) : option (nat -> state unit) :=
  match entries with
  | [] => Some U
  | (i, id, data) :: rest =>
      match sc_apply_boundary_conditions id (U i tt) data with
      | Some u => sc_boundary_loop rest (fun k => if (k =? i)%nat then (fun _ => u) else U k)
      | None => None
      end
  end.

(** The parameters with other random numbers.
    The random numbers of the Riemann solver, source/scalar_conservation/riemann_solver.template.h. *)
Definition with_draws (p : sparameters) (draws : nat -> nat -> list R) : sparameters :=
  {| sp_flux := sp_flux p; sp_greedy := sp_greedy p; sp_averaged := sp_averaged p; sp_draws := draws;
     sp_eps := sp_eps p; sp_tiny := sp_tiny p; sp_big := sp_big p; sp_relaxation := sp_relaxation p; sp_evc := sp_evc p |}.
