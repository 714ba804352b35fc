(** * Notions for the scheme of scalar conservation equations *)
From Coq Require Import Reals List.
From Verif Require Import RVec EulerSystem Scalar ScalarSpec ScalarScheme SchemeSpec.
From Verif Require Import Scheme.
Local Open Scope R_scope.

(** The speed estimate is known to be large enough: either the default estimate
    is used and the flux is convex or concave in every direction, or the values
    of neighbours are equal or at least twice the approximation delta apart. *)
Definition well_estimated (p : sparameters) (dim : nat) (M : mesh) (U : nat -> state unit) : Prop :=
  (sp_greedy p = false /\ forall n u v, convex_between (sp_flux p) dim n u v) \/
  (0 < fl_delta (sp_flux p) /\
   forall i j, active M i -> In j (columns M i) ->
     U i tt = U j tt \/ 2 * fl_delta (sp_flux p) <= Rabs (U i tt - U j tt)).

(** The viscosity of a pair is zero or above hundred times the smallest
    positive number (the cut off in scaled_c_ij; about 1e-306). *)
Definition zero_or_fast (p : sparameters) (dim : nat) (M : mesh) (nm : R)
    (old : (nat -> state unit) * PC unit (scalar_scheme p dim)) (d0 : nat -> nat -> R) : Prop :=
  forall i j, active M i -> In j (neighbours M i) ->
    dij_matrix (scalar_scheme p dim) M nm old d0 i j = 0 \/
    100 * nm <= dij_matrix (scalar_scheme p dim) M nm old d0 i j.

(** The value is within the bounds. *)
Definition value_inside (b : sbounds) (u : state unit) : Prop := u_min b <= u tt <= u_max b.

(** All values of the unknowns are in [a, b]. *)
Definition values_in (M : mesh) (a b : R) (U : nat -> state unit) : Prop :=
  forall i, active M i -> a <= U i tt <= b.

(** What a simulation does to a state vector: boundary conditions with Dirichlet
    values from [D], and steps (stages of the Runge-Kutta schemes) whose size is
    not larger than the proposals, with fresh random numbers, any leftovers in
    the temporary vectors and at most two limiter passes. *)
Inductive scalar_run (p : sparameters) (dim : nat) (M : mesh) (nm cfl : R) (order : list nat) (D : R -> Prop)
    (start : nat -> state unit) : (nat -> state unit) -> Prop :=
| run_start : scalar_run p dim M nm cfl order D start start
| run_boundary U entries V :
    scalar_run p dim M nm cfl order D start U ->
    (forall i id data, In (i, id, data) entries -> id = dirichlet -> D data) ->
    sc_boundary_loop entries U = Some V ->
    scalar_run p dim M nm cfl order D start V
| run_step U draws n a0 d0 l0 ln0 new0 pc0 stages tau :
    let q := with_draws p draws in
    let old := (U, scalar_precomputed q dim M U pc0) in
    scalar_run p dim M nm cfl order D start U ->
    (n <= 2)%nat ->
    well_estimated q dim M U ->
    zero_or_fast q dim M nm old d0 ->
    0 <= tau -> (forall t, In t (row_tau (scalar_scheme q dim) M nm cfl old d0) -> tau <= t) ->
    scalar_run p dim M nm cfl order D start
      (fst (hyperbolic_update (scalar_scheme q dim) M nm order n a0 d0 l0 ln0 new0 old stages tau)).
