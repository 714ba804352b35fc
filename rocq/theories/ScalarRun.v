(** * Complete time steps for scalar conservation equations

    The time integrator of TimeInt.v with the modules of the scalar conservation equations:
    prepare_state_vector, the step size proposals, the update of ScalarScheme.v and sadd. *)
From Coq Require Import Reals List Arith.
From Verif Require Import RVec EulerSystem Scalar ScalarScheme TimeInt EulerRun.
From Verif Require Import Scheme.
Import ListNotations.
Local Open Scope R_scope.

(** StateVector, source/state_vector.h:48-52: conserved and precomputed values of all rows (the
    parabolic vector is empty). *)
Definition sc_vector := ((nat -> state unit) * (nat -> RVec.vec))%type.

(** Previous contents of alpha_, dij_matrix_, lij_matrix_, lij_matrix_next_ and of the result
    vector (source/hyperbolic_module.h:318-331), and the random numbers of the Riemann solver
    (source/scalar_conservation/riemann_solver.template.h:109-129): any, they may depend on the
    old vector.  Simplified: a second step with the same old vector finds the same. *)
Record sc_temporaries := {
  sct_a : nat -> R; sct_d : nat -> nat -> R; sct_l : nat -> nat -> R; sct_ln : nat -> nat -> R;
  sct_new : nat -> state unit; sct_pc : nat -> RVec.vec; sct_draws : nat -> nat -> list R }.

Section Run.
Variable p : sparameters.
Variable dim : nat.
Variable M : mesh.
Variable num_min : R.
(** boundary_map of all ranks *)
Variable entries : list bentry.
(** InitialValues::initial_state *)
Variable initial_state : RVec.vec -> R -> R.
(** order in which rows extend their bounds (discontinuous ansatz), limiter passes *)
Variable order : list nat.
Variable n_iterations : nat.
Variable tmp : sc_vector -> sc_temporaries.

(** The loop over the boundary map, source/hyperbolic_module.template.h:121-142
    (do_nothing entries are skipped: line 129-130).  Simplified: where
    apply_boundary_conditions throws (C117) the vector is left alone; the theorems exclude these
    kinds. *)
Definition sc_apply_boundary (t : R) (U : nat -> state unit) : nat -> state unit :=
  fold_left (fun U e =>
    match be_id e with
    | do_nothing => U
    | id => match sc_apply_boundary_conditions id (U (be_row e) tt) (initial_state (be_position e) t) with
            | Some u => upd U (be_row e) (fun _ => u)
            | None => U
            end
    end) entries U.

(** prepare_state_vector, source/hyperbolic_module.template.h:96-190: boundary values and the
    single precomputation cycle of source/scalar_conservation/hyperbolic_system.h:597-641. *)
Definition sc_prepare (t : R) (v : sc_vector) : sc_vector :=
  let U := sc_apply_boundary t (fst v) in (U, scalar_precomputed p dim M U (snd v)).

(** Step size proposals, source/hyperbolic_module.template.h:551-553. *)
Definition sc_rows (cfl : R) (v : sc_vector) : list R :=
  row_tau (scalar_scheme (with_draws p (sct_draws (tmp v))) dim) M num_min cfl v (sct_d (tmp v)).

(** Steps 2 to 7 of step(), source/hyperbolic_module.template.h:234-1211.  Precomputed values
    of the new vector are left as they were. *)
Definition sc_update (old : sc_vector) (stages : list (sc_vector * R)) (tau : R) : sc_vector * bool :=
  let T := tmp old in
  let r := hyperbolic_update (scalar_scheme (with_draws p (sct_draws T)) dim) M num_min order n_iterations
             (sct_a T) (sct_d T) (sct_l T) (sct_ln T) (sct_new T) old stages tau in
  ((fst r, sct_pc T), snd r).

(** sadd, source/time_integrator.template.h:18-25. *)
Definition sc_sadd (dst : sc_vector) (s b : R) (src : sc_vector) : sc_vector :=
  (fun i => splus (smult s (fst dst i)) (smult b (fst src i)), snd dst).

(** The parabolic system of the scalar conservation equations is the identity
    (source/scalar_conservation/parabolic_system.h:33); the explicit schemes do not call it. *)
Definition sc_no_parabolic (old : sc_vector) (t tau : R) : option (sc_vector * bool) := Some (old, false).

(** TimeIntegrator::step, source/time_integrator.template.h:206-275. *)
Definition sc_step (sch : scheme) (rec : recovery) (cfl_min cfl_max t t_final : R)
  : TimeInt.mstate sc_vector -> outcome R * TimeInt.mstate sc_vector :=
  TimeInt.step sc_vector sc_prepare sc_rows sc_update sc_no_parabolic sc_sadd
    sch rec cfl_min cfl_max t t_final.
End Run.
