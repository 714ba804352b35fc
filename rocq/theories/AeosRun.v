(** * Complete time steps for the Euler equations with an arbitrary equation of state

    The time integrator of TimeInt.v with the modules of source/euler_aeos/:
    prepare_state_vector, the step size proposals, the update of AeosScheme.v and sadd. *)
From Coq Require Import Reals List Arith.
From Verif Require Import RVec EulerSystem AeosSystem AeosPrecompute AeosScheme TimeInt EulerRun.
From Verif Require Import Scheme.
Import ListNotations.
Local Open Scope R_scope.

(** StateVector, source/state_vector.h:48-52: conserved and precomputed values of all rows (the
    parabolic vector is empty). *)
Definition aeos_vector := ((nat -> state nat) * (nat -> prec))%type.

(** Previous contents of alpha_, dij_matrix_, lij_matrix_, lij_matrix_next_ and of the result
    vector (source/hyperbolic_module.h:318-331): any, they may depend on the old vector. *)
Record aeos_temporaries := {
  at_a : nat -> R; at_d : nat -> nat -> R; at_l : nat -> nat -> R; at_ln : nat -> nat -> R;
  at_new : nat -> state nat; at_pc : nat -> prec }.

Section Run.
Variable p : aparameters.
Variable dim : nat.
Variable M : mesh.
Variable num_min : R.
(** boundary_map of all ranks *)
Variable entries : list bentry.
(** InitialValues::initial_state *)
Variable initial_state : RVec.vec -> R -> state nat.
(** order in which rows extend their bounds (discontinuous ansatz), limiter passes *)
Variable order : list nat.
Variable n_iterations : nat.
Variable tmp : aeos_vector -> aeos_temporaries.

(** The loop over the boundary map, source/hyperbolic_module.template.h:121-142
    (do_nothing entries are skipped: line 129-130).  Simplified: where
    apply_boundary_conditions traps (dynamic) the vector is left alone; the theorems exclude
    this kind. *)
Definition aeos_apply_boundary (t : R) (U : nat -> state nat) : nat -> state nat :=
  fold_left (fun U e =>
    match be_id e with
    | do_nothing => U
    | id => match a_apply_boundary_conditions dim id (U (be_row e)) (be_normal e) (initial_state (be_position e) t) with
            | Some u => upd U (be_row e) u
            | None => U
            end
    end) entries U.

(** prepare_state_vector, source/hyperbolic_module.template.h:96-190: boundary values and the
    two precomputation cycles of source/euler_aeos/hyperbolic_system.h:840-976. *)
Definition aeos_prepare (t : R) (v : aeos_vector) : aeos_vector :=
  let U := aeos_apply_boundary t (fst v) in (U, aeos_precomputed p dim M U (snd v)).

(** Step size proposals, source/hyperbolic_module.template.h:551-553. *)
Definition aeos_rows (cfl : R) (v : aeos_vector) : list R :=
  row_tau (aeos_scheme p dim) M num_min cfl v (at_d (tmp v)).

(** Steps 2 to 7 of step(), source/hyperbolic_module.template.h:234-1211.  Precomputed values
    of the new vector are left as they were. *)
Definition aeos_update (old : aeos_vector) (stages : list (aeos_vector * R)) (tau : R) : aeos_vector * bool :=
  let T := tmp old in
  let r := hyperbolic_update (aeos_scheme p dim) M num_min order n_iterations
             (at_a T) (at_d T) (at_l T) (at_ln T) (at_new T) old stages tau in
  ((fst r, at_pc T), snd r).

(** sadd, source/time_integrator.template.h:18-25. *)
Definition aeos_sadd (dst : aeos_vector) (s b : R) (src : aeos_vector) : aeos_vector :=
  (fun i => splus (smult s (fst dst i)) (smult b (fst src i)), snd dst).

(** The parabolic system is the identity (source/euler_aeos/parabolic_system.h:34); the
    explicit schemes do not call it. *)
Definition aeos_no_parabolic (old : aeos_vector) (t tau : R) : option (aeos_vector * bool) := Some (old, false).

(** TimeIntegrator::step, source/time_integrator.template.h:206-275. *)
Definition aeos_step (sch : scheme) (rec : recovery) (cfl_min cfl_max t t_final : R)
  : TimeInt.mstate aeos_vector -> outcome R * TimeInt.mstate aeos_vector :=
  TimeInt.step aeos_vector aeos_prepare aeos_rows aeos_update aeos_no_parabolic aeos_sadd
    sch rec cfl_min cfl_max t t_final.
End Run.
