(** * Complete time steps for the Euler equations

    The time integrator of TimeInt.v with the modules of the Euler equations:
    prepare_state_vector, the step size proposals, the update of
    EulerScheme.v and sadd. *)
From Coq Require Import Reals List Arith.
From Verif Require Import RVec EulerSystem EulerScheme TimeInt.
From Verif Require Import Scheme.
Import ListNotations.
Local Open Scope R_scope.

(** What prepare_state_vector uses of an entry of boundary_map,
    source/hyperbolic_module.template.h:123-124: row, normal, boundary id, position. *)
Record bentry := { be_row : nat; be_normal : RVec.vec; be_id : boundary; be_position : RVec.vec }.

(** Previous contents of alpha_, dij_matrix_, lij_matrix_, lij_matrix_next_ and of the result
    vector (source/hyperbolic_module.h:318-331): any, they may depend on the old vector. *)
Record temporaries := {
  tmp_a : nat -> R; tmp_d : nat -> nat -> R; tmp_l : nat -> nat -> R; tmp_ln : nat -> nat -> R;
  tmp_new : nat -> state nat; tmp_pc : nat -> R * R }.

Section Run.
Variable p : eparameters.
Variable dim : nat.
Variable M : mesh.
Variable num_min : R.
(** boundary_map of all ranks *)
Variable entries : list bentry.
(** InitialValues::initial_state *)
Variable initial_state : RVec.vec -> R -> state nat.
(** order in which rows extend their bounds (discontinuous ansatz), limiter passes *)
Variable order : list nat.
Variable n_iterations : nat.
(** See the comment above, source/hyperbolic_module.h:318-331. *)
Definition euler_vector := ((nat -> state nat) * (nat -> R * R))%type.
Variable tmp : euler_vector -> temporaries.

(** The loop over the boundary map, source/hyperbolic_module.template.h:121-142
    (do_nothing entries are skipped: line 129-130). *)
Definition apply_boundary (t : R) (U : nat -> state nat) : nat -> state nat :=
  fold_left (fun U e =>
    match be_id e with
    | do_nothing => U
    | id => upd U (be_row e)
              (apply_boundary_conditions (ep_system p) dim id (U (be_row e)) (be_normal e)
                 (initial_state (be_position e) t))
    end) entries U.

(** prepare_state_vector, source/hyperbolic_module.template.h:96-190: boundary values and the
    single precomputation cycle of source/euler/hyperbolic_system.h:702-738. *)
Definition euler_prepare (t : R) (v : euler_vector) : euler_vector :=
  let U := apply_boundary t (fst v) in (U, euler_precomputed p dim M U (snd v)).

(** Step size proposals, source/hyperbolic_module.template.h:551-553. *)
Definition euler_rows (cfl : R) (v : euler_vector) : list R :=
  row_tau (euler_scheme p dim) M num_min cfl v (tmp_d (tmp v)).

(** Steps 2 to 7 of step(), source/hyperbolic_module.template.h:234-1211.  Precomputed values
    of the new vector are left as they were. *)
Definition euler_update (old : euler_vector) (stages : list (euler_vector * R)) (tau : R) : euler_vector * bool :=
  let T := tmp old in
  let r := hyperbolic_update (euler_scheme p dim) M num_min order n_iterations
             (tmp_a T) (tmp_d T) (tmp_l T) (tmp_ln T) (tmp_new T) old stages tau in
  ((fst r, tmp_pc T), snd r).

(** sadd, source/time_integrator.template.h:18-25. *)
Definition euler_sadd (dst : euler_vector) (s b : R) (src : euler_vector) : euler_vector :=
  (fun i => splus (smult s (fst dst i)) (smult b (fst src i)), snd dst).

(** The parabolic system of the Euler equations is the identity
    (source/euler/parabolic_system.h:34); the explicit schemes do not call it. *)
Definition no_parabolic (old : euler_vector) (t tau : R) : option (euler_vector * bool) := Some (old, false).

(** TimeIntegrator::step, source/time_integrator.template.h:206-275. *)
Definition euler_step (sch : scheme) (rec : recovery) (cfl_min cfl_max t t_final : R)
  : TimeInt.mstate euler_vector -> outcome R * TimeInt.mstate euler_vector :=
  TimeInt.step euler_vector euler_prepare euler_rows euler_update no_parabolic euler_sadd
    sch rec cfl_min cfl_max t t_final.
End Run.
