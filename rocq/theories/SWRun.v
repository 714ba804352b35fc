(** * Complete time steps for the shallow water equations

    The time integrator of TimeInt.v with the modules of the shallow water equations:
    prepare_state_vector, the step size proposals, the update of SWScheme.v and sadd. *)
From Coq Require Import Reals List Arith.
From Verif Require Import RVec EulerSystem SWSystem SWScheme TimeInt EulerRun.
From Verif Require Import Scheme.
Import ListNotations.
Local Open Scope R_scope.

(** StateVector, source/state_vector.h:48-52: conserved and precomputed values of all rows (the
    parabolic vector is empty). *)
Definition sw_vector := ((nat -> state nat) * (nat -> R * R))%type.

Section Run.
Variable p : wparameters.
Variable dim : nat.
(** bathymetry (initial_precomputed) *)
Variable Z : nat -> R.
Variable M : mesh.
Variable num_min : R.
(** boundary_map of all ranks *)
Variable entries : list bentry.
(** InitialValues::initial_state *)
Variable initial_state : RVec.vec -> R -> state nat.
(** order in which rows extend their bounds (discontinuous ansatz), limiter passes *)
Variable order : list nat.
Variable n_iterations : nat.
(** previous contents of the temporary vectors and matrices *)
Variable tmp : sw_vector -> temporaries.

(** The loop over the boundary map, source/hyperbolic_module.template.h:121-142
    (do_nothing entries are skipped: line 129-130). *)
Definition sw_apply_boundary (t : R) (U : nat -> state nat) : nat -> state nat :=
  fold_left (fun U e =>
    match be_id e with
    | do_nothing => U
    | id => upd U (be_row e)
              (w_apply_boundary_conditions (wp_system p) (wp_eps p) dim id (U (be_row e)) (be_normal e)
                 (initial_state (be_position e) t))
    end) entries U.

(** The precomputation loop, source/shallow_water/hyperbolic_system.h:676-716 (constrained rows
    keep their values). *)
Definition sw_precomputed (U : nat -> state nat) (pc0 : nat -> R * R) : nat -> R * R :=
  fun i => if constrained M i then pc0 i else w_precomputed (wp_system p) (wp_eps p) dim (U i).

(** prepare_state_vector, source/hyperbolic_module.template.h:96-190: boundary values and the
    single precomputation cycle (source/shallow_water/hyperbolic_system.h:301). *)
Definition sw_prepare (t : R) (v : sw_vector) : sw_vector :=
  let U := sw_apply_boundary t (fst v) in (U, sw_precomputed U (snd v)).

(** Step size proposals, source/hyperbolic_module.template.h:551-553. *)
Definition sw_rows (cfl : R) (v : sw_vector) : list R :=
  row_tau (sw_scheme p dim Z) M num_min cfl v (tmp_d (tmp v)).

(** Steps 2 to 7 of step(), source/hyperbolic_module.template.h:234-1211.  Precomputed values
    of the new vector are left as they were. *)
Definition sw_update (old : sw_vector) (stages : list (sw_vector * R)) (tau : R) : sw_vector * bool :=
  let T := tmp old in
  let r := hyperbolic_update (sw_scheme p dim Z) M num_min order n_iterations
             (tmp_a T) (tmp_d T) (tmp_l T) (tmp_ln T) (tmp_new T) old stages tau in
  ((fst r, tmp_pc T), snd r).

(** sadd, source/time_integrator.template.h:18-25. *)
Definition sw_sadd (dst : sw_vector) (s b : R) (src : sw_vector) : sw_vector :=
  (fun i => splus (smult s (fst dst i)) (smult b (fst src i)), snd dst).

(** The parabolic system of the shallow water equations is the identity
    (source/shallow_water/parabolic_system.h:35); the explicit schemes do not call it. *)
Definition sw_no_parabolic (old : sw_vector) (t tau : R) : option (sw_vector * bool) := Some (old, false).

(** TimeIntegrator::step, source/time_integrator.template.h:206-275. *)
Definition sw_step (sch : scheme) (rec : recovery) (cfl_min cfl_max t t_final : R)
  : TimeInt.mstate sw_vector -> outcome R * TimeInt.mstate sw_vector :=
  TimeInt.step sw_vector sw_prepare sw_rows sw_update sw_no_parabolic sw_sadd
    sch rec cfl_min cfl_max t t_final.
End Run.
