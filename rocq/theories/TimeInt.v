(** * Time integration: TimeIntegrator::step and the thirteen schemes

    State vectors are of an abstract type; the parts of the hyperbolic and
    parabolic modules that matter here (step size selection, violation
    strategy, counters, exceptions) are modelled, the numerical update itself
    is a parameter.  Numbers are real numbers.  Temporary vectors temp_[k] are
    let-bound values (their previous content is overwritten by every step). *)
From Coq Require Import Reals List.
Import ListNotations.
Local Open Scope R_scope.

(** Result of a function that may throw Restart (source/hyperbolic_module.h:59-61)
    or any other (uncaught) exception, e.g. of AssertThrow. *)
Inductive outcome (A : Type) : Type :=
| Ok (a : A)
| Restart
| Fail.
Arguments Ok {A}. Arguments Restart {A}. Arguments Fail {A}.

(** IDViolationStrategy, source/hyperbolic_module.h:37-50. *)
Inductive strategy := warn | raise_exception.

(** CFLRecoveryStrategy, source/time_integrator.h:25-39. *)
Inductive recovery := recovery_none | bang_bang_control.

(** TimeSteppingScheme, source/time_integrator.h:47-206. *)
Inductive scheme :=
| ssprk_22 | ssprk_33 | erk_11 | erk_22 | erk_33 | erk_43 | erk_54
| strang_ssprk_33_cn | strang_erk_33_cn | strang_erk_43_cn
| imex_11 | imex_22 | imex_33.

Section TimeIntegrator.
Variable SV : Type.

(** HyperbolicModule::prepare_state_vector,
    source/hyperbolic_module.template.h:96-186: in-place update (boundary
    values, ghost values, precomputed values) for time t. *)
Variable prepare_state_vector : R -> SV -> SV.

(** The step sizes [cfl * m_i / (-2 d_ii)] of all rows on all ranks,
    source/hyperbolic_module.template.h:551-553. *)
Variable row_tau : R -> SV -> list R.

(** Steps 4-7 of HyperbolicModule::step for a given tau: the new state and
    the value of restart_needed after the reduction over all ranks.
    source/hyperbolic_module.template.h:597-1196. *)
Variable hyperbolic_update : SV -> list (SV * R) -> R -> SV * bool.

(** The update of ParabolicSolver::backward_euler_step and its restart flag,
    source/navier_stokes/parabolic_solver.template.h:212-836.  [None]: the linear solver
    without multigrid throws NoConvergence (lines 493-, 741-), which nothing catches. *)
Variable parabolic_update : SV -> R -> R -> option (SV * bool).

(** sadd, source/time_integrator.template.h:18-25. *)
Variable sadd : SV -> R -> R -> SV -> SV.

(** Mutable state: the state_vector argument, the public configuration
    id_violation_strategy_ / cfl of the modules and their counters.
    source/hyperbolic_module.h:278,311-315, source/parabolic_module.h:125,138-139. *)
Record mstate := {
  st_vector : SV;
  st_cfl : R;
  st_hyp : strategy;
  st_para : strategy;
  st_restarts : nat;
  st_warnings : nat;
  st_para_restarts : nat;
  st_para_warnings : nat }.

(** Computations that may throw, over the mutable state (no counterpart in
    /repo: C++ sequencing and exceptions).
    Used for source/time_integrator.template.h:206-800. *)
Definition M (A : Type) := mstate -> outcome A * mstate.
(** Return of a value; sequencing of source/time_integrator.template.h:206-800. *)
Definition ret {A} (a : A) : M A := fun s => (Ok a, s).
(** Two statements after each other; sequencing of source/time_integrator.template.h:206-800. *)
Definition bind {A B} (m : M A) (f : A -> M B) : M B :=
  fun s => match m s with
           | (Ok a, s') => f a s'
           | (Restart, s') => (Restart, s')
           | (Fail, s') => (Fail, s')
           end.
Notation "'do' x <- a ; b" := (bind a (fun x => b))
  (at level 200, x name, a at level 100, b at level 200).
Notation "'run' a ; b" := (bind a (fun _ => b))
  (at level 200, a at level 100, b at level 200).

(** Setters of the mutable state (no counterpart in /repo besides the
    assignments).  E.g. source/time_integrator.template.h:285-290. *)
Definition set_vector (v : SV) : M unit := fun s =>
  (Ok tt, {| st_vector := v; st_cfl := st_cfl s; st_hyp := st_hyp s; st_para := st_para s;
             st_restarts := st_restarts s; st_warnings := st_warnings s;
             st_para_restarts := st_para_restarts s; st_para_warnings := st_para_warnings s |}).
(** Access to state_vector or temp_[i], e.g. source/time_integrator.template.h:285-290. *)
Definition get_vector : M SV := fun s => (Ok (st_vector s), s).
(** Assignment of the strategies and the CFL number, source/time_integrator.template.h:245-270. *)
Definition configure (hs ps : strategy) (cfl : R) : M unit := fun s =>
  (Ok tt, {| st_vector := st_vector s; st_cfl := cfl; st_hyp := hs; st_para := ps;
             st_restarts := st_restarts s; st_warnings := st_warnings s;
             st_para_restarts := st_para_restarts s; st_para_warnings := st_para_warnings s |}).
(** The counters of the hyperbolic module, source/hyperbolic_module.h:311-315. *)
Definition count_hyp (restarts warnings : nat) (s : mstate) : mstate :=
  {| st_vector := st_vector s; st_cfl := st_cfl s; st_hyp := st_hyp s; st_para := st_para s;
     st_restarts := st_restarts s + restarts; st_warnings := st_warnings s + warnings;
     st_para_restarts := st_para_restarts s; st_para_warnings := st_para_warnings s |}.
(** The counters of the parabolic module, source/parabolic_module.h:138-139. *)
Definition count_para (restarts warnings : nat) (s : mstate) : mstate :=
  {| st_vector := st_vector s; st_cfl := st_cfl s; st_hyp := st_hyp s; st_para := st_para s;
     st_restarts := st_restarts s; st_warnings := st_warnings s;
     st_para_restarts := st_para_restarts s + restarts;
     st_para_warnings := st_para_warnings s + warnings |}.

(** Step size selection of HyperbolicModule::step,
    source/hyperbolic_module.template.h:557-578.  The concurrent minimum over
    the rows is C12; [tau_max = None] is the default argument
    numeric_limits::max() of source/hyperbolic_module.h:223: then there is no
    cap.  An empty set of rows without cap is an infinite tau_max, hence
    Fail (lines 573-576). *)
Definition select_tau (tau : R) (tau_max : option R) (rows : list R) : outcome R :=
  let computed := match tau_max, rows with
                  | Some m, _ => Some (fold_right Rmin m rows)
                  | None, r :: rs => Some (fold_right Rmin r rs)
                  | None, [] => None
                  end in
  match computed with
  | None => Fail
  | Some m => if Rlt_dec 0 m then Ok (if Req_EM_T tau 0 then m else tau) else Fail
  end.

(** HyperbolicModule::step as seen by the time integrator: step size,
    update, violation strategy.
    source/hyperbolic_module.template.h:234-1211 (tau: 557-578; verdict:
    1194-1210). *)
Definition hyperbolic_step (old : SV) (stages : list (SV * R)) (tau : R) (tau_max : option R)
  : M (SV * R) := fun s =>
  match select_tau tau tau_max (row_tau (st_cfl s) old) with
  | Ok tau' =>
      let '(new, restart_needed) := hyperbolic_update old stages tau' in
      if restart_needed then
        match st_hyp s with
        | warn => (Ok (new, tau'), count_hyp 0 1 s)
        | raise_exception => (Restart, count_hyp 1 0 s)
        end
      else (Ok (new, tau'), s)
  | Restart => (Restart, s)
  | Fail => (Fail, s)
  end.

(** ParabolicModule::step, source/parabolic_module.template.h:52-86: stages
    are not implemented (AssertThrow, lines 72-74).  Violation handling:
    source/navier_stokes/parabolic_solver.template.h:838-847.  (The counters
    are those of the parabolic solver.) *)
Definition parabolic_step (old : SV) (t : R) (stages : list (SV * R)) (tau : R) : M SV := fun s =>
  match stages with
  | _ :: _ => (Fail, s)
  | [] =>
      match parabolic_update old t tau with
      | None => (Fail, s)
      | Some (new, restart_needed) =>
          if restart_needed then
            match st_para s with
            | warn => (Ok new, count_para 0 1 s)
            | raise_exception => (Restart, count_para 1 0 s)
            end
          else (Ok new, s)
      end
  end.

(** prepare_state_vector(state_vector, t): in place.
    E.g. source/time_integrator.template.h:285. *)
Definition prepare_argument (t : R) : M SV :=
  do u <- get_vector ;
  run set_vector (prepare_state_vector t u) ;
  get_vector.

(** source/time_integrator.template.h:278-298. *)
Definition step_ssprk_22 (t tau_max : R) : M R :=
  do U <- prepare_argument t ;
  do r0 <- hyperbolic_step U [] 0 (Some tau_max) ;
  let tau := snd r0 in
  let T0 := prepare_state_vector (t + 1 * tau) (fst r0) in
  do r1 <- hyperbolic_step T0 [] tau None ;
  let T1 := sadd (fst r1) (1 / 2) (1 / 2) U in
  run set_vector T1 ;
  ret tau.

(** source/time_integrator.template.h:301-328. *)
Definition step_ssprk_33 (t tau_max : R) : M R :=
  do U <- prepare_argument t ;
  do r0 <- hyperbolic_step U [] 0 (Some tau_max) ;
  let tau := snd r0 in
  let T0 := prepare_state_vector (t + 1 * tau) (fst r0) in
  do r1 <- hyperbolic_step T0 [] tau None ;
  let T1 := sadd (fst r1) (1 / 4) (3 / 4) U in
  let T1 := prepare_state_vector (t + / 2 * tau) T1 in
  do r2 <- hyperbolic_step T1 [] tau None ;
  let T0 := sadd (fst r2) (2 / 3) (1 / 3) U in
  run set_vector T0 ;
  ret tau.

(** source/time_integrator.template.h:331-346. *)
Definition step_erk_11 (t tau_max : R) : M R :=
  do U <- prepare_argument t ;
  do r0 <- hyperbolic_step U [] 0 (Some tau_max) ;
  run set_vector (fst r0) ;
  ret (snd r0).

(** source/time_integrator.template.h:349-369. *)
Definition step_erk_22 (t tau_max : R) : M R :=
  do U <- prepare_argument t ;
  do r0 <- hyperbolic_step U [] 0 (Some (tau_max / 2)) ;
  let tau := snd r0 in
  let T0 := prepare_state_vector (t + 1 * tau) (fst r0) in
  do r1 <- hyperbolic_step T0 [(U, -1)] tau None ;
  run set_vector (fst r1) ;
  ret (2 * tau).

(** source/time_integrator.template.h:372-403. *)
Definition step_erk_33 (t tau_max : R) : M R :=
  do U <- prepare_argument t ;
  do r0 <- hyperbolic_step U [] 0 (Some (tau_max / 3)) ;
  let tau := snd r0 in
  let T0 := prepare_state_vector (t + 1 * tau) (fst r0) in
  do r1 <- hyperbolic_step T0 [(U, -1)] tau None ;
  let T1 := prepare_state_vector (t + 2 * tau) (fst r1) in
  do r2 <- hyperbolic_step T1 [(U, 3 / 4); (T0, -2)] tau None ;
  run set_vector (fst r2) ;
  ret (3 * tau).

(** source/time_integrator.template.h:406-442. *)
Definition step_erk_43 (t tau_max : R) : M R :=
  do U <- prepare_argument t ;
  do r0 <- hyperbolic_step U [] 0 (Some (tau_max / 4)) ;
  let tau := snd r0 in
  let T0 := prepare_state_vector (t + 1 * tau) (fst r0) in
  do r1 <- hyperbolic_step T0 [(U, -1)] tau None ;
  let T1 := prepare_state_vector (t + 2 * tau) (fst r1) in
  do r2 <- hyperbolic_step T1 [(T0, -1)] tau None ;
  let T2 := prepare_state_vector (t + 3 * tau) (fst r2) in
  do r3 <- hyperbolic_step T2 [(T0, 5 / 3); (T1, -10 / 3)] tau None ;
  run set_vector (fst r3) ;
  ret (4 * tau).

(** The constants of source/time_integrator.template.h:453-467. *)
Definition c54 : R := 2 / 10.
(** source/time_integrator.template.h:454. *)
Definition a_21 : R := 2 / 10.
(** source/time_integrator.template.h:455. *)
Definition a_31 : R := 26075582269554909 / 100000000000000000.
(** source/time_integrator.template.h:456. *)
Definition a_32 : R := 13924417730445096 / 100000000000000000.
(** source/time_integrator.template.h:457. *)
Definition a_41 : R := - (25856517872570289 / 100000000000000000).
(** source/time_integrator.template.h:458. *)
Definition a_42 : R := 91136274166280729 / 100000000000000000.
(** source/time_integrator.template.h:459. *)
Definition a_43 : R := - (5279756293710430 / 100000000000000000).
(** source/time_integrator.template.h:460. *)
Definition a_51 : R := 21623276431503774 / 100000000000000000.
(** source/time_integrator.template.h:461. *)
Definition a_52 : R := 51534223099602405 / 100000000000000000.
(** source/time_integrator.template.h:462. *)
Definition a_53 : R := - (81662794199265554 / 100000000000000000).
(** source/time_integrator.template.h:463. *)
Definition a_54 : R := 88505294668159373 / 100000000000000000.
(** source/time_integrator.template.h:464. *)
Definition a_61 : R := - (10511678454691901 / 100000000000000000).
(** source/time_integrator.template.h:465. *)
Definition a_62 : R := 87880047152100838 / 100000000000000000.
(** source/time_integrator.template.h:466. *)
Definition a_63 : R := - (58903404061484477 / 100000000000000000).
(** source/time_integrator.template.h:467. *)
Definition a_64 : R := 46213380485434047 / 100000000000000000.

(** source/time_integrator.template.h:445-512. *)
Definition step_erk_54 (t tau_max : R) : M R :=
  do U <- prepare_argument t ;
  do r0 <- hyperbolic_step U [] 0 (Some (tau_max / 5)) ;
  let tau := snd r0 in
  let T0 := prepare_state_vector (t + 1 * tau) (fst r0) in
  do r1 <- hyperbolic_step T0 [(U, (a_31 - a_21) / c54)] tau None ;
  let T1 := prepare_state_vector (t + 2 * tau) (fst r1) in
  do r2 <- hyperbolic_step T1 [(U, (a_41 - a_31) / c54); (T0, (a_42 - a_32) / c54)] tau None ;
  let T2 := prepare_state_vector (t + 3 * tau) (fst r2) in
  do r3 <- hyperbolic_step T2
       [(U, (a_51 - a_41) / c54); (T0, (a_52 - a_42) / c54); (T1, (a_53 - a_43) / c54)] tau None ;
  let T3 := prepare_state_vector (t + 4 * tau) (fst r3) in
  do r4 <- hyperbolic_step T3
       [(U, (a_61 - a_51) / c54); (T0, (a_62 - a_52) / c54);
        (T1, (a_63 - a_53) / c54); (T2, (a_64 - a_54) / c54)] tau None ;
  run set_vector (fst r4) ;
  ret (5 * tau).

(** source/time_integrator.template.h:515-560. *)
Definition step_strang_ssprk_33_cn (t tau_max : R) : M R :=
  do U <- prepare_argument t ;
  do r0 <- hyperbolic_step U [] 0 (Some (tau_max / 2)) ;
  let tau := snd r0 in
  let T0 := prepare_state_vector (t + 1 * tau) (fst r0) in
  do r1 <- hyperbolic_step T0 [] tau None ;
  let T1 := sadd (fst r1) (1 / 4) (3 / 4) U in
  let T1 := prepare_state_vector (t + / 2 * tau) T1 in
  do r2 <- hyperbolic_step T1 [] tau None ;
  let T0 := sadd (fst r2) (2 / 3) (1 / 3) U in
  do r3 <- parabolic_step T0 t [] tau ;
  let T2 := sadd r3 2 (-1) T0 in
  let T2 := prepare_state_vector (t + 1 * tau) T2 in
  do r4 <- hyperbolic_step T2 [] tau None ;
  let T0 := prepare_state_vector (t + 2 * tau) (fst r4) in
  do r5 <- hyperbolic_step T0 [] tau None ;
  let T1 := sadd (fst r5) (1 / 4) (3 / 4) T2 in
  let T1 := prepare_state_vector (t + 3 / 2 * tau) T1 in
  do r6 <- hyperbolic_step T1 [] tau None ;
  let T0 := sadd (fst r6) (2 / 3) (1 / 3) T2 in
  run set_vector T0 ;
  ret (2 * tau).

(** source/time_integrator.template.h:563-616. *)
Definition step_strang_erk_33_cn (t tau_max : R) : M R :=
  do U <- prepare_argument t ;
  do r0 <- hyperbolic_step U [] 0 (Some (tau_max / 6)) ;
  let tau := snd r0 in
  let T0 := prepare_state_vector (t + 1 * tau) (fst r0) in
  do r1 <- hyperbolic_step T0 [(U, -1)] tau None ;
  let T1 := prepare_state_vector (t + 2 * tau) (fst r1) in
  do r2 <- hyperbolic_step T1 [(U, 3 / 4); (T0, -2)] tau None ;
  let T2 := fst r2 in
  do r3 <- parabolic_step T2 t [] (3 * tau) ;
  let T3 := sadd r3 2 (-1) T2 in
  let T3 := prepare_state_vector (t + 3 * tau) T3 in
  do r4 <- hyperbolic_step T3 [] tau None ;
  let T0 := prepare_state_vector (t + 4 * tau) (fst r4) in
  do r5 <- hyperbolic_step T0 [(T3, -1)] tau None ;
  let T1 := prepare_state_vector (t + 5 * tau) (fst r5) in
  do r6 <- hyperbolic_step T1 [(T3, 3 / 4); (T0, -2)] tau None ;
  run set_vector (fst r6) ;
  ret (6 * tau).

(** source/time_integrator.template.h:619-680. *)
Definition step_strang_erk_43_cn (t tau_max : R) : M R :=
  do U <- prepare_argument t ;
  do r0 <- hyperbolic_step U [] 0 (Some (tau_max / 8)) ;
  let tau := snd r0 in
  let T0 := prepare_state_vector (t + 1 * tau) (fst r0) in
  do r1 <- hyperbolic_step T0 [(U, -1)] tau None ;
  let T1 := prepare_state_vector (t + 2 * tau) (fst r1) in
  do r2 <- hyperbolic_step T1 [(T0, -1)] tau None ;
  let T2 := prepare_state_vector (t + 3 * tau) (fst r2) in
  do r3 <- hyperbolic_step T2 [(T0, 5 / 3); (T1, -10 / 3)] tau None ;
  let T3 := fst r3 in
  do r4 <- parabolic_step T3 t [] (4 * tau) ;
  let T2 := sadd r4 2 (-1) T3 in
  let T2 := prepare_state_vector (t + 4 * tau) T2 in
  do r5 <- hyperbolic_step T2 [] tau None ;
  let T0 := prepare_state_vector (t + 5 * tau) (fst r5) in
  do r6 <- hyperbolic_step T0 [(T2, -1)] tau None ;
  let T1 := prepare_state_vector (t + 6 * tau) (fst r6) in
  do r7 <- hyperbolic_step T1 [(T0, -1)] tau None ;
  let T2 := prepare_state_vector (t + 7 * tau) (fst r7) in
  do r8 <- hyperbolic_step T2 [(T0, 5 / 3); (T1, -10 / 3)] tau None ;
  run set_vector (fst r8) ;
  ret (8 * tau).

(** source/time_integrator.template.h:682-701. *)
Definition step_imex_11 (t tau_max : R) : M R :=
  do U <- prepare_argument t ;
  do r0 <- hyperbolic_step U [] 0 (Some tau_max) ;
  let tau := snd r0 in
  do r1 <- parabolic_step (fst r0) t [] (1 * tau) ;
  run set_vector r1 ;
  ret tau.

(** source/time_integrator.template.h:703-734. *)
Definition step_imex_22 (t tau_max : R) : M R :=
  do U <- prepare_argument t ;
  do r0 <- hyperbolic_step U [] 0 (Some (tau_max / 2)) ;
  let tau := snd r0 in
  do r1 <- parabolic_step (fst r0) t [] tau ;
  let T1 := prepare_state_vector (t + 1 * tau) r1 in
  do r2 <- hyperbolic_step T1 [(U, -1)] tau None ;
  do r3 <- parabolic_step (fst r2) (t + 1 * tau) [(U, 1)] tau ;
  run set_vector r3 ;
  ret (2 * tau).

(** source/time_integrator.template.h:736-798. *)
Definition step_imex_33 (t tau_max : R) : M R :=
  let gamma := / 2 + / 2 * (1 / sqrt 3) in
  do U <- prepare_argument t ;
  do r0 <- hyperbolic_step U [] 0 (Some (tau_max / 3)) ;
  let tau := snd r0 in
  do r1 <- parabolic_step (fst r0) t [(U, 1 - 3 * gamma)] tau ;
  let T1 := prepare_state_vector (t + 1 * tau) r1 in
  do r2 <- hyperbolic_step T1 [(U, -1)] tau None ;
  do r3 <- parabolic_step (fst r2) (t + tau) [(U, 6 * gamma - 1); (T1, 2 - 9 * gamma)] tau ;
  let T3 := prepare_state_vector (t + 2 * tau) r3 in
  do r4 <- hyperbolic_step T3 [(U, 3 / 4); (T1, -2)] tau None ;
  do r5 <- parabolic_step (fst r4) (t + 2 * tau)
       [(U, 3 / 4 - 3 * gamma); (T1, 6 * gamma - 2); (T3, 9 / 4 - 3 * gamma)] tau ;
  run set_vector r5 ;
  ret (3 * tau).

(** single_step, source/time_integrator.template.h:217-248. *)
Definition single_step (sch : scheme) (t tau_max : R) : M R :=
  match sch with
  | ssprk_22 => step_ssprk_22 t tau_max
  | ssprk_33 => step_ssprk_33 t tau_max
  | erk_11 => step_erk_11 t tau_max
  | erk_22 => step_erk_22 t tau_max
  | erk_33 => step_erk_33 t tau_max
  | erk_43 => step_erk_43 t tau_max
  | erk_54 => step_erk_54 t tau_max
  | strang_ssprk_33_cn => step_strang_ssprk_33_cn t tau_max
  | strang_erk_33_cn => step_strang_erk_33_cn t tau_max
  | strang_erk_43_cn => step_strang_erk_43_cn t tau_max
  | imex_11 => step_imex_11 t tau_max
  | imex_22 => step_imex_22 t tau_max
  | imex_33 => step_imex_33 t tau_max
  end.

(** TimeIntegrator::step, source/time_integrator.template.h:206-275. *)
Definition step (sch : scheme) (rec : recovery) (cfl_min cfl_max t t_final : R) : M R := fun s =>
  let tau_max := t_final - t in
  let s0 := match rec with
            | bang_bang_control => snd (configure raise_exception raise_exception cfl_max s)
            | recovery_none => s
            end in
  match single_step sch t tau_max s0 with
  | (Restart, s1) =>
      match rec with
      | recovery_none => (Fail, s1)
      | bang_bang_control =>
          single_step sch t tau_max (snd (configure warn warn cfl_min s1))
      end
  | r => r
  end.

(** TimeIntegrator::prepare, source/time_integrator.template.h:74-203:
    parameter checks, and the canonical starting CFL value.  The first
    argument is ParabolicSystem::is_identity. *)
Definition prepare (parabolic_is_identity : bool) (sch : scheme) (cfl_min cfl_max : R) : M unit :=
  fun s =>
  if Rlt_dec 0 cfl_min then
    if Rle_dec cfl_min cfl_max then
      let s' := snd (configure (st_hyp s) (st_para s) cfl_max s) in
      match sch with
      | ssprk_22 | ssprk_33 | erk_11 | erk_22 | erk_33 | erk_43 | erk_54 =>
          if parabolic_is_identity then (Ok tt, s') else (Fail, s')
      | _ => if parabolic_is_identity then (Fail, s') else (Ok tt, s')
      end
    else (Fail, s)
  else (Fail, s).
End TimeIntegrator.

(** The efficiency_ values of source/time_integrator.template.h:83-136: the
    ratio between the returned step size and the step size of one stage. *)
Definition efficiency (sch : scheme) : R :=
  match sch with
  | ssprk_22 | ssprk_33 | erk_11 | imex_11 => 1
  | erk_22 | strang_ssprk_33_cn | imex_22 => 2
  | erk_33 | imex_33 => 3
  | erk_43 => 4
  | erk_54 => 5
  | strang_erk_33_cn => 6
  | strang_erk_43_cn => 8
  end.
