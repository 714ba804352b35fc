(** * C13 - C16, C60: time integration (property theorems) *)
From Coq Require Import Reals List Lra.
From Verif Require Import TimeInt TimeIntSpec TimeIntProofs TimeIntRK TimeIntInv.
Import ListNotations.
Local Open Scope R_scope.

(** Non-vacuity for all theorems below: the equation u' = u with one unknown,
    proposals {cfl, 2 cfl}, arbitrary violation flags, t = 0 and at most 6 time
    units: every scheme except imex 22 / imex 33 completes, e.g. erk 33 with a
    step of 3 * min(1, 2, 6/3) = 3. *)
Example C13_instance : forall sch flag pflag, sch <> imex_22 -> sch <> imex_33 ->
  exists h s', single_step (tvec unit) tprep ex_rows (rk_hyp ex_F ex_D flag)
    (be_para ex_B pflag) tsadd sch 0 6 ex_state = (Ok h, s').
Proof. exact ex_runs. Qed.

(** ** C13 *)

(** Whatever the underlying modules do: a returned step size is positive and
    does not exceed t_final - t. *)
Theorem C13_no_overshoot :
  forall SV prep rows hyp para sadd sch rec cfl_min cfl_max t t_final (s : mstate SV) tau s',
    step SV prep rows hyp para sadd sch rec cfl_min cfl_max t t_final s = (Ok tau, s') ->
    0 < tau /\ t + tau <= t_final.
Proof. exact step_tau. Qed.
Print Assumptions C13_no_overshoot.

(** The step size of one attempt is exactly the number of substeps times the
    minimum of the allotted time per substep and the sizes proposed by all
    rows of the (prepared) old state. *)
Theorem C13_step_size :
  forall SV prep rows hyp para sadd sch t tau_max (s : mstate SV) h s',
    single_step SV prep rows hyp para sadd sch t tau_max s = (Ok h, s') ->
    h = efficiency sch *
        fold_right Rmin (tau_max / efficiency sch) (rows (st_cfl _ s) (prep t (st_vector _ s))).
Proof. exact single_step_size. Qed.
Print Assumptions C13_step_size.

(** If all proposals are positive and the linear solvers of the parabolic part (if there is
    one) converge then, with bang-bang control, a step always completes, no matter which
    updates are flagged as violations. *)
Theorem C13_progress :
  forall SV prep rows hyp para sadd sch cfl_min cfl_max t t_final (s : mstate SV),
    (forall c u, Forall (fun r => 0 < r) (rows c u)) ->
    (forall c u, rows c u <> []) ->
    t < t_final -> sch <> imex_22 -> sch <> imex_33 ->
    (explicit_scheme sch = true \/ forall u t tau, para u t tau <> None) ->
    exists tau s',
      step SV prep rows hyp para sadd sch bang_bang_control cfl_min cfl_max t t_final s = (Ok tau, s').
Proof. exact step_progress. Qed.
Print Assumptions C13_progress.

(** imex 22 and imex 33 never complete a step (the parabolic module rejects
    stages). *)
Theorem C13_imex_22_33_never_complete :
  forall SV prep rows hyp para sadd sch t tau_max (s : mstate SV) h s',
    sch = imex_22 \/ sch = imex_33 ->
    single_step SV prep rows hyp para sadd sch t tau_max s <> (Ok h, s').
Proof. exact imex_never. Qed.
Print Assumptions C13_imex_22_33_never_complete.

(** ** C14 *)

(** The fluxes and sources F of u' = F + D follow the documented tableau with
    step size h (the returned step size), including the stage times; the
    high-order viscosity D is integrated with one forward Euler substep per
    stage. For D = 0 this is the documented Runge-Kutta method. *)
Theorem C14_erk_11 :
  forall I (F D : R -> R -> vec I -> vec I) rows flag para t tau_max s h s',
    single_step (tvec I) tprep rows (rk_hyp F D flag) para tsadd erk_11 t tau_max s = (Ok h, s') ->
    fst (st_vector _ s') =
    rk_substep (F (h / 1)) (D (h / 1)) doc_erk_11 t h (fst (st_vector _ s)).
Proof. exact @erk_11_rk. Qed.
Print Assumptions C14_erk_11.

Theorem C14_erk_22 :
  forall I (F D : R -> R -> vec I -> vec I) rows flag para t tau_max s h s',
    single_step (tvec I) tprep rows (rk_hyp F D flag) para tsadd erk_22 t tau_max s = (Ok h, s') ->
    fst (st_vector _ s') =
    rk_substep (F (h / 2)) (D (h / 2)) doc_erk_22 t h (fst (st_vector _ s)).
Proof. exact @erk_22_rk. Qed.
Print Assumptions C14_erk_22.

Theorem C14_erk_33 :
  forall I (F D : R -> R -> vec I -> vec I) rows flag para t tau_max s h s',
    single_step (tvec I) tprep rows (rk_hyp F D flag) para tsadd erk_33 t tau_max s = (Ok h, s') ->
    fst (st_vector _ s') =
    rk_substep (F (h / 3)) (D (h / 3)) doc_erk_33 t h (fst (st_vector _ s)).
Proof. exact @erk_33_rk. Qed.
Print Assumptions C14_erk_33.

Theorem C14_erk_43 :
  forall I (F D : R -> R -> vec I -> vec I) rows flag para t tau_max s h s',
    single_step (tvec I) tprep rows (rk_hyp F D flag) para tsadd erk_43 t tau_max s = (Ok h, s') ->
    fst (st_vector _ s') =
    rk_substep (F (h / 4)) (D (h / 4)) doc_erk_43 t h (fst (st_vector _ s)).
Proof. exact @erk_43_rk. Qed.
Print Assumptions C14_erk_43.

(** erk 54 realises a tableau that agrees with the tabulated constants up to
    1e-15, with exact row sums and order conditions up to order four satisfied
    up to 1e-15. *)
Theorem C14_erk_54 : exists tab,
  close_tableau (1 / 1000000000000000) tab doc_erk_54 /\
  order_up_to tab 4 (1 / 1000000000000000) /\
  forall I (F D : R -> R -> vec I -> vec I) rows flag para t tau_max s h s',
    single_step (tvec I) tprep rows (rk_hyp F D flag) para tsadd erk_54 t tau_max s = (Ok h, s') ->
    fst (st_vector _ s') = rk_substep (F (h / 5)) (D (h / 5)) tab t h (fst (st_vector _ s)).
Proof. exact erk_54_statement. Qed.
Print Assumptions C14_erk_54.

(** Order conditions of the documented tableaux. *)
Theorem C14_erk_11_order : order_up_to doc_erk_11 1 0.
Proof. exact erk_11_order. Qed.
Print Assumptions C14_erk_11_order.
Theorem C14_erk_22_order : order_up_to doc_erk_22 2 0.
Proof. exact erk_22_order. Qed.
Print Assumptions C14_erk_22_order.
Theorem C14_erk_33_order : order_up_to doc_erk_33 3 0.
Proof. exact erk_33_order. Qed.
Print Assumptions C14_erk_33_order.
Theorem C14_erk_43_order : order_up_to doc_erk_43 3 0.
Proof. exact erk_43_order. Qed.
Print Assumptions C14_erk_43_order.

(** Sanity check of the specification [rk_step] itself: for u' = z u and
    h = 1 the third-order method multiplies by the Taylor polynomial of exp. *)
Example C14_stability_polynomial : forall z u,
  rk_step (fun _ (v : vec unit) => vscal z v) doc_erk_33 0 1 u tt =
  (1 + z + z ^ 2 / 2 + z ^ 3 / 6) * u tt.
Proof. exact linear_stability_33. Qed.

(** ** C15 *)

(** ssprk 33 realises its documented tableau for the whole right hand side,
    ssprk 22 realises Heun's method (its reference), of order 3 and 2. *)
Theorem C15_ssprk_33 :
  forall I (F D : R -> R -> vec I -> vec I) rows flag para t tau_max s h s',
    single_step (tvec I) tprep rows (rk_hyp F D flag) para tsadd ssprk_33 t tau_max s = (Ok h, s') ->
    fst (st_vector _ s') =
    rk_step (fun t u => vadd (F h t u) (D h t u)) doc_ssprk_33 t h (fst (st_vector _ s)).
Proof. exact @ssprk_33_rk. Qed.
Print Assumptions C15_ssprk_33.

Theorem C15_ssprk_22 :
  forall I (F D : R -> R -> vec I -> vec I) rows flag para t tau_max s h s',
    single_step (tvec I) tprep rows (rk_hyp F D flag) para tsadd ssprk_22 t tau_max s = (Ok h, s') ->
    fst (st_vector _ s') =
    rk_step (fun t u => vadd (F h t u) (D h t u)) heun t h (fst (st_vector _ s)).
Proof. exact @ssprk_22_rk. Qed.
Print Assumptions C15_ssprk_22.

Theorem C15_ssprk_33_order : order_up_to doc_ssprk_33 3 0.
Proof. exact ssprk_33_order. Qed.
Print Assumptions C15_ssprk_33_order.
Theorem C15_ssprk_22_order : order_up_to heun 2 0.
Proof. exact heun_order. Qed.
Print Assumptions C15_ssprk_22_order.

(** The tableau documented for ssprk 22 in time_integrator.h is not the one
    that is implemented. *)
Theorem C15_ssprk_22_documented_tableau_refuted :
  exists s h s',
    single_step (tvec unit) tprep ex_rows (rk_hyp ex_F ex_D ex_flag)
      (be_para ex_B ex_pflag) tsadd ssprk_22 0 6 s = (Ok h, s') /\
    fst (st_vector _ s') <>
    rk_step (fun t u => vadd (ex_F h t u) (ex_D h t u)) doc_ssprk_22 0 h (fst (st_vector _ s)).
Proof. exact ssprk_22_doc_refuted. Qed.
Print Assumptions C15_ssprk_22_documented_tableau_refuted.

(** The hypotheses of the next three theorems are met by the interval [0, 1],
    preparation by clipping at 1, and a halving map. *)
Example C15_instance : convex ex_K /\ (forall t u, ex_K u -> ex_K (ex_clip t u)) /\
  (forall o st tau, ex_K (fst o) -> ex_K (fst (fst (ex_halve o st tau)))) /\
  ex_K (fst (st_vector _ ex_state)) /\
  forall sch, sch <> imex_22 -> sch <> imex_33 -> exists h s',
    single_step (tvec unit) (pprep ex_clip) ex_rows ex_halve (be_para ex_B ex_pflag) tsadd sch 0 6 ex_state
    = (Ok h, s').
Proof. exact ex_K_ok. Qed.

(** Every convex set that is kept by the preparation of state vectors and by
    forward Euler steps of the returned size is kept by the SSP schemes. *)
Theorem C15_convex_invariance :
  forall I (P : R -> vec I -> vec I) (K : vec I -> Prop),
    (forall t u, K u -> K (P t u)) ->
    forall rows hyp para sch t tau_max s h s',
      In sch [ssprk_22; ssprk_33; erk_11] ->
      convex K ->
      (forall o, K (fst o) -> K (fst (fst (hyp o [] h)))) ->
      single_step (tvec I) (pprep P) rows hyp para tsadd sch t tau_max s = (Ok h, s') ->
      K (fst (st_vector _ s)) -> K (fst (st_vector _ s')).
Proof. exact @ssp_inv. Qed.
Print Assumptions C15_convex_invariance.

(** The same when forward Euler steps are only known to keep the set if they
    are not flagged: a step that records no restart and no warning keeps it. *)
Theorem C15_convex_invariance_unflagged :
  forall I (P : R -> vec I -> vec I) (K : vec I -> Prop),
    (forall t u, K u -> K (P t u)) ->
    forall rows hyp para sch t tau_max s h s',
      In sch [ssprk_22; ssprk_33; erk_11] -> convex K ->
      (forall o tau n, K (fst o) -> hyp o [] tau = (n, false) -> K (fst n)) ->
      single_step (tvec I) (pprep P) rows hyp para tsadd sch t tau_max s = (Ok h, s') ->
      counters_eq s s' ->
      K (fst (st_vector _ s)) -> K (fst (st_vector _ s')).
Proof. exact @ssp_inv_unflagged. Qed.
Print Assumptions C15_convex_invariance_unflagged.

(** For the erk schemes every set (convex or not) kept by unflagged updates
    with stages is kept by unflagged steps. *)
Theorem C15_erk_invariance_unflagged :
  forall I (P : R -> vec I -> vec I) (K : vec I -> Prop),
    (forall t u, K u -> K (P t u)) ->
    forall rows hyp para sch t tau_max s h s',
      In sch [erk_11; erk_22; erk_33; erk_43; erk_54] ->
      (forall o st tau n, K (fst o) -> Forall (fun x => K (fst (fst x))) st ->
         hyp o st tau = (n, false) -> K (fst n)) ->
      single_step (tvec I) (pprep P) rows hyp para tsadd sch t tau_max s = (Ok h, s') ->
      counters_eq s s' ->
      K (fst (st_vector _ s)) -> K (fst (st_vector _ s')).
Proof. exact @erk_inv_unflagged. Qed.
Print Assumptions C15_erk_invariance_unflagged.

(** ** C16 *)

(** A run in which every update is flagged: one restart, then warnings. *)
Example C16_instance : exists h s',
  step (tvec unit) tprep ex_rows (ex_bad 5) (be_para ex_B ex_pflag) tsadd
    erk_11 bang_bang_control 1 2 0 6 ex_state = (Ok h, s') /\
  total_restarts s' = 1%nat /\ (0 < total_warnings s')%nat.
Proof. exact ex_restart. Qed.

(** The set up succeeds exactly if 0 < cfl_min <= cfl_max and the scheme fits the equation
    (explicit for equations without parabolic part); it starts with cfl_max. *)
Theorem C16_prepare :
  forall SV identity sch cfl_min cfl_max (s : mstate SV),
    (fst (prepare SV identity sch cfl_min cfl_max s) = Ok tt <->
     0 < cfl_min <= cfl_max /\ identity = explicit_scheme sch) /\
    (fst (prepare SV identity sch cfl_min cfl_max s) = Ok tt ->
     snd (prepare SV identity sch cfl_min cfl_max s) = configured (st_hyp _ s) (st_para _ s) cfl_max s).
Proof. exact C16_prepare_proof. Qed.
Print Assumptions C16_prepare.

Example C16_prepare_ex : fst (prepare (tvec unit) true erk_33 (45 / 100) (9 / 10) ex_state) = Ok tt.
Proof. apply C16_prepare. split; [lra|reflexivity]. Qed.

(** Restart never escapes from a step. *)
Theorem C16_restart_never_escapes :
  forall SV prep rows hyp para sadd sch rec cfl_min cfl_max t t_final (s : mstate SV),
    fst (step SV prep rows hyp para sadd sch rec cfl_min cfl_max t t_final s) <> Restart.
Proof. exact step_no_restart. Qed.
Print Assumptions C16_restart_never_escapes.

(** Bang-bang control. Either the first attempt, with cfl_max and with
    violations raising exceptions, decides the result, and no violation has
    been recorded; or it asked for a restart, which is recorded exactly once,
    with the state vector only prepared for time t, and the result is the one
    of a single second attempt with cfl_min and violations counted as
    warnings. *)
Theorem C16_bang_bang :
  forall SV prep rows hyp para sadd sch cfl_min cfl_max t t_final (s : mstate SV) o s',
    step SV prep rows hyp para sadd sch bang_bang_control cfl_min cfl_max t t_final s = (o, s') ->
    o <> Restart /\
    ((single_step SV prep rows hyp para sadd sch t (t_final - t)
        (configured raise_exception raise_exception cfl_max s) = (o, s') /\
      counters_eq s s' /\ st_cfl _ s' = cfl_max) \/
     (exists s1,
        single_step SV prep rows hyp para sadd sch t (t_final - t)
          (configured raise_exception raise_exception cfl_max s) = (Restart, s1) /\
        st_vector _ s1 = prep t (st_vector _ s) /\
        total_restarts s1 = S (total_restarts s) /\
        total_warnings s1 = total_warnings s /\
        single_step SV prep rows hyp para sadd sch t (t_final - t)
          (configured warn warn cfl_min s1) = (o, s') /\
        st_cfl _ s' = cfl_min /\ total_restarts s' = S (total_restarts s))).
Proof. exact step_bang_cases. Qed.
Print Assumptions C16_bang_bang.

(** If preparing a vector twice for the same time is the same as preparing it
    once, the second attempt is the attempt from the unchanged old vector. *)
Theorem C16_retry_from_old_state :
  forall SV prep rows hyp para sadd sch cfl_min cfl_max t t_final (s s1 : mstate SV) o s',
    (forall t u, prep t (prep t u) = prep t u) ->
    single_step SV prep rows hyp para sadd sch t (t_final - t)
      (configured raise_exception raise_exception cfl_max s) = (Restart, s1) ->
    step SV prep rows hyp para sadd sch bang_bang_control cfl_min cfl_max t t_final s = (o, s') ->
    single_step SV prep rows hyp para sadd sch t (t_final - t)
      {| st_vector := st_vector _ s; st_cfl := cfl_min; st_hyp := warn; st_para := warn;
         st_restarts := st_restarts _ s1; st_warnings := st_warnings _ s1;
         st_para_restarts := st_para_restarts _ s1; st_para_warnings := st_para_warnings _ s1 |}
      = (o, s').
Proof. exact retry_idempotent. Qed.
Print Assumptions C16_retry_from_old_state.

(** Without recovery (and the default violation strategy) there is one attempt
    with the configured CFL number. *)
Theorem C16_no_recovery :
  forall SV prep rows hyp para sadd sch cfl_min cfl_max t t_final (s : mstate SV) o s',
    st_hyp _ s = warn -> st_para _ s = warn ->
    step SV prep rows hyp para sadd sch recovery_none cfl_min cfl_max t t_final s = (o, s') ->
    single_step SV prep rows hyp para sadd sch t (t_final - t) s = (o, s') /\
    o <> Restart /\ same_config s s' /\ total_restarts s' = total_restarts s.
Proof. exact step_none_cases. Qed.
Print Assumptions C16_no_recovery.

(** Violations are never silently accepted: a completed step that recorded no
    restart and no warning does not depend on the result of any flagged
    update. *)
Theorem C16_no_silent_violation :
  forall SV prep rows hyp hyp2 para para2 sadd sch rec cfl_min cfl_max t t_final
         (s : mstate SV) tau s',
    (forall o st tau n, hyp o st tau = (n, false) -> hyp2 o st tau = (n, false)) ->
    (forall o t tau n, para o t tau = Some (n, false) -> para2 o t tau = Some (n, false)) ->
    step SV prep rows hyp para sadd sch rec cfl_min cfl_max t t_final s = (Ok tau, s') ->
    counters_eq s s' ->
    step SV prep rows hyp2 para2 sadd sch rec cfl_min cfl_max t t_final s = (Ok tau, s').
Proof. exact step_no_silent. Qed.
Print Assumptions C16_no_silent_violation.

(** ** C60: Strang splitting *)

(** A step of size h is: explicit scheme over [t, t + h/2], Crank-Nicolson over
    the full step h, explicit scheme over [t + h/2, t + h]. *)
Theorem C60_strang_ssprk_33_cn :
  forall I (F D B : R -> R -> vec I -> vec I) rows flag pflag t tau_max s h s',
    single_step (tvec I) tprep rows (rk_hyp F D flag) (be_para B pflag) tsadd
      strang_ssprk_33_cn t tau_max s = (Ok h, s') ->
    fst (st_vector _ s') =
    (let rk := rk_step (fun t u => vadd (F (h / 2) t u) (D (h / 2) t u)) doc_ssprk_33 in
     rk (t + h / 2) (h / 2) (crank_nicolson B (h / 2) t (rk t (h / 2) (fst (st_vector _ s))))).
Proof. exact @strang_ssprk_33_split. Qed.
Print Assumptions C60_strang_ssprk_33_cn.

Theorem C60_strang_erk_33_cn :
  forall I (F D B : R -> R -> vec I -> vec I) rows flag pflag t tau_max s h s',
    single_step (tvec I) tprep rows (rk_hyp F D flag) (be_para B pflag) tsadd
      strang_erk_33_cn t tau_max s = (Ok h, s') ->
    fst (st_vector _ s') =
    (let rk := rk_substep (F (h / 6)) (D (h / 6)) doc_erk_33 in
     rk (t + h / 2) (h / 2) (crank_nicolson B (h / 2) t (rk t (h / 2) (fst (st_vector _ s))))).
Proof. exact @strang_erk_33_split. Qed.
Print Assumptions C60_strang_erk_33_cn.

Theorem C60_strang_erk_43_cn :
  forall I (F D B : R -> R -> vec I -> vec I) rows flag pflag t tau_max s h s',
    single_step (tvec I) tprep rows (rk_hyp F D flag) (be_para B pflag) tsadd
      strang_erk_43_cn t tau_max s = (Ok h, s') ->
    fst (st_vector _ s') =
    (let rk := rk_substep (F (h / 8)) (D (h / 8)) doc_erk_43 in
     rk (t + h / 2) (h / 2) (crank_nicolson B (h / 2) t (rk t (h / 2) (fst (st_vector _ s))))).
Proof. exact @strang_erk_43_split. Qed.
Print Assumptions C60_strang_erk_43_cn.

(** imex 11: forward Euler followed by backward Euler with the same step. *)
Theorem C60_imex_11 :
  forall I (F D B : R -> R -> vec I -> vec I) rows flag pflag t tau_max s h s',
    single_step (tvec I) tprep rows (rk_hyp F D flag) (be_para B pflag) tsadd
      imex_11 t tau_max s = (Ok h, s') ->
    fst (st_vector _ s') = B h t (rk_substep (F h) (D h) doc_erk_11 t h (fst (st_vector _ s))).
Proof. exact @imex_11_split. Qed.
Print Assumptions C60_imex_11.

(** The extrapolated backward Euler step of size h/2 is a step of the implicit
    midpoint rule of size h. *)
Theorem C60_midpoint :
  forall I (L : vec I -> vec I) (B : R -> R -> vec I -> vec I) h t u,
    is_backward_euler_step L (h / 2) u (B (h / 2) t u) ->
    is_midpoint_step L h u (crank_nicolson B (h / 2) t u).
Proof. exact midpoint_of_backward_euler. Qed.
Print Assumptions C60_midpoint.
