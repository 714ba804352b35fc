(** * Small step models of the concurrent pieces

    Interleaving (sequentially consistent) semantics: every atomic or mutex
    operation is one step, any thread may take the next step.  Weaker memory
    orders are not modelled (acquire/release of source/lazy.h:125,145 are
    treated as sequentially consistent). *)
From Coq Require Import List Arith ZArith Lia Bool.
From Verif Require Import Vec.
Import ListNotations.

(** Reachability for a step relation; not part of /repo.
    Used for the loops of source/openmp.h and source/lazy.h. *)
Inductive star {S : Type} (step : S -> S -> Prop) : S -> S -> Prop :=
| star_refl s : star step s s
| star_step s1 s2 s3 : star step s1 s2 -> step s2 s3 -> star step s1 s3.

(** The same with the number of steps.  Not part of /repo; used for source/lazy.h:122-148. *)
Inductive starn {S : Type} (step : S -> S -> Prop) : nat -> S -> S -> Prop :=
| starn_refl s : starn step 0 s s
| starn_step n s1 s2 s3 :
    starn step n s1 s2 -> step s2 s3 -> starn step (Datatypes.S n) s1 s3.

(** ** Compare-exchange minimum *)

(** Program counter of one thread in
    source/hyperbolic_module.template.h:557-560; [CLoop c] means
    current_tau_max = c and the loop condition is about to be evaluated. *)
Inductive cas_pc := CLoad | CLoop (current : Z) | CDone.

(** Shared tau_max and, per thread, its pc and its local_tau_max.
    source/hyperbolic_module.template.h:243 (tau_max), 454 (local_tau_max).
    Numbers are modelled by Z: only comparisons and copies occur. *)
Record cas_state := { cas_tau : Z; cas_threads : list (cas_pc * Z) }.

(** One step, source/hyperbolic_module.template.h:557-560.  The code uses
    compare_exchange_weak, [weak = true], which may fail spuriously;
    [weak = false] excludes spurious failures. *)
Inductive cas_step (weak : bool) : cas_state -> cas_state -> Prop :=
| cas_load tau ts ts' k v :                       (* line 557 *)
    vget ts k = Some (CLoad, v) ->
    vset ts k (CLoop tau, v) = Some ts' ->
    cas_step weak {| cas_tau := tau; cas_threads := ts |}
             {| cas_tau := tau; cas_threads := ts' |}
| cas_exit tau ts ts' k c v :                     (* line 558, false *)
    vget ts k = Some (CLoop c, v) -> (c <= v)%Z ->
    vset ts k (CDone, v) = Some ts' ->
    cas_step weak {| cas_tau := tau; cas_threads := ts |}
             {| cas_tau := tau; cas_threads := ts' |}
| cas_success tau ts ts' k c v :                  (* line 559, exchanged *)
    vget ts k = Some (CLoop c, v) -> (c > v)%Z -> tau = c ->
    vset ts k (CDone, v) = Some ts' ->
    cas_step weak {| cas_tau := tau; cas_threads := ts |}
             {| cas_tau := v; cas_threads := ts' |}
| cas_fail tau ts ts' k c v :                     (* line 559, failed, also
                                                     spuriously if tau = c *)
    vget ts k = Some (CLoop c, v) -> (c > v)%Z -> weak = true \/ tau <> c ->
    vset ts k (CLoop tau, v) = Some ts' ->
    cas_step weak {| cas_tau := tau; cas_threads := ts |}
             {| cas_tau := tau; cas_threads := ts' |}.

(** Initial state: all threads about to execute line 557. *)
Definition cas_init (tau0 : Z) (locals : list Z) : cas_state :=
  {| cas_tau := tau0; cas_threads := map (fun v => (CLoad, v)) locals |}.

(** All threads have left the loop, source/hyperbolic_module.template.h:557. *)
Definition cas_final (s : cas_state) : Prop :=
  forall t, In t (cas_threads s) -> fst t = CDone.

(** The thread local loop, source/hyperbolic_module.template.h:454, 553:
    minimum over the rows of this thread, starting at numeric_limits::max(). *)
Definition local_tau_max (top : Z) (row_taus : list Z) : Z :=
  fold_left Z.min row_taus top.

(** ** Lazy initialization *)

(** Program counter of one thread executing ensure_initialized,
    source/lazy.h:122-148.  [LIdle n]: n calls still to be made. *)
Inductive lazy_pc :=
| LIdle                 (* not inside a call *)
| LLock                 (* line 125 evaluated to "not initialized": lock *)
| LCheck                (* holds the mutex, line 140 *)
| LCreate               (* line 142: run creator *)
| LFlip                 (* line 145: set flag *)
| LUnlock               (* end of scope: release mutex *)
| LThrow.               (* creator threw: release mutex, propagate *)

(** A thread: pc, remaining calls, number of normal returns so far.
    source/lazy.h:122-148. *)
Record lazy_thread := { lt_pc : lazy_pc; lt_todo : nat; lt_returned : nat }.

(** Shared state, source/lazy.h:53-55: object, object_is_initialized,
    initialization_mutex (holder); [lz_runs] counts evaluations of creator()
    that produced a value; [lz_next] is the value the next evaluation of the
    creator yields (any). *)
Record lazy_state := {
  lz_object : option nat;
  lz_flag : bool;
  lz_mutex : option nat;
  lz_runs : nat;
  lz_threads : list lazy_thread }.

(** One step of thread [k], source/lazy.h:122-148. *)
Inductive lazy_step : lazy_state -> lazy_state -> Prop :=
| lz_fast obj m r ts ts' (k : nat) (th : lazy_thread) n :             (* line 125: already initialized *)
    vget ts k = Some th -> lt_pc th = LIdle -> lt_todo th = S n ->
    vset ts k {| lt_pc := LIdle; lt_todo := n;
                 lt_returned := S (lt_returned th) |} = Some ts' ->
    lazy_step (Build_lazy_state obj true m r ts) (Build_lazy_state obj true m r ts')
| lz_slow obj m r ts ts' (k : nat) (th : lazy_thread) n :             (* line 125: not initialized *)
    vget ts k = Some th -> lt_pc th = LIdle -> lt_todo th = S n ->
    vset ts k {| lt_pc := LLock; lt_todo := n;
                 lt_returned := lt_returned th |} = Some ts' ->
    lazy_step (Build_lazy_state obj false m r ts) (Build_lazy_state obj false m r ts')
| lz_lock obj f (r : nat) ts ts' (k : nat) (th : lazy_thread) :               (* line 130 *)
    vget ts k = Some th -> lt_pc th = LLock ->
    vset ts k {| lt_pc := LCheck; lt_todo := lt_todo th;
                 lt_returned := lt_returned th |} = Some ts' ->
    lazy_step (Build_lazy_state obj f None r ts) (Build_lazy_state obj f (Some k) r ts')
| lz_check obj (f : bool) m r ts ts' (k : nat) (th : lazy_thread) :            (* line 140 *)
    vget ts k = Some th -> lt_pc th = LCheck ->
    vset ts k {| lt_pc := if f then LUnlock else LCreate;
                 lt_todo := lt_todo th;
                 lt_returned := lt_returned th |} = Some ts' ->
    lazy_step (Build_lazy_state obj f m r ts) (Build_lazy_state obj f m r ts')
| lz_create obj f m r ts ts' (k : nat) (th : lazy_thread) v :         (* line 142 *)
    vget ts k = Some th -> lt_pc th = LCreate ->
    vset ts k {| lt_pc := LFlip; lt_todo := lt_todo th;
                 lt_returned := lt_returned th |} = Some ts' ->
    lazy_step (Build_lazy_state obj f m r ts)
              (Build_lazy_state (Some v) f m (S r) ts')
| lz_create_throw obj f m r ts ts' (k : nat) (th : lazy_thread) :     (* line 142, exception *)
    vget ts k = Some th -> lt_pc th = LCreate ->
    vset ts k {| lt_pc := LThrow; lt_todo := lt_todo th;
                 lt_returned := lt_returned th |} = Some ts' ->
    lazy_step (Build_lazy_state obj f m r ts) (Build_lazy_state obj f m r ts')
| lz_flip obj f m r ts ts' (k : nat) (th : lazy_thread) :             (* line 145 *)
    vget ts k = Some th -> lt_pc th = LFlip ->
    vset ts k {| lt_pc := LUnlock; lt_todo := lt_todo th;
                 lt_returned := lt_returned th |} = Some ts' ->
    lazy_step (Build_lazy_state obj f m r ts) (Build_lazy_state obj true m r ts')
| lz_unlock obj f m r ts ts' (k : nat) (th : lazy_thread) :           (* line 147, normal return *)
    vget ts k = Some th -> lt_pc th = LUnlock ->
    vset ts k {| lt_pc := LIdle; lt_todo := lt_todo th;
                 lt_returned := S (lt_returned th) |} = Some ts' ->
    lazy_step (Build_lazy_state obj f m r ts) (Build_lazy_state obj f None r ts')
| lz_unwind obj f m r ts ts' (k : nat) (th : lazy_thread) :           (* line 147, stack unwinding *)
    vget ts k = Some th -> lt_pc th = LThrow ->
    vset ts k {| lt_pc := LIdle; lt_todo := lt_todo th;
                 lt_returned := lt_returned th |} = Some ts' ->
    lazy_step (Build_lazy_state obj f m r ts) (Build_lazy_state obj f None r ts').

(** Fresh object (source/lazy.h:63-66) and threads with given numbers of
    calls to make. *)
Definition lazy_init (calls : list nat) : lazy_state :=
  Build_lazy_state None false None 0
    (map (fun n => {| lt_pc := LIdle; lt_todo := n; lt_returned := 0 |}) calls).

(** ** Overlapped exchange *)

(** A thread of the parallel region of e.g.
    source/hyperbolic_module.template.h:349-423: iterations still to do in the
    scalar loop (line 418) and in the vectorized loop (line 420), the flag
    thread_ready (line 367), and whether the check (line 377) of the current
    iteration of the vectorized loop has already been done. *)
Record sd_thread := {
  sd_rows1 : list nat;
  sd_rows2 : list nat;
  sd_ready : bool;
  sd_checked : bool }.

(** Payload of SynchronizationDispatch: payload_status_ not valid; valid but
    the asynchronous task has not started; started; finished.  source/openmp.h:144-180. *)
Inductive sd_payload := PNone | PLaunched | PStarted | PFinished.

(** Shared state: n_threads_ready_ (source/openmp.h:181), the payload, the
    number of times the payload was started, rows written so far, whether the
    parallel region is over and the destructor has completed. *)
Record sd_state := {
  sd_threads : list sd_thread;
  sd_count : nat;
  sd_status : sd_payload;
  sd_starts : nat;
  sd_written : list nat;
  sd_destroyed : bool }.

(** Parameters: SIMD width of the vectorized loop (line 420), n_export_indices
    and n_internal (source/hyperbolic_module.template.h:278-279). *)
Inductive sd_step (width n_export n_internal : nat) : sd_state -> sd_state -> Prop :=
(* an iteration of the scalar loop: lines 369-414 with left = n_internal; the
   check of line 377 has a false condition and has no effect *)
| sd_row1 ts ts' c p st w d k th i rest :
    vget ts k = Some th -> sd_rows1 th = i :: rest ->
    vset ts k {| sd_rows1 := rest; sd_rows2 := sd_rows2 th;
                 sd_ready := sd_ready th; sd_checked := sd_checked th |} = Some ts' ->
    sd_step width n_export n_internal (Build_sd_state ts c p st w d)
            (Build_sd_state ts' c p st (i :: w) d)
(* SynchronizationDispatch::check in the vectorized loop: condition false or
   thread already ready, source/openmp.h:166 *)
| sd_check_skip ts ts' c p st w d k th i rest :
    (forall t, In t ts -> sd_rows1 t = []) ->         (* barrier of "omp for" *)
    vget ts k = Some th -> sd_rows2 th = i :: rest -> sd_checked th = false ->
    (sd_ready th = true \/ (n_export <=? i) && (i <? n_internal) = false) ->
    vset ts k {| sd_rows1 := sd_rows1 th; sd_rows2 := sd_rows2 th;
                 sd_ready := sd_ready th; sd_checked := true |} = Some ts' ->
    sd_step width n_export n_internal (Build_sd_state ts c p st w d)
            (Build_sd_state ts' c p st w d)
(* check with condition true: lines 166-171; the increment is atomic; the
   thread that observes the full count launches the payload *)
| sd_check_fire ts ts' c p st w d k th i rest :
    (forall t, In t ts -> sd_rows1 t = []) ->
    vget ts k = Some th -> sd_rows2 th = i :: rest -> sd_checked th = false ->
    sd_ready th = false -> (n_export <=? i) && (i <? n_internal) = true ->
    vset ts k {| sd_rows1 := sd_rows1 th; sd_rows2 := sd_rows2 th;
                 sd_ready := true; sd_checked := true |} = Some ts' ->
    sd_step width n_export n_internal (Build_sd_state ts c p st w d)
            (Build_sd_state ts' (S c)
               (if S c =? length ts then PLaunched else p) st w d)
(* body of the iteration after the check: rows i .. i+width-1 are written *)
| sd_row2 ts ts' c p st w d k th i rest :
    vget ts k = Some th -> sd_rows2 th = i :: rest -> sd_checked th = true ->
    vset ts k {| sd_rows1 := sd_rows1 th; sd_rows2 := rest;
                 sd_ready := sd_ready th; sd_checked := false |} = Some ts' ->
    sd_step width n_export n_internal (Build_sd_state ts c p st w d)
            (Build_sd_state ts' c p st (seq i width ++ w) d)
(* the asynchronous task begins and ends at arbitrary times *)
| sd_start ts c st w d :
    sd_step width n_export n_internal (Build_sd_state ts c PLaunched st w d)
            (Build_sd_state ts c PStarted (S st) w d)
| sd_finish ts c st w d :
    sd_step width n_export n_internal (Build_sd_state ts c PStarted st w d)
            (Build_sd_state ts c PFinished st w d)
(* destructor, source/openmp.h:150-159: wait for the future ... *)
| sd_destroy_wait ts c st w :
    (forall t, In t ts -> sd_rows1 t = [] /\ sd_rows2 t = []) ->
    sd_step width n_export n_internal (Build_sd_state ts c PFinished st w false)
            (Build_sd_state ts c PFinished st w true)
(* ... or run the payload synchronously *)
| sd_destroy_run ts c st w :
    (forall t, In t ts -> sd_rows1 t = [] /\ sd_rows2 t = []) ->
    sd_step width n_export n_internal (Build_sd_state ts c PNone st w false)
            (Build_sd_state ts c PFinished (S st) w true).

(** Begin of the parallel region: [work] gives per thread the iterations of
    the scalar and of the vectorized loop assigned to it (constrained rows are
    omitted: source/hyperbolic_module.template.h:373-375). *)
Definition sd_init (work : list (list nat * list nat)) : sd_state :=
  Build_sd_state
    (map (fun w => {| sd_rows1 := fst w; sd_rows2 := snd w;
                      sd_ready := false; sd_checked := false |}) work)
    0 PNone 0 [] false.
