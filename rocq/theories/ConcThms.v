(** * Theorems about the concurrent pieces (C10, C11, C12) *)
From Coq Require Import List Arith ZArith Lia Bool Sorted.
From Verif Require Import Vec Conc ConcProofs Renumber.
Import ListNotations.

(** ** C12: thread parallel reduction of tau_max *)

(** In every interleaving, with spurious failures of the compare-exchange
    permitted, once all threads are done tau_max is a lower bound of the
    initial value and of all thread local values and is one of them. *)
Theorem C12_tau_max_is_minimum :
  forall (tau0 : Z) (locals : list Z) (s : cas_state),
    star (cas_step true) (cas_init tau0 locals) s ->
    cas_final s ->
    (forall x, In x (tau0 :: locals) -> (cas_tau s <= x)%Z) /\
    In (cas_tau s) (tau0 :: locals).
Proof. exact C12_tau_max_is_minimum_proof. Qed.
Print Assumptions C12_tau_max_is_minimum.

(** At every moment the shared value is the initial one or one contributed by
    a thread, and it never increases. *)
Theorem C12_intermediate_values :
  forall (tau0 : Z) (locals : list Z) (s s' : cas_state),
    star (cas_step true) (cas_init tau0 locals) s ->
    In (cas_tau s) (tau0 :: locals) /\
    (cas_step true s s' -> (cas_tau s' <= cas_tau s)%Z).
Proof. exact C12_intermediate_values_proof. Qed.
Print Assumptions C12_intermediate_values.

(** The result does not depend on how rows are distributed over threads: it
    is the minimum over all rows ([top] is numeric_limits::max()). *)
Theorem C12_independent_of_row_assignment :
  forall (top : Z) (rows : list (list Z)) (s : cas_state),
    star (cas_step true) (cas_init top (map (local_tau_max top) rows)) s ->
    cas_final s ->
    (forall x, In x (concat rows) -> (x <= top)%Z) ->
    concat rows <> [] ->
    In (cas_tau s) (concat rows) /\
    (forall x, In x (concat rows) -> (cas_tau s <= x)%Z).
Proof. exact C12_independent_of_row_assignment_proof. Qed.
Print Assumptions C12_independent_of_row_assignment.

(** Lock freedom: without spurious failures every execution ends after at
    most n^2 + 3n operations, whatever the schedule; and from every reachable
    state the reduction can be completed. *)
Theorem C12_terminates :
  forall (tau0 : Z) (locals : list Z) (s : cas_state) (n : nat),
    (starn (cas_step false) n (cas_init tau0 locals) s ->
     n <= length locals * length locals + 3 * length locals) /\
    (star (cas_step true) (cas_init tau0 locals) s ->
     exists s', star (cas_step true) s s' /\ cas_final s').
Proof. exact C12_terminates_proof. Qed.
Print Assumptions C12_terminates.

(** A three thread execution in which one compare-exchange fails because
    another thread got in between. *)
Example C12_instance :
  let s := {| cas_tau := 3; cas_threads := [(CDone, 5%Z); (CDone, 3%Z); (CDone, 9%Z)] |} in
  star (cas_step true) (cas_init 100 [5; 3; 9]%Z) s /\ cas_final s.
Proof.
  split.
  - unfold cas_init; simpl.
    eapply star_step; [eapply star_step; [eapply star_step; [eapply star_step;
      [eapply star_step; [eapply star_step; [eapply star_step; [apply star_refl|]|]|]|]|]|]|].
    + eapply cas_load with (k := 0); reflexivity.
    + eapply cas_load with (k := 1); reflexivity.
    + eapply cas_success with (k := 1); try reflexivity; lia.
    + eapply cas_fail with (k := 0); try reflexivity; try lia; auto.
    + eapply cas_exit with (k := 0); try reflexivity; lia.
    + eapply cas_load with (k := 2); reflexivity.
    + eapply cas_exit with (k := 2); try reflexivity; lia.
  - intros t [<-|[<-|[<-|[]]]]; reflexivity.
Qed.

(** ** C11: lazy initialization *)

(** The creator succeeds at most once; as soon as any call has returned it
    has succeeded exactly once and the object is present. *)
Theorem C11_created_once_before_use :
  forall (calls : list nat) (s : lazy_state),
    star lazy_step (lazy_init calls) s ->
    lz_runs s <= 1 /\
    (forall t, In t (lz_threads s) -> lt_returned t > 0 ->
       lz_runs s = 1 /\ exists v, lz_object s = Some v).
Proof. exact C11_created_once_before_use_proof. Qed.
Print Assumptions C11_created_once_before_use.

(** The value seen by one thread is the one every later caller sees. *)
Theorem C11_value_is_stable :
  forall (calls : list nat) (s s' : lazy_state) (v : nat),
    star lazy_step (lazy_init calls) s ->
    lz_object s = Some v ->
    star lazy_step s s' ->
    lz_object s' = Some v.
Proof. exact C11_value_is_stable_proof. Qed.
Print Assumptions C11_value_is_stable.

(** Mutual exclusion of the creator, and a call after a successful one does
    not take the mutex or touch the object. *)
Theorem C11_creator_is_exclusive :
  forall (calls : list nat) (s : lazy_state) (k1 k2 : nat) (t1 t2 : lazy_thread),
    star lazy_step (lazy_init calls) s ->
    vget (lz_threads s) k1 = Some t1 -> vget (lz_threads s) k2 = Some t2 ->
    lt_pc t1 = LCreate \/ lt_pc t1 = LFlip ->
    lt_pc t2 = LCreate \/ lt_pc t2 = LFlip ->
    k1 = k2.
Proof. exact C11_creator_is_exclusive_proof. Qed.
Print Assumptions C11_creator_is_exclusive.

(** No deadlock and no livelock: every execution has boundedly many steps,
    and an execution that cannot continue has completed all calls. *)
Theorem C11_all_calls_complete :
  forall (calls : list nat) (n : nat) (s : lazy_state),
    starn lazy_step n (lazy_init calls) s ->
    n <= 7 * fold_right Nat.add 0 calls /\
    ((forall t, In t (lz_threads s) -> lt_pc t = LIdle /\ lt_todo t = 0) \/
     exists s', lazy_step s s').
Proof. exact C11_all_calls_complete_proof. Qed.
Print Assumptions C11_all_calls_complete.

(** Two threads racing through the slow path; both return, one creation. *)
Example C11_instance :
  exists s, star lazy_step (lazy_init [1; 1]) s /\
    lz_object s = Some 42 /\ lz_runs s = 1 /\
    map lt_returned (lz_threads s) = [1; 1].
Proof.
  eexists. split.
  - unfold lazy_init; simpl.
    eapply star_step; [eapply star_step; [eapply star_step; [eapply star_step;
      [eapply star_step; [eapply star_step; [eapply star_step; [eapply star_step;
      [eapply star_step; [eapply star_step; [apply star_refl|]|]|]|]|]|]|]|]|]|].
    + eapply lz_slow with (k := 0); reflexivity.
    + eapply lz_slow with (k := 1); reflexivity.
    + eapply lz_lock with (k := 1); reflexivity.
    + eapply lz_check with (k := 1); reflexivity.
    + eapply lz_create with (k := 1) (v := 42); reflexivity.
    + eapply lz_flip with (k := 1); reflexivity.
    + eapply lz_unlock with (k := 1); reflexivity.
    + eapply lz_lock with (k := 0); reflexivity.
    + eapply lz_check with (k := 0); reflexivity.
    + eapply lz_unlock with (k := 0); reflexivity.
  - simpl. auto.
Qed.

(** ** C10: overlapped exchange *)

(** [work] is any assignment of the scalar rows and of the (starts of the)
    vectorized iterations to threads in which every thread processes its
    vectorized iterations in ascending order. *)

(** When the payload starts, all scalar rows (n_internal and up) and all rows
    of the vectorized iterations below the export bound have been written. *)
Theorem C10_payload_sees_exported_rows :
  forall (width n_export n_internal : nat) (work : list (list nat * list nat)) (s : sd_state),
    (forall w, In w work -> StronglySorted lt (snd w)) ->
    star (sd_step width n_export n_internal) (sd_init work) s ->
    sd_starts s > 0 ->
    forall w, In w work ->
      (forall i, In i (fst w) -> In i (sd_written s)) /\
      (forall i r, In i (snd w) -> i < n_export -> i <= r < i + width ->
         In r (sd_written s)).
Proof. exact C10_payload_sees_exported_rows_proof. Qed.
Print Assumptions C10_payload_sees_exported_rows.

(** In terms of rows: if the iterations cover all rows below n_owned (strides
    of [width] below n_internal, single rows above), the payload starts only
    when every row below the export bound and every row from n_internal on is
    written. *)
Theorem C10_payload_sees_all_rows :
  forall (width n_export strides n_owned : nat) (work : list (list nat * list nat)) (s : sd_state),
    0 < width ->
    (forall w, In w work -> StronglySorted lt (snd w)) ->
    (forall q, q < strides -> In (q * width) (concat (map snd work))) ->
    (forall i, strides * width <= i < n_owned -> In i (concat (map fst work))) ->
    star (sd_step width n_export (strides * width)) (sd_init work) s ->
    sd_starts s > 0 ->
    forall r, r < n_owned -> r < n_export \/ strides * width <= r ->
      In r (sd_written s).
Proof. exact C10_payload_sees_all_rows_proof. Qed.
Print Assumptions C10_payload_sees_all_rows.

(** The payload is never started twice; when the dispatch object has been
    destroyed it has been executed exactly once and has finished, and all
    iterations have been executed. *)
Theorem C10_payload_exactly_once :
  forall (width n_export n_internal : nat) (work : list (list nat * list nat)) (s : sd_state),
    (forall w, In w work -> StronglySorted lt (snd w)) ->
    star (sd_step width n_export n_internal) (sd_init work) s ->
    sd_starts s <= 1 /\
    (sd_destroyed s = true ->
       sd_starts s = 1 /\ sd_status s = PFinished /\
       forall w i, In w work ->
         (In i (fst w) -> In i (sd_written s)) /\
         (In i (snd w) -> forall r, i <= r < i + width -> In r (sd_written s))).
Proof. exact C10_payload_exactly_once_proof. Qed.
Print Assumptions C10_payload_exactly_once.

(** The parallel region and the destructor never block for ever: an execution
    that cannot continue has completed the destructor, and executions are
    finite. *)
Theorem C10_region_completes :
  forall (width n_export n_internal : nat) (work : list (list nat * list nat)) (s : sd_state),
    (forall w, In w work -> StronglySorted lt (snd w)) ->
    star (sd_step width n_export n_internal) (sd_init work) s ->
    (sd_destroyed s = true \/ exists s', sd_step width n_export n_internal s s') /\
    exists bound, forall n s', starn (sd_step width n_export n_internal) n s s' -> n <= bound.
Proof. exact C10_region_completes_proof. Qed.
Print Assumptions C10_region_completes.

(** The ascending order is needed: a thread that meets a non exported
    iteration before an exported one launches the payload too early. *)
Theorem C10_unordered_schedule_unsafe :
  exists (work : list (list nat * list nat)) (s : sd_state),
    star (sd_step 1 1 2) (sd_init work) s /\ sd_starts s > 0 /\
    ~ (forall w i r, In w work -> In i (snd w) -> i < 1 -> i <= r < i + 1 ->
         In r (sd_written s)).
Proof. exact C10_unordered_schedule_unsafe_proof. Qed.
Print Assumptions C10_unordered_schedule_unsafe.

(** Instance: two threads, width 2, one scalar row, export bound 2. *)
Example C10_instance :
  let work := [([4], [0]); ([], [2])] in
  (forall w, In w work -> StronglySorted lt (snd w)) /\
  (forall q, q < 2 -> In (q * 2) (concat (map snd work))) /\
  (forall i, 2 * 2 <= i < 5 -> In i (concat (map fst work))) /\
  exists s, star (sd_step 2 2 (2 * 2)) (sd_init work) s /\ sd_destroyed s = true.
Proof.
  split; [|split; [|split]].
  - intros w [<-|[<-|[]]]; simpl; repeat constructor.
  - intros [|[|q]] H; simpl; auto; lia.
  - intros i H. simpl. lia.
  - destruct (star_reaches (sd_step 2 2 (2 * 2)) (sd_inv 2 2 (2 * 2) [([4], [0]); ([], [2])])
                (fun s => sd_destroyed s = true) sd_measure) with
      (s := sd_init [([4], [0]); ([], [2])]) as [s' [A B]].
    + intros a b. apply sd_inv_step.
    + intros a Ia. destruct (sd_progress _ _ _ _ _ Ia) as [|[b Sb]]; auto.
      right. exists b. split; [exact Sb|]. eapply sd_measure_step; eauto.
    + apply sd_inv_init. intros w [<-|[<-|[]]]; simpl; repeat constructor.
    + exists s'. auto.
Qed.

(** ** C09: consequence of the export count of OfflineData *)

(** Intended: with the export bound recomputed by OfflineData::setup the
    exchange never starts before an exported row is written.  This fails for a
    range straddling n_internal, already with one thread: row 2 is exported
    but not yet written when the exchange begins. *)
Theorem C09_exchange_may_start_early_refuted :
  exists (ranges : list (nat * nat)) (work : list (list nat * list nat)) (s : sd_state) (r : nat),
    (forall w, In w work -> StronglySorted lt (snd w)) /\
    (forall q, q < 1 -> In (q * 4) (concat (map snd work))) /\
    (forall i, 4 <= i < 6 -> In i (concat (map fst work))) /\
    (exists a b, In (a, b) ranges /\ a <= r < b) /\
    star (sd_step 4 (recompute_n_export ranges 4 4) 4) (sd_init work) s /\
    sd_starts s = 1 /\ ~ In r (sd_written s).
Proof. exact C09_exchange_may_start_early_refuted_proof. Qed.
Print Assumptions C09_exchange_may_start_early_refuted.
