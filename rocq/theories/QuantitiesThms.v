(** * Averages written by Quantities: C51 *)
From Coq Require Import Reals String List Bool Arith Lia Lra.
From Verif Require Import Quantities QuantitiesSpec QuantitiesProofs QuantitiesExamples TimeLoop TimeLoopSpec.
Import ListNotations.
Local Open Scope R_scope.

(** C51.  For every sequence of calls, the time average written for a manifold is
    the trapezoidal integral of what was accumulated (since the last write-out if
    statistics are cleared) divided by the length of the interval; the file is
    labelled with this interval. *)
Theorem C51_average : forall clear ms m cs t cycle sample fs q' t0 v0 h,
  NoDup (map m_name ms) -> In m ms -> m_time m = true ->
  increasing (map fst (all_recorded m cs)) ->
  (forall x, In x (all_recorded m cs) -> length (snd x) = length (m_masses m)) ->
  perform clear ms (cs ++ [Out t cycle sample]) (q_prepare ms) = Some (fs, q') ->
  recorded clear m cs [] = (t0, v0) :: h -> h <> [] ->
  let t1 := last (map fst h) 0 in
  exists vals, In (QAverage (m_name m) cycle t0 t1 vals) fs /\ length vals = length (m_masses m) /\
  forall i, (i < length (m_masses m))%nat ->
    nth i vals (0, 0) = (trapezoid (map (fun x => (fst x, nth i (snd x) 0)) ((t0, v0) :: h)) / (t1 - t0),
                         trapezoid (map (fun x => (fst x, nth i (snd x) 0 * nth i (snd x) 0)) ((t0, v0) :: h)) / (t1 - t0)).
Proof. exact C51_average_proof. Qed.
Print Assumptions C51_average.

Example C51_average_applies :
  NoDup (map m_name [wall; wake]) /\ In wake [wall; wake] /\ m_time wake = true /\
  increasing (map fst (all_recorded wake ex_calls)) /\
  (forall x, In x (all_recorded wake ex_calls) -> length (snd x) = length (m_masses wake)) /\
  (exists fs q', perform false [wall; wake] (ex_calls ++ [Out 3 1 (fun _ => [5; 7])]) (q_prepare [wall; wake]) = Some (fs, q')) /\
  recorded false wake ex_calls [] = (0, [1; 2]) :: [(1, [3; 4]); (3, [5; 7])].
Proof. exact ex_calls_ok. Qed.

(** C51.  The rows of the time series of a manifold are the weighted means (of value
    and square) at every call of accumulate, each exactly once and in order. *)
Theorem C51_series : forall clear ms m cs t cycle sample fs q',
  NoDup (map m_name ms) -> In m ms -> m_space m = true -> 0 < total (m_masses m) ->
  perform clear ms (cs ++ [Out t cycle sample]) (q_prepare ms) = Some (fs, q') ->
  rows (m_name m) fs = map (fun x => (fst x, Some (weighted_mean (m_masses m) (snd x),
                                                   weighted_mean (m_masses m) (map (fun y => y * y) (snd x))))) (all_recorded m cs).
Proof. exact C51_series_proof. Qed.
Print Assumptions C51_series.

Example C51_series_applies : m_space wake = true /\ 0 < total (m_masses wake).
Proof. split; [reflexivity|]. unfold total; cbn; lra. Qed.

(** C51.  All rows of the time series go to files with the number of the first
    write-out; the first of them is created, everything else is appended. *)
Theorem C51_one_file : forall clear ms cs fs q' c,
  (exists m, In m ms /\ m_space m = true) -> first_out cs = Some c ->
  perform clear ms cs (q_prepare ms) = Some (fs, q') ->
  exists k, series_files fs = (c, false) :: repeat (c, true) k.
Proof. exact C51_one_file_proof. Qed.
Print Assumptions C51_one_file.

Example C51_one_file_applies :
  (exists m, In m [wall; wake] /\ m_space m = true) /\ first_out (ex_calls ++ [Out 3 1 (fun _ => [5; 7])]) <> None.
Proof. split; [exists wake; split; [right; left; reflexivity|reflexivity]|discriminate]. Qed.

(** C51.  A weighted mean lies between the extreme values. *)
Theorem C51_mean_bounds : forall mass v lo hi,
  (forall a, In a mass -> 0 <= a) -> 0 < total mass -> length v = length mass ->
  (forall x, In x v -> lo <= x <= hi) -> lo <= weighted_mean mass v <= hi.
Proof. exact C51_mean_bounds_proof. Qed.
Print Assumptions C51_mean_bounds.

Example C51_mean_bounds_applies : (forall a, In a [1; 0; 3] -> 0 <= a) /\ 0 < total [1; 0; 3] /\ forall x, In x [2; 9; -1] -> -1 <= x <= 9.
Proof. unfold total. cbn. split; [intros a [<-|[<-|[<-|[]]]]; lra|]. split; [lra|]. intros a [<-|[<-|[<-|[]]]]; lra. Qed.

(** C51 fails with clearing: the interval between a write-out and the next call of
    accumulate is contained in no average. *)
Theorem C51_tiling_refuted :
  exists ms cs fs q', NoDup (map m_name ms) /\ (exists m, In m ms /\ m_time m = true /\ map fst (all_recorded m cs) = [0; 1; 2; 3]) /\
    perform true ms cs (q_prepare ms) = Some (fs, q') /\
    (exists v, In (QAverage "wake" 0 0 1 v) fs) /\ (exists v, In (QAverage "wake" 1 2 3 v) fs) /\
    forall name n a b v, In (QAverage name n a b v) fs -> ~ (a <= 3 / 2 <= b).
Proof. exact C51_tiling_refuted_proof. Qed.
Print Assumptions C51_tiling_refuted.

(** The first time series file of the second manifold is opened for appending and
    has no header. *)
Theorem C51_header_refuted :
  exists ms t cycle sample fs q', perform false ms [Acc t sample; Out t cycle sample] (q_prepare ms) = Some (fs, q') /\
    exists name l, In (QSeries name cycle true l) fs.
Proof. exact C51_header_refuted_proof. Qed.
Print Assumptions C51_header_refuted.

(** Rows that were accumulated but not yet written are lost if the mesh is adapted. *)
Theorem C51_adaptation_refuted :
  exists (E : environment R R) C s0 fuel evs L' m t,
    main_loop R R E C fuel (start R R C s0) = Some (evs, L', true) /\ In m (manifolds C) /\ m_space m = true /\
    enable_compute_quantities C = true /\ In t (levels evs) /\ t < l_t _ _ L' /\
    forall fs a, In (QFiles R R fs) evs -> ~ In (t, a) (rows (m_name m) fs).
Proof. exact C51_adaptation_refuted_proof. Qed.
Print Assumptions C51_adaptation_refuted.
