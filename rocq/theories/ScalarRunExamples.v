From Coq Require Import Reals List Arith Bool Lia Lra.
From Verif Require Import RVec EulerSystem SchemeSpec SchemeProofs SchemeExamples EulerSchemeExamples Scalar ScalarSpec ScalarProofs ScalarFlux ScalarScheme ScalarSchemeSpec ScalarSchemeProofs SWScheme SchemeFinal
  TimeInt TimeIntSpec EulerRun EulerRunSpec EulerRunFinal RunLib ScalarRun ScalarRunSpec ScalarRunProofs SWRunExamples.
From Verif Require Import Scheme.
Import ListNotations.
Local Open Scope R_scope.

(** ** Transport through a channel *)
Definition drift : sparameters := {|
  sp_flux := function_flux (1 / 10) [fun u => 2 * u + 1]; sp_greedy := false; sp_averaged := true; sp_draws := fun _ _ => [];
  sp_eps := 1 / 1000; sp_tiny := 1 / 10000; sp_big := 1000; sp_relaxation := 0; sp_evc := 1 |}.
(** Inflow on the left with values between 0 and 1, nothing prescribed on the right. *)
Definition inflow : list bentry :=
  [ {| be_row := 0; be_normal := fun _ => -1; be_id := dirichlet; be_position := fun _ => 0 |};
    {| be_row := 2; be_normal := fun _ => 1; be_id := do_nothing; be_position := fun _ => 2 |} ].
Definition pulses : RVec.vec -> R -> R := fun _ t => sin t * sin t.

Lemma drift_transport : transport (sp_flux drift) 1 (fun _ => 2).
Proof.
  split; [cbn; lra|]. intros u k Hk. destruct k; [|lia]. cbn. unfold central_difference. split; [lra|field].
Qed.
Lemma drift_moving : moving 1 channel3 (1 / 10000) (fun _ => 2).
Proof.
  intros i j [Hi _] Hj. cbn [n_rows channel3] in Hi. cbv zeta. right. left. unfold RVec.dot.
  rows3 i Hi; cbn in Hj; repeat (destruct Hj as [<-|Hj]; [unfold vec_of; cbn [rsum c_ij channel3 channel_c nth];
    match goal with |- _ <= Rabs ?x => first [rewrite (Rabs_pos_eq x) by lra | rewrite (Rabs_left x) by lra] end; lra|]); destruct Hj.
Qed.
Lemma drift_setting n : (n <= 2)%nat -> interval_setting drift channel3 (1 / 10000) 0 1 inflow pulses [2; 0; 1]%nat n.
Proof.
  intros Hn. destruct channel_proper as (Hpat & Hm & Hnum & Hpairs & _ & Hrows & _).
  repeat (split; [first [assumption | cbn; lra | idtac]|]).
  - exists 0%nat. split; cbn; lia.
  - intros i [<-|[<-|[<-|[]]]]; cbn; lia.
  - repeat apply Forall_cons; try apply Forall_nil; unfold entry_in; cbn [be_id be_position].
    + intros t. unfold pulses. pose proof (sin2_cos2 t). unfold Rsqr in *. pose proof (Rle_0_sqr (sin t)). pose proof (Rle_0_sqr (cos t)). unfold Rsqr in *. lra.
    + exact Logic.I.
Qed.

Lemma C133_transport_ex_proof : forall tmp n sch rec cfl_min t_final (s : mstate sc_vector),
  (n <= 2)%nat -> explicit_scheme sch = true -> (rec = bang_bang_control \/ st_cfl _ s = 9 / 10) -> 0 <= t_final ->
  (forall i, fst (st_vector _ s) i tt = if (i =? 1)%nat then 1 else 0) ->
  exists s', steps (fun t => sc_step drift 1 channel3 (1 / 10000) inflow pulses [2; 0; 1]%nat n tmp sch rec cfl_min (9 / 10) t t_final)
      (fun _ _ => True) 0 s t_final s' /\
    counters_eq s s' /\ forall i, (i < 3)%nat -> 0 <= fst (st_vector _ s') i tt <= 1.
Proof.
  intros tmp n sch rec c0 tf s Hn Hs Hx Ht Hv.
  assert (HV : values_in channel3 0 1 (fst (st_vector _ s))) by (intros i _; rewrite Hv; destruct (i =? 1)%nat; lra).
  destruct (C133_transport_proof drift 1 channel3 (1 / 10000) 0 1 inflow pulses [2; 0; 1]%nat n (fun _ => 2) tmp sch rec c0 (9 / 10) tf 0 s
    (drift_setting n Hn) drift_transport eq_refl drift_moving Hs ltac:(lra) Hx HV) as [A B].
  destruct (A Ht) as (s' & Q). exists s'. split; [exact Q|]. destruct (B tf s' Q) as [B1 B2]. split; [exact B1|].
  intros i Hi. apply B2. split; [exact Hi|]. rows3 i Hi; cbn; lia.
Qed.

(** ** Burgers' equation on a ring *)
Definition traffic : sparameters := {|
  sp_flux := burgers (1 / 1000); sp_greedy := false; sp_averaged := true; sp_draws := fun _ _ => [];
  sp_eps := 1 / 1000; sp_tiny := 1 / 10000; sp_big := 1000; sp_relaxation := 0; sp_evc := 1 |}.
Definition no_draws : sc_vector -> sc_temporaries := fun _ =>
  {| sct_a := fun _ => 0; sct_d := fun _ _ => 0; sct_l := fun _ _ => 0; sct_ln := fun _ _ => 0;
     sct_new := fun _ _ => 0; sct_pc := fun _ _ => 0; sct_draws := fun _ _ => [] |}.

Lemma traffic_setting n : (n <= 2)%nat -> interval_setting traffic ring3 (1 / 10000) 1 2 [] pulses [2; 0; 1]%nat n.
Proof.
  intros Hn. repeat (split; [first [assumption | exact ring3_pattern | exact ring3_masses | exact ring3_numbering | exact ring3_pairs | cbn; lra | idtac]|]).
  - intros i [Hi _]. apply ring3_sum, Hi.
  - exists 0%nat. split; cbn; lia.
  - intros i [<-|[<-|[<-|[]]]]; cbn; lia.
  - constructor.
Qed.

Lemma traffic_fast (o : sc_vector) : snd o = scalar_precomputed traffic 1 ring3 (fst o) (fun _ _ => 0) -> values_in ring3 1 2 (fst o) ->
  zero_or_fast (with_draws traffic (sct_draws (no_draws o))) 1 ring3 (1 / 10000) o (sct_d (no_draws o)).
Proof.
  intros Hpc Hv i j Ha Hj. right. set (q := with_draws traffic (sct_draws (no_draws o))).
  rewrite (dij_value (scalar_scheme q 1) ring3 (1 / 10000) o (sct_d (no_draws o)) i j ring3_pattern ring3_numbering ring3_pairs
    (scalar_symmetric q 1 ring3 o (fun _ _ => eq_refl)) (proj1 Ha) Hj).
  eapply Rle_trans; [|apply Rmax_l].
  assert (Hb : active ring3 j) by (exact (col_active ring3 i j ring3_pattern (proj1 Ha) Hj)).
  set (m := cdiv (c_ij ring3 i j) (cnorm (c_ij ring3 i j))).
  assert (E : wave_viscosity (scalar_scheme q 1) ring3 o i j = cnorm (c_ij ring3 i j) * sc_wavespeed (burgers (1 / 1000)) false true [] 1 (fst o i tt) (fst o j tt) (vec_of m))
    by (exact (f_equal (Rmult (cnorm (c_ij ring3 i j))) (s_wavespeed q 1 ring3 o _ Hpc i j m Ha Hb))).
  rewrite E. clear E.
  assert (S : Rabs (nth 0 m 0) * 1 <= sc_wavespeed (burgers (1 / 1000)) false true [] 1 (fst o i tt) (fst o j tt) (vec_of m)).
  { eapply Rle_trans; [|apply (convex_speed (burgers (1 / 1000)) true [] 1 (fst o i tt) (fst o j tt) (vec_of m) (burgers_convex _ _ _ _ _) (fst o i tt)); split; [apply Rmin_l|apply Rmax_l]].
    rewrite burgers_dflux_n. cbn [rsum]. unfold vec_of. rewrite Rplus_0_l, Rabs_mult. specialize (Hv i Ha).
    apply Rmult_le_compat_l; [apply Rabs_pos|]. rewrite Rabs_pos_eq; lra. }
  assert (C : cnorm (c_ij ring3 i j) = 1 / 2 /\ Rabs (nth 0 m 0) = 1).
  { unfold m. destruct Ha as [Hi _]. cbn [n_rows ring3] in Hi.
    assert (L : forall x, x = 1 / 2 \/ x = - (1 / 2) -> cnorm [x] = 1 / 2).
    { intros x Hx. unfold cnorm. cbn [fold_right]. replace (x * x + 0) with ((1 / 2) * (1 / 2)) by (destruct Hx as [->| ->]; lra). apply sqrt_square. lra. }
    assert (L2 : forall x, x = 1 / 2 \/ x = - (1 / 2) -> Rabs (nth 0 (cdiv [x] (cnorm [x])) 0) = 1).
    { intros x Hx. rewrite (L x Hx). cbn [cdiv map nth]. destruct Hx as [->| ->].
      - rewrite Rabs_pos_eq; lra.
      - rewrite Rabs_left; lra. }
    rows3 i Hi; cbn in Hj; repeat (destruct Hj as [<-|Hj]; [cbn [c_ij ring3 ring_c]; cbn; split; [apply L|apply L2]; lra|]); destruct Hj. }
  destruct C as [C1 C2]. rewrite C1. rewrite C2 in S. lra.
Qed.

Lemma C133_run_ex_proof : forall n rec cfl_min t t_final (s : mstate sc_vector),
  (n <= 2)%nat -> (rec = bang_bang_control \/ st_cfl _ s = 9 / 10) -> t < t_final ->
  fst (st_vector _ s) = (fun i _ => if (i =? 0)%nat then 2 else 1) -> snd (st_vector _ s) = (fun _ _ => 0) ->
  exists h s', sc_step traffic 1 ring3 (1 / 10000) [] pulses [2; 0; 1]%nat n no_draws erk_11 rec cfl_min (9 / 10) t t_final s = (Ok h, s') /\
    0 < h /\ counters_eq s s' /\ forall i, (i < 3)%nat -> 1 <= fst (st_vector _ s') i tt <= 2.
Proof.
  intros n rec c0 t tf s Hn Hx Ht Hv Hpc.
  assert (HV : values_in ring3 1 2 (fst (st_vector _ s))) by (intros i _; rewrite Hv; destruct (i =? 0)%nat; lra).
  destruct (C133_step_proof traffic 1 ring3 (1 / 10000) 1 2 [] pulses [2; 0; 1]%nat n no_draws erk_11 rec c0 (9 / 10) t tf s
    (traffic_setting n Hn) eq_refl ltac:(lra) Hx Ht HV) as (s' & Q & Hh & Hq & HV').
  - intros o st Hin. cbn [trace fst] in Hin. destruct Hin as [E|[]]. injection E as E _. subst o.
    set (o := sc_prepare traffic 1 ring3 [] pulses t (st_vector _ s)).
    assert (Eo : snd o = scalar_precomputed traffic 1 ring3 (fst o) (fun _ _ => 0)) by (unfold o, sc_prepare; cbv zeta; cbn [snd fst]; rewrite Hpc; reflexivity).
    split; [left; split; [reflexivity|intros m u v; apply burgers_convex]|]. split.
    + apply (traffic_fast o Eo). exact HV.
    + intros x Hx1. unfold sc_step_size. fold o. cbn [efficiency].
      set (z := fold_right Rmin _ _). replace (1 * z / 1) with z by field. unfold z. clear z.
      unfold sc_rows, row_tau in *. apply in_map_iff in Hx1. destruct Hx1 as (i & <- & Hi).
      eapply Rle_trans; [apply fold_Rmin_in; apply in_map_iff; exists i; split; [reflexivity|exact Hi]|].
      assert (P : 0 < - dij_matrix (scalar_scheme (with_draws traffic (sct_draws (no_draws o))) 1) ring3 (1 / 10000) o (sct_d (no_draws o)) i i).
      { apply active_spec in Hi. rewrite (dij_diag (scalar_scheme (with_draws traffic (sct_draws (no_draws o))) 1) ring3 (1 / 10000) o (sct_d (no_draws o)) i ring3_pattern (proj1 Hi)).
        match goal with |- 0 < - - Rmax ?A ?B => pose proof (Rmax_r A B) end. lra. }
      set (dd := dij_matrix _ _ _ _ _ i i) in *. change (mass ring3 i) with 1. unfold Rdiv. apply Rmult_le_compat_r.
      * apply Rlt_le, Rinv_0_lt_compat. lra.
      * lra.
  - eexists _, s'. split; [exact Q|]. split; [exact Hh|]. split; [exact Hq|]. intros i Hi. apply HV'. split; [exact Hi|].
    rows3 i Hi; cbn; lia.
Qed.

(** The total on a ring of one rank, any random numbers. *)
Lemma ring3'_skew i j : active ring3' i -> In j (columns ring3' i) -> skew_at ring3' i j.
Proof.
  intros [Hi _] Hj. unfold skew_at. cbn [n_rows ring3'] in Hi.
  rows3 i Hi; cbn in Hj; repeat (destruct Hj as [<-|Hj]; [cbn; f_equal; lra|]); destruct Hj.
Qed.
Lemma ring3'_symmetric : symmetric_matrices ring3'.
Proof.
  intros i j [Hi _] Hj. cbn [n_rows ring3'] in Hi.
  rows3 i Hi; cbn in Hj; repeat (destruct Hj as [<-|Hj]; [cbn; auto|]); destruct Hj.
Qed.
Lemma C133_total_ex_proof : forall tmp n sch (s : mstate sc_vector),
  explicit_scheme sch = true -> fst (st_vector _ s) = (fun i _ => if (i =? 0)%nat then 2 else 1) ->
  exists h s', sc_step traffic 1 ring3' (1 / 10000) [] pulses [2; 0; 1]%nat n tmp sch bang_bang_control (1 / 10) (9 / 10) 0 1 s = (Ok h, s') /\
    0 < h /\ total ring3' (active_rows ring3') (fst (st_vector _ s')) tt = 4.
Proof.
  intros tmp n sch s Hs Hv.
  assert (Hm : positive_masses ring3') by (intros i _; cbn; lra).
  assert (Hact : exists i, active ring3' i) by (exists 0%nat; split; cbn; lia).
  destruct (C133_completes_proof traffic 1 ring3' (1 / 10000) [] pulses [2; 0; 1]%nat n tmp sch (1 / 10) (9 / 10) 0 1 s
    ring3'_pattern Hm Hact ltac:(lra) Hs ltac:(lra) ltac:(lra) ltac:(lra)) as (h & s' & Q & Hh).
  exists h, s'. split; [exact Q|]. split; [lra|].
  rewrite (C133_total_proof traffic 1 ring3' (1 / 10000) [] pulses [2; 0; 1]%nat n tmp sch bang_bang_control (1 / 10) (9 / 10) 1 0 s (0 + h) s'
    ring3'_pattern Hm ring3'_numbering ring3'_symmetric ring3'_skew).
  - rewrite Hv. unfold total. cbn. lra.
  - intros; reflexivity.
  - constructor.
  - exact Hs.
  - eapply steps_more; [exact Logic.I|exact Q|apply steps_none].
Qed.
