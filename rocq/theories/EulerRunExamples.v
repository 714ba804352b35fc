From Coq Require Import Reals List Arith Bool Lia Lra Psatz FunctionalExtensionality.
From Verif Require Import RVec EulerSystem EulerLimiter EulerLimiterBounds EulerRiemann EulerRiemannFinal EulerScheme EulerSchemeSpec SchemeSpec SchemeProofs SchemeLimit SchemeFinal SchemeExamples SWSchemeExamples
  EulerSchemeProofs EulerSchemeFinal EulerSchemeBounds EulerSchemeExamples
  PhysSpec EulerPhysProofs EulerMinEntropySpec EulerMinEntropyFinal EulerMinEntropyExamples TimeInt TimeIntSpec TimeIntProofs EulerRun EulerRunSpec EulerRunProofs EulerRunFinal.
From Verif Require Import Scheme.
Import ListNotations.
Local Open Scope R_scope.

Definition no_contents : euler_vector -> temporaries := fun _ =>
  {| tmp_a := fun _ => 0; tmp_d := fun _ _ => 0; tmp_l := fun _ _ => 0; tmp_ln := fun _ _ => 0; tmp_new := fun _ _ => 0; tmp_pc := fun _ => (0, 0) |}.

Lemma ring3_proper : proper_mesh ring3 1.
Proof.
  split; [exact ring3_pattern|]. split; [exact ring3_masses|]. split; [exact ring3_numbering|]. split; [exact ring3_pairs|].
  split; [exact ring3_dimension|]. split; [intros i Hi; apply ring3_sum, Hi|]. exists 0%nat. split; cbn; lia.
Qed.

(** ** A shock tube with walls and prescribed values *)
Definition walls : list bentry :=
  [ {| be_row := 0; be_normal := fun _ => 1; be_id := slip; be_position := fun _ => 0 |};
    {| be_row := 1; be_normal := fun _ => 1; be_id := no_slip; be_position := fun _ => 1 |};
    {| be_row := 2; be_normal := fun _ => 1; be_id := dirichlet; be_position := fun _ => 2 |} ].
Definition tube_data : RVec.vec -> R -> state nat := fun _ _ => tube_U 2.

Lemma walls_calm s : Forall (calm_entry s 1 0 tube_data) walls.
Proof.
  assert (Q : 0 <= entropy_of_gas s 1 (tube_U 2)).
  { pose proof (tube_gas 2) as G. apply positive_gas_eq in G. destruct G as [G1 G2]. unfold entropy_of_gas.
    unfold Rdiv. apply Rmult_le_pos; [|apply Rlt_le, Rinv_0_lt_compat, powr_gt0, G1].
    unfold norm2, dot, momentum, density, tube_U, total_energy. cbn. lra. }
  repeat apply Forall_cons; try apply Forall_nil; unfold calm_entry; cbn [be_id be_normal be_position].
  - unfold norm2, dot. cbn. ring.
  - exact Logic.I.
  - intros t0. split; [apply tube_gas|exact Q].
Qed.

Lemma walls_keep p t : apply_boundary p 1 walls tube_data t tube_U = tube_U.
Proof.
  unfold apply_boundary, walls. cbn [fold_left be_id be_row be_normal be_position apply_boundary_conditions].
  apply functional_extensionality. intros i. unfold upd, tube_data.
  destruct i as [|[|[|i]]]; cbn [Nat.eqb]; apply functional_extensionality; intros k; try reflexivity;
  (destruct k as [|[|k]]; [reflexivity| |reflexivity]); unfold RVec.vsub, RVec.vscal, RVec.dot, momentum, tube_U, mkstate; cbn; ring.
Qed.

Lemma tube_case : forall t t_final,
  regular_run (gas_params 0) 1 ring3 (1 / 10000) 0 walls tube_data [0; 1; 2]%nat 2 /\
  gas_above ex_air 1 ring3 0 tube_U /\ tube_U 0%nat <> tube_U 1%nat /\
  cautious (gas_params 0) 1 ring3 (1 / 10000) walls tube_data [0; 1; 2]%nat 2 no_contents erk_11 t (tube_old 0)
    (step_size (gas_params 0) 1 ring3 (1 / 10000) walls tube_data no_contents erk_11 (9 / 10) t t_final (tube_old 0)).
Proof.
  intros t tf. split; [|split; [|split]].
  - split; [exact ring3_proper|]. split; [lra|]. split; [reflexivity|]. split; [cbn; lra|]. split; [cbn; lra|]. split; [apply gas_moderate|].
    split; [cbn; lra|]. split; [left; reflexivity|]. split; [cbn; intros; lia|]. split; [lia|]. apply walls_calm.
  - intros i Hi. split; [apply tube_gas|]. pose proof (tube_gas i) as G. apply positive_gas_eq in G. destruct G as [G1 G2]. unfold entropy_of_gas.
    unfold Rdiv. apply Rmult_le_pos; [|apply Rlt_le, Rinv_0_lt_compat, powr_gt0, G1].
    unfold norm2, dot, momentum, density, tube_U, total_energy. destruct (Nat.eqb i 0); cbn; lra.
  - intros E. apply (f_equal (fun f => f 0%nat)) in E. unfold tube_U, mkstate in E. cbn in E. lra.
  - apply C131_forward_euler_proof; [lra|exact ring3_proper|lra|]. intros i Ha.
    assert (E : fst (euler_prepare (gas_params 0) 1 ring3 walls tube_data t (tube_old 0)) = tube_U) by (unfold euler_prepare; cbn [fst]; apply walls_keep).
    cbn [tmp_d no_contents]. pose proof (tube_fast 0 i Ha) as F. intros j Hj. specialize (F j Hj).
    assert (Hg : 1 < gamma (ep_system (gas_params 0))) by (cbn; lra). destruct Ha as [Hi _].
    set (o := euler_prepare _ _ _ _ _ _ _) in *.
    assert (Go : forall k, active ring3 k -> positive_gas 1 (fst o k)) by (intros; rewrite E; apply tube_gas).
    rewrite (dij_value (euler_scheme (gas_params 0) 1) ring3 (1 / 10000) o (fun _ _ => 0) i j ring3_pattern ring3_numbering ring3_pairs
      (euler_symmetric (gas_params 0) 1 ring3 o Hg ring3_pattern ring3_dimension Go) Hi Hj).
    rewrite (dij_value (euler_scheme (gas_params 0) 1) ring3 (1 / 10000) (tube_old 0) (fun _ _ => 0) i j ring3_pattern ring3_numbering ring3_pairs
      (euler_symmetric (gas_params 0) 1 ring3 (tube_old 0) Hg ring3_pattern ring3_dimension ltac:(intros; apply tube_gas)) Hi Hj) in F.
    unfold wave_viscosity in *.
    assert (E1 : @fst (nat -> state nat) (PC nat (euler_scheme (gas_params 0) 1)) o = tube_U) by exact E.
    rewrite E1. exact F.
Qed.

(** ** A uniform stream, all schemes, up to the final time *)
Definition stream_params : eparameters :=
  {| ep_system := ex_air; ep_eps := 0; ep_big := 1000000; ep_riemann_tol := 1 / 1000; ep_riemann_iterations := 0;
     ep_tol := 1 / 1000; ep_iterations := 2; ep_relaxation := 0; ep_evc := 1 |}.
Definition stream_entropy : R := entropy_of_gas ex_air 1 stream_u.
Local Notation SP := stream_params.
Local Notation SY := (euler_scheme stream_params 1).
Definition streaming (v : euler_vector) : Prop := forall i, (i < 3)%nat -> fst v i = stream_u.

Lemma stream_regular data order n : (forall i, In i order -> (i < 3)%nat) -> (n <= 2)%nat ->
  regular_run SP 1 ring3 (1 / 10000) stream_entropy [] data order n.
Proof.
  intros Ho Hn. split; [exact ring3_proper|]. split; [lra|]. split; [reflexivity|]. split; [cbn; lra|]. split; [cbn; lra|].
  split. { intros i _. cbn [ep_relaxation stream_params]. lra. }
  split; [cbn; lra|]. split.
  { right. split; [reflexivity|]. unfold stream_entropy, entropy_of_gas. cbn [ep_big stream_params].
    assert (E : powr (density stream_u) (gamma ex_air) = 1).
    { replace (density stream_u) with 1 by reflexivity. unfold powr. destruct (Rlt_dec 0 1); [|lra]. unfold Rpower. rewrite ln_1, Rmult_0_r. apply exp_0. }
    rewrite E. unfold norm2, dot, momentum, density, stream_u, total_energy. cbn. lra. }
  split; [exact Ho|]. split; [exact Hn|]. apply Forall_nil.
Qed.

Lemma streaming_above v : streaming v -> gas_above ex_air 1 ring3 stream_entropy (fst v).
Proof. intros H i [Hi _]. rewrite (H i Hi). split; [apply stream_gas|unfold stream_entropy; lra]. Qed.

Lemma streaming_symmetric (v : euler_vector) : streaming v -> symmetric_riemann SY ring3 v.
Proof.
  intros H. apply (euler_symmetric SP 1 ring3 v); [cbn; lra|exact ring3_pattern|exact ring3_dimension|].
  intros i [Hi _]. change (positive_gas 1 (fst v i)). rewrite (H i Hi). apply stream_gas.
Qed.

Lemma streaming_dij v w d d' i j : streaming v -> streaming w -> (i < 3)%nat -> In j (neighbours ring3 i) ->
  dij_matrix SY ring3 (1 / 10000) v d i j = dij_matrix SY ring3 (1 / 10000) w d' i j.
Proof.
  intros Hv Hw Hi Hj. assert (Hjb : (j < 3)%nat) by apply (neighbours_bound ring3 i j ring3_pattern Hi Hj).
  rewrite (dij_value SY ring3 (1 / 10000) v d i j ring3_pattern ring3_numbering ring3_pairs (streaming_symmetric v Hv) Hi Hj).
  rewrite (dij_value SY ring3 (1 / 10000) w d' i j ring3_pattern ring3_numbering ring3_pairs (streaming_symmetric w Hw) Hi Hj).
  unfold wave_viscosity.
  assert (E : forall u : euler_vector, streaming u -> forall k, (k < 3)%nat -> @fst (nat -> state nat) (PC nat SY) u k = stream_u) by (intros u Hu; exact Hu).
  rewrite (E v Hv i Hi), (E v Hv j Hjb), (E w Hw i Hi), (E w Hw j Hjb). reflexivity.
Qed.

Lemma streaming_rows cfl tmp v w : streaming v -> streaming w -> euler_rows SP 1 ring3 (1 / 10000) tmp cfl v = euler_rows SP 1 ring3 (1 / 10000) tmp cfl w.
Proof.
  intros Hv Hw. unfold euler_rows, row_tau. apply map_ext_in. intros i Hi. apply active_spec in Hi. destruct Hi as [Hi _].
  rewrite (dij_diag SY ring3 (1 / 10000) v _ i ring3_pattern Hi), (dij_diag SY ring3 (1 / 10000) w _ i ring3_pattern Hi).
  rewrite (lsum_ext _ (fun j => dij_matrix SY ring3 (1 / 10000) w (tmp_d (tmp w)) i j) (neighbours ring3 i)); [reflexivity|].
  intros j Hj. apply streaming_dij; assumption.
Qed.

Lemma streaming_fast v i : streaming v -> active ring3 i -> e_fast SP 1 ring3 (1 / 10000) v (fun _ _ => 0) i.
Proof.
  intros Hv Ha j Hj. assert (Q : streaming (stream_old 0)) by (intros k _; reflexivity).
  rewrite (streaming_dij v (stream_old 0) _ (fun _ _ => 0) i j Hv Q (proj1 Ha) Hj). exact (stream_fast 0 i Ha j Hj).
Qed.

Lemma streaming_update order n tmp (v : euler_vector) st tau : streaming v -> Forall (fun x => streaming (fst x)) st ->
  streaming (fst (euler_update SP 1 ring3 (1 / 10000) order n tmp v st tau)).
Proof.
  intros Hv Hst i Hi. unfold euler_update. cbv zeta. cbn [fst].
  apply (C21_uniform_proof nat SY ring3 (1 / 10000) 1 (e_F SP 1) stream_u (EulerSystem.flux ex_air 1 stream_u)).
  - exact ring3_pattern.
  - apply euler_plain.
  - reflexivity.
  - apply euler_central.
  - intros k [Hk _]. apply ring3_sum, Hk.
  - intros w Hw j [Hj _]. split; [|reflexivity]. destruct Hw as [->|Hw]; [apply Hv, Hj|].
    apply in_map_iff in Hw. destruct Hw as (x & <- & Hx). rewrite Forall_forall in Hst. apply (Hst x Hx j Hj).
  - split; [exact Hi|]. rows3 i Hi; cbn; lia.
Qed.

Lemma streaming_sadd a b v w : 0 <= a -> 0 <= b -> a + b = 1 -> streaming v -> streaming w -> streaming (euler_sadd v a b w).
Proof.
  intros _ _ E Hv Hw i Hi. unfold euler_sadd. cbn [fst]. rewrite (Hv i Hi), (Hw i Hi). apply functional_extensionality. intros k.
  unfold splus, smult. rewrite <- Rmult_plus_distr_r, E. ring.
Qed.

Section Stream.
Variables (data : RVec.vec -> R -> state nat) (order : list nat) (n : nat).
Hypothesis Ho : forall i, In i order -> (i < 3)%nat.
Hypothesis Hn : (n <= 2)%nat.
Variables (sch : scheme) (cfl : R).
Hypothesis Hs : explicit_scheme sch = true.
Hypothesis Hc : 0 < cfl <= 1.
Local Notation tmp := no_contents.
Local Notation size := (step_size SP 1 ring3 (1 / 10000) [] data tmp sch cfl).

Lemma streaming_prepare t v : streaming v -> streaming (euler_prepare SP 1 ring3 [] data t v).
Proof using Type. intros H. exact H. Qed.
Lemma streaming_new order' n' tmp' tau t v st : streaming v -> True -> Forall (fun x => streaming (fst x)) st ->
  streaming (fst (euler_update SP 1 ring3 (1 / 10000) order' n' tmp' (euler_prepare SP 1 ring3 [] data t v) st tau)).
Proof using Type. intros H _ F. apply streaming_update; [apply streaming_prepare, H|exact F]. Qed.

Lemma streaming_cautious t t_final v : t < t_final -> streaming v ->
  cautious SP 1 ring3 (1 / 10000) [] data order n tmp sch t v (size t t_final v).
Proof using Ho Hn Hc.
  intros Ht Hv. set (h := size t t_final v). pose proof (efficiency_pos sch) as He.
  assert (Q : forall o, streaming o -> suitable SP 1 ring3 (1 / 10000) tmp (h / efficiency sch) o).
  { intros o Hov. split; [intros i Ha; apply streaming_fast; assumption|]. intros x Hx.
    assert (Px : 0 < x) by (eapply (row_tau_positive SY ring3 (1 / 10000) 1 o); [exact ring3_pattern|exact ring3_masses|lra|lra|exact Hx]).
    assert (In (cfl * x) (euler_rows SP 1 ring3 (1 / 10000) tmp cfl o)).
    { unfold euler_rows, row_tau in *. apply in_map_iff in Hx. destruct Hx as (i & <- & Hi). apply in_map_iff. exists i. split; [|exact Hi]. unfold Rdiv. ring. }
    unfold h, step_size. rewrite (streaming_rows cfl tmp (euler_prepare SP 1 ring3 [] data t v) o Hv Hov).
    match goal with |- efficiency sch * ?f / efficiency sch <= x => replace (efficiency sch * f / efficiency sch) with f by (field; lra) end.
    apply Rle_trans with (cfl * x); [apply fold_Rmin_in; assumption|]. nra. }
  intros o st Hi. apply Q.
  unfold cautious in Hi. cbv zeta in Hi. fold h in Hi.
  assert (T : Forall (fun _ => True) (fst (trace (euler_prepare SP 1 ring3 [] data) (fun o st => fst (euler_update SP 1 ring3 (1 / 10000) order n tmp o st (h / efficiency sch))) euler_sadd sch t (h / efficiency sch) v)))
    by (apply Forall_forall; intros; exact Logic.I).
  destruct (trace_keep (euler_prepare SP 1 ring3 [] data) (fun o st => fst (euler_update SP 1 ring3 (1 / 10000) order n tmp o st (h / efficiency sch))) euler_sadd streaming (fun _ => True)
    streaming_prepare (fun t v st => streaming_new order n tmp (h / efficiency sch) t v st) streaming_sadd sch t (h / efficiency sch) v Hv T) as [K _].
  rewrite Forall_forall in K. destruct (K (o, st) Hi) as (t1 & v1 & E & H1). cbn [fst] in E. rewrite E. apply streaming_prepare, H1.
Qed.

Lemma stream_reaches rec cfl_min t_final : forall k t x,
  (rec = bang_bang_control \/ st_cfl _ x = cfl) -> streaming (st_vector _ x) ->
  forall c, 0 < c -> (forall r, In r (euler_rows SP 1 ring3 (1 / 10000) tmp cfl (stream_old 0)) -> c <= r) ->
  t <= t_final <= t + INR k * c ->
  exists x', steps (fun t => euler_step SP 1 ring3 (1 / 10000) [] data order n tmp sch rec cfl_min cfl t t_final)
    (fun t s => cautious SP 1 ring3 (1 / 10000) [] data order n tmp sch t (st_vector _ s) (size t t_final (st_vector _ s))) t x t_final x'.
Proof using Ho Hn Hc Hs.
  induction k as [|k IH]; intros t x Hx Hst c Pc Hr Ht.
  - cbn in Ht. assert (E : t = t_final) by lra. rewrite E. exists x. apply steps_none.
  - destruct (Rlt_dec t t_final) as [L|L]; [|assert (E : t = t_final) by lra; rewrite E; exists x; apply steps_none].
    pose proof (streaming_cautious t t_final _ L Hst) as Hcau.
    destruct (run_step SP 1 ring3 (1 / 10000) stream_entropy [] data order n (stream_regular data order n Ho Hn) tmp streaming sch rec cfl_min cfl t t_final x
      Hs (proj1 Hc) Hx L streaming_prepare (fun tau t v st _ H _ F => streaming_new order n tmp tau t v st H Logic.I F) streaming_sadd streaming_above Hst Hcau)
      as (x1 & Q & Hh & _ & Hcf & Hv1).
    set (h := size t t_final (st_vector _ x)) in *. pose proof (efficiency_pos sch) as He.
    assert (He1 : 1 <= efficiency sch) by (destruct sch; cbn; lra).
    assert (Hmax : h <= t_final - t).
    { unfold h, step_size. pose proof (fold_Rmin_le (euler_rows SP 1 ring3 (1 / 10000) tmp cfl (euler_prepare SP 1 ring3 [] data t (st_vector _ x))) ((t_final - t) / efficiency sch)) as F.
      apply (Rmult_le_compat_l (efficiency sch)) in F; [|lra]. replace (efficiency sch * ((t_final - t) / efficiency sch)) with (t_final - t) in F by (field; lra). exact F. }
    assert (Hmin : h = t_final - t \/ c <= h).
    { assert (G : forall l m, (forall r, In r l -> c <= r) -> fold_right Rmin m l = m \/ c <= fold_right Rmin m l).
      { induction l as [|y l IHl]; intros m Hl; [left; reflexivity|]. cbn [fold_right].
        assert (c <= y) by (apply Hl; left; reflexivity). assert (Hl' : forall r, In r l -> c <= r) by (intros; apply Hl; right; assumption).
        destruct (Rle_dec y (fold_right Rmin m l)) as [L1|L1]; [right; rewrite Rmin_left; lra|rewrite Rmin_right by lra; apply IHl, Hl']. }
      unfold h, step_size.
      rewrite (streaming_rows cfl tmp (euler_prepare SP 1 ring3 [] data t (st_vector _ x)) (stream_old 0) Hst (fun _ _ => eq_refl)).
      destruct (G (euler_rows SP 1 ring3 (1 / 10000) tmp cfl (stream_old 0)) ((t_final - t) / efficiency sch) Hr) as [E|E].
      - left. rewrite E. field. lra.
      - right. nra. }
    destruct (IH (t + h) x1 (or_intror Hcf) Hv1 c Pc Hr) as (x' & R').
    { split; [lra|]. rewrite S_INR in Ht. pose proof (pos_INR k). destruct Hmin; nra. }
    exists x'. eapply steps_more; [exact Hcau|exact Q|exact R'].
Qed.
End Stream.

Lemma stream_run : forall data sch rec cfl_min cfl t_final (x : mstate euler_vector),
  explicit_scheme sch = true -> 0 < cfl <= 1 -> (rec = bang_bang_control \/ st_cfl _ x = cfl) -> 0 <= t_final ->
  (forall i, (i < 3)%nat -> fst (st_vector _ x) i = stream_u) ->
  regular_run stream_params 1 ring3 (1 / 10000) stream_entropy [] data [0; 1; 2]%nat 2 /\
  gas_above ex_air 1 ring3 stream_entropy (fst (st_vector _ x)) /\
  exists x', steps (fun t => euler_step stream_params 1 ring3 (1 / 10000) [] data [0; 1; 2]%nat 2 no_contents sch rec cfl_min cfl t t_final)
    (fun t s => cautious stream_params 1 ring3 (1 / 10000) [] data [0; 1; 2]%nat 2 no_contents sch t (st_vector _ s)
       (step_size stream_params 1 ring3 (1 / 10000) [] data no_contents sch cfl t t_final (st_vector _ s))) 0 x t_final x'.
Proof.
  intros data sch rec c0 cfl tf x Hs Hc Hx Ht Hst.
  assert (Ho : forall i, In i [0; 1; 2]%nat -> (i < 3)%nat) by (cbn; intros; lia).
  assert (Hn : (2 <= 2)%nat) by lia. pose proof (stream_regular data [0; 1; 2]%nat 2 Ho Hn) as HR.
  split; [exact HR|]. split; [exact (streaming_above _ Hst)|].
  set (c := fold_right Rmin 1 (euler_rows stream_params 1 ring3 (1 / 10000) no_contents cfl (stream_old 0))).
  assert (Pc : 0 < c) by (apply (rows_min stream_params 1 ring3 (1 / 10000) stream_entropy [] data [0; 1; 2]%nat 2 HR); lra).
  destruct (archimed_cor1 (c / (tf + 1))) as (N & HN1 & HN2); [apply Rdiv_lt_0_compat; lra|].
  apply (stream_reaches data [0; 1; 2]%nat 2 Ho Hn sch cfl Hs Hc rec c0 tf N 0 x Hx Hst c Pc).
  - intros r Hr. apply fold_Rmin_in, Hr.
  - split; [lra|]. assert (0 < INR N) by (apply lt_0_INR; exact HN2).
    apply (Rmult_lt_compat_r (INR N)) in HN1; [|assumption]. rewrite Rinv_l in HN1 by lra.
    apply (Rmult_lt_compat_r (tf + 1)) in HN1; [|lra]. replace (c / (tf + 1) * INR N * (tf + 1)) with (c * INR N) in HN1 by (field; lra). lra.
Qed.
