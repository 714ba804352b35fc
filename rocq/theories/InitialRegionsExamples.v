(** * Piecewise initial states: runs and examples *)
From Coq Require Import Reals Arith List Bool String Lia Lra.
From Verif Require Import RVec Simd EulerSystem AeosSystem Eos EulerInitialStates InitialPlacement InitialPlacementProofs SWSystem SWLimiter PhysSpec SWScheme SWSchemeSpec
  SchemeSpec SchemeExamples SWSchemeExamples TimeInt TimeIntSpec EulerRun EulerRunSpec EulerRunExamples SWRun SWRunSpec SWRunProofs SWRunExamples
  BalanceSpec InitialRegions InitialRegionsSpec InitialRegionsProofs InitialRegionsWater InitialRegionsSoliton.
From Verif Require Import Scheme RVec.
Import ListNotations.
Local Open Scope R_scope.

(** ** Gases *)
Definition air : view := aeos_view (pg_eos pg_construct).
Definition helium : view :=
  euler_view {| gamma := 5 / 3; reference_density := 1; vacuum_state_relaxation_small := 1; vacuum_state_relaxation_large := 1 |}.

Lemma air_attains rho p : rho <> 0 -> attainable air rho p.
Proof. intros N. split; [exact N|]. cbn. unfold pg_pressure, pg_sie. cbn [pg_gamma pg_construct]. field. exact N. Qed.
Lemma helium_attains rho p : rho <> 0 -> attainable helium rho p.
Proof. intros N. split; [exact N|]. cbn. lra. Qed.

(** The default parameters, source/euler/initial_state_astro_jet.h:45-60,
    source/euler/initial_state_three_state_contrast.h:43-71 *)
Lemma C143_case :
  (exists U, gas_jet 2 (view_from helium 2) (tensor [5; 30; 4127 / 10000]) (tensor [5; 0; 4127 / 10000]) (5 / 100) (fun _ => 0) 0 = Some U /\
     row_is (law helium) 2 (tensor [5; 30; 4127 / 10000]) U) /\
  row_is (law air) 3 (tensor [1; 0; 1 / 100])
    (gas_three_state (view_from air 3) (tensor [1; 0; 1000]) (tensor [1; 0; 1 / 100]) (tensor [1; 0; 100]) (1 / 10) (8 / 10) (fun _ => 1 / 2) 1).
Proof.
  split.
  - destruct (C143_jet_proof helium 2 (tensor [5; 30; 4127 / 10000]) (tensor [5; 0; 4127 / 10000]) (5 / 100) (fun _ => 0) 0) as (U & E & J & _).
    + lia. + apply helium_attains. cbn. lra. + apply helium_attains. cbn. lra.
    + exists U. split; [exact E|]. apply J; lra.
  - apply (C143_three_proof air 3); try (apply air_attains; cbn; lra); lra.
Qed.

Definition two_sides : list (string * (vec -> R -> vec)) :=
  [("uniform"%string, gas_uniform (view_from helium 2) (tensor [1; 2; 3]));
   ("contrast"%string, gas_contrast (view_from helium 2) (tensor [1; 1; 1]) (tensor [2; 0; 1]))].

Lemma C143_placed_case : exists f,
  initial_state two_sides apply_galilei_transform 2 "contrast" (fun k => if Nat.eqb k 0 then 0 else 2) (fun _ => 1) = Some f /\
  gas_is (law helium) 2 1 (fun i => if Nat.eqb i 0 then 0 else 1) 1 (f (fun k => if Nat.eqb k 0 then 5 else 1 / 2) 0) /\
  gas_is (law helium) 2 2 (fun _ => 0) 1 (f (fun k => if Nat.eqb k 0 then 5 else 3 / 2) 0).
Proof.
  destruct (initial_state two_sides apply_galilei_transform 2 "contrast" (fun k => if Nat.eqb k 0 then 0 else 2) (fun _ => 1)) as [f|] eqn:E.
  2:{ apply C54_unknown_proof in E; [|lia]. destruct E as [E|E]; [specialize (E 1%nat ltac:(lia)); cbn in E; lra|]. exfalso. apply E. right. left. reflexivity. }
  exists f. split; [reflexivity|].
  assert (Hc : forall c, In ("contrast"%string, c) two_sides -> c = gas_contrast (view_from helium 2) (tensor [1; 1; 1]) (tensor [2; 0; 1])).
  { intros c [H|[H|[]]]; [discriminate|]. injection H as <-. reflexivity. }
  assert (G : gamma {| gamma := 5 / 3; reference_density := 1; vacuum_state_relaxation_small := 1; vacuum_state_relaxation_large := 1 |} <> 1) by (cbn; lra).
  assert (L1 : tensor [1; 1; 1] 0%nat <> 0) by (cbn; lra). assert (L2 : tensor [2; 0; 1] 0%nat <> 0) by (cbn; lra).
  assert (D : (1 <= 2 <= 3)%nat) by lia.
  destruct (C143_placed_proof _ two_sides 2 _ _ f (tensor [1; 1; 1]) (tensor [2; 0; 1]) D G L1 L2 Hc E) as (n & (c & C0 & Cn) & N1 & P).
  assert (n0 : n 0%nat = 0) by (rewrite Cn; cbn; ring). assert (n1 : n 1%nat = 1).
    { rewrite norm2_2, n0 in N1. pose proof (Cn 1%nat) as Q. cbn in Q. nra. }
    specialize (P (C54_aligned_2d_proof n N1)). split.
    + destruct (P (fun k => if Nat.eqb k 0 then 5 else 1 / 2) 0) as [L _]. cbn [tensor nth] in L.
      eapply gas_is_ext; [|apply L; unfold dot, vsub; cbn; lra]. intros i Hi. destruct i as [|[|i]]; [cbn; rewrite n0; ring|cbn; rewrite n1; ring|lia].
    + destruct (P (fun k => if Nat.eqb k 0 then 5 else 3 / 2) 0) as [_ L]. cbn [tensor nth] in L.
      eapply gas_is_ext; [|apply L; unfold dot, vsub; cbn; lra]. intros i Hi. cbn. ring.
Qed.

(** The default expressions, source/euler/initial_state_function.h:36-66 *)
Lemma C144_aeos_refuted_proof :
  let U := gas_function 2 (view_from_primitive air 2) (fun _ _ => 14 / 10) (fun i _ _ => if Nat.eqb i 0 then 3 else 0) (fun _ _ => 1) (fun _ => 0) 0 in
  gas_is (law air) 2 (14 / 10) (fun i => if Nat.eqb i 0 then 3 else 0) (56 / 100) U /\
  ~ gas_is (law air) 2 (14 / 10) (fun i => if Nat.eqb i 0 then 3 else 0) 1 U.
Proof.
  intros U. destruct (C144_aeos_proof (pg_eos pg_construct) 2 (fun _ _ => 14 / 10) (fun i _ _ => if Nat.eqb i 0 then 3 else 0) (fun _ _ => 1) (fun _ => 0) 0) as [H _]; [lra|].
  fold air in H. fold U in H. replace (eos_pressure (pg_eos pg_construct) (14 / 10) 1) with (56 / 100) in H
    by (cbn; unfold pg_pressure; cbn; field).
  split; [exact H|]. intros (_ & _ & P). destruct H as (_ & _ & Q). rewrite Q in P. lra.
Qed.

Lemma C144_case :
  gas_is (law helium) 1 (1 + 1 / 4) (fun _ => 3) (1 / 2)
    (gas_function 1 (view_from_primitive helium 1) (fun x t => 1 + x 0%nat * t) (fun _ _ _ => 3) (fun x _ => x 0%nat) (fun _ => 1 / 2) (1 / 2)).
Proof.
  pose proof (C144_euler_proof {| gamma := 5 / 3; reference_density := 1; vacuum_state_relaxation_small := 1; vacuum_state_relaxation_large := 1 |} 1
    (fun x t => 1 + x 0%nat * t) (fun _ _ _ => 3) (fun x _ => x 0%nat) (fun _ => 1 / 2) (1 / 2)) as H.
  cbn beta in H. replace (1 + 1 / 2 * (1 / 2)) with (1 + 1 / 4) in H by field. apply H; cbn; lra.
Qed.

(** ** A run with the dam break of equal depths *)
Lemma C145_run_proof p dim M num_min level cone (pos : nat -> RVec.vec) entries order n tmp sch rec cfl_min cfl_max t_final s : (1 <= dim)%nat ->
  let Z := fun i => three_bumps_bathymetry dim cone (pos i) in
  let data := fun x t => three_bumps (wp_system p) dim true level level cone x t in
  lake_setting p dim Z M num_min level [] data order -> 0 < gravity (wp_system p) ->
  Forall (fun e => be_position e = pos (be_row e)) entries ->
  (forall i, (i < n_rows M)%nat -> wet_or_dry (wp_system p) (wp_eps p) (data (pos i) 0 0%nat)) ->
  explicit_scheme sch = true -> 0 < cfl_max <= 1 -> (rec = bang_bang_control \/ st_cfl _ s = cfl_max) -> 0 <= t_final ->
  (forall i k, (i < n_rows M)%nat -> fst (st_vector _ s) i k = data (pos i) 0 k) ->
  exists s',
    steps (fun t => sw_step p dim Z M num_min entries data order n tmp sch rec cfl_min cfl_max t t_final) (fun _ _ => True) 0 s t_final s' /\
    counters_eq s s' /\ forall i k, (i < n_rows M)%nat -> (k <= dim)%nat -> fst (st_vector _ s') i k = data (pos i) 0 k.
Proof.
  intros Hd Z data LS Hg Pos WD Ex Cfl Rec Hf Init.
  destruct (C145_lake_proof p dim M num_min level cone pos entries order Hd LS Hg Pos) as [LS' AR].
  assert (L : forall i, data (pos i) 0 0%nat = Rmax 0 (level - Z i) /\ forall k, (1 <= k <= dim)%nat -> data (pos i) 0 k = 0).
  { intros i. unfold data. rewrite bumps_rest by (right; reflexivity). fold (Z i). split.
    - unfold tensor. cbn [nth]. rewrite Rmax_comm. destruct (Rlt_dec (pos i 0%nat) 16); reflexivity.
    - intros k Hk. destruct k as [|k]; [lia|]. apply tensor_rest. }
  assert (A0 : lake_at_rest (wp_system p) (wp_eps p) dim M Z level (fst (st_vector _ s))).
  { apply AR; [|exact Init]. intros i Hi. destruct (L i) as [L0 _]. pose proof (WD i Hi) as W. rewrite L0 in W. exact W. }
  destruct (C132_run_proof p dim Z M num_min level entries data order n tmp sch rec cfl_min cfl_max t_final 0 s LS' Ex Cfl Rec A0) as [Run Inv].
  destruct (Run Hf) as [s' St]. exists s'. split; [exact St|]. destruct (Inv _ _ St) as [Cn A1]. split; [exact Cn|].
  intros i k Hi Hk. destruct (A1 i Hi) as (B0 & _ & BM). destruct (L i) as [L0 LM]. destruct k as [|k].
  - rewrite B0, L0. reflexivity.
  - rewrite BM, LM by lia. reflexivity.
Qed.

(** Two pools beside a dry island, along the axis of the channel. *)
Definition isle (i : nat) : RVec.vec := fun _ => match i with 0%nat => 10 | 1%nat => 95 / 2 | _ => 60 end.
Definition isle_boundary : list bentry :=
  [ {| be_row := 0; be_normal := fun _ => -1; be_id := dirichlet; be_position := isle 0 |};
    {| be_row := 2; be_normal := fun _ => 1; be_id := dynamic; be_position := isle 2 |} ].

Lemma isle_Z i : (i < 3)%nat -> three_bumps_bathymetry 1 1 (isle i) = match i with 1%nat => 3 | _ => 0 end.
Proof.
  intros Hi. unfold three_bumps_bathymetry, isle. cbn [Nat.eqb]. destruct i as [|[|[|i]]]; [| | |lia].
  - replace ((10 - 95 / 2) * (10 - 95 / 2)) with (75 / 2 * (75 / 2)) by field. rewrite sqrt_square by lra. rewrite Rmax_right by lra. ring.
  - replace ((95 / 2 - 95 / 2) * (95 / 2 - 95 / 2)) with 0 by ring. rewrite sqrt_0. rewrite Rmax_left by lra. ring.
  - replace ((60 - 95 / 2) * (60 - 95 / 2)) with (25 / 2 * (25 / 2)) by field. rewrite sqrt_square by lra. rewrite Rmax_right by lra. ring.
Qed.

Lemma C145_run_case n sch cfl_min t_final (s : mstate sw_vector) : explicit_scheme sch = true -> 0 <= t_final ->
  let data := fun x t => three_bumps (wp_system pondp) 1 true 1 1 1 x t in
  (forall i k, (i < 3)%nat -> fst (st_vector _ s) i k = data (isle i) 0 k) ->
  exists s',
    steps (fun t => sw_step pondp 1 (fun i => three_bumps_bathymetry 1 1 (isle i)) ring3 (1 / 10000) isle_boundary data [2; 0; 1]%nat n no_contents
      sch bang_bang_control cfl_min (9 / 10) t t_final) (fun _ _ => True) 0 s t_final s' /\
    counters_eq s s' /\ fst (st_vector _ s') 0%nat 0%nat = 1 /\ fst (st_vector _ s') 1%nat 0%nat = 0.
Proof.
  intros Ex Hf data Init.
  destruct (C145_run_proof pondp 1 ring3 (1 / 10000) 1 1 isle isle_boundary [2; 0; 1]%nat n no_contents sch bang_bang_control cfl_min (9 / 10) t_final s)
    as (s' & St & Cn & Fin).
  - lia.
  - pose proof pond_setting as PS. unfold lake_setting in *. decompose [and] PS. repeat (split; [first [assumption|split; assumption]|]). constructor.
  - cbn. lra.
  - repeat constructor.
  - intros i Hi. cbn [n_rows ring3] in Hi. rewrite bumps_rest by (right; reflexivity). rewrite isle_Z by exact Hi. unfold tensor. cbn [nth].
    destruct pond_cutoff as [E1 E2]. cbn [wp_system wp_eps pondp]. unfold wet_or_dry.
    destruct (Rlt_dec (isle i 0%nat) 16); destruct i as [|[|i]].
    all: try (left; apply Rmax_right; lra).
    all: right; rewrite Rmax_left by lra; rewrite E1, E2; lra.
  - exact Ex.
  - lra.
  - left. reflexivity.
  - exact Hf.
  - intros i k Hi. apply Init. exact Hi.
  - exists s'. split; [exact St|]. split; [exact Cn|]. cbn [n_rows ring3] in Fin. split.
    + rewrite Fin by lia. rewrite bumps_rest by (right; reflexivity). rewrite isle_Z by lia. unfold tensor. cbn [nth].
      destruct (Rlt_dec (isle 0 0%nat) 16); rewrite Rmax_left by lra; ring.
    + rewrite Fin by lia. rewrite bumps_rest by (right; reflexivity). rewrite isle_Z by lia. unfold tensor. cbn [nth].
      destruct (Rlt_dec (isle 1 0%nat) 16); rewrite Rmax_right by lra; reflexivity.
Qed.

Lemma C145_hou_case : exists z U, hou_bathymetry 2 (fun k => if Nat.eqb k 0 then -200 else 0) = Some z /\
  hou_test 2 35 (fun k => if Nat.eqb k 0 then -200 else 0) 0 = Some U /\ z = 30 /\ U 0%nat = 5.
Proof.
  destruct (C145_hou_proof 2 35 (fun k => if Nat.eqb k 0 then -200 else 0) 0 ltac:(lia)) as (z & U & Ez & EU & Hz & St & _).
  exists z, U. split; [exact Ez|]. split; [exact EU|].
  assert (Z30 : z = 30).
  { unfold hou_bathymetry, coordinate in Ez. cbn [Nat.ltb Nat.leb Nat.eqb] in Ez. injection Ez as <-.
    rewrite (Rmin_left ((-200 + 250) * (-200 + 250) / 1600 + 0 * 0 / 400)) by lra. rewrite Rmin_left by lra.
    destruct (Rle_dec ((-200 - 200) * (-200 - 200) + (0 + 10) * (0 + 10)) 1000); [lra|].
    destruct (Rle_dec (Rabs (-200 - 380)) 40) as [A|A]; [unfold Rabs in A; destruct (Rcase_abs (-200 - 380)); lra|].
    rewrite (Rmax_left (80 - (-200 + 250) * (-200 + 250) / 50 - 0 * 0 / 50) 0) by lra. rewrite (Rmax_left (80 - _ - _) 0) by lra.
    rewrite Rmax_right by lra. lra. }
  split; [exact Z30|]. destruct St as (_ & H & _); [cbn; lra|]. rewrite Z30 in H. specialize (H ltac:(lra)). lra.
Qed.

Lemma C146_case : 0 < 981 / 100 /\ 0 < 1 /\ 0 < 1 / 10 /\
  exists t x, 1 < soliton (981 / 100) 1 (1 / 10) x t 0%nat < 1 + 1 / 10.
Proof.
  repeat split; try lra. exists 0, (fun _ => 1).
  set (c := sqrt (981 / 100 * (1 / 10 + 1))). set (w := sqrt (3 * (1 / 10) / (4 * 1 * 1 * (1 / 10 + 1)))).
  rewrite soliton_depth by lra. fold c w. replace (w * (1 - c * 0)) with (w * 1) by ring.
  assert (W : 0 < w) by (apply sqrt_lt_R0; lra). assert (K : 1 < cosh (w * 1)).
  { pose proof (cosh_lt (w * (1 / 2)) (w * 1) ltac:(lra)). pose proof (cosh_ge_1 (w * (1 / 2))). lra. }
  set (k := cosh (w * 1)) in *. assert (KK : 1 < k * k) by nra.
  assert (0 < 1 / (k * k)) by (apply Rdiv_lt_0_compat; lra).
  assert (1 / (k * k) < 1) by (apply (Rmult_lt_reg_r (k * k)); [lra|]; unfold Rdiv; rewrite Rmult_assoc, Rinv_l by lra; lra). lra.
Qed.
