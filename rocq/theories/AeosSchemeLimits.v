(** * Scheme with an arbitrary equation of state: C124 and C125 *)
From Coq Require Import Reals List Arith Bool Lia Lra Psatz FunctionalExtensionality.
From Verif Require Import RVec Newton PhysSpec PhysLib EulerSystem EulerLimiter EulerSpeed EulerRiemannSpec EulerRiemannProofs AeosSystem EulerLimiterBounds AeosLimiter AeosLimiterProofs AeosLimiterEntropy AeosLimiterBounds AeosRiemann AeosRiemannSpec AeosRiemannProofs AeosRiemannFinal
  AeosPrecompute Eos Indicator SWScheme SchemeSpec SchemeProofs SchemeUpdate SchemeLimit SchemeFinal ScalarSchemeProofs
  SchemeExamples SWSchemeExamples EulerScheme EulerSchemeSpec EulerSchemeProofs EulerSchemeFinal EulerSchemeExamples AeosScheme AeosSchemeSpec AeosSchemeProofs AeosSchemeCovolume AeosSchemeFinal AeosSchemeExamples AeosSchemeBounds.
From Verif Require Import Scheme.
Import ListNotations.
Local Open Scope R_scope.

Section Statements.
Variables (p : aparameters) (dim : nat) (M : mesh) (num_min cfl : R) (order : list nat) (d0 : nat -> nat -> R)
  (old : (nat -> state nat) * PC nat (aeos_scheme p dim)) (pc0 : nat -> prec) (tau : R).
Local Notation e := (a_eos (ap_system p)).
Local Notation bounds := (limiter_bounds_i (aeos_scheme p dim) M num_min old (dij_matrix (aeos_scheme p dim) M num_min old d0) tau order).

Local Notation limited_step := (limited_step p dim M num_min cfl order d0 old pc0 tau).

Lemma limited_inside : limited_step ->
  (forall i, active M i -> interp_b e * arho_max (bounds i) < 1) ->
  (forall i, active M i -> discontinuous M = false \/ 1 <= (1 + interp_b e) * arho_min (bounds i)) ->
  forall n a0 l0 ln0 new0 stages, (n <= 2)%nat ->
  (forall i, active M i ->
     let u := fst (hyperbolic_update (aeos_scheme p dim) M num_min order n a0 d0 l0 ln0 new0 old stages tau) i in
     a_entropy_inside e dim (bounds i) u /\ admissible_gas e dim u /\ interp_b e * u 0%nat < 1) /\
  ~ violation (aeos_scheme p dim) M num_min order n (compute_alpha (aeos_scheme p dim) M old a0)
      (dij_matrix (aeos_scheme p dim) M num_min old d0) new0 old stages tau.
Proof.
  intros ((A1 & A2 & A3 & A4 & A5 & A6 & A7) & (B1 & B2 & B3 & B4) & (C1 & C2 & C3 & C4) & D1 & D2 & D3 & D4 & D5) Hu Hv
    n a0 l0 ln0 new0 stages Hn.
  assert (C0 : 0 <= ap_eps p) by lra. split.
  - intros i Ha. cbv zeta.
    assert (Q : a_entropy_inside e dim (bounds i) (fst (hyperbolic_update (aeos_scheme p dim) M num_min order n a0 d0 l0 ln0 new0 old stages tau) i))
      by (apply (a_final_inside p dim M num_min old pc0 d0 tau A1 A2 A3 A4 A5 B1 C0 C2 C3 C4 D1 D2 D3 D4 cfl B2 B3 B4 A6 D5 order A7 C1 Hu Hv); assumption).
    split; [exact Q|]. apply (a_inside_admissible e dim (bounds i) _ D2 Q).
  - apply (a_no_violation p dim M num_min old pc0 d0 tau A1 A2 A3 A4 A5 B1 C0 C2 C3 C4 D1 D2 D3 D4 cfl B2 B3 B4 A6 D5 order A7 C1 Hu Hv).
Qed.

Lemma limited_upper : limited_step -> ap_relaxation p = 0 \/ interp_b e = 0 ->
  forall i, active M i -> interp_b e * arho_max (bounds i) < 1.
Proof.
  intros ((A1 & A2 & A3 & A4 & A5 & A6 & A7) & (B1 & B2 & B3 & B4) & (C1 & C2 & C3 & C4) & D1 & D2 & D3 & D4 & D5) [Z|Z] i Ha.
  - apply (a_limiter_bounds_unrelaxed p dim M num_min old pc0 d0 tau A1 A3 A4 A5 B1 C2 D1 D2 D3 D4 D5 order A7); assumption.
  - rewrite Z. lra.
Qed.

Lemma limited_good : limited_step -> forall i, active M i ->
  0 < arho_min (bounds i) /\ 1 < agamma_min (bounds i) /\ 0 < as_min (bounds i).
Proof.
  intros ((A1 & A2 & A3 & A4 & A5 & A6 & A7) & (B1 & B2 & B3 & B4) & (C1 & C2 & C3 & C4) & D1 & D2 & D3 & D4 & D5) i Ha.
  apply (a_limiter_bounds_good p dim M num_min old pc0 d0 tau A1 A3 A4 A5 B1 C2 C4 D1 D2 D3 D4 D5 order A7 i Ha).
Qed.
End Statements.


Lemma C124_bounds_partial_proof : forall p dim M num_min cfl order d0 (old : (nat -> state nat) * PC nat (aeos_scheme p dim)) pc0 tau,
  limited_step p dim M num_min cfl order d0 old pc0 tau ->
  let bounds := limiter_bounds_i (aeos_scheme p dim) M num_min old (dij_matrix (aeos_scheme p dim) M num_min old d0) tau order in
  (forall i, active M i -> interp_b (a_eos (ap_system p)) * arho_max (bounds i) < 1) ->
  (forall i, active M i -> discontinuous M = false \/ 1 <= (1 + interp_b (a_eos (ap_system p))) * arho_min (bounds i)) ->
  forall n a0 l0 ln0 new0 stages, (n <= 2)%nat ->
  (forall i, active M i ->
     let u := fst (hyperbolic_update (aeos_scheme p dim) M num_min order n a0 d0 l0 ln0 new0 old stages tau) i in
     a_entropy_inside (a_eos (ap_system p)) dim (bounds i) u /\
     admissible_gas (a_eos (ap_system p)) dim u /\ interp_b (a_eos (ap_system p)) * u 0%nat < 1) /\
  ~ violation (aeos_scheme p dim) M num_min order n (compute_alpha (aeos_scheme p dim) M old a0)
      (dij_matrix (aeos_scheme p dim) M num_min old d0) new0 old stages tau.
Proof. intros. eapply limited_inside; eassumption. Qed.

Lemma C124_unrelaxed_proof : forall p dim M num_min cfl order d0 (old : (nat -> state nat) * PC nat (aeos_scheme p dim)) pc0 tau,
  limited_step p dim M num_min cfl order d0 old pc0 tau ->
  ap_relaxation p = 0 \/ interp_b (a_eos (ap_system p)) = 0 -> discontinuous M = false ->
  forall n a0 l0 ln0 new0 stages, (n <= 2)%nat ->
  (forall i, active M i ->
     let u := fst (hyperbolic_update (aeos_scheme p dim) M num_min order n a0 d0 l0 ln0 new0 old stages tau) i in
     admissible_gas (a_eos (ap_system p)) dim u /\ interp_b (a_eos (ap_system p)) * u 0%nat < 1) /\
  ~ violation (aeos_scheme p dim) M num_min order n (compute_alpha (aeos_scheme p dim) M old a0)
      (dij_matrix (aeos_scheme p dim) M num_min old d0) new0 old stages tau.
Proof.
  intros p dim M num_min cfl order d0 old pc0 tau HL Hr Hd n a0 l0 ln0 new0 stages Hn.
  destruct (limited_inside p dim M num_min cfl order d0 old pc0 tau HL
    (limited_upper p dim M num_min cfl order d0 old pc0 tau HL Hr) ltac:(intros i _; left; exact Hd) n a0 l0 ln0 new0 stages Hn) as [A B].
  split; [|exact B]. intros i Ha. apply (A i Ha).
Qed.

(** ** Two bounds *)

Lemma C125_combine_proof e dim a b u : 0 <= interp_b e -> 0 <= excess_energy e dim u ->
  (0 < arho_min a /\ interp_b e * arho_max a < 1 /\ 1 < agamma_min a /\ 0 < as_min a) ->
  (0 < arho_min b /\ interp_b e * arho_max b < 1 /\ 1 < agamma_min b /\ 0 < as_min b) ->
  agamma_min a = agamma_min b \/ 1 <= (1 + interp_b e) * u 0%nat ->
  a_entropy_inside e dim a u \/ a_entropy_inside e dim b u ->
  a_entropy_inside e dim (a_combine_bounds a b) u.
Proof.
  intros Hb Hex (A1 & A2 & A3 & A4) (B1 & B2 & B3 & B4) Hg Hin.
  destruct (a_combine_contains a b) as [K1 K2].
  assert (U : 0 < u 0%nat /\ 0 < 1 - interp_b e * u 0%nat).
  { destruct Hin as [H|H]; eapply a_inside_covolume; try exact Hb; apply H. }
  assert (W : arho_min (a_combine_bounds a b) <= u 0%nat <= arho_max (a_combine_bounds a b)).
  { destruct Hin as [(H & _)|(H & _)]; destruct H as (_ & H & _); lra. }
  split; [split; [|split; [exact W|]]|].
  - cbn. apply Rmin_glb_lt; assumption.
  - cbn. unfold Rmax. destruct (Rle_dec _ _); assumption.
  - split; [cbn; apply Rmin_glb_lt; assumption|]. split; [cbn; apply Rmin_glb_lt; assumption|].
    cbn [a_combine_bounds as_min agamma_min].
    assert (HH : 0 < / (1 - interp_b e * u 0%nat)) by (apply Rinv_0_lt_compat; apply U).
    assert (PM : forall g, g = agamma_min a \/ g = agamma_min b ->
       excess_energy e dim u * powr (1 / u 0%nat - interp_b e) g / (1 - interp_b e * u 0%nat) <=
       excess_energy e dim u * powr (1 / u 0%nat - interp_b e) (Rmin (agamma_min a) (agamma_min b)) / (1 - interp_b e * u 0%nat)).
    { intros g Hgg. apply Rmult_le_compat_r; [lra|]. apply Rmult_le_compat_l; [exact Hex|].
      destruct Hg as [Hg|Hg].
      - rewrite <- Hg in *. rewrite Rmin_left by lra. replace g with (agamma_min a) by (destruct Hgg; congruence). lra.
      - apply power_monotone.
        + replace (1 / u 0%nat - interp_b e) with ((1 - interp_b e * u 0%nat) / u 0%nat) by (field; lra).
          split; [apply Rdiv_lt_0_compat; apply U|]. apply Rmult_le_reg_r with (u 0%nat); [apply U|].
          replace ((1 - interp_b e * u 0%nat) / u 0%nat * u 0%nat) with (1 - interp_b e * u 0%nat) by (field; lra). lra.
        + destruct Hgg as [-> | ->]; [apply Rmin_l|apply Rmin_r]. }
    destruct Hin as [(_ & _ & _ & H)|(_ & _ & _ & H)].
    + apply (Rle_trans _ _ _ (Rmin_l _ _)), (Rle_trans _ _ _ H), PM. auto.
    + apply (Rle_trans _ _ _ (Rmin_r _ _)), (Rle_trans _ _ _ H), PM. auto.
Qed.

(** ** The setting is met *)

Lemma list_lower (l : list R) : (forall t, In t l -> 0 < t) -> exists m, 0 < m /\ forall t, In t l -> m <= t.
Proof.
  induction l as [|a l IH]; intros Hl.
  - exists 1. split; [lra|intros t []].
  - destruct IH as (m & Hm & Hb); [intros t Hin; apply Hl; right; exact Hin|].
    exists (Rmin a m). split; [apply Rmin_glb_lt; [apply Hl; left; reflexivity|exact Hm]|].
    intros t [<-|Hin]; [apply Rmin_l|]. eapply Rle_trans; [apply Rmin_r|apply Hb, Hin].
Qed.

Lemma dij_num_min K (Sy : system K) M nm nm' old d0 i j : i <> j -> dij_matrix Sy M nm old d0 i j = dij_matrix Sy M nm' old d0 i j.
Proof. intros H. unfold dij_matrix. destruct (Nat.eqb_spec i j); [contradiction|]. reflexivity. Qed.

Lemma fast_exists p dim M (old : (nat -> state nat) * PC nat (aeos_scheme p dim)) pc0 d0 :
  symmetric_pattern M -> valid_numbering M -> pairs_listed M ->
  interp_pinf (a_eos (ap_system p)) = 0 -> 0 <= interp_b (a_eos (ap_system p)) ->
  (forall i, active M i -> aeos_gas (a_eos (ap_system p)) dim (fst old i)) ->
  snd old = aeos_precomputed p dim M (fst old) pc0 ->
  (forall i j, active M i -> In j (neighbours M i) -> 0 < cnorm (c_ij M i j)) ->
  exists nm, 0 < nm /\ forall i, active M i -> a_fast p dim M nm old d0 i.
Proof.
  intros H HV HP Hinf Hb Hg Hpc Hn.
  pose proof (a_pc_ok p dim M old pc0 Hpc) as Hok.
  set (f := fun i j => dij_matrix (aeos_scheme p dim) M 1 old d0 i j).
  destruct (list_lower (flat_map (fun i => map (f i) (neighbours M i)) (active_rows M))) as (m & Hm & Hl).
  { intros t Ht. apply in_flat_map in Ht. destruct Ht as (i & Hi & Ht). apply in_map_iff in Ht. destruct Ht as (j & <- & Hj).
    apply active_rows_in in Hi. destruct Hi as [Hi Hc]. destruct (neighbours_bound M i j H Hi Hj) as [Hjb [Hij Hne]].
    assert (Ai : active M i) by (apply active_constrained; auto).
    pose proof (col_active M i j H Hi Hj) as Aj.
    destruct (dij_bounds (aeos_scheme p dim) M 1 old d0 H HV i j HP Hi Hj) as [_ [B|[_ B]]]; (eapply Rlt_le_trans; [|exact B]).
    - apply (a_speed_positive p dim Hinf Hb M old H Hok Hg i j Hi Hj). apply Hn; assumption.
    - apply (a_speed_positive p dim Hinf Hb M old H Hok Hg j i Hjb Hij). apply Hn; assumption. }
  exists (m / 100). split; [lra|]. intros i Ha j Hj. destruct (proj1 (active_constrained M i) Ha) as [Hi Hc].
  destruct (neighbours_bound M i j H Hi Hj) as [_ [_ Hne]].
  rewrite (dij_num_min _ _ M (m / 100) 1 old d0 i j) by congruence.
  replace (100 * (m / 100)) with m by field. apply Hl. apply in_flat_map. exists i. split.
  - apply active_rows_in. auto.
  - apply in_map_iff. exists j. auto.
Qed.

Lemma ring3_norm i j : active ring3 i -> In j (neighbours ring3 i) -> 0 < cnorm (c_ij ring3 i j).
Proof.
  intros [Hi _] Hj. rows3 i Hi; cbn in Hj; destruct Hj as [<-|[<-|[]]]; unfold cnorm; cbn; apply sqrt_lt_R0; lra.
Qed.

Lemma C124_setting : exists num_min tau, 0 < tau /\
  limited_step noble_params 1 ring3 num_min 1 [0; 1; 2]%nat (fun _ _ => 0) (noble_old ring3) noble_pc0 tau /\
  ap_relaxation noble_params = 0 /\ interp_b gas_eos = 1 / 8 /\ discontinuous ring3 = false /\
  fst (noble_old ring3) 0%nat 0%nat <> fst (noble_old ring3) 2%nat 0%nat.
Proof.
  destruct (fast_exists noble_params 1 ring3 (noble_old ring3) noble_pc0 (fun _ _ => 0) ring3_pattern ring3_numbering ring3_pairs
    eq_refl ltac:(cbn; lra) ltac:(intros i _; apply noble_gas) eq_refl ring3_norm) as (nm & Hnm & Hf).
  destruct (step_exists (aeos_scheme noble_params 1) ring3 nm 1 (noble_old ring3) (fun _ _ => 0) ring3_pattern ring3_masses Hnm ltac:(lra)) as (tau & Ht & Hs).
  exists nm, tau. split; [exact Ht|]. split; [|split; [reflexivity|split; [reflexivity|split; [reflexivity|cbn; unfold mkstate; cbn; lra]]]].
  split; [|split; [|split; [|split; [|split; [|split; [|split]]]]]].
  - split; [exact ring3_pattern|]. split; [exact ring3_masses|]. split; [exact ring3_numbering|]. split; [exact ring3_pairs|].
    split; [exact ring3_dimension|]. split; [intros i [Hi _]; apply ring3_sum; exact Hi|].
    intros i Hi. cbn in *. intuition lia.
  - split; [exact Hnm|]. split; [lra|]. split; [lra|]. exact Hs.
  - split; [reflexivity|]. split; [cbn; lra|]. split; [cbn; lra|]. intros i _. cbn [ap_relaxation noble_params]. lra.
  - reflexivity.
  - cbn. lra.
  - intros i _. apply noble_gas.
  - reflexivity.
  - exact Hf.
Qed.

(** Bounds with gammas 7/5 and 6/5, covolume 1/8 and a gas of density 1. *)
Lemma C125_combine_setting : exists e a b u,
  interp_b e = 1 / 8 /\ 0 < excess_energy e 1 u /\
  (0 < arho_min a /\ interp_b e * arho_max a < 1 /\ 1 < agamma_min a /\ 0 < as_min a) /\
  (0 < arho_min b /\ interp_b e * arho_max b < 1 /\ 1 < agamma_min b /\ 0 < as_min b) /\
  agamma_min a <> agamma_min b /\ 1 <= (1 + interp_b e) * u 0%nat /\ u 0%nat < 1 /\
  a_entropy_inside e 1 a u /\ as_min a <> as_min b.
Proof.
  set (u := mkstate 1 (9 / 10) (fun _ => 0) 2).
  exists gas_eos, {| arho_min := 1 / 2; arho_max := 2; as_min := 1 / 2; agamma_min := 7 / 5 |},
    {| arho_min := 1 / 3; arho_max := 3; as_min := 1 / 4; agamma_min := 6 / 5 |}, u.
  assert (E : excess_energy gas_eos 1 u = 2).
  { unfold excess_energy, inner_energy, u, mkstate. cbn -[IZR]. field. }
  split; [reflexivity|]. split; [rewrite E; lra|]. cbn [arho_min arho_max as_min agamma_min interp_b gas_eos].
  assert (U0 : u 0%nat = 9 / 10) by reflexivity.
  repeat split; try rewrite U0; try (cbn; lra).
  rewrite E. cbn [as_min agamma_min interp_b gas_eos].
  (* (10/9 - 1/8)^{7/5} >= (10/9-1/8)^2 *)
  pose proof (powr_exp_le (1 / (9 / 10) - 1 / 8) (7 / 5) 2 ltac:(lra) ltac:(lra)) as P.
  rewrite powr_2 in P by lra. cbn. cbn in P.
  apply Rmult_le_reg_r with (1 - 1 / 8 * (9 / 10)); [lra|]. 
  match goal with |- _ <= ?x / ?y * ?y => replace (x / y * y) with x by (field; lra) end.
  match type of P with _ <= ?z => set (w := z) in * end. lra.
Qed.
