From Coq Require Import Reals List Arith Bool Lia Lra FunctionalExtensionality.
From Verif Require Import RVec EulerSystem AeosSystem AeosPhysProofs AeosPrecompute AeosScheme AeosSchemeSpec AeosSchemeProofs AeosSchemeFinal AeosSchemeLimits
  SchemeSpec SchemeProofs SchemeLimit SchemeFinal
  TimeInt TimeIntSpec TimeIntProofs EulerRun EulerRunSpec EulerRunProofs EulerRunFinal RunLib AeosRun AeosRunSpec.
From Verif Require Import Scheme.
Import ListNotations.
Local Open Scope R_scope.

(** ** The set of gases *)
Section Gases.
Variables (e : eos) (dim : nat).
Hypothesis Hcomp : compatible_eos e.

Lemma gas_of u : admissible_gas e dim u -> interp_b e * u 0%nat < 1 -> aeos_gas e dim u.
Proof using Hcomp.
  intros A B. split; [exact A|]. split; [exact B|]. destruct A as [A1 A2]. apply Hcomp; [exact A1|exact B|].
  unfold excess_energy in A2. replace (u 0%nat * (inner_energy dim u / u 0%nat)) with (inner_energy dim u) by (field; lra). exact A2.
Qed.

Lemma gas_more u v : aeos_gas e dim u -> a_density v = a_density u -> a_internal_energy dim u <= a_internal_energy dim v -> aeos_gas e dim v.
Proof using Hcomp.
  intros ([A1 A2] & B & _) D I. change (v 0%nat = u 0%nat) in D.
  apply gas_of; [split|]; [lra| |rewrite D; exact B].
  unfold excess_energy in *. rewrite inner_energy_eq in * by lra. rewrite D. lra.
Qed.

Lemma gas_mix a b u v : 0 <= a -> 0 <= b -> a + b = 1 -> aeos_gas e dim u -> aeos_gas e dim v -> aeos_gas e dim (splus (smult a u) (smult b v)).
Proof using Hcomp.
  intros Ha Hb E ([A1 A2] & B & _) ([A1' A2'] & B' & _). assert (Eb : b = 1 - a) by lra. subst b.
  change (splus (smult a u) (smult (1 - a) v)) with (fun k => a * u k + (1 - a) * v k).
  pose proof (inner_concave dim u v a A1 A1' ltac:(lra)) as Q. unfold excess_energy in *.
  assert (M : forall x y, 0 < x -> 0 < y -> 0 < a * x + (1 - a) * y) by (intros; nra).
  apply gas_of; [split|].
  - apply M; assumption.
  - unfold excess_energy. pose proof (M _ _ A2 A2'). lra.
  - pose proof (M (1 - interp_b e * u 0%nat) (1 - interp_b e * v 0%nat) ltac:(lra) ltac:(lra)). lra.
Qed.
End Gases.

(** ** Substeps *)
Section Setting.
Variables (p : aparameters) (dim : nat) (M : mesh) (nm : R)
  (entries : list bentry) (data : RVec.vec -> R -> state nat) (order : list nat) (n : nat).
Hypothesis HI : aeos_setting p dim M nm entries data order n.
Variable tmp : aeos_vector -> aeos_temporaries.
Local Notation e := (a_eos (ap_system p)).
Local Notation inside v := (all_gas (a_eos (ap_system p)) dim M (fst v)).
Local Notation prep := (aeos_prepare p dim M entries data).
Local Notation rows := (aeos_rows p dim M nm tmp).
Local Notation hyp := (aeos_update p dim M nm order n tmp).

Lemma set_compatible : compatible_eos e.
Proof using HI. apply HI. Qed.

Lemma boundary_gas t l U : Forall (gas_entry e dim data) l -> all_gas e dim M U -> all_gas e dim M (aeos_apply_boundary dim l data t U).
Proof using HI.
  pose proof set_compatible as HC.
  unfold aeos_apply_boundary. intros H. revert U. induction H as [|b l Hb _ IH]; intros U HU; [exact HU|].
  cbn [fold_left]. apply IH. unfold gas_entry in Hb.
  assert (G : forall u, (active M (be_row b) -> aeos_gas e dim u) -> all_gas e dim M (upd U (be_row b) u)).
  { intros u Hu k Hk. unfold upd. destruct (Nat.eqb_spec k (be_row b)) as [E|]; [apply Hu; rewrite <- E; exact Hk|apply HU, Hk]. }
  destruct (be_id b); try contradiction; try exact HU.
  - apply G. intros Ha. apply HU, Ha.
  - match goal with |- context [match ?x with Some _ => _ | None => _ end] => destruct x as [V|] eqn:EV; [|exact HU] end. apply G. intros Ha.
    destruct (a_slip_spec dim (U (be_row b)) (be_normal b) (data (be_position b) t) V Hb EV) as (D & _ & _ & _ & I & _).
    pose proof (HU _ Ha) as Gu. apply (gas_more e dim HC (U (be_row b)) V Gu D). apply I. apply Gu.
  - match goal with |- context [match ?x with Some _ => _ | None => _ end] => destruct x as [V|] eqn:EV; [|exact HU] end. apply G. intros Ha.
    destruct (a_no_slip_spec dim (U (be_row b)) (be_normal b) (data (be_position b) t) V EV) as (D & _ & _ & I & _).
    pose proof (HU _ Ha) as Gu. apply (gas_more e dim HC (U (be_row b)) V Gu D). apply I. apply Gu.
  - cbn [a_apply_boundary_conditions]. apply G. intros _. apply Hb.
  - apply G. intros Ha. apply HU, Ha.
Qed.
Lemma gas_prepare t v : inside v -> inside (prep t v).
Proof using HI. intros H. unfold aeos_prepare. cbv zeta. cbn [fst]. apply boundary_gas; [apply HI|exact H]. Qed.
Lemma gas_sadd x y v w : 0 <= x -> 0 <= y -> x + y = 1 -> inside v -> inside w -> inside (aeos_sadd v x y w).
Proof using HI.
  intros Hx Hy E Hv Hw i Hi. unfold aeos_sadd. cbn [fst]. apply gas_mix; try assumption; [apply set_compatible|apply Hv, Hi|apply Hw, Hi].
Qed.

Lemma aeos_rows_fine cfl v : 0 < cfl -> rows cfl v <> [] /\ Forall (fun x => 0 < x) (rows cfl v).
Proof using HI.
  destruct HI as (Hpat & Hm & Hnum & Hpairs & Hdim & Hsum & (i & Hi) & _ & _ & _ & Hnm & _). intros Hc. split.
  - intros E. unfold aeos_rows, row_tau in E. apply map_eq_nil in E.
    assert (A : In i (active_rows M)) by (apply active_spec, Hi). rewrite E in A. destruct A.
  - apply Forall_forall. intros x Hx. eapply (row_tau_positive (aeos_scheme p dim) M nm cfl v); eassumption.
Qed.

Lemma gas_substep (o : aeos_vector) pc0 st tau : snd o = aeos_precomputed p dim M (fst o) pc0 -> inside o -> 0 < tau ->
  aeos_suitable p dim M nm tmp tau o -> inside (fst (hyp o st tau)) /\ snd (hyp o st tau) = false.
Proof using HI.
  intros Hpc Ho Ht [Hf Hr]. pose proof set_compatible as HC.
  destruct HI as (Hpat & Hm & Hnum & Hpairs & Hdim & Hsum & _ & Hd & Hord & Hn & Hnm & Heps & Hbig & Hrel & Hmod & Hinf & Hb & Hor & _ & _).
  assert (L : limited_step p dim M nm 1 order (at_d (tmp o)) o pc0 tau).
  { split; [repeat (split; [assumption|]); assumption|]. split; [split; [exact Hnm|split; [lra|split; [lra|exact Hr]]]|].
    split; [repeat (split; [assumption|]); assumption|]. split; [exact Hinf|]. split; [exact Hb|]. split; [exact Ho|]. split; [exact Hpc|exact Hf]. }
  destruct (C124_unrelaxed_proof p dim M nm 1 order (at_d (tmp o)) o pc0 tau L Hor Hd n (at_a (tmp o)) (at_l (tmp o)) (at_ln (tmp o)) (at_new (tmp o)) st Hn) as [A B].
  unfold aeos_update. cbv zeta. cbn [fst snd]. split.
  - intros i Hi. destruct (A i Hi) as [A1 A2]. apply gas_of; assumption.
  - destruct (snd (hyperbolic_update _ _ _ _ _ _ _ _ _ _ _ _ _)) eqn:E; [|reflexivity]. exfalso. apply B.
    unfold hyperbolic_update, update in E. cbn [snd] in E. apply restart_spec in E. destruct E as [E1 (i & j & Hi & Hj & E2)].
    split; [exact E1|]. exists i, j. split; [exact Hi|]. destruct (neighbours_columns M i j Hpat (proj1 Hi) Hj) as [Q1 Q2]. auto.
Qed.

Lemma gas_AN tau t v st : 0 < tau -> inside v -> aeos_suitable p dim M nm tmp tau (prep t v) -> inside (fst (hyp (prep t v) st tau)).
Proof using HI. intros Ht Hv Hs. eapply gas_substep; [reflexivity|apply gas_prepare, Hv|exact Ht|exact Hs]. Qed.
Lemma gas_AF tau t v st : 0 < tau -> inside v -> aeos_suitable p dim M nm tmp tau (prep t v) -> snd (hyp (prep t v) st tau) = false.
Proof using HI. intros Ht Hv Hs. eapply gas_substep; [reflexivity|apply gas_prepare, Hv|exact Ht|exact Hs]. Qed.
End Setting.

Lemma C135_step_proof : forall p dim M num_min entries data order n tmp sch rec cfl_min cfl_max t t_final s,
  aeos_setting p dim M num_min entries data order n ->
  explicit_scheme sch = true -> 0 < cfl_max ->
  (rec = bang_bang_control \/ st_cfl _ s = cfl_max) -> t < t_final ->
  all_gas (a_eos (ap_system p)) dim M (fst (st_vector _ s)) ->
  let h := aeos_step_size p dim M num_min entries data tmp sch cfl_max t t_final (st_vector _ s) in
  aeos_cautious p dim M num_min entries data order n tmp sch t (st_vector _ s) h ->
  exists s', aeos_step p dim M num_min entries data order n tmp sch rec cfl_min cfl_max t t_final s = (Ok h, s') /\
    0 < h /\ counters_eq s s' /\ all_gas (a_eos (ap_system p)) dim M (fst (st_vector _ s')).
Proof.
  intros p dim M nm entries data order n tmp sch rec c0 c1 t tf s HI Hs Hc Hx Ht Hv h Hcau.
  destruct (careful_step aeos_vector (aeos_prepare p dim M entries data) (aeos_rows p dim M nm tmp) (aeos_update p dim M nm order n tmp) aeos_no_parabolic aeos_sadd
      (fun v => all_gas (a_eos (ap_system p)) dim M (fst v))
      (gas_prepare p dim M nm entries data order n HI) (gas_sadd p dim M nm entries data order n HI) c1 (aeos_suitable p dim M nm tmp)
      (gas_AN p dim M nm entries data order n HI tmp) (gas_AF p dim M nm entries data order n HI tmp)
      (fun v => aeos_rows_fine p dim M nm entries data order n HI tmp c1 v Hc) sch rec c0 t tf s Hs Hx Ht Hv Hcau) as (s' & Q & A & B & _ & C).
  exists s'. auto.
Qed.

Lemma C135_run_proof : forall p dim M num_min entries data order n tmp sch rec cfl_min cfl_max t_final t s t' s',
  aeos_setting p dim M num_min entries data order n ->
  explicit_scheme sch = true -> 0 < cfl_max ->
  (rec = bang_bang_control \/ st_cfl _ s = cfl_max) ->
  all_gas (a_eos (ap_system p)) dim M (fst (st_vector _ s)) ->
  steps (fun t => aeos_step p dim M num_min entries data order n tmp sch rec cfl_min cfl_max t t_final)
    (fun t s => aeos_cautious p dim M num_min entries data order n tmp sch t (st_vector _ s)
                  (aeos_step_size p dim M num_min entries data tmp sch cfl_max t t_final (st_vector _ s))) t s t' s' ->
  all_gas (a_eos (ap_system p)) dim M (fst (st_vector _ s')) /\ counters_eq s s' /\ t <= t'.
Proof.
  intros p dim M nm entries data order n tmp sch rec c0 c1 tf t s t' s' HI Hs Hc Hx Hv H.
  apply (careful_steps aeos_vector (aeos_prepare p dim M entries data) (aeos_rows p dim M nm tmp) (aeos_update p dim M nm order n tmp) aeos_no_parabolic aeos_sadd
      (fun v => all_gas (a_eos (ap_system p)) dim M (fst v))
      (gas_prepare p dim M nm entries data order n HI) (gas_sadd p dim M nm entries data order n HI) c1 (aeos_suitable p dim M nm tmp)
      (gas_AN p dim M nm entries data order n HI tmp) (gas_AF p dim M nm entries data order n HI tmp)
      (fun v => aeos_rows_fine p dim M nm entries data order n HI tmp c1 v Hc) sch rec c0 tf t s t' s' Hs Hx H Hv).
Qed.

(** Forward Euler steps up to the CFL number 1 are always suitable. *)
Lemma C135_forward_euler_proof : forall p dim M num_min entries data order n tmp cfl t t_final v,
  0 < cfl <= 1 -> aeos_setting p dim M num_min entries data order n ->
  (forall i, active M i -> a_fast p dim M num_min (aeos_prepare p dim M entries data t v) (at_d (tmp (aeos_prepare p dim M entries data t v))) i) ->
  aeos_cautious p dim M num_min entries data order n tmp erk_11 t v
    (aeos_step_size p dim M num_min entries data tmp erk_11 cfl t t_final v).
Proof.
  intros p dim M nm entries data order n tmp cfl t tf v Hc HI Hf o st Hi. unfold aeos_step_size, trace in Hi |- *. cbn [efficiency fst] in Hi |- *.
  destruct Hi as [Hi|[]]. injection Hi as E1 E2. rewrite <- E1. clear E1. split; [exact Hf|]. intros x Hx. set (o' := aeos_prepare p dim M entries data t v) in *.
  replace (1 * fold_right Rmin ((tf - t) / 1) (aeos_rows p dim M nm tmp cfl o') / 1) with (fold_right Rmin ((tf - t) / 1) (aeos_rows p dim M nm tmp cfl o')) by field.
  assert (Q : 0 < x).
  { destruct (aeos_rows_fine p dim M nm entries data order n HI tmp 1 o' ltac:(lra)) as [_ F]. rewrite Forall_forall in F. apply F, Hx. }
  assert (In (cfl * x) (aeos_rows p dim M nm tmp cfl o')).
  { unfold aeos_rows, row_tau in *. apply in_map_iff in Hx. destruct Hx as (i & <- & Hi). apply in_map_iff. exists i. split; [|exact Hi]. unfold Rdiv. ring. }
  apply Rle_trans with (cfl * x); [apply fold_Rmin_in; assumption|]. nra.
Qed.

(** ** Conservation *)
Lemma C135_total_proof : forall p dim M num_min data order n tmp sch rec cfl_min cfl_max t_final t s t' s',
  symmetric_pattern M -> positive_masses M -> valid_numbering M -> symmetric_matrices M ->
  (forall i j, active M i -> In j (columns M i) -> skew_at M i j) ->
  (forall i j, (i < n_rows M)%nat -> (j < n_rows M)%nat -> owner M i = owner M j) ->
  explicit_scheme sch = true ->
  steps (fun t => aeos_step p dim M num_min [] data order n tmp sch rec cfl_min cfl_max t t_final) (fun _ _ => True) t s t' s' ->
  forall k, total M (active_rows M) (fst (st_vector _ s')) k = total M (active_rows M) (fst (st_vector _ s)) k.
Proof.
  intros p dim M nm data order n tmp sch rec c0 c1 tf t s t' s' Hpat Hmass Hnum Hsym Hskew Hone Hs H k.
  set (V := total M (active_rows M) (fst (st_vector _ s)) k).
  assert (AP : forall t v, total M (active_rows M) (fst v) k = V -> total M (active_rows M) (fst (aeos_prepare p dim M [] data t v)) k = V) by (intros t0 v Q; exact Q).
  assert (AC : forall x y v w, 0 <= x -> 0 <= y -> x + y = 1 -> total M (active_rows M) (fst v) k = V -> total M (active_rows M) (fst w) k = V ->
    total M (active_rows M) (fst (aeos_sadd v x y w)) k = V).
  { intros x y v w _ _ E Hv Hw. unfold aeos_sadd. cbn [fst]. rewrite total_linear, Hv, Hw, <- Rmult_plus_distr_r, E. ring. }
  assert (AN : forall tau t v st, total M (active_rows M) (fst v) k = V ->
    total M (active_rows M) (fst (fst (aeos_update p dim M nm order n tmp (aeos_prepare p dim M [] data t v) st tau))) k = V).
  { intros tau t0 v st Hv. unfold aeos_update. cbv zeta. cbn [fst]. set (o := aeos_prepare p dim M [] data t0 v).
    etransitivity; [exact (C122_one_rank_proof p dim M nm order n (at_a (tmp o)) (at_d (tmp o)) (at_l (tmp o)) (at_ln (tmp o)) (at_new (tmp o)) o st tau k
      Hpat Hmass Hnum Hsym Hskew Hone)|exact Hv]. }
  apply (steps_kept aeos_vector (aeos_prepare p dim M [] data) (aeos_rows p dim M nm tmp) (aeos_update p dim M nm order n tmp) aeos_no_parabolic aeos_sadd
    (fun v => total M (active_rows M) (fst v) k = V) AP AC AN (fun _ _ => True) sch rec c0 c1 tf t s t' s' Hs H).
  reflexivity.
Qed.

Lemma C135_completes_proof : forall p dim M num_min entries data order n tmp sch cfl_min cfl_max t t_final s,
  symmetric_pattern M -> positive_masses M -> (exists i, active M i) -> 0 < num_min ->
  explicit_scheme sch = true -> 0 < cfl_min -> 0 < cfl_max -> t < t_final ->
  exists h s', aeos_step p dim M num_min entries data order n tmp sch bang_bang_control cfl_min cfl_max t t_final s = (Ok h, s') /\
    0 < h <= t_final - t.
Proof.
  intros p dim M nm entries data order n tmp sch c0 c1 t tf s Hpat Hmass (i & Hi) Hnm Hs H0 H1 Ht.
  destruct (progress_pos aeos_vector (aeos_prepare p dim M entries data) (aeos_rows p dim M nm tmp) (aeos_update p dim M nm order n tmp) aeos_no_parabolic aeos_sadd
    sch c0 c1 t tf s) as (h & s' & Q); try assumption.
  - intros cfl v Hc. split.
    + intros E. unfold aeos_rows, row_tau in E. apply map_eq_nil in E.
      assert (A : In i (active_rows M)) by (apply active_spec, Hi). rewrite E in A. destruct A.
    + apply Forall_forall. intros x Hx. eapply (row_tau_positive (aeos_scheme p dim) M nm cfl v); eassumption.
  - exists h, s'. split; [exact Q|]. apply step_tau in Q. lra.
Qed.
