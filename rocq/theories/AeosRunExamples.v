From Coq Require Import Reals List Arith Bool Lia Lra FunctionalExtensionality.
From Verif Require Import RVec EulerSystem AeosSystem AeosPrecompute AeosScheme AeosSchemeSpec AeosSchemeFinal AeosSchemeExamples AeosSchemeLimits
  SchemeSpec SchemeProofs SchemeFinal SchemeExamples EulerSchemeExamples ScalarRunExamples
  TimeInt TimeIntSpec TimeIntProofs EulerRun EulerRunSpec EulerRunExamples AeosRun AeosRunSpec AeosRunProofs.
From Verif Require Import Scheme.
Import ListNotations.
Local Open Scope R_scope.

(** ** A gas with covolume 1/8 between walls *)
Definition noble_data : RVec.vec -> R -> state nat := fun _ _ => noble_U 2.
Definition noble_tmp : aeos_vector -> aeos_temporaries := fun _ =>
  {| at_a := fun _ => 0; at_d := fun _ _ => 0; at_l := fun _ _ => 0; at_ln := fun _ _ => 0; at_new := fun _ _ => 0; at_pc := noble_pc0 |}.

Lemma noble_walls : Forall (gas_entry gas_eos 1 noble_data) walls.
Proof.
  repeat apply Forall_cons; try apply Forall_nil; unfold gas_entry; cbn [be_id be_normal be_position].
  - unfold norm2, RVec.dot. cbn. ring.
  - exact Logic.I.
  - intros t. apply noble_gas.
Qed.

Lemma noble_setting nm n : 0 < nm -> (n <= 2)%nat -> aeos_setting noble_params 1 ring3 nm walls noble_data [2; 0; 1]%nat n.
Proof.
  intros Hnm Hn. repeat (split; [first [assumption | exact ring3_pattern | exact ring3_masses | exact ring3_numbering | exact ring3_pairs | exact ring3_dimension | reflexivity | idtac]|]).
  - intros i [Hi _]. apply ring3_sum, Hi.
  - exists 0%nat. split; cbn; lia.
  - intros i [<-|[<-|[<-|[]]]]; cbn; lia.
  - cbn. lra.
  - cbn. lra.
  - intros i _. cbn [ap_relaxation noble_params]. lra.
  - cbn. lra.
  - left. reflexivity.
  - apply C123_compatible_proof. lra.
  - exact noble_walls.
Qed.

Lemma C135_ex_proof : exists num_min, 0 < num_min /\
  forall n rec cfl_min t t_final (s : mstate aeos_vector),
  (n <= 2)%nat -> (rec = bang_bang_control \/ st_cfl _ s = 9 / 10) -> t < t_final -> st_vector _ s = (noble_U, noble_pc0) ->
  exists h s', aeos_step noble_params 1 ring3 num_min walls noble_data [2; 0; 1]%nat n noble_tmp erk_11 rec cfl_min (9 / 10) t t_final s = (Ok h, s') /\
    0 < h /\ counters_eq s s' /\ forall i, (i < 3)%nat -> aeos_gas gas_eos 1 (fst (st_vector _ s') i).
Proof.
  set (v := (noble_U, noble_pc0) : aeos_vector).
  assert (ND : forall t t', aeos_prepare noble_params 1 ring3 walls noble_data t v = aeos_prepare noble_params 1 ring3 walls noble_data t' v) by reflexivity.
  assert (GV : all_gas gas_eos 1 ring3 (fst v)) by (intros i _; apply noble_gas).
  set (o := aeos_prepare noble_params 1 ring3 walls noble_data 0 v).
  assert (GO : all_gas gas_eos 1 ring3 (fst o)).
  { apply (gas_prepare noble_params 1 ring3 1 walls noble_data [2; 0; 1]%nat 2 (noble_setting 1 2 ltac:(lra) ltac:(lia))). exact GV. }
  destruct (fast_exists noble_params 1 ring3 o noble_pc0 (fun _ _ => 0) ring3_pattern ring3_numbering ring3_pairs
    eq_refl ltac:(cbn; lra) GO eq_refl ring3_norm) as (nm & Hnm & Hf).
  exists nm. split; [exact Hnm|]. intros n rec c0 t tf s Hn Hx Ht Ev.
  pose proof (noble_setting nm n Hnm Hn) as HI.
  destruct (C135_step_proof noble_params 1 ring3 nm walls noble_data [2; 0; 1]%nat n noble_tmp erk_11 rec c0 (9 / 10) t tf s HI eq_refl ltac:(lra) Hx Ht) as (s' & Q & A & B & C).
  - assert (F : forall w : aeos_vector, w = v -> all_gas gas_eos 1 ring3 (fst w)) by (intros w ->; exact GV). apply F, Ev.
  - assert (F : forall w, w = v -> aeos_cautious noble_params 1 ring3 nm walls noble_data [2; 0; 1]%nat n noble_tmp erk_11 t w
      (aeos_step_size noble_params 1 ring3 nm walls noble_data noble_tmp erk_11 (9 / 10) t tf w)).
    { intros w ->. apply (C135_forward_euler_proof noble_params 1 ring3 nm walls noble_data [2; 0; 1]%nat n noble_tmp (9 / 10) t tf v ltac:(lra) HI).
      exact Hf. }
    apply F, Ev.
  - eexists _, s'. split; [exact Q|]. split; [exact A|]. split; [exact B|]. intros i Hi. apply C. split; [exact Hi|]. rows3 i Hi; cbn; lia.
Qed.

Lemma C135_total_ex_proof : forall n tmp sch rec cfl_min t_final t s t' s', explicit_scheme sch = true ->
  steps (fun t => aeos_step noble_params 1 ring3' (1 / 10000) [] noble_data [2; 0; 1]%nat n tmp sch rec cfl_min (9 / 10) t t_final) (fun _ _ => True) t s t' s' ->
  fst (st_vector _ s) = noble_U ->
  fst (st_vector _ s') 0%nat 0%nat + fst (st_vector _ s') 1%nat 0%nat + fst (st_vector _ s') 2%nat 0%nat = 4.
Proof.
  intros n tmp sch rec c0 tf t s t' s' Hs H Ev.
  destruct C122_one_rank_setting as (S1 & S2 & S3 & S4 & S5 & S6 & _).
  pose proof (C135_total_proof noble_params 1 ring3' (1 / 10000) noble_data [2; 0; 1]%nat n tmp sch rec c0 (9 / 10) tf t s t' s' S1 S2 S3 S4 S5 S6 Hs H 0%nat) as Q.
  assert (E : forall U : nat -> state nat, total ring3' (active_rows ring3') U 0%nat = U 0%nat 0%nat + U 1%nat 0%nat + U 2%nat 0%nat) by (intros U; unfold total; cbn; ring).
  rewrite !E, Ev in Q. rewrite Q. unfold noble_U, mkstate. cbn. lra.
Qed.
