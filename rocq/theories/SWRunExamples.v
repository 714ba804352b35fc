From Coq Require Import Reals List Arith Bool Lia Lra FunctionalExtensionality.
From Verif Require Import RVec EulerSystem SWSystem SWRiemann SWLimiter PhysSpec SWScheme SWSchemeSpec SchemeSpec SchemeProofs SchemeExamples SWSchemeExamples EulerSchemeExamples
  TimeInt TimeIntSpec EulerRun EulerRunSpec EulerRunExamples RunLib SWRun SWRunSpec SWRunProofs.
From Verif Require Import Scheme.
Import ListNotations.
Local Open Scope R_scope.

(** ** The pond with an island: characteristic data, a wall, Dirichlet data on the island *)
Definition shore : list bentry :=
  [ {| be_row := 0; be_normal := fun _ => -1; be_id := dynamic; be_position := fun _ => pond_Z 0 |};
    {| be_row := 1; be_normal := fun _ => 1; be_id := slip; be_position := fun _ => pond_Z 1 |};
    {| be_row := 2; be_normal := fun _ => 1; be_id := dirichlet; be_position := fun _ => pond_Z 2 |} ].
(** The position is the height of the bottom. *)
Definition shore_data : RVec.vec -> R -> state nat := fun x _ => water0 (Rmax 0 (1 - x 0%nat)).

Lemma pond_setting : lake_setting pondp 1 pond_Z ring3 (1 / 10000) 1 shore shore_data [2; 0; 1]%nat.
Proof.
  unfold lake_setting. cbn [wp_system wp_eps wp_big wp_tiny wp_relaxation pondp dry_state_relaxation_small dry_state_relaxation_large gravity pond].
  split; [exact ring3_proper|]. split; [intros i Hi; cbn [n_rows ring3] in Hi; split; [exact Hi|]; rows3 i Hi; cbn; lia|].
  split; [intros i [Hi _]; apply ring3_measure, Hi|].
  split; [intros i [<-|[<-|[<-|[]]]]; cbn; lia|].
  destruct pond_cutoff as [E _].
  repeat split; try lra; try (rewrite E; lra).
  - exact pond_celerity.
  - right. left. reflexivity.
  - repeat apply Forall_cons; try apply Forall_nil; unfold still_entry; cbn [be_id be_row be_position].
    + split; [cbn; lra|]. intros t. split; [reflexivity|]. intros k Hk. destruct k; [lia|reflexivity].
    + exact Logic.I.
    + intros t. split; [reflexivity|]. intros k Hk. destruct k; [lia|reflexivity].
Qed.

(** ** A channel between two walls *)
Definition channel_c (i j : nat) : cvec :=
  match i, j with
  | 0%nat, 0%nat => [-(1 / 2)] | 0%nat, 1%nat => [1 / 2]
  | 1%nat, 0%nat => [-(1 / 2)] | 1%nat, 2%nat => [1 / 2]
  | 2%nat, 1%nat => [-(1 / 2)] | 2%nat, 2%nat => [1 / 2]
  | _, _ => [0]
  end.
Definition channel3 : mesh := {|
  n_rows := 3; owner := fun _ => 0%nat; index := fun i => i; lanes := fun i => [i];
  columns := fun i => match i with 0%nat => [0; 1]%nat | 1%nat => [1; 0; 2]%nat | _ => [2; 1]%nat end;
  mass := fun i => if (i =? 1)%nat then 1 else 1 / 2; mass_inv := fun i => / (if (i =? 1)%nat then 1 else 1 / 2);
  mass_ij := fun i j => if (i =? j)%nat then (if (i =? 1)%nat then 2 / 3 else 1 / 3) else 1 / 6;
  mass_ij_inv := fun _ _ => 0; c_ij := channel_c; incidence := fun _ _ => 0; coupling_pairs := [];
  measure_of_omega := 2; discontinuous := false |}.

Lemma channel_pattern : symmetric_pattern channel3.
Proof.
  intros i Hi. rows3 i Hi; cbn [columns channel3].
  - exists [1]%nat. split; [reflexivity|]. split; [repeat constructor; simpl; intuition discriminate|]. intros j [<-|[]]; cbn; split; try lia; tauto.
  - exists [0; 2]%nat. split; [reflexivity|]. split; [repeat constructor; simpl; intuition discriminate|]. intros j [<-|[<-|[]]]; cbn; split; try lia; tauto.
  - exists [1]%nat. split; [reflexivity|]. split; [repeat constructor; simpl; intuition discriminate|]. intros j [<-|[]]; cbn; split; try lia; tauto.
Qed.
Lemma channel_skew i j : active channel3 i -> In j (columns channel3 i) -> i <> j -> skew_at channel3 i j.
Proof.
  intros [Hi _] Hj Hne. unfold skew_at. cbn [n_rows channel3] in Hi.
  rows3 i Hi; cbn in Hj; repeat (destruct Hj as [<-|Hj]; [try congruence; cbn; f_equal; lra|]); destruct Hj.
Qed.
Lemma channel_proper : proper_mesh channel3 1.
Proof.
  split; [exact channel_pattern|]. split.
  { intros i _. cbn. destruct (i =? 1)%nat; split; lra. }
  split.
  { split; [intros i _; left; reflexivity|]. intros i j _ _ _ E. exact E. }
  split; [intros i j Hi Hj Hne; left; apply channel_skew; assumption|].
  split.
  { intros i j Hi Hj. cbn [n_rows channel3] in Hi. rows3 i Hi; cbn in Hj; repeat (destruct Hj as [<-|Hj]; [reflexivity|]); destruct Hj. }
  split; [|exists 0%nat; split; cbn; lia]. intros i [Hi _]. cbn [n_rows channel3] in Hi.
  intros x. rows3 i Hi; cbn [columns channel3 lsum c_ij channel_c]; cbn; destruct x as [|[|x]]; cbn; lra.
Qed.
Lemma channel_symmetric : symmetric_matrices channel3.
Proof.
  intros i j [Hi _] Hj. cbn [n_rows channel3] in Hi.
  rows3 i Hi; cbn in Hj; repeat (destruct Hj as [<-|Hj]; [cbn; auto|]); destruct Hj.
Qed.

Definition channel_walls : list bentry :=
  [ {| be_row := 0; be_normal := fun _ => -1; be_id := slip; be_position := fun _ => 0 |};
    {| be_row := 2; be_normal := fun _ => 1; be_id := slip; be_position := fun _ => 2 |} ].
Lemma channel_closed i : active channel3 i -> closed_row 1 channel3 channel_walls i.
Proof.
  intros [Hi _]. cbn [n_rows channel3] in Hi. rows3 i Hi.
  - right. eexists [], _, _. split; [reflexivity|]. split; [reflexivity|]. split.
    + repeat constructor. discriminate.
    + right. split; [reflexivity|]. split; [unfold norm2, RVec.dot; cbn; lra|]. exists (1 / 2). intros k Hk. destruct k; [|lia]. cbn. lra.
  - left. intros k Hk. destruct k; [reflexivity|lia].
  - right. eexists [_], _, []. split; [reflexivity|]. split; [reflexivity|]. split; [constructor|].
    right. split; [reflexivity|]. split; [unfold norm2, RVec.dot; cbn; lra|]. exists (1 / 2). intros k Hk. destruct k; [|lia]. cbn. lra.
Qed.

(** A wave: depths 2, 1, 1, moving towards the middle. *)
Definition wave_U : nat -> state nat := fun i k =>
  match k with 0%nat => (if (i =? 0)%nat then 2 else 1) | _ => 1 - INR i end.

Lemma C132_volume_ex_proof : forall data order n tmp sch (s : mstate sw_vector),
  explicit_scheme sch = true -> fst (st_vector _ s) = wave_U ->
  exists h s',
    sw_step pondp 1 (fun _ => 0) channel3 (1 / 10000) channel_walls data order n tmp sch bang_bang_control (1 / 10) (9 / 10) 0 1 s = (Ok h, s') /\
    0 < h /\ total channel3 (active_rows channel3) (fst (st_vector _ s')) 0%nat = 5 / 2.
Proof.
  intros data order n tmp sch s Hs Hv.
  destruct (C132_completes_proof pondp 1 (fun _ => 0) channel3 (1 / 10000) channel_walls data order n tmp sch (1 / 10) (9 / 10) 0 1 s
    channel_proper ltac:(lra) Hs ltac:(lra) ltac:(lra) ltac:(lra)) as (h & s' & Q & Hh).
  exists h, s'. split; [exact Q|]. split; [lra|].
  destruct channel_proper as (Hpat & Hmass & Hnum & _).
  rewrite (C132_volume_proof pondp 1 (fun _ => 0) channel3 (1 / 10000) channel_walls data order n tmp sch bang_bang_control (1 / 10) (9 / 10) 1 0 s (0 + h) s'
    Hpat Hmass Hnum channel_symmetric channel_skew).
  - rewrite Hv. unfold total. cbn. lra.
  - repeat constructor.
  - exact channel_closed.
  - exact Hs.
  - eapply steps_more; [exact Logic.I|exact Q|apply steps_none].
Qed.

(** The pond runs to any final time with any explicit scheme. *)
Lemma C132_run_ex_proof : forall n sch rec cfl_min t_final (s : mstate sw_vector),
  explicit_scheme sch = true -> (rec = bang_bang_control \/ st_cfl _ s = 9 / 10) -> 0 <= t_final ->
  fst (st_vector _ s) = pond_U ->
  exists s', steps (fun t => sw_step pondp 1 pond_Z ring3 (1 / 10000) shore shore_data [2; 0; 1]%nat n no_contents sch rec cfl_min (9 / 10) t t_final)
      (fun _ _ => True) 0 s t_final s' /\
    counters_eq s s' /\ forall i k, (i < 3)%nat -> (k <= 1)%nat -> fst (st_vector _ s') i k = pond_U i k.
Proof.
  intros n sch rec c0 tf s Hs Hx Ht Hv.
  assert (HL : lake_at_rest (wp_system pondp) (wp_eps pondp) 1 ring3 pond_Z 1 (fst (st_vector _ s))) by (rewrite Hv; exact pond_at_rest).
  destruct (C132_run_proof pondp 1 pond_Z ring3 (1 / 10000) 1 shore shore_data [2; 0; 1]%nat n no_contents sch rec c0 (9 / 10) tf 0 s
    pond_setting Hs ltac:(lra) Hx HL) as [A B].
  destruct (A Ht) as (s' & Q). exists s'. split; [exact Q|]. destruct (B tf s' Q) as [B1 B2]. split; [exact B1|].
  intros i k Hi Hk. destruct (B2 i Hi) as (C0 & _ & C1). destruct k as [|[|k]]; [| |lia].
  - rewrite C0. reflexivity.
  - rewrite C1 by lia. reflexivity.
Qed.
