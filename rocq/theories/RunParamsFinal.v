(** * Lemmas for the property theorems on the parameters of a run *)
From Coq Require Import String List Bool Arith Lia.
From Verif Require Import RunParams RunParamsSpec RunParamsProofs.
Import ListNotations.
Local Open Scope string_scope.

Lemma C159_agree_proof D name f n c k s :
  f name = Some c -> (n = 1 \/ forall cfg, configuration D c cfg -> ~ copy_name cfg name) -> execution D name f n k s ->
  (forall cfg, In (Started cfg) (st_ranks s) -> configuration D c cfg) /\
  (In Failed (st_ranks s) -> forall cfg, ~ configuration D c cfg) /\
  (forall cfg cfg', configuration D c cfg -> configuration D c cfg' -> cfg = cfg').
Proof.
  intros F S H. apply safe_spec in S. assert (V := execution_invariant D name f n c k s S F H). repeat split.
  - intros cfg I. apply In_nth_error in I. destruct I as [i I]. apply configured_spec. exact (inv_ranks _ _ _ _ _ V i _ I).
  - intros I cfg G. apply In_nth_error in I. destruct I as [i I]. apply configured_spec in G.
    assert (Q := inv_ranks _ _ _ _ _ V i _ I). cbn [phase_ok] in Q. congruence.
  - intros cfg cfg' A B. apply configured_spec in A. apply configured_spec in B. congruence.
Qed.

Lemma C159_copy_proof D name f n c k s cfg :
  distinct_names D -> f name = Some c -> (n = 1 \/ forall cfg, configuration D c cfg -> ~ copy_name cfg name) ->
  execution D name f n k s -> nth_error (st_ranks s) 0 = Some (Started cfg) ->
  exists m copy, copy_name cfg m /\ st_files s m = Some copy /\ configuration D copy cfg /\ forall m', m' <> m -> st_files s m' = f m'.
Proof.
  intros N F S H Z. apply safe_spec in S. assert (V := execution_invariant D name f n c k s S F H).
  assert (Q := inv_ranks _ _ _ _ _ V 0 _ Z). cbn [phase_ok] in Q.
  exists (target cfg), cfg. split; [apply target_copy; reflexivity|]. split; [exact (inv_copy _ _ _ _ _ V cfg Z)|]. split.
  - apply configured_spec. exact (configured_copy D c cfg N Q).
  - intros m' M. apply (inv_files _ _ _ _ _ V). intros cfg' Q'. congruence.
Qed.

Lemma C159_failure_proof D name f n c k s :
  f name = Some c -> (forall cfg, ~ configuration D c cfg) -> execution D name f n k s ->
  (forall m, st_files s m = f m) /\ forall cfg, ~ In (Started cfg) (st_ranks s).
Proof.
  intros F S H. assert (S' : safe_name D c name n).
  { right. intros cfg Q _. apply (S cfg). apply configured_spec. exact Q. }
  assert (V := execution_invariant D name f n c k s S' F H). split.
  - intros m. apply (inv_files _ _ _ _ _ V). intros cfg Q _. apply (S cfg). apply configured_spec. exact Q.
  - intros cfg I. apply In_nth_error in I. destruct I as [i I]. apply (S cfg), configured_spec. exact (inv_ranks _ _ _ _ _ V i _ I).
Qed.

(** ** The time loop is reached *)
Definition weight (p : phase) : nat :=
  match p with Start => 4 | Constructed _ => 3 | Initialized _ => 2 | Opened _ => 1 | Started _ | Failed => 0 end.
Fixpoint total (l : list phase) : nat := match l with [] => 0 | p :: r => weight p + total r end.

Lemma total_set l i p q : nth_error l i = Some q -> weight p < weight q -> total (set_rank l i p) < total l.
Proof.
  revert i. induction l as [|r l IH]; intros [|i] H L; cbn [nth_error set_rank total] in *; try discriminate.
  - injection H as ->. lia.
  - specialize (IH i H L). lia.
Qed.

Lemma step_decreases D name s s' : step D name s s' -> total (st_ranks s') < total (st_ranks s).
Proof.
  intros [g l i p p' g' N E]. cbn [st_ranks]. apply (total_set l i p' p N).
  destruct p as [|prm|cfg|cfg|cfg|]; cbn [rank_step] in E; try discriminate.
  - injection E as <- _. destruct (g name) as [c|]; [|cbn; lia]. rewrite construct_eq. destruct (D _ _); cbn; lia.
  - injection E as <- _. destruct (g name) as [c|]; [|cbn; lia]. unfold initialize. destruct (parse_input _ _ _); cbn; lia.
  - destruct (Nat.eqb i 0); injection E as <- _; cbn; lia.
  - injection E as <- _. cbn. lia.
Qed.

Lemma total_repeat n : total (repeat Start n) = 4 * n.
Proof. induction n as [|n IH]; [reflexivity|]. cbn [repeat total weight]. lia. Qed.

Lemma execution_bound D name f n k s : execution D name f n k s -> k + total (st_ranks s) <= 4 * n.
Proof.
  intros H. induction H as [|k s s' H IH T]; [cbn [st_ranks]; rewrite total_repeat; lia|].
  apply step_decreases in T. lia.
Qed.

Lemma C159_terminates_proof D name f n k s : execution D name f n k s ->
  k <= 4 * n /\
  ((forall s', ~ step D name s s') -> forall p, In p (st_ranks s) -> p = Failed \/ exists cfg, p = Started cfg).
Proof.
  intros H. split; [apply execution_bound in H; lia|]. intros Q p I. apply In_nth_error in I. destruct I as [i I].
  destruct s as [g l]. cbn [st_ranks] in I.
  assert (R : rank_step D name (Nat.eqb i 0) g p = None).
  { destruct (rank_step D name (Nat.eqb i 0) g p) as [[p' g']|] eqn:E; [|reflexivity]. exfalso. exact (Q _ (step_rank D name g l i p p' g' I E)). }
  destruct p as [|prm|cfg|cfg|cfg|]; cbn [rank_step] in R; try discriminate.
  - destruct (Nat.eqb i 0); discriminate.
  - right. exists cfg. reflexivity.
  - left. reflexivity.
Qed.

(** ** Cases *)
Definition demo_drivers : drivers := fun eq dim =>
  if (String.eqb eq "euler" && String.eqb dim "2")%bool
  then Some [("A - TimeLoop/basename", "test"); ("A - TimeLoop/final time", "5")] else None.
Definition demo_file : entries :=
  [("B - Equation/dimension", "2"); ("A - TimeLoop/final time", "1"); ("B - Equation/equation", "euler");
   ("A - TimeLoop/basename", "cylinder"); ("A - TimeLoop/final time", "4")].
Definition demo_config : entries :=
  [("B - Equation/dimension", "2"); ("B - Equation/equation", "euler"); ("A - TimeLoop/basename", "cylinder"); ("A - TimeLoop/final time", "4")].
Definition demo_files (name : string) (c : entries) : files := fun n => if String.eqb n name then Some c else None.

Lemma demo_distinct : distinct_names demo_drivers.
Proof.
  intros eq dim d. unfold demo_drivers. destruct (_ && _)%bool; [|discriminate]. intros [= <-]. cbn.
  repeat constructor; cbn; intuition discriminate.
Qed.

Lemma demo_configuration : configuration demo_drivers demo_file demo_config.
Proof. apply configured_spec. vm_compute. reflexivity. Qed.

Definition move (D : drivers) (name : string) (i : nat) (s : state) : state :=
  match nth_error (st_ranks s) i with
  | Some p => match rank_step D name (Nat.eqb i 0) (st_files s) p with
              | Some (p', f') => {| st_files := f'; st_ranks := set_rank (st_ranks s) i p' |} | None => s end
  | None => s
  end.
Definition can_move (D : drivers) (name : string) (i : nat) (s : state) : bool :=
  match nth_error (st_ranks s) i with
  | Some p => match rank_step D name (Nat.eqb i 0) (st_files s) p with Some _ => true | None => false end
  | None => false
  end.
Fixpoint schedule (D : drivers) (name : string) (l : list nat) (s : state) : option state :=
  match l with [] => Some s | i :: r => if can_move D name i s then schedule D name r (move D name i s) else None end.

Lemma move_step D name i s : can_move D name i s = true -> step D name s (move D name i s).
Proof.
  unfold can_move, move. destruct s as [f l]. cbn [st_ranks st_files]. destruct (nth_error l i) as [p|] eqn:N; [|discriminate].
  destruct (rank_step D name (Nat.eqb i 0) f p) as [[p' f']|] eqn:E; [|discriminate]. intros _. exact (step_rank D name f l i p p' f' N E).
Qed.

Lemma schedule_execution D name f n k s l s' : execution D name f n k s -> schedule D name l s = Some s' ->
  execution D name f n (length l + k) s'.
Proof.
  revert k s. induction l as [|i l IH]; intros k s H E; cbn [schedule length] in *.
  - injection E as <-. exact H.
  - destruct (can_move D name i s) eqn:C; [|discriminate].
    replace (S (length l) + k) with (length l + S k) by lia.
    apply (IH (S k) (move D name i s)); [|exact E]. exact (exec_step D name f n k s _ H (move_step _ _ _ _ C)).
Qed.

(** Two ranks read "cylinder.prm"; one of them starts while the other is still reading. *)
Lemma agree_case : exists s,
  execution demo_drivers "cylinder.prm" (demo_files "cylinder.prm" demo_file) 2 7 s /\
  st_ranks s = [Started demo_config; Started demo_config] /\ st_files s "cylinder-parameters.prm" = Some demo_config /\
  demo_files "cylinder.prm" demo_file "cylinder.prm" = Some demo_file /\ configuration demo_drivers demo_file demo_config /\
  distinct_names demo_drivers /\ forall cfg, configuration demo_drivers demo_file cfg -> ~ copy_name cfg "cylinder.prm".
Proof.
  set (f := demo_files "cylinder.prm" demo_file).
  destruct (schedule demo_drivers "cylinder.prm" [0; 1; 0; 0; 0; 1; 1] {| st_files := f; st_ranks := repeat Start 2 |}) as [s|] eqn:E;
    [|vm_compute in E; discriminate].
  exists s. split; [exact (schedule_execution _ _ _ _ 0 _ _ s (exec_start _ _ _ _) E)|].
  vm_compute in E. injection E as <-. repeat split; try reflexivity.
  - exact demo_configuration.
  - exact demo_distinct.
  - intros cfg G. apply configured_spec in G. vm_compute in G. injection G as <-. intros T. apply target_copy in T. vm_compute in T. discriminate.
Qed.

(** One rank reads its own copy. *)
Lemma serial_case : exists s,
  execution demo_drivers "cylinder-parameters.prm" (demo_files "cylinder-parameters.prm" demo_file) 1 4 s /\
  st_ranks s = [Started demo_config] /\ st_files s "cylinder-parameters.prm" = Some demo_config.
Proof.
  set (f := demo_files "cylinder-parameters.prm" demo_file).
  destruct (schedule demo_drivers "cylinder-parameters.prm" [0; 0; 0; 0] {| st_files := f; st_ranks := repeat Start 1 |}) as [s|] eqn:E;
    [|vm_compute in E; discriminate].
  exists s. split; [exact (schedule_execution _ _ _ _ 0 _ _ s (exec_start _ _ _ _) E)|].
  vm_compute in E. injection E as <-. split; reflexivity.
Qed.

(** A misspelt parameter. *)
Lemma failure_case : exists s,
  execution demo_drivers "a.prm" (demo_files "a.prm" (("A - TimeLoop/final tme", "4") :: demo_file)) 2 4 s /\ st_ranks s = [Failed; Failed] /\
  forall cfg, ~ configuration demo_drivers (("A - TimeLoop/final tme", "4") :: demo_file) cfg.
Proof.
  set (f := demo_files "a.prm" (("A - TimeLoop/final tme", "4") :: demo_file)).
  destruct (schedule demo_drivers "a.prm" [0; 1; 0; 1] {| st_files := f; st_ranks := repeat Start 2 |}) as [s|] eqn:E;
    [|vm_compute in E; discriminate].
  exists s. split; [exact (schedule_execution _ _ _ _ 0 _ _ s (exec_start _ _ _ _) E)|].
  vm_compute in E. injection E as <-. split; [reflexivity|].
  intros cfg G. apply configured_spec in G. vm_compute in G. discriminate.
Qed.

(** Two ranks are started with the copy that an earlier run has written: rank 0 has
    emptied it when rank 1 reads it for the second time. *)
Lemma C159_race_refuted_proof :
  exists D name f c k s cfg0 cfg1,
    distinct_names D /\ f name = Some c /\ configuration D c cfg0 /\ c = cfg0 /\ execution D name f 2 k s /\
    st_ranks s = [Started cfg0; Started cfg1] /\
    In ("A - TimeLoop/final time", "4") cfg0 /\ In ("A - TimeLoop/final time", "5") cfg1 /\ ~ In ("A - TimeLoop/final time", "4") cfg1.
Proof.
  set (f := demo_files "cylinder-parameters.prm" demo_config).
  destruct (schedule demo_drivers "cylinder-parameters.prm" [0; 1; 0; 0; 1; 0; 1] {| st_files := f; st_ranks := repeat Start 2 |}) as [s|] eqn:E;
    [|vm_compute in E; discriminate].
  exists demo_drivers, "cylinder-parameters.prm", f, demo_config, 7, s, demo_config,
    [("B - Equation/dimension", "2"); ("B - Equation/equation", "euler"); ("A - TimeLoop/basename", "test"); ("A - TimeLoop/final time", "5")].
  split; [exact demo_distinct|]. split; [reflexivity|]. split; [apply configured_spec; vm_compute; reflexivity|]. split; [reflexivity|].
  split; [exact (schedule_execution _ _ _ _ 0 _ _ s (exec_start _ _ _ _) E)|].
  vm_compute in E. injection E as <-. split; [reflexivity|]. cbn. intuition discriminate.
Qed.
