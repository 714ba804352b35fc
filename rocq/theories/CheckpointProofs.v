(** * Checkpoint files under crashes: proofs *)
From Coq Require Import List Bool Arith Lia.
From Verif Require Import Checkpoint.
Import ListNotations.

Lemma eqb_spec' a b : reflect (a = b) (suffix_eqb a b).
Proof. destruct a, b; constructor; congruence. Qed.

Lemma set_same f s c : set f s c s = c.
Proof. unfold set. destruct (eqb_spec' s s); congruence. Qed.
Lemma set_other f s c x : x <> s -> set f s c x = f x.
Proof. intros H. unfold set. destruct (eqb_spec' x s); congruence. Qed.

(** Plain files of one number only; the metadata is there only if everything else
    has been completed or the others have been renamed away. *)
Definition coherent (i : nat) (f : suffix -> option content) : Prop :=
  (forall s j, f s = Some (Complete j) -> j = i) /\
  (f Meta = Some (Complete i) -> forall s, f s = None \/ f s = Some (Complete i)).

Definition inv (i : nat) (id : nat) (x : files * position) : Prop :=
  match snd x with
  | Renaming todo => coherent i (plain (fst x)) /\ (forall s, ~ In s todo -> plain (fst x) s = None)
  | Saving todo => (forall s j, plain (fst x) s = Some (Complete j) -> j = id) /\ plain (fst x) Meta = None /\ ~ In Meta todo /\
                   (forall s, s <> Meta -> ~ In s todo -> plain (fst x) s = Some (Complete id))
  | Writing => (forall s, s <> Meta -> plain (fst x) s = Some (Complete id)) /\ plain (fst x) Meta = Some Partial
  | Done => forall s, plain (fst x) s = Some (Complete id)
  end.

Lemma inv_step i id x y : inv i id x -> wstep id x y -> inv i id y.
Proof.
  intros H S. destruct S as [fs s l|fs|fs s l Hin|fs s l Hin|fs|fs]; unfold inv in *; cbn [fst snd] in *.
  - destruct H as [[H1 H2] H3]. unfold rename. destruct (plain fs s) as [c|] eqn:Es; cbn [plain].
    + split.
      * split.
        -- intros x j. unfold set. destruct (eqb_spec' x s); [discriminate|apply H1].
        -- unfold set at 1. destruct (eqb_spec' Meta s); [discriminate|]. intros HM x. unfold set. destruct (eqb_spec' x s); [auto|apply H2, HM].
      * intros x Hx. unfold set. destruct (eqb_spec' x s) as [|Hne]; [reflexivity|]. apply H3. intros [E|E]; [congruence|contradiction].
    + split; [split; assumption|]. intros x Hx. destruct (eqb_spec' x s) as [->|Hne]; [exact Es|]. apply H3. intros [E|E]; [congruence|contradiction].
  - destruct H as [_ H3]. assert (N : forall s, plain fs s = None) by (intros s; apply H3; intros []).
    split; [intros s j; rewrite N; discriminate|]. split; [apply N|]. split; [intros [E|[E|[E|[]]]]; discriminate|].
    intros s Hs Hn. destruct s; [exfalso; apply Hn; cbn; auto..|congruence].
  - destruct H as (H1 & H2 & H3 & H4). assert (Hs : s <> Meta) by congruence. cbn [put plain].
    split; [intros x j; unfold set; destruct (eqb_spec' x s); [discriminate|apply H1]|].
    split; [rewrite set_other by congruence; exact H2|]. split; [exact H3|].
    intros x Hx Hn. rewrite set_other by congruence. apply H4; assumption.
  - destruct H as (H1 & H2 & H3 & H4). assert (Hs : s <> Meta) by congruence. cbn [put plain].
    split; [intros x j; unfold set; destruct (eqb_spec' x s); [congruence|apply H1]|].
    split; [rewrite set_other by congruence; exact H2|].
    split; [unfold remove; rewrite filter_In; tauto|].
    intros x Hx Hn. destruct (eqb_spec' x s) as [->|Hne]; [apply set_same|]. rewrite set_other by exact Hne. apply H4; [exact Hx|].
    intros Hl. apply Hn. unfold remove. apply filter_In. split; [exact Hl|]. destruct (eqb_spec' x s); [contradiction|reflexivity].
  - destruct H as (H1 & H2 & H3 & H4). cbn [put plain]. split; [|apply set_same]. intros x Hx. rewrite set_other by exact Hx. apply H4; [exact Hx|intros []].
  - destruct H as (H1 & H2). cbn [put plain]. intros x. destruct (eqb_spec' x Meta) as [->|Hne]; [apply set_same|]. rewrite set_other by exact Hne. apply H1, Hne.
Qed.

Lemma inv_steps i id x y : inv i id x -> wsteps id x y -> inv i id y.
Proof. intros H S. induction S as [|x y z S1 IH S2]; [exact H|]. apply (inv_step _ _ _ _ (IH H) S2). Qed.

Lemma inv_coherent i id x : inv i id x -> exists j, coherent j (plain (fst x)) /\ (j = i \/ j = id).
Proof.
  destruct x as [fs p]. unfold inv. cbn [fst snd]. destruct p as [l|l| |].
  - intros [H _]. exists i. auto.
  - intros (H1 & H2 & _). exists id. split; [|auto]. split; [exact H1|]. intros HM. congruence.
  - intros (H1 & H2). exists id. split; [|auto]. split.
    + intros s j Hs. destruct (eqb_spec' s Meta) as [->|Hne]; [congruence|]. rewrite (H1 s Hne) in Hs. congruence.
    + intros HM. congruence.
  - intros H. exists id. split; [|auto]. split; [intros s j Hs; rewrite H in Hs; congruence|]. intros _ s. right. apply H.
Qed.

Lemma start_inv i id fs : coherent i (plain fs) -> inv i id (fs, start_write).
Proof. intros H. cbn. split; [exact H|]. intros [] Hn; exfalso; apply Hn; cbn; auto. Qed.

Lemma history_coherent n fs : history n fs -> exists i, coherent i (plain fs).
Proof.
  induction 1 as [|n fs fs' H [i IH] [p S]].
  - exists 0. split; cbn; [discriminate|auto].
  - destruct (inv_coherent i n _ (inv_steps _ _ _ _ (start_inv i n fs IH) S)) as (j & Hj & _). exists j. exact Hj.
Qed.

(** Every complete plain file has the number of an earlier call. *)
Lemma history_bound n fs : history n fs -> forall s j, (plain fs s = Some (Complete j) \/ backup fs s = Some (Complete j)) -> j < n.
Proof.
  induction 1 as [|n fs fs' H IH [p S]]; intros s j Hs; [destruct Hs; discriminate|].
  assert (G : forall x y, wsteps n x y -> (forall s j, plain (fst x) s = Some (Complete j) \/ backup (fst x) s = Some (Complete j) -> j < Datatypes.S n) ->
     forall s j, plain (fst y) s = Some (Complete j) \/ backup (fst y) s = Some (Complete j) -> j < Datatypes.S n).
  { clear. intros x y W. induction W as [|x y z W1 IH W2]; intros H; [exact H|]. specialize (IH H). clear H W1.
    destruct W2 as [fs s l|fs|fs s l Hin|fs s l Hin|fs|fs]; cbn [fst] in *; try exact IH; intros s' j'.
    - unfold rename. destruct (plain fs s) as [c|] eqn:Es; [|apply IH]. cbn [plain backup]. unfold set. destruct (eqb_spec' s' s) as [->|].
      + intros [E|E]; [discriminate|]. injection E as ->. apply (IH s). left. exact Es.
      + apply IH.
    - cbn [put plain backup]. unfold set. destruct (eqb_spec' s' s) as [->|]; [|apply IH]. intros [E|E]; [discriminate|]. apply (IH s). right. exact E.
    - cbn [put plain backup]. unfold set. destruct (eqb_spec' s' s) as [->|]; [|apply IH]. intros [E|E]; [injection E as <-; lia|]. apply (IH s). right. exact E.
    - cbn [put plain backup]. unfold set. destruct (eqb_spec' s' Meta) as [->|]; [|apply IH]. intros [E|E]; [discriminate|]. apply (IH Meta). right. exact E.
    - cbn [put plain backup]. unfold set. destruct (eqb_spec' s' Meta) as [->|]; [|apply IH]. intros [E|E]; [injection E as <-; lia|]. apply (IH Meta). right. exact E. }
  apply (G _ _ S) with (s := s); [|exact Hs]. cbn [fst]. intros s' j' Hs'. specialize (IH _ _ Hs'). lia.
Qed.

Lemma read_file_some fs s i : read_file fs s = Some i -> plain fs s = Some (Complete i).
Proof. unfold read_file. destruct (plain fs s) as [[|j]|]; congruence. Qed.

Lemma resume_some fs a b c d : resume_from fs = Some (a, b, c, d) ->
  plain fs Mesh = Some (Complete a) /\ plain fs Data = Some (Complete b) /\ plain fs Info = Some (Complete c) /\ plain fs Meta = Some (Complete d).
Proof.
  unfold resume_from. destruct (read_file fs Mesh) eqn:E1; [|discriminate]. destruct (read_file fs Data) eqn:E2; [|discriminate].
  destruct (read_file fs Info) eqn:E3; [|discriminate]. destruct (read_file fs Meta) eqn:E4; [|discriminate].
  intros [= <- <- <- <-]. repeat split; apply read_file_some; assumption.
Qed.

Lemma C49_never_mixed_proof n fs a b c d : history n fs -> resume_from fs = Some (a, b, c, d) -> a = d /\ b = d /\ c = d /\ d < n.
Proof.
  intros H R. apply resume_some in R. destruct R as (R1 & R2 & R3 & R4).
  destruct (history_coherent n fs H) as (i & H1 & _).
  pose proof (H1 _ _ R4).
  assert (d < n) by (apply (history_bound n fs H Meta); left; exact R4).
  pose proof (H1 _ _ R1). pose proof (H1 _ _ R2). pose proof (H1 _ _ R3). lia.
Qed.

(** A call that ends makes its own state available. *)
Lemma C49_completed_proof n fs fs' : history n fs -> wsteps n (fs, start_write) (fs', Done) -> resume_from fs' = Some (n, n, n, n).
Proof.
  intros H S. destruct (history_coherent n fs H) as (i & Hi).
  pose proof (inv_steps _ _ _ _ (start_inv i n fs Hi) S) as I. cbn in I. unfold resume_from, read_file. rewrite !I. reflexivity.
Qed.

(** With a complete old checkpoint, a single crash leaves every old file in place or
    under its backup name. *)
Lemma C49_old_survives_proof old id fs fs' :
  (forall s, plain fs s = Some (Complete old)) -> attempt id fs fs' ->
  forall s, plain fs' s = Some (Complete old) \/ backup fs' s = Some (Complete old).
Proof.
  intros H [p S].
  assert (G : forall x, wsteps id (fs, start_write) x ->
    match snd x with
    | Renaming todo => NoDup todo /\ forall s, (In s todo -> plain (fst x) s = Some (Complete old)) /\ (~ In s todo -> backup (fst x) s = Some (Complete old))
    | _ => forall s, backup (fst x) s = Some (Complete old)
    end).
  { intros x W. remember (fs, start_write) as x0 eqn:E0. induction W as [x|x y z W1 IH W2]; subst.
    - cbn. split; [repeat constructor; cbn; intuition discriminate|]. intros s. split; [intros _; apply H|]. intros Hn. exfalso. apply Hn. destruct s; cbn; auto.
    - specialize (IH eq_refl S). destruct W2 as [fs1 s l|fs1|fs1 s l Hin|fs1 s l Hin|fs1|fs1]; cbn [fst snd] in *.
      + destruct IH as [ND IH]. destruct (proj1 (NoDup_cons_iff s l) ND) as [Hs ND']. clear ND. rename ND' into ND. split; [exact ND|]. intros x.
        unfold rename. destruct (IH s) as [I1 _]. rewrite (I1 (or_introl eq_refl)). cbn [plain backup]. unfold set.
        destruct (eqb_spec' x s) as [->|Hne]; [split; [contradiction|reflexivity]|]. destruct (IH x) as [J1 J2]. split.
        * intros Hx. apply J1. right. exact Hx.
        * intros Hx. apply J2. intros [E|E]; [congruence|contradiction].
      + intros s. apply IH. intros [].
      + exact IH.
      + exact IH.
      + exact IH.
      + exact IH. }
  specialize (G _ S). cbn [fst snd] in G. intros s. destruct p as [l| | |]; [|right; apply G..].
  destruct G as [_ G]. assert (D : forall a b : suffix, {a = b} + {a <> b}) by decide equality. destruct (in_dec D s l) as [Hi|Hi]; [left|right]; apply G; exact Hi.
Qed.

(** Files after further calls number n, ..., n'-1. *)
Lemma continues_ge k n fs n' fs' : continues n fs n' fs' -> k <= n -> (forall s j, plain fs s = Some (Complete j) -> k <= j) ->
  forall s j, plain fs' s = Some (Complete j) -> k <= j.
Proof.
  induction 1 as [|n' fs1 fs2 H IH [p S]]; intros Hk H0; [exact H0|]. specialize (IH Hk H0).
  assert (Hn : n <= n') by (clear -H; induction H; lia).
  remember (fs1, start_write) as x eqn:Ex. remember (fs2, p) as y eqn:Ey. assert (IH' : forall s j, plain (fst x) s = Some (Complete j) -> k <= j) by (subst x; exact IH).
  assert (G : forall s j, plain (fst y) s = Some (Complete j) -> k <= j).
  { clear Ex Ey IH H0 H. clear fs1 fs2 p. clear fs. induction S as [x|x y z S1 IHS S2]; [exact IH'|]. specialize (IHS IH').
    destruct S2 as [fs s l|fs|fs s l Hin|fs s l Hin|fs|fs]; cbn [fst] in *; try exact IHS; intros s' j'.
    - unfold rename. destruct (plain fs s) as [c|] eqn:Es; [|apply IHS]. cbn [plain]. unfold set. destruct (eqb_spec' s' s); [discriminate|apply IHS].
    - cbn [put plain]. unfold set. destruct (eqb_spec' s' s); [discriminate|apply IHS].
    - cbn [put plain]. unfold set. destruct (eqb_spec' s' s); [intros [= <-]; lia|apply IHS].
    - cbn [put plain]. unfold set. destruct (eqb_spec' s' Meta); [discriminate|apply IHS].
    - cbn [put plain]. unfold set. destruct (eqb_spec' s' Meta); [intros [= <-]; lia|apply IHS]. }
  subst y. exact G.
Qed.

Lemma C49_latest_proof n fs fs1 n' fs' a b c d : history n fs -> wsteps n (fs, start_write) (fs1, Done) -> continues (S n) fs1 n' fs' ->
  resume_from fs' = Some (a, b, c, d) -> n <= d.
Proof.
  intros H S Hc R. apply resume_some in R. destruct R as (_ & _ & _ & R).
  destruct (history_coherent n fs H) as (i & Hi). pose proof (inv_steps _ _ _ _ (start_inv i n fs Hi) S) as I. cbn in I.
  apply (continues_ge n _ _ _ _ Hc) in R; [exact R|lia|]. intros s j. rewrite I. intros [= ->]. lia.
Qed.

(** ** Crashes that leave nothing to resume from *)

Lemma first_checkpoint : exists fs, wsteps 0 (no_files, start_write) (fs, Done) /\ forall s, plain fs s = Some (Complete 0).
Proof.
  eexists. split.
  - eapply W_step; [|apply W_close]. eapply W_step; [|apply W_open].
    eapply W_step; [|eapply (W_complete 0) with (s := Info) (l := [Info]); left; reflexivity].
    eapply W_step; [|eapply (W_complete 0) with (s := Data) (l := [Data; Info]); left; reflexivity].
    eapply W_step; [|eapply (W_complete 0) with (s := Mesh) (l := [Mesh; Data; Info]); left; reflexivity].
    eapply W_step; [|apply W_renamed]. do 4 (eapply W_step; [|apply W_rename]). apply W_refl.
  - intros []; reflexivity.
Qed.

Lemma C49_crash_refuted_proof : exists fs fs', history 1 fs /\ resume_from fs = Some (0, 0, 0, 0) /\ attempt 1 fs fs' /\ resume_from fs' = None.
Proof.
  destruct first_checkpoint as (fs & S & F). exists fs, (rename Mesh fs).
  split; [apply (H_next 0 no_files); [constructor|exists Done; exact S]|].
  split; [unfold resume_from, read_file; rewrite !F; reflexivity|].
  split; [exists (Renaming [Data; Info; Meta]); eapply W_step; [apply W_refl|apply W_rename]|].
  unfold resume_from, read_file, rename. rewrite F. cbn [plain]. rewrite set_same. reflexivity.
Qed.

Lemma C49_two_crashes_refuted_proof : exists fs fs1 fs2, history 1 fs /\ resume_from fs = Some (0, 0, 0, 0) /\ attempt 1 fs fs1 /\ attempt 2 fs1 fs2 /\
  forall i, exists s, plain fs2 s <> Some (Complete i) /\ backup fs2 s <> Some (Complete i).
Proof.
  destruct first_checkpoint as (fs & S & F).
  exists fs, (put Mesh Partial (rename Meta (rename Info (rename Data (rename Mesh fs))))),
    (rename Mesh (put Mesh Partial (rename Meta (rename Info (rename Data (rename Mesh fs)))))).
  split; [apply (H_next 0 no_files); [constructor|exists Done; exact S]|].
  split; [unfold resume_from, read_file; rewrite !F; reflexivity|].
  split.
  { exists (Saving [Mesh; Data; Info]). eapply W_step; [|apply W_create; left; reflexivity]. eapply W_step; [|apply W_renamed].
    do 4 (eapply W_step; [|apply W_rename]). apply W_refl. }
  split.
  { exists (Renaming [Data; Info; Meta]). eapply W_step; [apply W_refl|apply W_rename]. }
  intros i. exists Mesh. set (g := rename Meta _). unfold rename. cbn [put plain]. rewrite set_same. cbn [plain backup]. rewrite !set_same. split; discriminate.
Qed.
