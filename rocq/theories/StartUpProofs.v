(** * Proofs about the main function *)
From Coq Require Import String Ascii List Bool ZArith Lia Arith Permutation.
From Verif Require Import Dispatch DispatchProofs StartUp StartUpSpec.
Import ListNotations.
Local Open Scope string_scope.

(** ** Lists of ranks *)
Lemma set_rank_length l i p : length (set_rank l i p) = length l.
Proof. revert i. induction l as [|q l IH]; intros [|i]; cbn; auto. Qed.

Lemma set_rank_same l i p q : nth_error l i = Some q -> nth_error (set_rank l i p) i = Some p.
Proof. revert i. induction l as [|r l IH]; intros [|i] H; cbn in *; try discriminate; auto. Qed.

Lemma set_rank_other l i j p : i <> j -> nth_error (set_rank l i p) j = nth_error l j.
Proof. revert i j. induction l as [|r l IH]; intros [|i] [|j] H; cbn; auto; try lia. Qed.

Lemma set_rank_forall (P : phase -> Prop) l i p : Forall P l -> P p -> Forall P (set_rank l i p).
Proof.
  intros H Hp. revert i. induction H as [|q l Hq H IH]; intros [|i]; cbn; auto.
Qed.

(** ** Termination *)
Definition weight (T : nat) (p : phase) : nat :=
  match p with
  | Begin => 5 + T | Check => 4 + T | Writing l => 2 + length l | Waiting => 1 | Running => 1 | Exited _ _ _ => 0
  end.
Fixpoint total (T : nat) (l : list phase) : nat := match l with [] => 0 | p :: r => weight T p + total T r end.

Lemma total_set T l i p q : nth_error l i = Some q -> weight T p < weight T q -> total T (set_rank l i p) < total T l.
Proof.
  revert i. induction l as [|r l IH]; intros [|i] H L; cbn in *; try discriminate.
  - injection H as ->. lia.
  - specialize (IH i H L). lia.
Qed.

Lemma step_decreases W s s' : step W s s' ->
  total (length (templates (registered W))) (st_ranks s') < total (length (templates (registered W))) (st_ranks s).
Proof.
  set (T := length (templates (registered W))).
  intros H. destruct H as [f l i p p' f' N E|f l i N _|f l i N _]; cbn [st_ranks]; (eapply total_set; [exact N|]).
  - destruct p as [| |[|[n c] todo]| | |]; cbn [local_step] in E.
    + destruct (Nat.ltb 2 _); [injection E as <- _; cbn; lia|]. destruct (args W) as [|a r]; [injection E as <- _; cbn; lia|].
      destruct (f a); injection E as <- _; cbn; lia.
    + destruct (f (parameter_file W)); [injection E as <- _; cbn; lia|]. destruct (Nat.eqb i 0); injection E as <- _; cbn; fold T; lia.
    + injection E as <- _. cbn. lia.
    + injection E as <- _. cbn. lia.
    + discriminate.
    + discriminate.
    + discriminate.
  - cbn. lia.
  - unfold run_program. destruct (f (parameter_file W)); cbn; lia.
Qed.

Lemma C156_terminates_proof W f n k s : execution W f n k s -> k <= n * (5 + length (templates (registered W))).
Proof.
  intros H. set (T := length (templates (registered W))).
  assert (B : k + total T (st_ranks s) <= n * (5 + T)).
  { induction H as [|k s s' H IH X].
    - cbn [st_ranks]. induction n as [|n IH]; cbn in *; lia.
    - pose proof (step_decreases W s s' X). fold T in H0. lia. }
  lia.
Qed.

(** ** Names *)
Lemma prefix_append a b : prefix a (a ++ b) = true.
Proof. induction a as [|c a IH]; cbn; [destruct b; reflexivity|]. destruct (ascii_dec c c); [exact IH|congruence]. Qed.

Lemma template_prefix regs n : In n (map fst (templates regs)) -> prefix "default_parameters-" n = true.
Proof.
  intros H. apply in_map_iff in H. destruct H as ([n' c] & <- & H). cbn [fst]. unfold templates in H. apply in_flat_map in H.
  destruct H as (name & _ & H). unfold equation_files, prm_files in H. cbn [app In] in H.
  repeat destruct H as [H|H]; try contradiction; injection H as <- _; apply (prefix_append "default_parameters-").
Qed.

Fixpoint no_dot (s : string) : bool :=
  match s with EmptyString => true | String c r => (negb (Ascii.eqb c ".") && no_dot r)%bool end.

Lemma prefix_extend a b c : no_dot a = true -> prefix a (b ++ String "." c) = true -> prefix a b = true.
Proof.
  revert b. induction a as [|x a IH]; intros b D H; [destruct b; reflexivity|].
  cbn [no_dot] in D. apply andb_true_iff in D. destruct D as [D1 D2]. destruct b as [|y b]; cbn in H |- *.
  - destruct (ascii_dec x "."); [subst x; discriminate D1|discriminate].
  - destruct (ascii_dec x y); [|discriminate]. apply IH; assumption.
Qed.

Lemma default_not_template W : prefix "default_parameters-" (filename (argv0 W)) = false ->
  ~ In (default_file W) (map fst (templates (registered W))).
Proof.
  intros P H. apply template_prefix in H. unfold default_file in H.
  assert (prefix "default_parameters-" (filename (argv0 W)) = true); [|congruence].
  exact (prefix_extend "default_parameters-" _ "prm" eq_refl H).
Qed.

(** ** Writing the templates *)
Fixpoint write (f : files) (l : list (string * content)) : files :=
  match l with [] => f | (n, c) :: r => write (put f n c) r end.

Lemma write_other f l n : ~ In n (map fst l) -> write f l n = f n.
Proof.
  revert f. induction l as [|[m c] l IH]; intros f H; [reflexivity|]. cbn in *. rewrite IH by tauto.
  unfold put. destruct (String.eqb_spec n m); [subst; tauto|reflexivity].
Qed.

Lemma write_in f l n c : NoDup (map fst l) -> In (n, c) l -> write f l n = Some c.
Proof.
  revert f. induction l as [|[m d] l IH]; intros f D H; [destruct H|]. cbn in *. inversion D as [|? ? D1 D2]; subst.
  destruct H as [H|H]; [|apply IH; assumption]. injection H as -> ->. rewrite write_other by exact D1.
  unfold put. rewrite String.eqb_refl. reflexivity.
Qed.

Lemma write_app f a b : write f (a ++ b) = write (write f a) b.
Proof. revert f. induction a as [|[n c] a IH]; intros f; cbn; [reflexivity|apply IH]. Qed.

(** ** What holds in every state *)
Section Invariant.
Variable W : command.
Variable f : files.
Variable n : nat.
Hypothesis PRE : prefix "default_parameters-" (filename (argv0 W)) = false.

Let T := templates (registered W).

(** An early end on all ranks. *)
Definition inv_early (s : state) : Prop :=
  st_files s = f /\ length (st_ranks s) = n /\ Forall (fun p => p = Begin \/ p = Exited Early 1 []) (st_ranks s).

(** The time loop on all ranks. *)
Definition inv_run (s : state) : Prop :=
  st_files s = f /\ length (st_ranks s) = n /\
  Forall (fun p => p = Begin \/ p = Check \/ p = Running \/ p = run_program W f) (st_ranks s) /\
  (Exists (fun p => p = run_program W f) (st_ranks s) -> Forall in_loop (st_ranks s)).

(** Templates: what rank 0 has written belongs to its phase. *)
Definition root_writes (p : phase) (g : files) : Prop :=
  match p with
  | Begin | Check => g = f
  | Writing todo => exists done, T = (done ++ todo)%list /\ g = write f done
  | Waiting => g = write f T
  | Exited how k l => how = AtBarrier /\ k = 1%Z /\ l = [] /\ g = write f T
  | Running => False
  end.
Definition inv_first (s : state) : Prop :=
  length (st_ranks s) = n /\
  (exists p, hd_error (st_ranks s) = Some p /\ root_writes p (st_files s)) /\
  Forall (fun p => p = Begin \/ p = Check \/ p = Waiting \/ p = Exited AtBarrier 1 []) (tl (st_ranks s)) /\
  (Exists (fun p => p = Exited AtBarrier 1 []) (st_ranks s) -> Forall at_barrier (st_ranks s)).

Lemma repeat_forall (P : phase -> Prop) k : P Begin -> Forall P (repeat Begin k).
Proof. intros H. induction k; cbn; auto. Qed.

Lemma repeat_exists (P : phase -> Prop) k : ~ P Begin -> ~ Exists P (repeat Begin k).
Proof. intros H. induction k; cbn; intros X; inversion X; auto. Qed.

Lemma set_rank_exists (P : phase -> Prop) l i p : Exists P (set_rank l i p) -> P p \/ Exists P l.
Proof.
  revert i. induction l as [|q l IH]; intros [|i] H; cbn in H; inversion H; subst; auto.
  destruct (IH i H1); auto.
Qed.

Lemma nth_forall (P : phase -> Prop) l i p : Forall P l -> nth_error l i = Some p -> P p.
Proof. intros H N. rewrite Forall_forall in H. apply H. eapply nth_error_In. exact N. Qed.

(** *** Early end *)
Definition early : Prop := 1 < length (args W) \/ exists a, args W = [a] /\ f a = None.

Lemma early_inv k s : early -> execution W f n k s -> inv_early s.
Proof.
  intros E H. induction H as [|k s s' H IH X].
  - split; [reflexivity|]. split; [apply repeat_length|]. apply repeat_forall. auto.
  - destruct IH as (F & L & A). destruct X as [g l i p p' g' N Q|g l i N _|g l i N _]; cbn in *.
    + subst g. pose proof (nth_forall _ _ _ _ A N) as [-> | ->]; [|discriminate].
      assert (p' = Exited Early 1 [] /\ g' = f) as [-> ->].
      { cbn [local_step] in Q. destruct E as [E|(a & E & M)].
        - destruct (Nat.ltb_spec 2 (S (length (args W)))); [|lia]. injection Q as <- <-. auto.
        - rewrite E in Q. cbn in Q. rewrite M in Q. injection Q as <- <-. auto. }
      split; [reflexivity|]. split; [exact (eq_trans (set_rank_length _ _ _) L)|]. apply set_rank_forall; auto.
    + pose proof (nth_forall _ _ _ _ A N) as [M|M]; discriminate.
    + pose proof (nth_forall _ _ _ _ A N) as [M|M]; discriminate.
Qed.

(** *** Time loop *)
Definition runs : Prop := length (args W) <= 1 /\ exists c, f (parameter_file W) = Some c.

Lemma run_in_loop g : in_loop (run_program W g).
Proof. unfold run_program. destruct (g (parameter_file W)); exact I. Qed.

Lemma runs_inv k s : runs -> execution W f n k s -> inv_run s.
Proof.
  intros (E & c & C) H. induction H as [|k s s' H IH X].
  - split; [reflexivity|]. split; [apply repeat_length|]. split; [apply repeat_forall; auto|].
    intros Z. exfalso. revert Z. apply repeat_exists. unfold run_program. rewrite C. discriminate.
  - destruct IH as (F & L & A & B). destruct X as [g l i p p' g' N Q|g l i N _|g l i N A']; cbn in *.
    + subst g. pose proof (nth_forall _ _ _ _ A N) as M.
      assert ((p' = Check \/ p' = Running) /\ (p = Begin \/ p = Check) /\ g' = f) as (P' & P0 & ->).
      { destruct M as [-> |[-> |[-> | ->]]]; cbn [local_step] in Q.
        - destruct (Nat.ltb_spec 2 (S (length (args W)))); [lia|]. unfold parameter_file in C.
          destruct (args W) as [|a r]; [injection Q as <- <-; auto|]. rewrite C in Q. injection Q as <- <-. auto.
        - rewrite C in Q. injection Q as <- <-. auto.
        - discriminate.
        - unfold run_program in Q. rewrite C in Q. discriminate. }
      split; [reflexivity|]. split; [exact (eq_trans (set_rank_length _ _ _) L)|]. split; [apply set_rank_forall; [exact A|tauto]|].
      intros Z. exfalso. apply set_rank_exists in Z. destruct Z as [Z|Z].
      * unfold run_program in Z. rewrite C in Z. destruct P'; subst; discriminate.
      * apply B in Z. pose proof (nth_forall _ _ _ _ Z N) as Y. destruct P0; subst; exact Y.
    + pose proof (nth_forall _ _ _ _ A N) as [M|[M|[M|M]]]; try discriminate. unfold run_program in M. rewrite C in M. discriminate.
    + subst g. split; [reflexivity|]. split; [exact (eq_trans (set_rank_length _ _ _) L)|]. split; [apply set_rank_forall; auto|].
      intros _. apply set_rank_forall; [exact A'|apply run_in_loop].
Qed.

(** *** Templates *)
Lemma done_missing done todo : f (default_file W) = None -> T = (done ++ todo)%list -> write f done (default_file W) = None.
Proof.
  intros M E. rewrite write_other; [exact M|]. intros H. apply (default_not_template W PRE). fold T. rewrite E, map_app. apply in_or_app. left. exact H.
Qed.

Lemma first_inv k s : 1 <= n -> first_start W f -> execution W f n k s -> inv_first s.
Proof.
  intros Hn (E & M) H. assert (PF : parameter_file W = default_file W) by (unfold parameter_file; rewrite E; reflexivity).
  induction H as [|k s s' H IH X].
  - split; [apply repeat_length|]. cbn [st_files st_ranks]. destruct n as [|j]; [lia|]. cbn [repeat hd_error tl].
    split; [exists Begin; split; reflexivity|]. split; [apply repeat_forall; auto|].
    intros Z. exfalso. revert Z. apply (repeat_exists _ (S j)). discriminate.
  - destruct IH as (L & (p0 & P0 & R0) & A & B).
    assert (MISS : st_files s (default_file W) = None).
    { destruct p0 as [| |todo| | |how c l]; cbn in R0.
      - rewrite R0. exact M.
      - rewrite R0. exact M.
      - destruct R0 as (done & Q & ->). apply (done_missing done todo M Q).
      - rewrite R0. apply (done_missing T [] M). symmetry. apply app_nil_r.
      - contradiction.
      - destruct R0 as (_ & _ & _ & ->). apply (done_missing T [] M). symmetry. apply app_nil_r. }
    destruct X as [g l i p p' g' N Q|g l i N A'|g l i N A']; cbn [st_files st_ranks] in *.
    + destruct l as [|q l]; [discriminate|]. cbn in P0. injection P0 as ->. destruct i as [|i].
      * cbn in N. injection N as ->. cbn [Nat.eqb] in Q. cbn [set_rank].
        assert (Y : root_writes p' g' /\ ~ at_barrier p /\ p' <> Exited AtBarrier 1 []).
        { destruct p as [| |[|[m c] todo]| | |]; cbn [local_step] in Q; try discriminate.
          - rewrite E in Q. cbn in Q. injection Q as <- <-. repeat split; auto. discriminate.
          - rewrite PF, MISS in Q. injection Q as <- <-. cbn. split; [exists []; split; [reflexivity|exact R0]|]. split; [tauto|discriminate].
          - injection Q as <- <-. cbn in R0 |- *. destruct R0 as (done & Q & ->). rewrite app_nil_r in Q. subst done.
            split; [reflexivity|]. split; [tauto|discriminate].
          - injection Q as <- <-. cbn in R0 |- *. destruct R0 as (done & Q & ->). split; [|split; [tauto|discriminate]].
            exists (done ++ [(m, c)])%list. rewrite <- app_assoc. split; [exact Q|]. rewrite write_app. reflexivity. }
        destruct Y as (Y1 & Y2 & Y3).
        split; [exact L|]. split; [exists p'; split; [reflexivity|exact Y1]|]. split; [exact A|].
        intros Z. inversion Z as [? ? Z1|? ? Z1]; subst; [contradiction|].
        exfalso. apply Y2. specialize (B (Exists_cons_tl _ Z1)). inversion B; assumption.
      * cbn in N. cbn [Nat.eqb] in Q. cbn [set_rank tl] in *. pose proof (nth_forall _ _ _ _ A N) as V.
        assert (Y : (p' = Check \/ p' = Waiting) /\ ~ at_barrier p /\ g' = g).
        { destruct V as [-> |[-> |[-> | ->]]]; cbn [local_step] in Q; try discriminate.
          - rewrite E in Q. cbn in Q. injection Q as <- <-. auto.
          - rewrite PF, MISS in Q. injection Q as <- <-. auto. }
        destruct Y as (Y1 & Y2 & ->). split; [exact (eq_trans (f_equal S (set_rank_length _ _ _)) L)|].
        split; [exists p0; split; [reflexivity|exact R0]|]. split; [apply set_rank_forall; [exact A|tauto]|].
        intros Z. exfalso. apply Y2. assert (Z' : Exists (fun p => p = Exited AtBarrier 1 []) (p0 :: l)).
        { inversion Z as [? ? Z1|? ? Z1]; subst; [left; reflexivity|]. apply set_rank_exists in Z1.
          destruct Z1 as [Z1|Z1]; [destruct Y1; subst; discriminate|right; exact Z1]. }
        specialize (B Z'). inversion B as [|? ? _ B2]; subst. exact (nth_forall _ _ _ _ B2 N).
    + destruct l as [|q l]; [discriminate|]. cbn in P0. injection P0 as ->.
      split; [exact (eq_trans (set_rank_length _ _ _) L)|]. split; [|split].
      * destruct i as [|i]; cbn [set_rank hd_error].
        -- cbn in N. injection N as ->. eexists. split; [reflexivity|]. cbn in R0 |- *. auto.
        -- exists p0. split; [reflexivity|exact R0].
      * destruct i as [|i]; cbn [set_rank tl] in *; [exact A|]. apply set_rank_forall; auto.
      * intros _. apply set_rank_forall; [exact A'|exact I].
    + exfalso. destruct l as [|q l]; [discriminate|]. cbn in P0. injection P0 as ->. inversion A' as [|? ? V _]; subst.
      destruct p0 as [| |todo| | |how c l0]; cbn in R0, V; try contradiction. destruct R0 as (-> & _). exact V.
Qed.
End Invariant.

(** The cases are exhaustive. *)
Lemma start_cases W f : early W f \/ runs W f \/ first_start W f.
Proof.
  unfold early, runs, first_start. destruct (args W) as [|a [|b r]] eqn:E.
  - unfold parameter_file. rewrite E. destruct (f (default_file W)) as [c|] eqn:D; [right; left; split; [cbn; lia|exists c; reflexivity]|auto].
  - unfold parameter_file. rewrite E. destruct (f a) as [c|] eqn:D.
    + right. left. split; [cbn; lia|exists c; reflexivity].
    + left. right. exists a. auto.
  - left. left. cbn. lia.
Qed.
