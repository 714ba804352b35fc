(** * The main function: final results *)
From Coq Require Import String Ascii List Bool ZArith Lia Arith Permutation.
From Verif Require Import Dispatch DispatchProofs StartUp StartUpSpec StartUpProofs.
Import ListNotations.
Local Open Scope string_scope.

(** ** Progress *)
Lemma not_finished l : ~ Forall finished l -> exists i p, nth_error l i = Some p /\ ~ finished p.
Proof.
  induction l as [|p l IH]; intros H; [exfalso; apply H; constructor|].
  destruct p; try (solve [exists 0; eexists; split; [reflexivity|intros []]]).
  destruct IH as (i & q & N & Q); [intros A; apply H; constructor; [exact I|exact A]|]. exists (S i), q. auto.
Qed.

Lemma local_exists W root g p : p = Begin \/ p = Check \/ (exists t, p = Writing t) -> exists q, local_step W root g p = Some q.
Proof.
  intros [-> |[-> |([|[n c] t] & ->)]]; cbn [local_step]; try (eexists; reflexivity).
  - destruct (Nat.ltb _ _); [eexists; reflexivity|]. destruct (args W) as [|a r]; [eexists; reflexivity|].
    destruct (g a); eexists; reflexivity.
  - destruct (g _); [eexists; reflexivity|]. destruct root; eexists; reflexivity.
Qed.

Lemma local_moves W g l i p : nth_error l i = Some p -> p = Begin \/ p = Check \/ (exists t, p = Writing t) ->
  exists s', step W {| st_files := g; st_ranks := l |} s'.
Proof.
  intros N H. destruct (local_exists W (Nat.eqb i 0) g p H) as ([p' g'] & E). eexists. eapply step_local; eassumption.
Qed.

Lemma moving_dec p : (p = Begin \/ p = Check \/ exists t, p = Writing t) \/ ~ (p = Begin \/ p = Check \/ exists t, p = Writing t).
Proof.
  destruct p; try (left; tauto); try (left; right; right; eexists; reflexivity);
    right; intros [H|[H|(t & H)]]; discriminate.
Qed.

Lemma moving_search l : (exists i p, nth_error l i = Some p /\ (p = Begin \/ p = Check \/ exists t, p = Writing t)) \/
  Forall (fun p => ~ (p = Begin \/ p = Check \/ exists t, p = Writing t)) l.
Proof.
  induction l as [|p l [(i & q & N & H)|IH]]; [right; constructor|left; exists (S i), q; auto|].
  destruct (moving_dec p); [left; exists 0, p; auto|right; constructor; assumption].
Qed.

Lemma C156_progress_proof W f n k s : 1 <= n ->
  prefix "default_parameters-" (filename (argv0 W)) = false ->
  execution W f n k s -> Forall finished (st_ranks s) \/ exists s', step W s s'.
Proof.
  intros Hn P H. destruct s as [g l]. cbn [st_ranks].
  destruct (moving_search l) as [(i & p & N & M)|NM]; [right; eapply local_moves; eassumption|].
  assert (D : Forall finished l \/ ~ Forall finished l).
  { clear. induction l as [|p l [IH|IH]]; [left; constructor| |right; intros A; inversion A; auto].
    destruct p; try (right; intros A; inversion A as [|? ? X _]; exact X). left. constructor; [exact I|exact IH]. }
  destruct D as [D|D]; [left; exact D|]. right. destruct (not_finished l D) as (i & p & N & Q).
  destruct (start_cases W f) as [C|[C|C]].
  - destruct (early_inv W f n k _ C H) as (_ & _ & A). cbn in A. pose proof (nth_forall _ _ _ _ A N) as [-> | ->]; [|destruct (Q I)].
    exfalso. apply (nth_forall _ _ _ _ NM N). auto.
  - destruct (runs_inv W f n k _ C H) as (_ & _ & A & _). cbn in A.
    assert (AL : Forall in_loop l).
    { rewrite Forall_forall in *. intros x X. destruct (A x X) as [-> |[-> |[-> | ->]]]; [exfalso; apply (NM _ X); auto|exfalso; apply (NM _ X); auto|exact I|apply run_in_loop]. }
    pose proof (nth_forall _ _ _ _ AL N) as V. destruct p as [| | | | |[]]; try destruct V; try destruct (Q I).
    eexists. eapply step_run; eassumption.
  - destruct (first_inv W f n P k _ Hn C H) as (_ & (p0 & P0 & R0) & A & _). cbn in P0, A, R0.
    assert (AL : Forall at_barrier l).
    { destruct l as [|q l]; [discriminate|]. injection P0 as ->. inversion NM as [|? ? NM0 NM1]; subst. constructor.
      - destruct p0 as [| |t| | |how c x]; cbn in R0; try (exfalso; apply NM0; eauto; fail); try exact I; try contradiction.
        destruct R0 as (-> & _). exact I.
      - cbn in A. rewrite Forall_forall in *. intros x X. destruct (A x X) as [-> |[-> |[-> | ->]]]; [exfalso; apply (NM1 _ X); auto|exfalso; apply (NM1 _ X); auto|exact I|exact I]. }
    pose proof (nth_forall _ _ _ _ AL N) as V. destruct p as [| | | | |[]]; try destruct V; try destruct (Q I).
    eexists. eapply step_barrier; eassumption.
Qed.

(** Hence every start comes to an end. *)
Lemma finishes W f n : 1 <= n -> prefix "default_parameters-" (filename (argv0 W)) = false ->
  exists k s, execution W f n k s /\ Forall finished (st_ranks s).
Proof.
  intros Hn P. set (T := length (templates (registered W))).
  assert (G : forall m k s, execution W f n k s -> total T (st_ranks s) <= m -> exists k s, execution W f n k s /\ Forall finished (st_ranks s)).
  { induction m as [|m IH]; intros k s E L.
    - destruct (C156_progress_proof W f n k s Hn P E) as [F|(s' & X)]; [exists k, s; auto|].
      pose proof (step_decreases W s s' X). fold T in H. lia.
    - destruct (C156_progress_proof W f n k s Hn P E) as [F|(s' & X)]; [exists k, s; auto|].
      pose proof (step_decreases W s s' X). fold T in H. apply (IH (S k) s'); [econstructor; eassumption|lia]. }
  eapply G; [apply exec_start|apply le_n].
Qed.

(** ** Status *)
Lemma C156_status_proof W f n k s : 1 <= n ->
  prefix "default_parameters-" (filename (argv0 W)) = false ->
  execution W f n k s -> Forall finished (st_ranks s) ->
  let selects c := (1 <= c_dimension c <= 3)%Z /\ count_occ string_dec (registered W) (c_equation c) = 1 /\
                   run_ok W (c_equation c) (c_dimension c) = true in
  (exists c, length (args W) <= 1 /\ f (parameter_file W) = Some c /\ selects c /\
     Forall (ended 0 [(c_equation c, c_dimension c)]) (st_ranks s)) \/
  (~ (length (args W) <= 1 /\ exists c, f (parameter_file W) = Some c /\ selects c) /\
   exists status loops, status <> 0%Z /\ Forall (ended status loops) (st_ranks s)).
Proof.
  intros Hn P H F selects. destruct (start_cases W f) as [C|[C|C]].
  - right. destruct (early_inv W f n k s C H) as (_ & _ & A). split.
    + intros (L & c & E & _). destruct C as [C|(a & C & M)]; [lia|]. unfold parameter_file in E. rewrite C in E. congruence.
    + exists 1%Z, []. split; [lia|]. rewrite Forall_forall in *. intros p X. destruct (A p X) as [-> | ->]; [destruct (F _ X)|eexists; reflexivity].
  - destruct (runs_inv W f n k s C H) as (_ & _ & A & _). destruct C as (L & c & E).
    assert (R : Forall (fun p => p = run_program W f) (st_ranks s)).
    { rewrite Forall_forall in *. intros p X. destruct (A p X) as [-> |[-> |[-> | ->]]]; try destruct (F _ X); reflexivity. }
    unfold run_program in R. rewrite E in R.
    set (o := dispatch (run_ok W) (registered W) (c_dimension c) (c_equation c) false) in R.
    pose proof (C53_success_proof (run_ok W) (registered W) (c_dimension c) (c_equation c)) as S1. fold o in S1.
    pose proof (C53_only_selected_proof (run_ok W) (registered W) (c_dimension c) (c_equation c)) as S2. fold o in S2.
    destruct (returned o) eqn:O.
    + left. exists c. pose proof (proj1 S1 eq_refl) as (D & K & V). split; [exact L|]. split; [exact E|]. split; [split; [|split]; assumption|].
      assert (S3 : started o = [(c_equation c, c_dimension c)]).
      { rewrite S2. destruct (dim_dec (c_dimension c)) as [_|ND]; [|contradiction].
        destruct (in_dec string_dec (c_equation c) (registered W)) as [_|NI]; [reflexivity|].
        apply (count_occ_not_In string_dec) in NI. rewrite NI in K. discriminate. }
      rewrite S3 in R. rewrite Forall_forall in *. intros p X. rewrite (R p X). eexists. reflexivity.
    + right. split.
      * intros (_ & c' & E' & (D & K & V)). rewrite E in E'. injection E' as <-.
        pose proof (proj2 S1 (conj D (conj K V))). discriminate.
      * exists 134%Z, (started o). split; [lia|]. rewrite Forall_forall in *. intros p X. rewrite (R p X). eexists. reflexivity.
  - right. destruct (first_inv W f n P k s Hn C H) as (_ & (p0 & P0 & R0) & A & _). split.
    + intros (_ & c & E & _). destruct C as (C & M). unfold parameter_file in E. rewrite C in E. congruence.
    + exists 1%Z, []. split; [lia|]. destruct (st_ranks s) as [|q l]; [discriminate|]. injection P0 as ->. cbn [tl] in A.
      inversion F as [|? ? F0 F1]; subst. constructor.
      * destruct p0; try destruct F0. cbn in R0. destruct R0 as (-> & -> & -> & _). eexists. reflexivity.
      * rewrite Forall_forall in *. intros p X. destruct (A p X) as [-> |[-> |[-> | ->]]]; try destruct (F1 _ X). eexists. reflexivity.
Qed.

(** ** Files *)
Lemma C156_files_proof W f n k s name : 1 <= n ->
  prefix "default_parameters-" (filename (argv0 W)) = false -> execution W f n k s ->
  st_files s name = f name \/ (first_start W f /\ prefix "default_parameters-" name = true).
Proof.
  intros Hn P H. destruct (start_cases W f) as [C|[C|C]].
  - destruct (early_inv W f n k s C H) as (-> & _). auto.
  - destruct (runs_inv W f n k s C H) as (-> & _). auto.
  - destruct (first_inv W f n P k s Hn C H) as (_ & (p0 & _ & R0) & _).
    assert (X : exists done todo, templates (registered W) = (done ++ todo)%list /\ st_files s = write f done).
    { destruct p0 as [| |t| | |how c x]; cbn in R0.
      - exists [], (templates (registered W)). auto.
      - exists [], (templates (registered W)). auto.
      - destruct R0 as (done & E & ->). exists done, t. auto.
      - exists (templates (registered W)), []. rewrite app_nil_r. auto.
      - contradiction.
      - destruct R0 as (_ & _ & _ & ->). exists (templates (registered W)), []. rewrite app_nil_r. auto. }
    destruct X as (done & todo & E & ->).
    destruct (in_dec string_dec name (map fst done)) as [I|I]; [|left; apply write_other; exact I].
    right. split; [exact C|]. apply (template_prefix (registered W)). rewrite E, map_app. apply in_or_app. left. exact I.
Qed.

(** ** Templates *)
Definition template_name (equation : string) (dim : Z) : string :=
  "default_parameters-" ++ (underscore equation ++ "-" ++ digit dim ++ "d") ++ ".prm".

Fixpoint distinct (l : list string) : bool :=
  match l with [] => true | x :: r => (negb (existsb (String.eqb x) r) && distinct r)%bool end.
Lemma distinct_nodup l : distinct l = true -> NoDup l.
Proof.
  induction l as [|x r IH]; intros H; constructor; cbn in H; apply andb_true_iff in H; destruct H as [H1 H2]; [|auto].
  intros I. apply negb_true_iff in H1. rewrite <- not_true_iff_false in H1. apply H1. apply existsb_exists. exists x.
  split; [exact I|apply String.eqb_refl].
Qed.

Lemma templates_nodup regs : Permutation shipped_equations regs -> NoDup (map fst (templates regs)).
Proof.
  intros H. apply (Permutation_NoDup (l := map fst (templates shipped_equations))).
  - apply Permutation_map. unfold templates. apply Permutation_flat_map. exact H.
  - apply distinct_nodup. reflexivity.
Qed.

Lemma template_in regs eq dim : In eq regs -> (1 <= dim <= 3)%Z ->
  In (template_name eq dim, {| c_equation := eq; c_dimension := dim; c_rest := "defaults" |}) (templates regs).
Proof.
  intros H D. apply in_flat_map. exists eq. split; [exact H|]. unfold equation_files, prm_files, template_name. cbn [app In].
  assert (dim = 1 \/ dim = 2 \/ dim = 3)%Z as [-> |[-> | ->]] by lia; cbn [digit Z.eqb Pos.eqb]; auto.
Qed.

Lemma C156_templates_proof W f n k s equation dim : 1 <= n ->
  prefix "default_parameters-" (filename (argv0 W)) = false -> Permutation shipped_equations (registered W) ->
  first_start W f -> execution W f n k s -> Forall finished (st_ranks s) ->
  In equation shipped_equations -> (1 <= dim <= 3)%Z ->
  exists name c, st_files s name = Some c /\ c_equation c = equation /\ c_dimension c = dim /\ prefix "default_parameters-" name = true /\
    forall f2 n2 k2 s2, 1 <= n2 -> f2 (default_file W) = Some c -> run_ok W equation dim = true ->
      execution W f2 n2 k2 s2 -> Forall finished (st_ranks s2) -> Forall (ended 0 [(equation, dim)]) (st_ranks s2).
Proof.
  intros Hn P PM C H F I D. exists (template_name equation dim), {| c_equation := equation; c_dimension := dim; c_rest := "defaults" |}.
  assert (IR : In equation (registered W)) by (eapply Permutation_in; eassumption).
  split; [|split; [reflexivity|split; [reflexivity|split; [apply (prefix_append "default_parameters-")|]]]].
  - destruct (first_inv W f n P k s Hn C H) as (_ & (p0 & P0 & R0) & _). destruct (st_ranks s) as [|q l]; [discriminate|].
    injection P0 as ->. inversion F as [|? ? F0 _]; subst. destruct p0; try destruct F0. destruct R0 as (_ & _ & _ & ->).
    apply write_in; [apply templates_nodup; exact PM|apply template_in; assumption].
  - intros f2 n2 k2 s2 Hn2 E R X F2. destruct C as (A & _).
    assert (PF : parameter_file W = default_file W) by (unfold parameter_file; rewrite A; reflexivity).
    destruct (C156_status_proof W f2 n2 k2 s2 Hn2 P X F2) as [(c & _ & E2 & _ & Z)|(N & _)].
    + rewrite PF, E in E2. injection E2 as <-. exact Z.
    + exfalso. apply N. split; [rewrite A; cbn; lia|]. eexists. split; [rewrite PF; exact E|]. cbn. split; [lia|]. split; [|exact R].
      rewrite <- (proj1 (Permutation_count_occ string_dec _ _) PM equation).
      cbn in I. repeat destruct I as [<-|I]; try reflexivity. destruct I.
Qed.

(** The templates overwrite files that the user has edited but not renamed. *)
Definition plain_start : command :=
  {| argv0 := "./ryujin"; args := []; registered := shipped_equations; run_ok := fun _ _ => true |}.

Lemma C156_overwrite_refuted_proof : exists W f n k s name c,
  1 <= n /\ Permutation shipped_equations (registered W) /\ prefix "default_parameters-" (filename (argv0 W)) = false /\
  execution W f n k s /\ Forall finished (st_ranks s) /\ f name = Some c /\ st_files s name <> Some c.
Proof.
  set (c := {| c_equation := "euler"; c_dimension := 2; c_rest := "edited" |}).
  set (f := fun n : string => if String.eqb n "default_parameters-euler-2d.prm" then Some c else None).
  destruct (finishes plain_start f 1 ltac:(lia) eq_refl) as (k & s & E & F).
  exists plain_start, f, 1, k, s, "default_parameters-euler-2d.prm", c.
  split; [lia|]. split; [apply Permutation_refl|]. split; [reflexivity|]. split; [exact E|]. split; [exact F|]. split; [reflexivity|].
  assert (C : first_start plain_start f) by (split; reflexivity).
  destruct (first_inv plain_start f 1 eq_refl k s (le_n 1) C E) as (_ & (p0 & P0 & R0) & _). destruct (st_ranks s) as [|q l]; [discriminate|].
  injection P0 as ->. inversion F as [|? ? F0 _]; subst. destruct p0; try destruct F0. destruct R0 as (_ & _ & _ & ->).
  pose proof (write_in f _ _ _ (templates_nodup _ (Permutation_refl _)) (template_in shipped_equations "euler" 2 (or_introl eq_refl) ltac:(lia))) as V.
  change (template_name "euler" 2) with "default_parameters-euler-2d.prm" in V.
  change (registered plain_start) with shipped_equations. rewrite V. unfold c. congruence.
Qed.

(** An executable named like a template: the ranks take different ways. *)
Definition unlucky_start : command :=
  {| argv0 := "default_parameters-euler-2d"; args := []; registered := ["euler"]; run_ok := fun _ _ => true |}.

Lemma C156_name_refuted_proof : exists W f n k s,
  execution W f n k s /\ ~ Forall finished (st_ranks s) /\ ~ exists s', step W s s'.
Proof.
  set (W := unlucky_start). set (f := (fun _ => None) : files).
  assert (E : execution W f 2 9 {| st_files := write f (templates ["euler"]); st_ranks := [Waiting; Running] |}).
  { pose proof (exec_start W f 2) as H.
    pose proof (exec_step _ _ _ _ _ _ H (step_local W f [Begin; Begin] 0 Begin Check f eq_refl eq_refl)) as H1. clear H. cbn [set_rank] in H1.
    pose proof (exec_step _ _ _ _ _ _ H1 (step_local W f [Check; Begin] 0 Check (Writing (templates ["euler"])) f eq_refl eq_refl)) as H2. clear H1. cbn [set_rank] in H2.
    assert (G : forall l g k, execution W f 2 k {| st_files := g; st_ranks := [Writing l; Begin] |} ->
                execution W f 2 (length l + k) {| st_files := write g l; st_ranks := [Writing []; Begin] |}).
    { induction l as [|[m c] l IH]; intros g k H; [exact H|]. cbn [length write]. rewrite Nat.add_succ_comm. apply IH.
      exact (exec_step _ _ _ _ _ _ H (step_local W g [Writing ((m, c) :: l); Begin] 0 _ _ _ eq_refl eq_refl)). }
    apply G in H2. clear G. change (length (templates ["euler"]) + 2) with 6 in H2. set (g := write f (templates ["euler"])) in *.
    pose proof (exec_step _ _ _ _ _ _ H2 (step_local W g [Writing []; Begin] 0 _ _ _ eq_refl eq_refl)) as H3. cbn [set_rank] in H3.
    pose proof (exec_step _ _ _ _ _ _ H3 (step_local W g [Waiting; Begin] 1 _ _ _ eq_refl eq_refl)) as H4. cbn [set_rank] in H4.
    pose proof (exec_step _ _ _ _ _ _ H4 (step_local W g [Waiting; Check] 1 _ _ _ eq_refl eq_refl)) as H5. cbn [set_rank] in H5.
    exact H5. }
  exists W, f, 2, 9. eexists. split; [exact E|]. cbn [st_ranks]. split.
  - intros A. inversion A as [|? ? X _]; subst. exact X.
  - intros (s' & X). inversion X as [g l i p p' g' N Q|g l i N A|g l i N A]; subst.
    + destruct i as [|[|i]]; cbn in N; [injection N as <-; discriminate Q|injection N as <-; discriminate Q|].
      destruct i; discriminate N.
    + inversion A as [|? ? _ A1]; subst. inversion A1 as [|? ? V _]; subst. exact V.
    + inversion A as [|? ? V _]; subst. exact V.
Qed.

(** A template for each equation, and a run with a parameter file. *)
Lemma start_case :
  prefix "default_parameters-" (filename (argv0 plain_start)) = false /\ default_file plain_start = "ryujin.prm" /\
  Permutation shipped_equations (registered plain_start) /\ first_start plain_start (fun _ => None) /\
  exists k s, execution plain_start (fun _ => None) 3 k s /\ Forall finished (st_ranks s) /\
    st_files s "default_parameters-scalar_conservation-1d.prm"
      = Some {| c_equation := "scalar conservation"; c_dimension := 1; c_rest := "defaults" |}.
Proof.
  split; [reflexivity|]. split; [reflexivity|]. split; [apply Permutation_refl|]. split; [split; reflexivity|].
  destruct (finishes plain_start (fun _ => None) 3 ltac:(lia) eq_refl) as (k & s & E & F). exists k, s. split; [exact E|]. split; [exact F|].
  assert (C : first_start plain_start (fun _ => None)) by (split; reflexivity).
  destruct (first_inv plain_start _ 3 eq_refl k s ltac:(lia) C E) as (_ & (p0 & P0 & R0) & _). destruct (st_ranks s) as [|q l]; [discriminate|].
  injection P0 as ->. inversion F as [|? ? F0 _]; subst. destruct p0; try destruct F0. destruct R0 as (_ & _ & _ & ->).
  apply (write_in _ _ "default_parameters-scalar_conservation-1d.prm" _ (templates_nodup _ (Permutation_refl _))).
  apply (template_in shipped_equations "scalar conservation" 1); [cbn; tauto|lia].
Qed.

Lemma status_case : exists k s,
  execution plain_start (put (fun _ => None) "ryujin.prm" {| c_equation := "navier stokes"; c_dimension := 2; c_rest := "" |}) 2 k s /\
  Forall (ended 0 [("navier stokes", 2%Z)]) (st_ranks s).
Proof.
  set (f := put _ _ _). destruct (finishes plain_start f 2 ltac:(lia) eq_refl) as (k & s & E & F). exists k, s. split; [exact E|].
  destruct (C156_status_proof plain_start f 2 k s ltac:(lia) eq_refl E F) as [(c & _ & E2 & _ & Z)|(N & _)].
  - cbn in E2. injection E2 as <-. exact Z.
  - exfalso. apply N. split; [cbn; lia|]. eexists. split; [reflexivity|]. cbn. split; [lia|]. auto.
Qed.

(** ** File names *)
Lemma has_slash_spec s : has_slash s = true <-> exists a b, s = a ++ "/" ++ b.
Proof.
  induction s as [|c r IH]; cbn.
  - split; [discriminate|]. intros (a & b & E). destruct a; discriminate.
  - rewrite orb_true_iff, IH, Ascii.eqb_eq. split.
    + intros [->|(a & b & ->)]; [exists "", r; reflexivity|exists (String c a), b; reflexivity].
    + intros (a & b & E). destruct a as [|x a]; cbn in E; injection E as -> ->; [left; reflexivity|right; exists a, b; reflexivity].
Qed.

Lemma filename_plain s : has_slash s = false -> filename s = s.
Proof.
  destruct s as [|c r]; [reflexivity|]. cbn. intros H. apply orb_false_iff in H. destruct H as [H1 H2]. rewrite H1, H2. reflexivity.
Qed.

Lemma filename_dir dir base : has_slash base = false -> filename (dir ++ "/" ++ base) = base.
Proof.
  intros H. induction dir as [|c dir IH].
  - change ("" ++ "/" ++ base) with (String "/" base). cbn [filename]. rewrite H. reflexivity.
  - change (String c dir ++ "/" ++ base) with (String c (dir ++ "/" ++ base)). cbn [filename].
    replace (has_slash (dir ++ "/" ++ base)) with true; [exact IH|]. symmetry. apply has_slash_spec. exists dir, base. reflexivity.
Qed.

Fixpoint has_blank (s : string) : bool :=
  match s with EmptyString => false | String c r => (Ascii.eqb c " " || has_blank r)%bool end.
Lemma has_blank_intro a b : has_blank (a ++ " " ++ b) = true.
Proof. induction a as [|c a IH]; [reflexivity|]. cbn. cbn in IH. rewrite IH, orb_true_r. reflexivity. Qed.
Lemma has_blank_app a b : has_blank (a ++ b) = (has_blank a || has_blank b)%bool.
Proof. induction a as [|c a IH]; [reflexivity|]. cbn. rewrite IH, orb_assoc. reflexivity. Qed.
Lemma underscore_blank s : has_blank (underscore s) = false.
Proof. induction s as [|c s IH]; [reflexivity|]. cbn. rewrite IH, orb_false_r. destruct (Ascii.eqb c " ") eqn:E; [reflexivity|exact E]. Qed.

Lemma C156_names_proof W :
  (forall dir base, (argv0 W = dir ++ "/" ++ base \/ argv0 W = base) -> (forall a b, base <> a ++ "/" ++ b) -> args W = [] ->
     parameter_file W = base ++ ".prm") /\
  (forall a r, args W = a :: r -> parameter_file W = a) /\
  forall n c, In (n, c) (templates (registered W)) -> forall a b, n <> a ++ " " ++ b.
Proof.
  split; [|split].
  - intros dir base E N A. unfold parameter_file, default_file. rewrite A.
    assert (S : has_slash base = false).
    { destruct (has_slash base) eqn:Q; [|reflexivity]. apply has_slash_spec in Q. destruct Q as (a & b & Q). destruct (N a b Q). }
    destruct E as [-> | ->]; [rewrite filename_dir by exact S; reflexivity|rewrite filename_plain by exact S; reflexivity].
  - intros a r A. unfold parameter_file. rewrite A. reflexivity.
  - intros n c I a b E. assert (B : has_blank n = true) by (rewrite E; apply has_blank_intro).
    assert (F : has_blank n = false); [|congruence]. apply in_flat_map in I. destruct I as (e & _ & I).
    unfold equation_files, prm_files in I. cbn [app In] in I.
    destruct I as [I|[I|[I|[I|[]]]]]; apply (f_equal fst) in I; cbn [fst] in I; rewrite <- I; rewrite !has_blank_app, underscore_blank; reflexivity.
Qed.

Lemma names_case : argv0 plain_start = "." ++ "/" ++ "ryujin" /\ args plain_start = [] /\ parameter_file plain_start = "ryujin.prm" /\
  In ("default_parameters-shallow_water-3d.prm", {| c_equation := "shallow water"; c_dimension := 3; c_rest := "defaults" |}) (templates (registered plain_start)).
Proof. split; [reflexivity|]. split; [reflexivity|]. split; [reflexivity|]. apply (template_in shipped_equations "shallow water" 3); [cbn; tauto|lia]. Qed.
