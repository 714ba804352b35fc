(** * Proofs about the parameters of a run *)
From Coq Require Import String List Bool Arith Lia.
From Verif Require Import RunParams RunParamsSpec.
Import ListNotations.
Local Open Scope string_scope.

(** ** Values *)
Lemma value_unassigned file k d : unassigned file k -> value file k d = d.
Proof.
  revert d. induction file as [|[k' v] r IH]; intros d U; [reflexivity|]. cbn [value].
  destruct (String.eqb_spec k k') as [->|N].
  - exfalso. apply (U v). left. reflexivity.
  - apply IH. intros w I. apply (U w). right. exact I.
Qed.

Lemma value_app a b k d : value (a ++ b)%list k d = value b k (value a k d).
Proof. revert d. induction a as [|[k' v] a IH]; intros d; [reflexivity|]. cbn [value app]. apply IH. Qed.

Lemma value_assigned file k v d : assigned file k v -> value file k d = v.
Proof.
  intros (a & b & -> & U). rewrite value_app. cbn [value]. rewrite String.eqb_refl. apply value_unassigned. exact U.
Qed.

Lemma gives_value file k d v : gives file k d v -> value file k d = v.
Proof. intros [A|[U ->]]; [apply value_assigned; exact A|apply value_unassigned; exact U]. Qed.

Lemma value_gives file k d : gives file k d (value file k d).
Proof.
  revert d. induction file as [|[k' w] r IH]; intros d.
  - right. split; [intros w []|reflexivity].
  - cbn [value]. destruct (String.eqb_spec k k') as [<-|N].
    + left. destruct (IH w) as [(a & b & E & U)|[U ->]].
      * exists ((k, w) :: a), b. split; [cbn; rewrite E at 1; reflexivity|exact U].
      * exists [], r. split; [reflexivity|exact U].
    + destruct (IH d) as [(a & b & E & U)|[U E]].
      * left. exists ((k', w) :: a), b. split; [cbn; rewrite E at 1; reflexivity|exact U].
      * right. split; [|exact E]. intros x [H|H]; [injection H as H _; congruence|apply (U x H)].
Qed.

Lemma value_value file k d : value file k (value file k d) = value file k d.
Proof.
  destruct (value_gives file k d) as [A|[U E]].
  - apply value_assigned. exact A.
  - rewrite E. exact E.
Qed.

(** ** One rank alone *)
Definition update (c : entries) (prm : entries) : entries := map (fun kv => (fst kv, value c (fst kv) (snd kv))) prm.

Definition configured (D : drivers) (c : entries) : option entries :=
  match construct D c with
  | Constructed prm => match initialize prm c with Initialized cfg => Some cfg | _ => None end
  | _ => None
  end.

Lemma update_update c l : update c (update c l) = update c l.
Proof. unfold update. rewrite map_map. apply map_ext. intros [k v]. cbn. rewrite value_value. reflexivity. Qed.

Lemma update_keys c l : map fst (update c l) = map fst l.
Proof. unfold update. rewrite map_map. reflexivity. Qed.

Lemma declares_keys prm k : declares prm k = true <-> In k (map fst prm).
Proof.
  unfold declares. rewrite existsb_exists, in_map_iff. split.
  - intros ([k' v] & I & E). apply String.eqb_eq in E. cbn in E. subst k'. exists (k, v). split; [reflexivity|exact I].
  - intros ([k' v] & E & I). cbn in E. subst k'. exists (k, v). split; [exact I|apply String.eqb_refl].
Qed.

Lemma construct_eq D c :
  construct D c = match D (value c key_equation "") (value c key_dimension "0") with
                  | None => Failed | Some d => Constructed (update c dispatch_prm ++ d)%list end.
Proof. unfold construct, parse_input. cbn [orb]. cbn -[value key_equation key_dimension]. reflexivity. Qed.

Lemma update_app c a b : update c (a ++ b)%list = (update c a ++ update c b)%list.
Proof. apply map_app. Qed.

Lemma configured_eq D c :
  configured D c = match D (value c key_equation "") (value c key_dimension "0") with
                   | None => None
                   | Some d => if forallb (fun kv => declares (all_parameters d) (fst kv)) c then Some (update c (all_parameters d)) else None
                   end.
Proof.
  unfold configured. rewrite construct_eq. destruct (D _ _) as [d|]; [|reflexivity].
  unfold initialize, parse_input. cbn [orb].
  assert (E : forallb (fun kv => declares (update c dispatch_prm ++ d)%list (fst kv)) c = forallb (fun kv => declares (all_parameters d) (fst kv)) c).
  { clear. generalize c at 2 3 as l. intros l. induction l as [|[k v] l IH]; [reflexivity|]. cbn [forallb fst]. rewrite IH. f_equal. }
  rewrite E. destruct (forallb _ c); [|reflexivity]. f_equal.
  fold (update c (update c dispatch_prm ++ d)%list). rewrite update_app, update_update. reflexivity.
Qed.

Lemma Forall2_update c l : Forall2 (fun kd kv => fst kd = fst kv /\ gives c (fst kd) (snd kd) (snd kv)) l (update c l).
Proof. induction l as [|[k d] l IH]; constructor; [|exact IH]. cbn. split; [reflexivity|apply value_gives]. Qed.

Lemma update_unique c l r : Forall2 (fun kd kv => fst kd = fst kv /\ gives c (fst kd) (snd kd) (snd kv)) l r -> r = update c l.
Proof.
  intros H. induction H as [|[k d] [k' v] l r [E G] H IH]; [reflexivity|]. cbn in E, G. subst k'.
  change (update c ((k, d) :: l)) with ((k, value c k d) :: update c l). rewrite <- IH, (gives_value _ _ _ _ G). reflexivity.
Qed.

Lemma configured_spec D c cfg : configured D c = Some cfg <-> configuration D c cfg.
Proof.
  rewrite configured_eq. split.
  - destruct (D _ _) as [d|] eqn:Ed; [|discriminate]. destruct (forallb _ c) eqn:Eb; [|discriminate]. intros E. injection E as <-.
    exists d. split.
    + exists (value c key_equation ""), (value c key_dimension "0"). split; [apply value_gives|]. split; [apply value_gives|exact Ed].
    + split; [apply Forall2_update|]. intros k v I. rewrite forallb_forall in Eb. apply declares_keys. apply (Eb (k, v) I).
  - intros (d & (eq & dim & Ge & Gd & Ed) & F & K).
    rewrite (gives_value _ _ _ _ Ge : value c key_equation "" = eq), (gives_value _ _ _ _ Gd : value c key_dimension "0" = dim), Ed.
    assert (Eb : forallb (fun kv => declares (all_parameters d) (fst kv)) c = true).
    { apply forallb_forall. intros [k v] I. apply declares_keys. apply (K k v I). }
    rewrite Eb. f_equal. symmetry. apply update_unique. exact F.
Qed.

Lemma value_own l k d : NoDup (map fst l) -> In (k, d) l -> forall d', value l k d' = d.
Proof.
  intros N I d'. apply value_assigned. apply in_split in I. destruct I as (a & b & ->). exists a, b. split; [reflexivity|].
  intros w J. rewrite map_app in N. cbn in N. apply NoDup_remove_2 in N. apply N. apply in_app_iff. right.
  apply in_map_iff. exists (k, w). split; [reflexivity|exact J].
Qed.

Lemma update_own c l r : NoDup (map fst r) -> map fst l = map fst r -> c = r -> update c l = r.
Proof.
  intros N E ->. unfold update.
  assert (G : forall r', (forall k v, In (k, v) r' -> forall d, value r k d = v) -> forall l, map fst l = map fst r' ->
     map (fun kv : string * string => (fst kv, value r (fst kv) (snd kv))) l = r').
  { induction r' as [|[k v] r' IH]; intros H [|[k1 d1] l1] E1; cbn in E1; try discriminate; [reflexivity|].
    injection E1 as -> E1. cbn. rewrite (H k v (or_introl eq_refl)). f_equal. apply IH; [|exact E1].
    intros k0 v0 J. apply H. right. exact J. }
  apply G; [|exact E]. intros k v J d. exact (value_own r k v N J d).
Qed.

(** Reading the copy gives the same configuration. *)
Lemma configured_copy D c cfg : distinct_names D -> configured D c = Some cfg -> configured D cfg = Some cfg.
Proof.
  intros N H. rewrite configured_eq in H. destruct (D _ _) as [d|] eqn:Ed; [|discriminate].
  destruct (forallb _ c) eqn:Eb; [|discriminate]. apply (f_equal (fun o => match o with Some x => x | None => cfg end)) in H.
  change (update c (all_parameters d) = cfg) in H.
  assert (M := N _ _ _ Ed).
  assert (K : map fst cfg = map fst (all_parameters d)) by (rewrite <- H; apply update_keys).
  assert (M' : NoDup (map fst cfg)) by (rewrite K; exact M).
  rewrite configured_eq.
  assert (E1 : value cfg key_equation "" = value c key_equation "").
  { apply (value_own cfg key_equation _ M'). rewrite <- H. right. left. reflexivity. }
  assert (E2 : value cfg key_dimension "0" = value c key_dimension "0").
  { apply (value_own cfg key_dimension _ M'). rewrite <- H. left. reflexivity. }
  rewrite E1, E2, Ed.
  assert (B : forallb (fun kv => declares (all_parameters d) (fst kv)) cfg = true).
  { apply forallb_forall. intros [k v] I. apply declares_keys. rewrite <- K. apply in_map_iff. exists (k, v). split; [reflexivity|exact I]. }
  rewrite B. f_equal. apply update_own; [exact M'|symmetry; exact K|reflexivity].
Qed.

(** ** Lists of ranks *)
Lemma set_rank_length l i p : length (set_rank l i p) = length l.
Proof. revert i. induction l as [|q l IH]; intros [|i]; cbn; auto. Qed.
Lemma set_rank_same l i p q : nth_error l i = Some q -> nth_error (set_rank l i p) i = Some p.
Proof. revert i. induction l as [|r l IH]; intros [|i] H; cbn in *; try discriminate; auto. Qed.
Lemma set_rank_other l i j p : i <> j -> nth_error (set_rank l i p) j = nth_error l j.
Proof. revert i j. induction l as [|r l IH]; intros [|i] [|j] H; cbn; auto; try lia. Qed.
Lemma put_same f n c : put f n c n = Some c.
Proof. unfold put. rewrite String.eqb_refl. reflexivity. Qed.
Lemma put_other f n c m : m <> n -> put f n c m = f m.
Proof. intros H. unfold put. destruct (String.eqb_spec m n); [contradiction|reflexivity]. Qed.

(** ** The invariant *)
Definition phase_ok (D : drivers) (c : entries) (p : phase) : Prop :=
  match p with
  | Start => True
  | Constructed prm => construct D c = Constructed prm
  | Initialized cfg | Opened cfg | Started cfg => configured D c = Some cfg
  | Failed => configured D c = None
  end.

Definition before_copy (p : phase) : Prop := match p with Opened _ | Started _ => False | _ => True end.

Record invariant (D : drivers) (c : entries) (f : files) (n : nat) (s : state) : Prop := {
  inv_length : length (st_ranks s) = n;
  inv_ranks : forall i p, nth_error (st_ranks s) i = Some p -> phase_ok D c p;
  inv_nonroot : forall i cfg, nth_error (st_ranks s) i = Some (Opened cfg) -> i = 0;
  inv_files : forall m, (forall cfg, configured D c = Some cfg -> m <> target cfg) -> st_files s m = f m;
  inv_before : forall p, nth_error (st_ranks s) 0 = Some p -> before_copy p -> forall m, st_files s m = f m;
  inv_copy : forall cfg, nth_error (st_ranks s) 0 = Some (Started cfg) -> st_files s (target cfg) = Some cfg }.

Definition safe_name (D : drivers) (c : entries) (name : string) (n : nat) : Prop :=
  n = 1 \/ forall cfg, configured D c = Some cfg -> name <> target cfg.

Lemma read_ok D name f n c s i p : safe_name D c name n -> f name = Some c -> invariant D c f n s ->
  nth_error (st_ranks s) i = Some p -> before_copy p -> st_files s name = Some c.
Proof.
  intros [->|S] F V N B.
  - assert (L : i < length (st_ranks s)) by (apply nth_error_Some; congruence). rewrite (inv_length _ _ _ _ _ V) in L.
    assert (i = 0) by lia.
    subst i. rewrite (inv_before _ _ _ _ _ V p N B). exact F.
  - rewrite (inv_files _ _ _ _ _ V name S). exact F.
Qed.

Lemma step_invariant D name f n c s s' : safe_name D c name n -> f name = Some c -> invariant D c f n s -> step D name s s' -> invariant D c f n s'.
Proof.
  intros Sf F V H. destruct H as [g l i p p' g' N E].
  assert (R := fun B => read_ok D name f n c _ i p Sf F V N B). cbn [st_files st_ranks] in *.
  assert (Pok := inv_ranks _ _ _ _ _ V i p N). cbn [st_ranks] in Pok.
  assert (Len := inv_length _ _ _ _ _ V). cbn [st_ranks] in Len.
  assert (C : phase_ok D c p' /\ (forall cfg, p' = Opened cfg -> i = 0) /\
     (before_copy p' -> i = 0 -> g' = g) /\ (i <> 0 -> g' = g) /\ (before_copy p' -> i = 0 -> before_copy p) /\
     (forall m, (forall cfg, configured D c = Some cfg -> m <> target cfg) -> g' m = g m) /\
     (forall cfg, p' = Started cfg -> i = 0 -> g' (target cfg) = Some cfg)).
  { destruct p as [|prm|cfg|cfg|cfg|]; cbn [rank_step] in E; try discriminate.
    - injection E as <- <-. cbn in R. rewrite (R I). rewrite construct_eq.
      assert (Q : configured D c = None \/ exists d, D (value c key_equation "") (value c key_dimension "0") = Some d).
      { destruct (D (value c key_equation "") (value c key_dimension "0")) eqn:Q; [right; eexists; reflexivity|].
        left. rewrite configured_eq, Q. reflexivity. }
      destruct (D (value c key_equation "") (value c key_dimension "0")) as [d|] eqn:Ed.
      + repeat split; try discriminate; auto. cbn [phase_ok]. rewrite construct_eq, Ed. reflexivity.
      + destruct Q as [Q|[d Q]]; [|discriminate]. repeat split; try discriminate; auto.
    - injection E as <- <-. cbn in R. rewrite (R I). cbn [phase_ok] in Pok.
      assert (Q : configured D c = match initialize prm c with Initialized cfg => Some cfg | _ => None end) by (unfold configured; rewrite Pok; reflexivity).
      unfold initialize in *. destruct (parse_input false prm c) as [cfg|]; repeat split; try discriminate; auto.
    - cbn [phase_ok] in Pok. destruct (Nat.eqb_spec i 0) as [->|Ni]; injection E as <- <-.
      + repeat split; try discriminate; auto; cbn; try tauto; try lia.
        intros m M. apply put_other. apply M. exact Pok.
      + repeat split; try discriminate; auto; try lia.
    - cbn [phase_ok] in Pok. injection E as <- <-.
      assert (i = 0) by (apply (inv_nonroot _ _ _ _ _ V i cfg); exact N). subst i.
      repeat split; try discriminate; auto; cbn; try tauto; try lia.
      + intros m M. apply put_other. apply M. exact Pok.
      + intros cfg0 [= <-] _. apply put_same. }
  destruct C as (C1 & C2 & C3 & C4 & C5 & C6 & C7).
  constructor; cbn [st_files st_ranks].
  - rewrite set_rank_length. exact Len.
  - intros j q J. destruct (Nat.eq_dec i j) as [<-|Ne].
    + rewrite (set_rank_same _ _ _ _ N) in J. injection J as <-. exact C1.
    + rewrite set_rank_other in J by exact Ne. exact (inv_ranks _ _ _ _ _ V j q J).
  - intros j cfg J. destruct (Nat.eq_dec i j) as [<-|Ne].
    + rewrite (set_rank_same _ _ _ _ N) in J. injection J as J. exact (C2 cfg J).
    + rewrite set_rank_other in J by exact Ne. exact (inv_nonroot _ _ _ _ _ V j cfg J).
  - intros m M. rewrite (C6 m M). exact (inv_files _ _ _ _ _ V m M).
  - intros q J B m. destruct (Nat.eq_dec i 0) as [->|Ne].
    + rewrite (set_rank_same _ _ _ _ N) in J. injection J as <-. rewrite (C3 B eq_refl).
      exact (inv_before _ _ _ _ _ V p N (C5 B eq_refl) m).
    + rewrite set_rank_other in J by exact Ne. rewrite (C4 Ne). exact (inv_before _ _ _ _ _ V q J B m).
  - intros cfg J. destruct (Nat.eq_dec i 0) as [->|Ne].
    + rewrite (set_rank_same _ _ _ _ N) in J. injection J as J. exact (C7 cfg J eq_refl).
    + rewrite set_rank_other in J by exact Ne. rewrite (C4 Ne). exact (inv_copy _ _ _ _ _ V cfg J).
Qed.

Lemma nth_error_repeat_start n i p : nth_error (repeat Start n) i = Some p -> p = Start.
Proof. intros H. apply nth_error_In in H. apply repeat_spec in H. exact H. Qed.

Lemma execution_invariant D name f n c k s : safe_name D c name n -> f name = Some c -> execution D name f n k s -> invariant D c f n s.
Proof.
  intros S F H. induction H as [|k s s' H IH T].
  - constructor; cbn [st_files st_ranks]; auto.
    + apply repeat_length.
    + intros i p N. rewrite (nth_error_repeat_start _ _ _ N). exact I.
    + intros i cfg N. apply nth_error_repeat_start in N. discriminate.
    + intros cfg N. apply nth_error_repeat_start in N. discriminate.
  - exact (step_invariant D name f n c s s' S F IH T).
Qed.

Lemma target_copy cfg name : copy_name cfg name <-> name = target cfg.
Proof.
  unfold copy_name, target. split.
  - intros (b & G & ->). rewrite (gives_value _ _ _ _ G : value cfg key_basename "" = b). reflexivity.
  - intros ->. exists (value cfg key_basename ""). split; [apply value_gives|reflexivity].
Qed.

Lemma safe_spec D c name n : (n = 1 \/ forall cfg, configuration D c cfg -> ~ copy_name cfg name) -> safe_name D c name n.
Proof.
  intros [H|H]; [left; exact H|right]. intros cfg E T. apply (H cfg); [apply configured_spec; exact E|apply target_copy; exact T].
Qed.
