From Coq Require Import List Arith ZArith Lia Bool Sorted.
From Verif Require Import Vec Conc Renumber.
Import ListNotations.

(** ** Generic *)

Lemma star_inv {S} (step : S -> S -> Prop) (P : S -> Prop) s s' :
  (forall a b, P a -> step a b -> P b) -> star step s s' -> P s -> P s'.
Proof. intros H St. induction St; eauto. Qed.

Lemma starn_star {S} (step : S -> S -> Prop) n s s' :
  starn step n s s' -> star step s s'.
Proof. induction 1; econstructor; eauto. Qed.

Lemma star_trans {S} (step : S -> S -> Prop) s1 s2 s3 :
  star step s1 s2 -> star step s2 s3 -> star step s1 s3.
Proof. intros H1 H2. induction H2; [assumption|]. eapply star_step; [apply IHstar; assumption|eassumption]. Qed.

Lemma starn_measure {S} (step : S -> S -> Prop) (P : S -> Prop) (m : S -> nat) n s s' :
  (forall a b, P a -> step a b -> P b) ->
  (forall a b, P a -> step a b -> m b < m a) ->
  starn step n s s' -> P s -> P s' /\ n + m s' <= m s.
Proof.
  intros HP Hm St Ps. induction St; [split; [assumption|lia]|].
  destruct (IHSt Ps) as [P2 L]. split; [eauto|].
  specialize (Hm _ _ P2 H). lia.
Qed.

(** If every reachable non final state can step and steps decrease a
    measure, a final state is always reachable. *)
Lemma star_reaches {S} (step : S -> S -> Prop) (P F : S -> Prop) (m : S -> nat) :
  (forall a b, P a -> step a b -> P b) ->
  (forall a, P a -> F a \/ exists b, step a b /\ m b < m a) ->
  forall s, P s -> exists s', star step s s' /\ F s'.
Proof.
  intros HP Hp s. remember (m s) as n eqn:E. revert s E.
  induction n as [n IH] using lt_wf_ind. intros s E Ps.
  destruct (Hp s Ps) as [F1|[b [St L]]].
  - exists s; split; [constructor|assumption].
  - destruct (IH (m b) ltac:(lia) b eq_refl (HP _ _ Ps St)) as [s' [St' F']].
    exists s'; split; [|assumption].
    apply star_trans with b; [|assumption]. econstructor; [constructor|assumption].
Qed.

Lemma vset_In {A} (v v' : list A) i x y :
  vset v i x = Some v' -> In y v' -> y = x \/ In y v.
Proof.
  revert i v'; induction v as [|z r IH]; intros [|i] v' H Hin; simpl in *;
    try discriminate.
  - inversion H; subst; simpl in Hin. intuition.
  - destruct (vset r i x) eqn:E; [|discriminate]. inversion H; subst.
    destruct Hin as [->|Hin]; [auto|].
    destruct (IH _ _ E Hin); auto.
Qed.

Lemma vset_In_new {A} (v v' : list A) i x :
  vset v i x = Some v' -> In x v'.
Proof.
  intros H. apply vget_vset_same in H. unfold vget in H.
  eapply nth_error_In; eauto.
Qed.

Lemma vget_In {A} (v : list A) i x : vget v i = Some x -> In x v.
Proof. apply nth_error_In. Qed.

(** Sums over a list *)
Definition sumf {A} (f : A -> nat) (l : list A) : nat :=
  fold_right (fun a s => f a + s) 0 l.

Lemma sumf_vset {A} (f : A -> nat) v v' i x y :
  vget v i = Some y -> vset v i x = Some v' ->
  sumf f v' + f y = sumf f v + f x.
Proof.
  unfold vget. revert i v'; induction v as [|z r IH]; intros [|i] v' G H;
    simpl in *; try discriminate.
  - inversion H; inversion G; subst; simpl. lia.
  - destruct (vset r i x) eqn:E; [|discriminate]. inversion H; subst; simpl.
    specialize (IH _ _ G E). lia.
Qed.

Lemma map_vset {A B} (f : A -> B) v v' i x y :
  vget v i = Some y -> vset v i x = Some v' -> f x = f y ->
  map f v' = map f v.
Proof.
  unfold vget. revert i v'; induction v as [|z r IH]; intros [|i] v' G H E;
    simpl in *; try discriminate.
  - inversion H; inversion G; subst; simpl. congruence.
  - destruct (vset r i x) eqn:E'; [|discriminate]. inversion H; subst; simpl.
    f_equal. eauto.
Qed.

Lemma vset_exists {A} (v : list A) i x y :
  vget v i = Some y -> exists v', vset v i x = Some v'.
Proof. intros H. apply vset_defined. eapply vget_some; eauto. Qed.

(** ** Compare exchange minimum *)

Definition cas_inv (tau0 : Z) (locals : list Z) (s : cas_state) : Prop :=
  map snd (cas_threads s) = locals /\
  In (cas_tau s) (tau0 :: locals) /\
  (cas_tau s <= tau0)%Z /\
  (forall pc v, In (pc, v) (cas_threads s) ->
     match pc with
     | CLoad => True
     | CLoop c => (cas_tau s <= c)%Z
     | CDone => (cas_tau s <= v)%Z
     end).

Lemma cas_inv_init tau0 locals : cas_inv tau0 locals (cas_init tau0 locals).
Proof.
  unfold cas_inv, cas_init; simpl. repeat split; auto.
  - rewrite map_map. simpl. apply map_id.
  - lia.
  - intros pc v H. apply in_map_iff in H as [x [E _]]. inversion E; subst; auto.
Qed.

Lemma cas_inv_step weak tau0 locals s s' :
  cas_inv tau0 locals s -> cas_step weak s s' -> cas_inv tau0 locals s'.
Proof.
  intros [Hm [Hi [Ht Hp]]] St. destruct St; simpl in *; unfold cas_inv; simpl.
  - repeat split; auto.
    + rewrite <- Hm. eapply map_vset; eauto.
    + intros pc w Hin. destruct (vset_In _ _ _ _ _ H0 Hin) as [E|E].
      * inversion E; subst. lia.
      * apply (Hp _ _ E).
  - assert (Q := Hp _ _ (vget_In _ _ _ H)). simpl in Q.
    repeat split; auto.
    + rewrite <- Hm. eapply map_vset; eauto.
    + intros pc w Hin. destruct (vset_In _ _ _ _ _ H1 Hin) as [E|E].
      * inversion E; subst. lia.
      * apply (Hp _ _ E).
  - subst tau. repeat split; auto.
    + rewrite <- Hm. eapply map_vset; eauto.
    + right. rewrite <- Hm. apply in_map_iff. exists (CLoop c, v). split; auto.
      eapply vget_In; eauto.
    + lia.
    + intros pc w Hin. destruct (vset_In _ _ _ _ _ H2 Hin) as [E|E].
      * inversion E; subst. lia.
      * specialize (Hp _ _ E). destruct pc; auto; lia.
  - repeat split; auto.
    + rewrite <- Hm. eapply map_vset; eauto.
    + intros pc w Hin. destruct (vset_In _ _ _ _ _ H2 Hin) as [E|E].
      * inversion E; subst. lia.
      * apply (Hp _ _ E).
Qed.

Lemma cas_inv_reach weak tau0 locals s :
  star (cas_step weak) (cas_init tau0 locals) s -> cas_inv tau0 locals s.
Proof.
  intros H. eapply star_inv; eauto using cas_inv_init, cas_inv_step.
Qed.

Lemma cas_step_mono weak s s' : cas_step weak s s' -> (cas_tau s' <= cas_tau s)%Z.
Proof. intros St; destruct St; simpl; lia. Qed.

Definition cas_rank (tau : Z) (t : cas_pc * Z) : nat :=
  match fst t with
  | CLoad => 3
  | CLoop c => if Z.eqb c tau then 1 else 2
  | CDone => 0
  end.
Definition cas_open (t : cas_pc * Z) : nat :=
  match fst t with CDone => 0 | _ => 1 end.
Definition cas_measure (s : cas_state) : nat :=
  sumf (cas_rank (cas_tau s)) (cas_threads s) +
  length (cas_threads s) * sumf cas_open (cas_threads s).

Lemma cas_rank_change tau tau' ts :
  sumf (cas_rank tau') ts <= sumf (cas_rank tau) ts + length ts.
Proof.
  induction ts as [|[pc v] ts IH]; simpl; [lia|].
  unfold cas_rank at 1 3; simpl. destruct pc; try lia.
  destruct (Z.eqb current tau'), (Z.eqb current tau); lia.
Qed.

Lemma cas_measure_strong s s' :
  cas_step false s s' -> cas_measure s' < cas_measure s.
Proof.
  intros St; destruct St; unfold cas_measure; simpl.
  - rewrite (vset_length _ _ _ _ H0).
    assert (A := sumf_vset (cas_rank tau) _ _ _ _ _ H H0).
    assert (B := sumf_vset cas_open _ _ _ _ _ H H0).
    unfold cas_rank at 2 4 in A; unfold cas_open at 2 4 in B; simpl in A, B.
    rewrite Z.eqb_refl in A. nia.
  - rewrite (vset_length _ _ _ _ H1).
    assert (A := sumf_vset (cas_rank tau) _ _ _ _ _ H H1).
    assert (B := sumf_vset cas_open _ _ _ _ _ H H1).
    unfold cas_rank at 2 4 in A; unfold cas_open at 2 4 in B; simpl in A, B.
    destruct (Z.eqb c tau); nia.
  - rewrite (vset_length _ _ _ _ H2). subst c.
    assert (A := sumf_vset (cas_rank tau) _ _ _ _ _ H H2).
    assert (B := sumf_vset cas_open _ _ _ _ _ H H2).
    unfold cas_rank at 2 4 in A; unfold cas_open at 2 4 in B; simpl in A, B.
    rewrite Z.eqb_refl in A.
    assert (C := cas_rank_change tau v ts').
    rewrite (vset_length _ _ _ _ H2) in C. nia.
  - destruct H1 as [H1|H1]; [discriminate|].
    rewrite (vset_length _ _ _ _ H2).
    assert (A := sumf_vset (cas_rank tau) _ _ _ _ _ H H2).
    assert (B := sumf_vset cas_open _ _ _ _ _ H H2).
    unfold cas_rank at 2 4 in A; unfold cas_open at 2 4 in B; simpl in A, B.
    rewrite Z.eqb_refl in A. replace (Z.eqb c tau) with false in A.
    + nia.
    + symmetry; apply Z.eqb_neq; auto.
Qed.

Lemma cas_step_weaken s s' : cas_step false s s' -> cas_step true s s'.
Proof.
  intros St; destruct St; [eapply cas_load|eapply cas_exit|eapply cas_success|eapply cas_fail]; eauto.
Qed.

Lemma star_weaken {S} (st1 st2 : S -> S -> Prop) s s' :
  (forall a b, st1 a b -> st2 a b) -> star st1 s s' -> star st2 s s'.
Proof. intros H St; induction St; econstructor; eauto. Qed.

Lemma cas_progress s : cas_final s \/ exists s', cas_step false s s'.
Proof.
  destruct s as [tau ts].
  destruct (Exists_dec (fun t : cas_pc * Z => fst t <> CDone) ts) as [E|E].
  - intros [pc v]; destruct pc; simpl; [left|left|right]; congruence.
  - right. apply Exists_exists in E as [[pc v] [Hin Hne]]. simpl in Hne.
    apply In_nth_error in Hin as [k Hk]. change (vget ts k = Some (pc, v)) in Hk.
    destruct pc as [|c|]; [| |congruence].
    + destruct (vset_exists _ _ (CLoop tau, v) _ Hk) as [ts' E'].
      eexists. eapply cas_load; eauto.
    + destruct (Z_le_gt_dec c v).
      * destruct (vset_exists _ _ (CDone, v) _ Hk) as [ts' E'].
        eexists. eapply cas_exit; eauto.
      * destruct (Z.eq_dec tau c).
        -- destruct (vset_exists _ _ (CDone, v) _ Hk) as [ts' E'].
           eexists. eapply cas_success; eauto.
        -- destruct (vset_exists _ _ (CLoop tau, v) _ Hk) as [ts' E'].
           eexists. eapply cas_fail; eauto.
  - left. intros t Hin. simpl in Hin.
    destruct (fst t) eqn:Ef; try reflexivity; exfalso; apply E;
      apply Exists_exists; exists t; split; auto; congruence.
Qed.

Lemma cas_measure_init tau0 locals :
  cas_measure (cas_init tau0 locals) = 3 * length locals + length locals * length locals.
Proof.
  unfold cas_measure, cas_init; simpl. rewrite map_length.
  assert (A : sumf (cas_rank tau0) (map (fun v => (CLoad, v)) locals) = 3 * length locals).
  { induction locals; simpl in *; [reflexivity|]. rewrite IHlocals. unfold cas_rank; simpl; lia. }
  assert (B : sumf cas_open (map (fun v => (CLoad, v)) locals) = length locals).
  { clear A. induction locals; simpl in *; [reflexivity|]. rewrite IHlocals. reflexivity. }
  rewrite A, B. lia.
Qed.

Lemma fold_min_init l a : (fold_left Z.min l a <= a)%Z.
Proof.
  revert a; induction l as [|y l IH]; simpl; intros a; [lia|].
  specialize (IH (Z.min a y)). lia.
Qed.
Lemma fold_min_le l a x : (In x l \/ x = a) -> (fold_left Z.min l a <= x)%Z.
Proof.
  intros [H|H]; [|subst; apply fold_min_init].
  revert a; induction l as [|y l IH]; simpl; intros a; [destruct H|].
  destruct H as [->|H]; [|auto].
  assert (Q := fold_min_init l (Z.min a x)). lia.
Qed.
Lemma fold_min_in l a : In (fold_left Z.min l a) (a :: l).
Proof.
  revert a; induction l as [|y l IH]; simpl; intros a; [auto|].
  destruct (IH (Z.min a y)) as [H|H]; [|auto].
  rewrite <- H. destruct (Z.min_spec a y) as [[_ ->]|[_ ->]]; auto.
Qed.

(** ** Lazy initialization *)

Definition lz_inside (p : lazy_pc) : bool :=
  match p with LIdle | LLock => false | _ => true end.

Record lazy_inv (s : lazy_state) : Prop := {
  li_mutex : forall k th, vget (lz_threads s) k = Some th ->
     lz_inside (lt_pc th) = true -> lz_mutex s = Some k;
  li_holder : forall k, lz_mutex s = Some k ->
     exists th, vget (lz_threads s) k = Some th /\ lz_inside (lt_pc th) = true;
  li_flag : lz_flag s = true -> lz_runs s = 1 /\ lz_object s <> None;
  li_noflag : lz_flag s = false ->
     (exists k th, vget (lz_threads s) k = Some th /\ lt_pc th = LFlip
                   /\ lz_runs s = 1 /\ lz_object s <> None) \/
     (lz_runs s = 0 /\ lz_object s = None /\
      forall k th, vget (lz_threads s) k = Some th -> lt_pc th <> LFlip);
  li_create : forall k th, vget (lz_threads s) k = Some th ->
     lt_pc th = LCreate \/ lt_pc th = LFlip \/ lt_pc th = LThrow -> lz_flag s = false;
  li_unlock : forall k th, vget (lz_threads s) k = Some th ->
     lt_pc th = LUnlock -> lz_flag s = true;
  li_ret : forall k th, vget (lz_threads s) k = Some th ->
     lt_returned th > 0 -> lz_flag s = true }.

Lemma lazy_inv_init calls : lazy_inv (lazy_init calls).
Proof.
  assert (G : forall k th, vget (lz_threads (lazy_init calls)) k = Some th ->
    lt_pc th = LIdle /\ lt_returned th = 0).
  { intros k th H. apply vget_In in H. simpl in H. apply in_map_iff in H as [n [E _]].
    subst; auto. }
  constructor; intros; try (apply G in H as [E E']; rewrite E in *); simpl in *;
    try discriminate; try lia; try congruence.
  - right. repeat split; auto. intros k th E. apply G in E as [E _]. congruence.
  - apply G in H; lia.
Qed.

Lemma vget_vset_cases {A} (v v' : list A) k x k0 y :
  vset v k x = Some v' -> vget v' k0 = Some y ->
  (k0 = k /\ y = x) \/ (k0 <> k /\ vget v k0 = Some y).
Proof.
  intros H G. destruct (Nat.eq_dec k0 k) as [->|Hne].
  - left. rewrite (vget_vset_same _ _ _ _ H) in G. inversion G; auto.
  - right. rewrite (vget_vset_other _ _ _ _ _ H Hne) in G. auto.
Qed.

Lemma lazy_inv_step s s' : lazy_inv s -> lazy_step s s' -> lazy_inv s'.
Proof.
  intros [Im Ih If In' Ic Iu Ir] St.
  destruct St; simpl in *;
  match goal with
  | V : vset ?ts ?k ?x = Some ?ts', G : vget ?ts ?k = Some ?th |- _ =>
    assert (Hc : forall k0 y, vget ts' k0 = Some y ->
        (k0 = k /\ y = x) \/ (k0 <> k /\ vget ts k0 = Some y))
      by (intros; eapply vget_vset_cases; eauto);
    assert (Hs := vget_vset_same _ _ _ _ V);
    assert (Ho : forall k0, k0 <> k -> vget ts' k0 = vget ts k0)
      by (intros; eapply vget_vset_other; eauto);
    assert (Jm := Im k th G); assert (Jc := Ic k th G);
    assert (Ju := Iu k th G); assert (Jr := Ir k th G); rename G into Gk
  end;
  match goal with Q : lt_pc _ = _ |- _ => rewrite Q in *; simpl in * end.
  - (* fast *)
    constructor; simpl; auto; try congruence.
    + intros k0 y G I. destruct (Hc _ _ G) as [[-> ->]|[N G']]; [discriminate|eauto].
    + intros k0 E. destruct (Ih _ E) as [y [G I]].
      exists y; split; [|assumption]. rewrite Ho; [assumption|].
      intros ->. rewrite Gk in G; inversion G; subst. rewrite H0 in I; discriminate.
    + intros k0 y G P. destruct (Hc _ _ G) as [[-> ->]|[N G']]; [|eauto].
      simpl in P. intuition discriminate.
  - (* slow *)
    constructor; simpl; auto; try congruence.
    + intros k0 y G I. destruct (Hc _ _ G) as [[-> ->]|[N G']]; [discriminate|eauto].
    + intros k0 E. destruct (Ih _ E) as [y [G I]].
      exists y; split; [|assumption]. rewrite Ho; [assumption|].
      intros ->. rewrite Gk in G; inversion G; subst. rewrite H0 in I; discriminate.
    + intros _. destruct (In' eq_refl) as [[k0 [y [G [P R]]]]|[R [O NF]]].
      * left. exists k0, y. split; [|split; assumption]. rewrite Ho; [assumption|].
        intros ->. rewrite Gk in G; inversion G; subst. congruence.
      * right. repeat split; auto. intros k0 y G.
        destruct (Hc _ _ G) as [[-> ->]|[N G']]; [discriminate|eauto].
    + intros k0 y G P. destruct (Hc _ _ G) as [[-> ->]|[N G']]; [discriminate|eauto].
    + intros k0 y G P. destruct (Hc _ _ G) as [[-> ->]|[N G']]; simpl in *; eauto.
  - (* lock *)
    constructor; simpl; auto.
    + intros k0 y G I. destruct (Hc _ _ G) as [[-> ->]|[N G']]; [reflexivity|].
      specialize (Im _ _ G' I). discriminate.
    + intros k0 E. inversion E; subst. eexists; split; [eassumption|reflexivity].
    + intros E. destruct (In' E) as [[k0 [y [G [P R]]]]|[R [O NF]]].
      * assert (X : None = Some k0) by (apply (Im _ _ G); rewrite P; reflexivity). discriminate.
      * right. repeat split; auto. intros k0 y G.
        destruct (Hc _ _ G) as [[-> ->]|[N G']]; [discriminate|eauto].
    + intros k0 y G P. destruct (Hc _ _ G) as [[-> ->]|[N G']]; [|eauto].
      simpl in P; intuition discriminate.
    + intros k0 y G P. destruct (Hc _ _ G) as [[-> ->]|[N G']]; [discriminate|eauto].
    + intros k0 y G P. destruct (Hc _ _ G) as [[-> ->]|[N G']]; simpl in *; eauto.
  - (* check *)
    specialize (Jm eq_refl). subst m.
    constructor; simpl; auto.
    + intros k0 y G I. destruct (Hc _ _ G) as [[-> ->]|[N G']]; [reflexivity|eauto].
    + intros k0 E. inversion E; subst. eexists; split; [eassumption|].
      destruct f; reflexivity.
    + intros ->. destruct (In' eq_refl) as [[k0 [y [G [P R]]]]|[R [O NF]]].
      * assert (X : Some k = Some k0) by (apply (Im _ _ G); rewrite P; reflexivity).
        inversion X; subst k0. rewrite Gk in G; inversion G; subst. congruence.
      * right. repeat split; auto. intros k0 y G.
        destruct (Hc _ _ G) as [[-> ->]|[N G']]; [discriminate|eauto].
    + intros k0 y G P. destruct (Hc _ _ G) as [[-> ->]|[N G']]; [|eauto].
      destruct f; simpl in P; intuition discriminate.
    + intros k0 y G P. destruct (Hc _ _ G) as [[-> ->]|[N G']]; [|eauto].
      destruct f; simpl in P; [reflexivity|discriminate].
    + intros k0 y G P. destruct (Hc _ _ G) as [[-> ->]|[N G']]; simpl in *; eauto.
  - (* create *)
    specialize (Jm eq_refl). subst m. specialize (Jc (or_introl eq_refl)). subst f.
    assert (Uniq : forall k0 y, vget ts k0 = Some y -> lz_inside (lt_pc y) = true -> k0 = k)
      by (intros k0 y G I; specialize (Im _ _ G I); congruence).
    assert (R0 : r = 0).
    { destruct (In' eq_refl) as [[k0 [y [G [P R]]]]|[R [O NF]]]; [|assumption].
      assert (k0 = k) by (apply (Uniq _ _ G); rewrite P; reflexivity). subst k0.
      rewrite Gk in G; inversion G; subst. congruence. }
    subst r.
    constructor; simpl; auto; try discriminate.
    + intros k0 y G I. destruct (Hc _ _ G) as [[-> ->]|[N G']]; [reflexivity|eauto].
    + intros k0 E. inversion E; subst. eexists; split; [eassumption|reflexivity].
    + intros _. left. eexists k, _. split; [eassumption|]. simpl.
      repeat split; auto. discriminate.
    + intros k0 y G P. destruct (Hc _ _ G) as [[-> ->]|[N G']]; [discriminate|].
      exfalso. apply N. apply (Uniq _ _ G'). rewrite P; reflexivity.
    + intros k0 y G P. destruct (Hc _ _ G) as [[-> ->]|[N G']]; simpl in *; eauto.
  - (* throw *)
    specialize (Jm eq_refl). subst m. specialize (Jc (or_introl eq_refl)). subst f.
    assert (Uniq : forall k0 y, vget ts k0 = Some y -> lz_inside (lt_pc y) = true -> k0 = k)
      by (intros k0 y G I; specialize (Im _ _ G I); congruence).
    constructor; simpl; auto; try discriminate.
    + intros k0 y G I. destruct (Hc _ _ G) as [[-> ->]|[N G']]; [reflexivity|eauto].
    + intros k0 E. inversion E; subst. eexists; split; [eassumption|reflexivity].
    + intros _. destruct (In' eq_refl) as [[k0 [y [G [P R]]]]|[R [O NF]]].
      * assert (k0 = k) by (apply (Uniq _ _ G); rewrite P; reflexivity). subst k0.
        rewrite Gk in G; inversion G; subst. congruence.
      * right. repeat split; auto. intros k0 y G.
        destruct (Hc _ _ G) as [[-> ->]|[N G']]; [discriminate|eauto].
    + intros k0 y G P. destruct (Hc _ _ G) as [[-> ->]|[N G']]; [discriminate|eauto].
    + intros k0 y G P. destruct (Hc _ _ G) as [[-> ->]|[N G']]; simpl in *; eauto.
  - (* flip *)
    specialize (Jm eq_refl). subst m.
    specialize (Jc (or_intror (or_introl eq_refl))). subst f.
    assert (Uniq : forall k0 y, vget ts k0 = Some y -> lz_inside (lt_pc y) = true -> k0 = k)
      by (intros k0 y G I; specialize (Im _ _ G I); congruence).
    constructor; simpl; auto; try discriminate.
    + intros k0 y G I. destruct (Hc _ _ G) as [[-> ->]|[N G']]; [reflexivity|eauto].
    + intros k0 E. inversion E; subst. eexists; split; [eassumption|reflexivity].
    + intros _. destruct (In' eq_refl) as [[k0 [y [G [P R]]]]|[R [O NF]]]; [tauto|].
      exfalso. apply (NF _ _ Gk). assumption.
    + intros k0 y G P. destruct (Hc _ _ G) as [[-> ->]|[N G']].
      * simpl in P; intuition discriminate.
      * exfalso. apply N. apply (Uniq _ _ G').
        destruct P as [P|[P|P]]; rewrite P; reflexivity.
  - (* unlock *)
    specialize (Jm eq_refl). subst m. specialize (Ju eq_refl). subst f.
    assert (Uniq : forall k0 y, vget ts k0 = Some y -> lz_inside (lt_pc y) = true -> k0 = k)
      by (intros k0 y G I; specialize (Im _ _ G I); congruence).
    constructor; simpl; auto; try discriminate.
    + intros k0 y G I. destruct (Hc _ _ G) as [[-> ->]|[N G']]; [discriminate|].
      exfalso; apply N; eauto.
    + intros k0 y G P. destruct (Hc _ _ G) as [[-> ->]|[N G']]; [|eauto].
      simpl in P; intuition discriminate.
  - (* unwind *)
    specialize (Jm eq_refl). subst m.
    specialize (Jc (or_intror (or_intror eq_refl))). subst f.
    assert (Uniq : forall k0 y, vget ts k0 = Some y -> lz_inside (lt_pc y) = true -> k0 = k)
      by (intros k0 y G I; specialize (Im _ _ G I); congruence).
    constructor; simpl; auto; try discriminate.
    + intros k0 y G I. destruct (Hc _ _ G) as [[-> ->]|[N G']]; [discriminate|].
      exfalso; apply N; eauto.
    + intros _. destruct (In' eq_refl) as [[k0 [y [G [P R]]]]|[R [O NF]]].
      * assert (k0 = k) by (apply (Uniq _ _ G); rewrite P; reflexivity). subst k0.
        rewrite Gk in G; inversion G; subst. congruence.
      * right. repeat split; auto. intros k0 y G.
        destruct (Hc _ _ G) as [[-> ->]|[N G']]; [discriminate|eauto].
    + intros k0 y G P. destruct (Hc _ _ G) as [[-> ->]|[N G']]; [discriminate|eauto].
    + intros k0 y G P. destruct (Hc _ _ G) as [[-> ->]|[N G']]; simpl in *; eauto.
Qed.

Lemma lazy_inv_reach calls s : star lazy_step (lazy_init calls) s -> lazy_inv s.
Proof. intros H. eapply star_inv; eauto using lazy_inv_init, lazy_inv_step. Qed.

Definition lz_rank (p : lazy_pc) : nat :=
  match p with
  | LIdle => 0 | LLock => 6 | LCheck => 5 | LCreate => 4 | LFlip => 3
  | LThrow => 2 | LUnlock => 1 end.
Definition lz_trank (t : lazy_thread) : nat := 7 * lt_todo t + lz_rank (lt_pc t).
Definition lz_measure (s : lazy_state) : nat := sumf lz_trank (lz_threads s).

Lemma lz_measure_step s s' : lazy_step s s' -> lz_measure s' < lz_measure s.
Proof.
  intros St; destruct St; unfold lz_measure; simpl;
  match goal with
  | V : vset ?ts ?k ?x = Some ?ts', G : vget ?ts ?k = Some ?th |- _ =>
    assert (A := sumf_vset lz_trank _ _ _ _ _ G V)
  end; unfold lz_trank at 2 4 in A; simpl in A;
  match goal with Q : lt_pc _ = _ |- _ => rewrite Q in *; simpl in * end;
  try destruct f; simpl in *; lia.
Qed.

Definition lazy_final (s : lazy_state) : Prop :=
  forall t, In t (lz_threads s) -> lt_pc t = LIdle /\ lt_todo t = 0.

Lemma lazy_progress s :
  lazy_inv s -> lazy_final s \/ exists s', lazy_step s s'.
Proof.
  intros I. destruct s as [obj f m r ts].
  destruct m as [k|].
  - right. destruct (li_holder _ I k eq_refl) as [th [G Hin]]. simpl in *.
    destruct (lt_pc th) eqn:P; try discriminate.
    + destruct (vset_exists ts k {| lt_pc := if f then LUnlock else LCreate;
                 lt_todo := lt_todo th; lt_returned := lt_returned th |} th G) as [ts' V].
      eexists; eapply lz_check; eauto.
    + destruct (vset_exists ts k {| lt_pc := LThrow; lt_todo := lt_todo th;
                 lt_returned := lt_returned th |} th G) as [ts' V].
      eexists; eapply lz_create_throw; eauto.
    + destruct (vset_exists ts k {| lt_pc := LUnlock; lt_todo := lt_todo th;
                 lt_returned := lt_returned th |} th G) as [ts' V].
      eexists; eapply lz_flip; eauto.
    + destruct (vset_exists ts k {| lt_pc := LIdle; lt_todo := lt_todo th;
                 lt_returned := S (lt_returned th) |} th G) as [ts' V].
      eexists; eapply lz_unlock; eauto.
    + destruct (vset_exists ts k {| lt_pc := LIdle; lt_todo := lt_todo th;
                 lt_returned := lt_returned th |} th G) as [ts' V].
      eexists; eapply lz_unwind; eauto.
  - destruct (Exists_dec (fun t => ~ (lt_pc t = LIdle /\ lt_todo t = 0)) ts) as [E|E].
    + intros [p n q]; simpl. destruct p, n; [right|left..]; intuition congruence.
    + right. apply Exists_exists in E as [th [Hin Hne]].
      apply In_nth_error in Hin as [k G]. change (vget ts k = Some th) in G.
      destruct (lz_inside (lt_pc th)) eqn:Ei.
      { assert (X := li_mutex _ I k th G Ei). discriminate. }
      destruct (lt_pc th) eqn:P; try discriminate.
      * destruct (lt_todo th) as [|n] eqn:T; [tauto|].
        destruct f.
        -- destruct (vset_exists ts k {| lt_pc := LIdle; lt_todo := n;
                 lt_returned := S (lt_returned th) |} th G) as [ts' V].
           eexists; eapply lz_fast; eauto.
        -- destruct (vset_exists ts k {| lt_pc := LLock; lt_todo := n;
                 lt_returned := lt_returned th |} th G) as [ts' V].
           eexists; eapply lz_slow; eauto.
      * destruct (vset_exists ts k {| lt_pc := LCheck; lt_todo := lt_todo th;
                 lt_returned := lt_returned th |} th G) as [ts' V].
        eexists; eapply lz_lock; eauto.
    + left. intros t Hin. simpl in Hin.
      destruct t as [p n q]; simpl.
      destruct p, n; auto; exfalso; apply E; apply Exists_exists; eexists;
        (split; [eassumption|simpl; intuition congruence]).
Qed.

(** Once there is a value it never changes (reachable states). *)
Lemma lazy_object_stable s s' v :
  lazy_inv s -> lazy_step s s' -> lz_object s = Some v -> lz_object s' = Some v.
Proof.
  intros I St E; destruct St; simpl in *; auto.
  exfalso. assert (F := li_create _ I k th H (or_introl H0)). simpl in F. subst f.
  destruct (li_noflag _ I eq_refl) as [[k0 [y [G [P R]]]]|[R [O NF]]]; simpl in *.
  - assert (A := li_mutex _ I k th H). simpl in A. rewrite H0 in A. specialize (A eq_refl).
    assert (B := li_mutex _ I k0 y G). simpl in B. rewrite P in B. specialize (B eq_refl).
    assert (k0 = k) by congruence. subst k0. rewrite H in G; inversion G; subst. congruence.
  - congruence.
Qed.

(** ** Overlapped exchange *)

Definition sd_readyn (t : sd_thread) : nat := if sd_ready t then 1 else 0.

Record sd_inv (width n_export n_internal : nat) (work : list (list nat * list nat))
       (s : sd_state) : Prop := {
  si_len : length (sd_threads s) = length work;
  si_count : sd_count s = sumf sd_readyn (sd_threads s);
  si_rows1 : forall k th w, vget (sd_threads s) k = Some th -> vget work k = Some w ->
     forall i, In i (fst w) -> In i (sd_rows1 th) \/ In i (sd_written s);
  si_rows2 : forall k th w, vget (sd_threads s) k = Some th -> vget work k = Some w ->
     forall i, In i (snd w) -> In i (sd_rows2 th) \/
       (forall r, i <= r < i + width -> In r (sd_written s));
  si_sorted : forall k th, vget (sd_threads s) k = Some th -> StronglySorted lt (sd_rows2 th);
  si_ready : forall k th, vget (sd_threads s) k = Some th -> sd_ready th = true ->
     (forall i, In i (sd_rows2 th) -> n_export <= i);
  si_barrier : forall k th, vget (sd_threads s) k = Some th ->
     sd_ready th = true \/ sd_checked th = true ->
     forall t, In t (sd_threads s) -> sd_rows1 t = [];
  si_status : sd_status s = PNone \/ sd_destroyed s = true \/
              (forall t, In t (sd_threads s) -> sd_ready t = true) /\
              sd_threads s <> [];
  si_pnone : sd_status s = PNone -> sd_threads s = [] \/ sd_count s < length (sd_threads s);
  si_starts : sd_starts s = match sd_status s with
                            | PNone | PLaunched => 0 | _ => 1 end;
  si_destroyed : sd_destroyed s = true -> sd_status s = PFinished /\
     forall t, In t (sd_threads s) -> sd_rows1 t = [] /\ sd_rows2 t = [] }.

Lemma readyn_le ts : sumf sd_readyn ts <= length ts.
Proof.
  induction ts; simpl; [lia|]. unfold sd_readyn at 1. destruct (sd_ready a); lia.
Qed.
Lemma readyn_all ts : sumf sd_readyn ts = length ts ->
  forall t, In t ts -> sd_ready t = true.
Proof.
  induction ts as [|a ts IH]; simpl; intros E t Hin; [destruct Hin|].
  assert (L := readyn_le ts). unfold sd_readyn in E at 1.
  destruct (sd_ready a) eqn:Ea; [|lia].
  destruct Hin as [->|Hin]; [assumption|]. apply IH; [lia|assumption].
Qed.

Lemma sd_inv_init width ne ni work :
  (forall w, In w work -> StronglySorted lt (snd w)) ->
  sd_inv width ne ni work (sd_init work).
Proof.
  intros Hs.
  assert (G : forall k th, vget (sd_threads (sd_init work)) k = Some th ->
     exists w, vget work k = Some w /\ th = {| sd_rows1 := fst w; sd_rows2 := snd w;
                      sd_ready := false; sd_checked := false |}).
  { intros k th H. simpl in H. unfold vget in *. rewrite nth_error_map in H.
    destruct (nth_error work k) as [w|]; [|discriminate]. simpl in H. inversion H; eauto. }
  constructor.
  - simpl. apply map_length.
  - simpl. induction work as [|w work IH]; [reflexivity|]. simpl. apply IH.
    + intros w' Hin; apply Hs; right; assumption.
    + intros k th H. apply (G (S k) th H).
  - intros k th w H1 H2 i Hin. apply G in H1 as [w' [E1 ->]].
    assert (w' = w) by congruence. subst. left; assumption.
  - intros k th w H1 H2 i Hin. apply G in H1 as [w' [E1 ->]].
    assert (w' = w) by congruence. subst. left; assumption.
  - intros k th H. apply G in H as [w [E ->]]. simpl. apply Hs. eapply vget_In; eauto.
  - intros k th H R. apply G in H as [w [E ->]]. discriminate.
  - intros k th H R. apply G in H as [w [E ->]]. simpl in R; intuition discriminate.
  - left; reflexivity.
  - intros _. simpl. destruct work as [|w work]; [left; reflexivity|right; simpl; lia].
  - reflexivity.
  - discriminate.
Qed.

Lemma sd_inv_step width ne ni work s s' :
  sd_inv width ne ni work s -> sd_step width ne ni s s' -> sd_inv width ne ni work s'.
Proof.
  intros I St. destruct St.
  - (* row1 *)
    destruct I as [Il Ic I1 I2 Is Ir Ib It Ip Ist Id]; simpl in *.
    assert (Hc := fun k0 y => vget_vset_cases _ _ _ _ k0 y H1).
    assert (Hlen := vset_length _ _ _ _ H1).
    constructor; simpl; auto.
    + congruence.
    + assert (A := sumf_vset sd_readyn _ _ _ _ _ H H1). unfold sd_readyn at 2 4 in A.
      simpl in A. lia.
    + intros k0 y w0 G W j Hj. destruct (Hc _ _ G) as [[-> ->]|[N G']]; simpl.
      * destruct (I1 _ _ _ H W _ Hj) as [Q|Q]; [|auto].
        rewrite H0 in Q. destruct Q as [->|Q]; auto.
      * destruct (I1 _ _ _ G' W _ Hj) as [Q|Q]; auto.
    + intros k0 y w0 G W j Hj. destruct (Hc _ _ G) as [[-> ->]|[N G']]; simpl.
      * destruct (I2 _ _ _ H W _ Hj) as [Q|Q]; auto.
      * destruct (I2 _ _ _ G' W _ Hj) as [Q|Q]; auto.
    + intros k0 y G. destruct (Hc _ _ G) as [[-> ->]|[N G']]; simpl; eauto.
    + intros k0 y G. destruct (Hc _ _ G) as [[-> ->]|[N G']]; simpl; eauto.
    + intros k0 y G R t Ht. destruct (Hc _ _ G) as [[-> ->]|[N G']]; simpl in *.
      * assert (B := Ib _ _ H R _ (vget_In _ _ _ H)). congruence.
      * assert (B := Ib _ _ G' R _ (vget_In _ _ _ H)). congruence.
    + destruct It as [It|[It|[It Hne]]]; auto. right; right. split.
      * intros t Ht. destruct (vset_In _ _ _ _ _ H1 Ht) as [->|Ht']; simpl; auto.
        apply It. eapply vget_In; eauto.
      * intros E. rewrite E in Hlen. destruct ts; [auto|discriminate].
    + rewrite Hlen. intros E; destruct (Ip E) as [->|Q]; [|auto].
      apply vget_some in H; simpl in H; lia.
    + intros Hd. destruct (Id Hd) as [S1 S2]. split; auto.
      destruct (S2 _ (vget_In _ _ _ H)). congruence.
  - (* skip *)
    destruct I as [Il Ic I1 I2 Is Ir Ib It Ip Ist Id]; simpl in *.
    assert (Hc := fun k0 y => vget_vset_cases _ _ _ _ k0 y H4).
    assert (Hlen := vset_length _ _ _ _ H4).
    constructor; simpl; auto.
    + congruence.
    + assert (A := sumf_vset sd_readyn _ _ _ _ _ H0 H4). unfold sd_readyn at 2 4 in A.
      simpl in A. lia.
    + intros k0 y w0 G W j Hj. destruct (Hc _ _ G) as [[-> ->]|[N G']]; simpl; eauto.
    + intros k0 y w0 G W j Hj. destruct (Hc _ _ G) as [[-> ->]|[N G']]; simpl; eauto.
    + intros k0 y G. destruct (Hc _ _ G) as [[-> ->]|[N G']]; simpl; eauto.
    + intros k0 y G. destruct (Hc _ _ G) as [[-> ->]|[N G']]; simpl; eauto.
    + intros k0 y G R t Ht. destruct (vset_In _ _ _ _ _ H4 Ht) as [->|Ht']; simpl; auto.
      apply H. eapply vget_In; eauto.
    + destruct It as [It|[It|[It Hne]]]; auto. right; right. split.
      * intros t Ht. destruct (vset_In _ _ _ _ _ H4 Ht) as [->|Ht']; simpl; auto.
        apply It. eapply vget_In; eauto.
      * intros E. rewrite E in Hlen. destruct ts; [auto|discriminate].
    + rewrite Hlen. intros E; destruct (Ip E) as [->|Q]; [|auto].
      apply vget_some in H0; simpl in H0; lia.
    + intros Hd. destruct (Id Hd) as [S1 S2]. split; auto.
      destruct (S2 _ (vget_In _ _ _ H0)). congruence.
  - (* fire *)
    remember (S c =? length ts) as full eqn:E0.
    assert (E : if full then S c = length ts else S c <> length ts)
      by (destruct full; symmetry in E0; [apply Nat.eqb_eq|apply Nat.eqb_neq]; assumption).
    clear E0.
    destruct I as [Il Ic I1 I2 Is Ir Ib It Ip Ist Id]; simpl in *.
    assert (Hc := fun k0 y => vget_vset_cases _ _ _ _ k0 y H5).
    assert (Hlen := vset_length _ _ _ _ H5).
    assert (A := sumf_vset sd_readyn _ _ _ _ _ H0 H5). unfold sd_readyn at 2 4 in A.
    rewrite H3 in A. simpl in A.
    apply andb_true_iff in H4 as [H4 H4']. apply Nat.leb_le in H4. apply Nat.ltb_lt in H4'.
    assert (Dn : d = false).
    { destruct d; auto. destruct (Id eq_refl) as [_ S2].
      destruct (S2 _ (vget_In _ _ _ H0)). congruence. }
    subst d.
    assert (Pn : p = PNone).
    { destruct It as [It|[It|[It Hne]]]; [auto|discriminate|].
      rewrite (It _ (vget_In _ _ _ H0)) in H3. discriminate. }
    subst p.
    constructor; simpl; auto; try discriminate.
    + congruence.
    + lia.
    + intros k0 y w0 G W j Hj. destruct (Hc _ _ G) as [[-> ->]|[N G']]; simpl; eauto.
    + intros k0 y w0 G W j Hj. destruct (Hc _ _ G) as [[-> ->]|[N G']]; simpl; eauto.
    + intros k0 y G. destruct (Hc _ _ G) as [[-> ->]|[N G']]; simpl; eauto.
    + intros k0 y G R j Hj. destruct (Hc _ _ G) as [[-> ->]|[N G']]; simpl in *; eauto.
      assert (Q := Is _ _ H0). rewrite H1 in Q, Hj. inversion Q; subst.
      destruct Hj as [->|Hj]; [assumption|].
      rewrite Forall_forall in H9. specialize (H9 _ Hj). lia.
    + intros k0 y G R t Ht. destruct (vset_In _ _ _ _ _ H5 Ht) as [->|Ht']; simpl; auto.
      apply H. eapply vget_In; eauto.
    + destruct full; auto. right; right. split.
      * apply readyn_all. lia.
      * intros ->. simpl in Hlen. lia.
    + destruct full; [discriminate|].
      intros _. right. rewrite Hlen.
      assert (L := readyn_le ts'). lia.
    + rewrite Ist. destruct full; reflexivity.
  - (* row2 *)
    destruct I as [Il Ic I1 I2 Is Ir Ib It Ip Ist Id]; simpl in *.
    assert (Hc := fun k0 y => vget_vset_cases _ _ _ _ k0 y H2).
    assert (Hlen := vset_length _ _ _ _ H2).
    constructor; simpl; auto.
    + congruence.
    + assert (A := sumf_vset sd_readyn _ _ _ _ _ H H2). unfold sd_readyn at 2 4 in A.
      simpl in A. lia.
    + intros k0 y w0 G W j Hj. rewrite in_app_iff.
      destruct (Hc _ _ G) as [[-> ->]|[N G']]; simpl.
      * destruct (I1 _ _ _ H W _ Hj) as [Q|Q]; auto.
      * destruct (I1 _ _ _ G' W _ Hj) as [Q|Q]; auto.
    + intros k0 y w0 G W j Hj.
      destruct (Hc _ _ G) as [[-> ->]|[N G']]; simpl.
      * destruct (I2 _ _ _ H W _ Hj) as [Q|Q].
        -- rewrite H0 in Q. destruct Q as [->|Q]; [|auto]. right. intros r Hr.
           apply in_app_iff. left. apply in_seq. assumption.
        -- right. intros r Hr. apply in_app_iff. auto.
      * destruct (I2 _ _ _ G' W _ Hj) as [Q|Q]; auto.
        right. intros r Hr. apply in_app_iff. auto.
    + intros k0 y G. destruct (Hc _ _ G) as [[-> ->]|[N G']]; simpl; eauto.
      assert (Q := Is _ _ H). rewrite H0 in Q. inversion Q; assumption.
    + intros k0 y G R j Hj. destruct (Hc _ _ G) as [[-> ->]|[N G']]; simpl in *; eauto.
      apply (Ir _ _ H R). rewrite H0. right; assumption.
    + intros k0 y G R t Ht.
      assert (B := Ib _ _ H (or_intror H1)).
      destruct (vset_In _ _ _ _ _ H2 Ht) as [->|Ht']; simpl; auto.
      apply B. eapply vget_In; eauto.
    + destruct It as [It|[It|[It Hne]]]; auto. right; right. split.
      * intros t Ht. destruct (vset_In _ _ _ _ _ H2 Ht) as [->|Ht']; simpl; auto.
        apply It. eapply vget_In; eauto.
      * intros E. rewrite E in Hlen. destruct ts; [auto|discriminate].
    + rewrite Hlen. intros E; destruct (Ip E) as [->|Q]; [|auto].
      apply vget_some in H; simpl in H; lia.
    + intros Hd. destruct (Id Hd) as [S1 S2]. split; auto.
      destruct (S2 _ (vget_In _ _ _ H)). congruence.
  - destruct I as [Il Ic I1 I2 Is Ir Ib It Ip Ist Id]; simpl in *.
    constructor; simpl; auto; try discriminate.
    + destruct It as [It|It]; [discriminate|auto].
    + intros Hd. destruct (Id Hd); discriminate.
  - destruct I as [Il Ic I1 I2 Is Ir Ib It Ip Ist Id]; simpl in *.
    constructor; simpl; auto; try discriminate.
    + destruct It as [It|It]; [discriminate|auto].
    + intros Hd. destruct (Id Hd); discriminate.
  - destruct I as [Il Ic I1 I2 Is Ir Ib It Ip Ist Id]; simpl in *.
    constructor; simpl; auto; try discriminate.
  - destruct I as [Il Ic I1 I2 Is Ir Ib It Ip Ist Id]; simpl in *.
    constructor; simpl; auto; try discriminate.
Qed.

Lemma sd_inv_reach width ne ni work s :
  (forall w, In w work -> StronglySorted lt (snd w)) ->
  star (sd_step width ne ni) (sd_init work) s -> sd_inv width ne ni work s.
Proof.
  intros Hs H. eapply star_inv; eauto using sd_inv_init.
  intros a b. apply sd_inv_step.
Qed.

Definition sd_trank (t : sd_thread) : nat :=
  length (sd_rows1 t) + 2 * length (sd_rows2 t) + (if sd_checked t then 0 else 1)
  + (if sd_ready t then 0 else 5).
Definition sd_prank (p : sd_payload) : nat :=
  match p with PNone => 3 | PLaunched => 2 | PStarted => 1 | PFinished => 0 end.
Definition sd_measure (s : sd_state) : nat :=
  sumf sd_trank (sd_threads s) + sd_prank (sd_status s)
  + (if sd_destroyed s then 0 else 4).

Lemma sd_measure_step width ne ni s s' :
  sd_step width ne ni s s' -> sd_measure s' < sd_measure s.
Proof.
  intros St; destruct St; unfold sd_measure; cbn [sd_threads sd_status sd_destroyed sd_prank]; try lia;
  match goal with
  | V : vset ?ts ?k ?x = Some ?ts', G : vget ?ts ?k = Some ?th |- _ =>
    assert (A := sumf_vset sd_trank _ _ _ _ _ G V)
  end; unfold sd_trank at 2 4 in A; simpl in A.
  - rewrite H0 in A. simpl in A. lia.
  - rewrite H2 in A. lia.
  - rewrite H2, H3 in A. destruct (S c =? length ts), p; simpl; lia.
  - rewrite H0, H1 in A. simpl in A. lia.
Qed.

Lemma sd_progress width ne ni work s :
  sd_inv width ne ni work s ->
  sd_destroyed s = true \/ exists s', sd_step width ne ni s s'.
Proof.
  intros I. destruct s as [ts c p st w d]. simpl.
  destruct d; [auto|]. right.
  destruct (Exists_dec (fun t => sd_rows1 t <> []) ts) as [E|E].
  { intros [[|] ? ? ?]; simpl; [right|left]; congruence. }
  { apply Exists_exists in E as [th [Hin Hne]].
    apply In_nth_error in Hin as [k G]. change (vget ts k = Some th) in G.
    destruct (sd_rows1 th) as [|i rest] eqn:R; [congruence|].
    destruct (vset_exists ts k {| sd_rows1 := rest; sd_rows2 := sd_rows2 th;
       sd_ready := sd_ready th; sd_checked := sd_checked th |} th G) as [ts' V].
    eexists; eapply sd_row1; eauto. }
  assert (B : forall t, In t ts -> sd_rows1 t = []).
  { intros t Ht. destruct (sd_rows1 t) eqn:R; auto. exfalso; apply E.
    apply Exists_exists. exists t; split; auto. congruence. }
  clear E.
  destruct (Exists_dec (fun t => sd_rows2 t <> []) ts) as [E|E].
  { intros [? [|] ? ?]; simpl; [right|left]; congruence. }
  { apply Exists_exists in E as [th [Hin Hne]].
    apply In_nth_error in Hin as [k G]. change (vget ts k = Some th) in G.
    destruct (sd_rows2 th) as [|i rest] eqn:R; [congruence|].
    destruct (sd_checked th) eqn:C.
    - destruct (vset_exists ts k {| sd_rows1 := sd_rows1 th; sd_rows2 := rest;
                 sd_ready := sd_ready th; sd_checked := false |} th G) as [ts' V].
      eexists; eapply sd_row2; eauto.
    - destruct (sd_ready th) eqn:Rd.
      + destruct (vset_exists ts k {| sd_rows1 := sd_rows1 th; sd_rows2 := sd_rows2 th;
                 sd_ready := sd_ready th; sd_checked := true |} th G) as [ts' V].
        eexists; eapply sd_check_skip; eauto.
      + destruct ((ne <=? i) && (i <? ni)) eqn:Co.
        * destruct (vset_exists ts k {| sd_rows1 := sd_rows1 th; sd_rows2 := sd_rows2 th;
                 sd_ready := true; sd_checked := true |} th G) as [ts' V].
          eexists; eapply sd_check_fire; eauto.
        * destruct (vset_exists ts k {| sd_rows1 := sd_rows1 th; sd_rows2 := sd_rows2 th;
                 sd_ready := sd_ready th; sd_checked := true |} th G) as [ts' V].
          eexists; eapply sd_check_skip; eauto. }
  assert (B2 : forall t, In t ts -> sd_rows1 t = [] /\ sd_rows2 t = []).
  { intros t Ht. split; [auto|]. destruct (sd_rows2 t) eqn:R; auto. exfalso; apply E.
    apply Exists_exists. exists t; split; auto. congruence. }
  destruct p.
  - eexists; eapply sd_destroy_run; eauto.
  - eexists; eapply sd_start; eauto.
  - eexists; eapply sd_finish; eauto.
  - eexists; eapply sd_destroy_wait; eauto.
Qed.

(** ** Statements of the property theorems *)

Lemma C12_tau_max_is_minimum_proof :
  forall (tau0 : Z) (locals : list Z) (s : cas_state),
    star (cas_step true) (cas_init tau0 locals) s ->
    cas_final s ->
    (forall x, In x (tau0 :: locals) -> (cas_tau s <= x)%Z) /\
    In (cas_tau s) (tau0 :: locals).
Proof.
  intros tau0 locals s St F.
  destruct (cas_inv_reach _ _ _ _ St) as [Hm [Hi [Ht Hp]]].
  split; [|assumption]. intros x [<-|Hx]; [assumption|].
  rewrite <- Hm in Hx. apply in_map_iff in Hx as [[pc v] [E Hin]]. simpl in E; subst.
  assert (Fp := F _ Hin). simpl in Fp. subst pc. apply (Hp _ _ Hin).
Qed.

Lemma C12_intermediate_values_proof :
  forall (tau0 : Z) (locals : list Z) (s s' : cas_state),
    star (cas_step true) (cas_init tau0 locals) s ->
    In (cas_tau s) (tau0 :: locals) /\
    (cas_step true s s' -> (cas_tau s' <= cas_tau s)%Z).
Proof.
  intros tau0 locals s s' St. split; [|apply cas_step_mono].
  destruct (cas_inv_reach _ _ _ _ St) as [Hm [Hi _]]. exact Hi.
Qed.

Lemma C12_independent_of_row_assignment_proof :
  forall (top : Z) (rows : list (list Z)) (s : cas_state),
    star (cas_step true) (cas_init top (map (local_tau_max top) rows)) s ->
    cas_final s ->
    (forall x, In x (concat rows) -> (x <= top)%Z) ->
    concat rows <> [] ->
    In (cas_tau s) (concat rows) /\
    (forall x, In x (concat rows) -> (cas_tau s <= x)%Z).
Proof.
  intros top rows s St F Htop Hne.
  destruct (C12_tau_max_is_minimum_proof _ _ _ St F) as [Hle Hin].
  assert (L : forall x, In x (concat rows) -> (cas_tau s <= x)%Z).
  { intros x Hx. apply in_concat in Hx as [l [Hl Hx]].
    eapply Z.le_trans.
    - apply Hle. right. apply in_map. exact Hl.
    - apply fold_min_le. auto. }
  split; [|exact L].
  assert (T : cas_tau s = top \/ In (cas_tau s) (concat rows)).
  { destruct Hin as [E|Hin]; [auto|].
    apply in_map_iff in Hin as [l [E Hl]]. rewrite <- E.
    destruct (fold_min_in l top) as [E'|Hin]; [left; symmetry; exact E'|].
    right. apply in_concat. exists l. auto. }
  destruct T as [T|T]; [|exact T].
  destruct (concat rows) as [|x rest] eqn:E; [congruence|].
  assert (X := L x (or_introl eq_refl)). assert (Y := Htop x (or_introl eq_refl)).
  left. lia.
Qed.

Lemma C12_terminates_proof :
  forall (tau0 : Z) (locals : list Z) (s : cas_state) (n : nat),
    (starn (cas_step false) n (cas_init tau0 locals) s ->
     n <= length locals * length locals + 3 * length locals) /\
    (star (cas_step true) (cas_init tau0 locals) s ->
     exists s', star (cas_step true) s s' /\ cas_final s').
Proof.
  intros tau0 locals s n. split.
  - intros St.
    destruct (starn_measure _ (fun _ => True) cas_measure _ _ _
                (fun _ _ _ _ => I) (fun a b _ => cas_measure_strong a b) St I) as [_ L].
    rewrite cas_measure_init in L. lia.
  - intros _.
    destruct (star_reaches (cas_step false) (fun _ => True) cas_final cas_measure
                (fun _ _ _ _ => I)) with (s := s) as [s' [St F]]; auto.
    + intros a _. destruct (cas_progress a) as [|[b Sb]]; [auto|].
      right. exists b. split; [exact Sb|]. apply cas_measure_strong; assumption.
    + exists s'. split; [|assumption].
      eapply star_weaken; [|eassumption]. apply cas_step_weaken.
Qed.

Lemma C11_created_once_before_use_proof :
  forall (calls : list nat) (s : lazy_state),
    star lazy_step (lazy_init calls) s ->
    lz_runs s <= 1 /\
    (forall t, In t (lz_threads s) -> lt_returned t > 0 ->
       lz_runs s = 1 /\ exists v, lz_object s = Some v).
Proof.
  intros calls s St. assert (I := lazy_inv_reach _ _ St). split.
  - destruct (lz_flag s) eqn:F.
    + destruct (li_flag _ I F). lia.
    + destruct (li_noflag _ I F) as [[k [t [_ [_ [R _]]]]]|[R _]]; lia.
  - intros t Hin R. apply In_nth_error in Hin as [k G].
    destruct (li_flag _ I (li_ret _ I k t G R)) as [R1 O]. split; [exact R1|].
    destruct (lz_object s); [eauto|congruence].
Qed.

Lemma C11_value_is_stable_proof :
  forall (calls : list nat) (s s' : lazy_state) (v : nat),
    star lazy_step (lazy_init calls) s ->
    lz_object s = Some v ->
    star lazy_step s s' ->
    lz_object s' = Some v.
Proof.
  intros calls s s' v St E St'.
  assert (I := lazy_inv_reach _ _ St). clear St.
  assert (Q : lazy_inv s' /\ lz_object s' = Some v); [|tauto].
  eapply (star_inv _ (fun x => lazy_inv x /\ lz_object x = Some v)); eauto.
  intros a b [Ia Ea] Sab. split; [eapply lazy_inv_step; eauto|].
  eapply lazy_object_stable; eauto.
Qed.

Lemma C11_creator_is_exclusive_proof :
  forall (calls : list nat) (s : lazy_state) (k1 k2 : nat) (t1 t2 : lazy_thread),
    star lazy_step (lazy_init calls) s ->
    vget (lz_threads s) k1 = Some t1 -> vget (lz_threads s) k2 = Some t2 ->
    lt_pc t1 = LCreate \/ lt_pc t1 = LFlip ->
    lt_pc t2 = LCreate \/ lt_pc t2 = LFlip ->
    k1 = k2.
Proof.
  intros calls s k1 k2 t1 t2 St G1 G2 P1 P2.
  assert (I := lazy_inv_reach _ _ St).
  assert (A : lz_mutex s = Some k1)
    by (apply (li_mutex _ I _ _ G1); destruct P1 as [->| ->]; reflexivity).
  assert (B : lz_mutex s = Some k2)
    by (apply (li_mutex _ I _ _ G2); destruct P2 as [->| ->]; reflexivity).
  congruence.
Qed.

Lemma C11_all_calls_complete_proof :
  forall (calls : list nat) (n : nat) (s : lazy_state),
    starn lazy_step n (lazy_init calls) s ->
    n <= 7 * fold_right Nat.add 0 calls /\
    ((forall t, In t (lz_threads s) -> lt_pc t = LIdle /\ lt_todo t = 0) \/
     exists s', lazy_step s s').
Proof.
  intros calls n s St. split.
  - destruct (starn_measure _ (fun _ => True) lz_measure _ _ _
                (fun _ _ _ _ => I) (fun a b _ => lz_measure_step a b) St I) as [_ L].
    assert (E : lz_measure (lazy_init calls) = 7 * fold_right Nat.add 0 calls).
    { clear. unfold lz_measure, lazy_init; simpl lz_threads.
      induction calls as [|c calls IH]; [reflexivity|].
      cbn [map sumf fold_right]. unfold sumf in IH. rewrite IH.
      unfold lz_trank; simpl lz_rank; simpl lt_todo. lia. }
    lia.
  - apply lazy_progress. eapply lazy_inv_reach. eapply starn_star; eauto.
Qed.

Lemma C10_payload_sees_exported_rows_proof :
  forall (width n_export n_internal : nat) (work : list (list nat * list nat)) (s : sd_state),
    (forall w, In w work -> StronglySorted lt (snd w)) ->
    star (sd_step width n_export n_internal) (sd_init work) s ->
    sd_starts s > 0 ->
    forall w, In w work ->
      (forall i, In i (fst w) -> In i (sd_written s)) /\
      (forall i r, In i (snd w) -> i < n_export -> i <= r < i + width ->
         In r (sd_written s)).
Proof.
  intros width ne ni work s Hs St Hp w Hw.
  assert (I := sd_inv_reach _ _ _ _ _ Hs St).
  apply In_nth_error in Hw as [k Gw]. change (vget work k = Some w) in Gw.
  assert (Hk : k < length (sd_threads s)) by (rewrite (si_len _ _ _ _ _ I); eapply vget_some; eauto).
  destruct (vget_defined _ _ Hk) as [th G].
  assert (Hall : sd_destroyed s = true \/
     (sd_ready th = true /\ forall t, In t (sd_threads s) -> sd_rows1 t = [])).
  { destruct (si_status _ _ _ _ _ I) as [P|[D|[R _]]]; auto.
    - rewrite (si_starts _ _ _ _ _ I), P in Hp. lia.
    - right. assert (Rk := R _ (vget_In _ _ _ G)). split; [exact Rk|].
      apply (si_barrier _ _ _ _ _ I _ _ G). auto. }
  split.
  - intros i Hi. destruct (si_rows1 _ _ _ _ _ I _ _ _ G Gw _ Hi) as [Q|Q]; [|exact Q].
    destruct Hall as [D|[_ R]].
    + destruct (si_destroyed _ _ _ _ _ I D) as [_ E]. destruct (E _ (vget_In _ _ _ G)) as [E1 _].
      rewrite E1 in Q. destruct Q.
    + rewrite (R _ (vget_In _ _ _ G)) in Q. destruct Q.
  - intros i r Hi Hlt Hr.
    destruct (si_rows2 _ _ _ _ _ I _ _ _ G Gw _ Hi) as [Q|Q]; [|auto].
    destruct Hall as [D|[R _]].
    + destruct (si_destroyed _ _ _ _ _ I D) as [_ E]. destruct (E _ (vget_In _ _ _ G)) as [_ E1].
      rewrite E1 in Q. destruct Q.
    + assert (X := si_ready _ _ _ _ _ I _ _ G R _ Q). lia.
Qed.

Lemma C10_payload_sees_all_rows_proof :
  forall (width n_export strides n_owned : nat) (work : list (list nat * list nat)) (s : sd_state),
    0 < width ->
    (forall w, In w work -> StronglySorted lt (snd w)) ->
    (forall q, q < strides -> In (q * width) (concat (map snd work))) ->
    (forall i, strides * width <= i < n_owned -> In i (concat (map fst work))) ->
    star (sd_step width n_export (strides * width)) (sd_init work) s ->
    sd_starts s > 0 ->
    forall r, r < n_owned -> r < n_export \/ strides * width <= r ->
      In r (sd_written s).
Proof.
  intros width ne strides n_owned work s Hw Hs H2 H1 St Hp r Hr Hc.
  destruct (le_lt_dec (strides * width) r) as [L|L].
  - assert (Hin := H1 r (conj L Hr)). apply in_concat in Hin as [l [Hl Hi]].
    apply in_map_iff in Hl as [w [<- Hwk]].
    destruct (C10_payload_sees_exported_rows_proof _ _ _ _ _ Hs St Hp _ Hwk) as [A _]. auto.
  - assert (Hlt : r < ne) by lia.
    assert (D := Nat.div_mod r width ltac:(lia)).
    assert (M := Nat.mod_upper_bound r width ltac:(lia)).
    assert (Hq : r / width < strides) by (apply Nat.div_lt_upper_bound; lia).
    assert (Hin := H2 _ Hq). apply in_concat in Hin as [l [Hl Hi]].
    apply in_map_iff in Hl as [w [<- Hwk]].
    destruct (C10_payload_sees_exported_rows_proof _ _ _ _ _ Hs St Hp _ Hwk) as [_ B].
    apply (B _ _ Hi); lia.
Qed.

Lemma C10_payload_exactly_once_proof :
  forall (width n_export n_internal : nat) (work : list (list nat * list nat)) (s : sd_state),
    (forall w, In w work -> StronglySorted lt (snd w)) ->
    star (sd_step width n_export n_internal) (sd_init work) s ->
    sd_starts s <= 1 /\
    (sd_destroyed s = true ->
       sd_starts s = 1 /\ sd_status s = PFinished /\
       forall w i, In w work ->
         (In i (fst w) -> In i (sd_written s)) /\
         (In i (snd w) -> forall r, i <= r < i + width -> In r (sd_written s))).
Proof.
  intros width ne ni work s Hs St. assert (I := sd_inv_reach _ _ _ _ _ Hs St).
  rewrite (si_starts _ _ _ _ _ I). split; [destruct (sd_status s); lia|].
  intros D. destruct (si_destroyed _ _ _ _ _ I D) as [P E]. rewrite P.
  split; [reflexivity|]. split; [reflexivity|].
  intros w i Hw.
  apply In_nth_error in Hw as [k Gw]. change (vget work k = Some w) in Gw.
  assert (Hk : k < length (sd_threads s)) by (rewrite (si_len _ _ _ _ _ I); eapply vget_some; eauto).
  destruct (vget_defined _ _ Hk) as [th G].
  destruct (E _ (vget_In _ _ _ G)) as [E1 E2].
  split; intros Hi.
  - destruct (si_rows1 _ _ _ _ _ I _ _ _ G Gw _ Hi) as [Q|Q]; [|exact Q].
    rewrite E1 in Q. destruct Q.
  - destruct (si_rows2 _ _ _ _ _ I _ _ _ G Gw _ Hi) as [Q|Q]; [|exact Q].
    rewrite E2 in Q. destruct Q.
Qed.

Lemma C10_region_completes_proof :
  forall (width n_export n_internal : nat) (work : list (list nat * list nat)) (s : sd_state),
    (forall w, In w work -> StronglySorted lt (snd w)) ->
    star (sd_step width n_export n_internal) (sd_init work) s ->
    (sd_destroyed s = true \/ exists s', sd_step width n_export n_internal s s') /\
    exists bound, forall n s', starn (sd_step width n_export n_internal) n s s' -> n <= bound.
Proof.
  intros width ne ni work s Hs St. split.
  - eapply sd_progress. eapply sd_inv_reach; eauto.
  - exists (sd_measure s). intros n s' Sn.
    destruct (starn_measure _ (fun _ => True) sd_measure _ _ _
                (fun _ _ _ _ => I) (fun a b _ => sd_measure_step _ _ _ a b) Sn I) as [_ L].
    lia.
Qed.

Lemma C10_unordered_schedule_unsafe_proof :
  exists (work : list (list nat * list nat)) (s : sd_state),
    star (sd_step 1 1 2) (sd_init work) s /\ sd_starts s > 0 /\
    ~ (forall w i r, In w work -> In i (snd w) -> i < 1 -> i <= r < i + 1 ->
         In r (sd_written s)).
Proof.
  exists [([], [1; 0])]. eexists. split; [|split].
  - unfold sd_init; simpl.
    eapply star_step; [eapply star_step; [apply star_refl|]|].
    + eapply sd_check_fire with (k := 0); try reflexivity.
      intros t [<-|[]]; reflexivity.
    + simpl. eapply sd_start.
  - simpl. lia.
  - simpl. intros H. apply (H ([], [1; 0]) 0 0); simpl; auto; lia.
Qed.

Lemma C09_exchange_may_start_early_refuted_proof :
  exists (ranges : list (nat * nat)) (work : list (list nat * list nat)) (s : sd_state) (r : nat),
    (forall w, In w work -> StronglySorted lt (snd w)) /\
    (forall q, q < 1 -> In (q * 4) (concat (map snd work))) /\
    (forall i, 4 <= i < 6 -> In i (concat (map fst work))) /\
    (exists a b, In (a, b) ranges /\ a <= r < b) /\
    star (sd_step 4 (recompute_n_export ranges 4 4) 4) (sd_init work) s /\
    sd_starts s = 1 /\ ~ In r (sd_written s).
Proof.
  exists [(2, 6)], [([4; 5], [0])]. eexists. exists 2.
  split; [|split; [|split; [|split; [|split; [|split]]]]].
  - intros w [<-|[]]; simpl; repeat constructor.
  - intros [|q] H; simpl; auto; lia.
  - intros i H; simpl. lia.
  - exists 2, 6. simpl. auto with arith.
  - replace (recompute_n_export [(2, 6)] 4 4) with 0 by reflexivity.
    unfold sd_init; simpl.
    eapply star_step; [eapply star_step; [eapply star_step; [eapply star_step;
      [apply star_refl|]|]|]|].
    + eapply sd_row1 with (k := 0); reflexivity.
    + eapply sd_row1 with (k := 0); reflexivity.
    + eapply sd_check_fire with (k := 0); try reflexivity.
      intros t [<-|[]]; reflexivity.
    + simpl. eapply sd_start.
  - reflexivity.
  - simpl. lia.
Qed.
