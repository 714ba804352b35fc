(** * Selected components: proofs *)
From Coq Require Import String List Bool Arith Lia.
From Verif Require Import Extractor.
Import ListNotations.
Local Open Scope string_scope.

Lemma find_index_some e l : forall k, find_index e l = Some k -> nth_error l k = Some e.
Proof.
  induction l as [|n l IH]; intros k H; cbn in H; [discriminate|]. destruct (String.eqb_spec n e) as [->|N].
  - injection H as <-. reflexivity.
  - destruct (find_index e l) as [j|]; [|discriminate]. injection H as <-. cbn. apply IH. reflexivity.
Qed.

Lemma find_index_none e l : find_index e l = None <-> ~ In e l.
Proof.
  induction l as [|n l IH]; cbn; [tauto|]. destruct (String.eqb_spec n e) as [->|N].
  - split; [discriminate|]. intros H. exfalso. apply H. left. reflexivity.
  - destruct (find_index e l) as [j|].
    + split; [discriminate|]. intros H. exfalso. apply H. right. destruct (in_dec string_dec e l) as [I|I]; [exact I|]. apply IH in I. discriminate.
    + split; [|reflexivity]. intros _ [A|A]; [contradiction|]. apply IH in A; [exact A|reflexivity].
Qed.

Lemma find_index_nodup e l k : NoDup l -> nth_error l k = Some e -> find_index e l = Some k.
Proof.
  intros H N. destruct (find_index e l) as [j|] eqn:F.
  - apply find_index_some in F. f_equal. apply (proj1 (NoDup_nth_error l) H); [apply nth_error_Some; congruence|congruence].
  - apply find_index_none in F. exfalso. apply F. apply nth_error_In in N. exact N.
Qed.

Lemma found_in_iff e l : found_in e l = true <-> In e l.
Proof.
  unfold found_in. destruct (find_index e l) as [k|] eqn:F.
  - apply find_index_some, nth_error_In in F. tauto.
  - apply find_index_none in F. split; [discriminate|contradiction].
Qed.

(** Known names. *)
Definition known (t : tables) (e : string) : Prop :=
  In e (component_names t) \/ In e (primitive_component_names t) \/ In e (precomputed_names t) \/
  In e (initial_precomputed_names t) \/ e = "alpha".

Lemma check_iff t sel : check t sel = true <-> forall e, In e sel -> known t e.
Proof.
  unfold check. rewrite forallb_forall. unfold known. split; intros H e I; specialize (H e I).
  - rewrite !orb_true_iff, !found_in_iff, String.eqb_eq in H. tauto.
  - rewrite !orb_true_iff, !found_in_iff, String.eqb_eq. tauto.
Qed.

(** Which set, and which index in it. *)
Inductive source := Conserved (k : nat) | Primitive (k : nat) | Precomputed (k : nat) | Initial (k : nat) | Alpha.

Definition lookup (t : tables) (e : string) : option source :=
  match find_index e (component_names t) with Some k => Some (Conserved k) | None =>
  match find_index e (primitive_component_names t) with Some k => Some (Primitive k) | None =>
  match find_index e (precomputed_names t) with Some k => Some (Precomputed k) | None =>
  match find_index e (initial_precomputed_names t) with Some k => Some (Initial k) | None =>
  if String.eqb e "alpha" then Some Alpha else None end end end end.

Lemma lookup_known t e : (exists s, lookup t e = Some s) <-> known t e.
Proof.
  unfold lookup, known.
  destruct (find_index e (component_names t)) as [k|] eqn:F1; [apply find_index_some, nth_error_In in F1; split; [tauto|eauto]|].
  destruct (find_index e (primitive_component_names t)) as [k|] eqn:F2; [apply find_index_some, nth_error_In in F2; split; [tauto|eauto]|].
  destruct (find_index e (precomputed_names t)) as [k|] eqn:F3; [apply find_index_some, nth_error_In in F3; split; [tauto|eauto]|].
  destruct (find_index e (initial_precomputed_names t)) as [k|] eqn:F4; [apply find_index_some, nth_error_In in F4; split; [tauto|eauto]|].
  apply find_index_none in F1, F2, F3, F4.
  destruct (String.eqb_spec e "alpha") as [->|N]; [split; [tauto|eauto]|]. split; [intros [s [=]]|tauto].
Qed.

(** The position [p] with source [s] is recorded. *)
Definition recorded (x : indices) (p : nat) (s : source) : Prop :=
  match s with
  | Conserved k => In (p, k) (conserved_indices x)
  | Primitive k => In (p, k) (primitive_indices x)
  | Precomputed k => In (p, k) (precomputed_indices x)
  | Initial k => In (p, k) (initial_indices x)
  | Alpha => In p (alpha_indices x)
  end.

Definition add (x : indices) (p : nat) (s : source) : indices :=
  match s with
  | Conserved k => Indices (conserved_indices x ++ [(p, k)]) (primitive_indices x) (precomputed_indices x) (initial_indices x) (alpha_indices x)
  | Primitive k => Indices (conserved_indices x) (primitive_indices x ++ [(p, k)]) (precomputed_indices x) (initial_indices x) (alpha_indices x)
  | Precomputed k => Indices (conserved_indices x) (primitive_indices x) (precomputed_indices x ++ [(p, k)]) (initial_indices x) (alpha_indices x)
  | Initial k => Indices (conserved_indices x) (primitive_indices x) (precomputed_indices x) (initial_indices x ++ [(p, k)]) (alpha_indices x)
  | Alpha => Indices (conserved_indices x) (primitive_indices x) (precomputed_indices x) (initial_indices x) (alpha_indices x ++ [p])
  end.

Lemma classify_cons t e rest i x :
  classify t (e :: rest) i x = match lookup t e with Some s => classify t rest (S i) (add x i s) | None => None end.
Proof.
  cbn [classify]. unfold lookup.
  destruct (find_index e (component_names t)); [reflexivity|]. destruct (find_index e (primitive_component_names t)); [reflexivity|].
  destruct (find_index e (precomputed_names t)); [reflexivity|]. destruct (find_index e (initial_precomputed_names t)); [reflexivity|].
  destruct (String.eqb e "alpha"); reflexivity.
Qed.

Lemma recorded_add x i s p s' : recorded (add x i s) p s' <-> recorded x p s' \/ (p = i /\ s' = s).
Proof.
  destruct s as [k|k|k|k|], s' as [k'|k'|k'|k'|]; cbn; rewrite ?in_app_iff; cbn; split;
    first [ intros [H|[H|[]]]; [left; exact H|right; injection H as <- <-; split; reflexivity]
          | intros [H|[H|[]]]; [left; exact H|right; split; [symmetry; exact H|reflexivity]]
          | intros H; left; exact H
          | intros [H|[H1 H2]]; [exact H|discriminate H2]
          | intros [H|[H1 H2]]; [left; exact H|right; left; first [injection H2 as ->; subst; reflexivity|subst; reflexivity]] ].
Qed.

Lemma classify_spec t sel : forall i x y, classify t sel i x = Some y ->
  forall p s, recorded y p s <-> recorded x p s \/ (i <= p /\ exists e, nth_error sel (p - i) = Some e /\ lookup t e = Some s).
Proof.
  induction sel as [|e sel IH]; intros i x y H p s.
  - injection H as <-. split; [tauto|]. intros [A|(_ & e & E & _)]; [exact A|]. destruct (p - i); discriminate.
  - rewrite classify_cons in H. destruct (lookup t e) as [s0|] eqn:L; [|discriminate].
    rewrite (IH _ _ _ H p s), recorded_add. split.
    + intros [[A|[-> ->]]|(A & e' & E & L')]; [tauto| |].
      * right. split; [lia|]. exists e. rewrite Nat.sub_diag. split; [reflexivity|exact L].
      * right. split; [lia|]. exists e'. replace (p - i) with (S (p - S i)) by lia. split; [exact E|exact L'].
    + intros [A|(A & e' & E & L')]; [tauto|]. destruct (Nat.eq_dec p i) as [->|N].
      * rewrite Nat.sub_diag in E. injection E as <-. left. right. split; [reflexivity|congruence].
      * right. split; [lia|]. exists e'. replace (p - i) with (S (p - S i)) in E by lia. split; [exact E|exact L'].
Qed.

Lemma classify_total t sel : forall i x, (exists y, classify t sel i x = Some y) <-> forall e, In e sel -> known t e.
Proof.
  induction sel as [|e sel IH]; intros i x; [cbn; split; [intros _ e []|eauto]|]. rewrite classify_cons. split.
  - intros [y H]. destruct (lookup t e) as [s|] eqn:L; [|discriminate]. intros e' [<-|I]; [apply lookup_known; eauto|].
    apply (proj1 (IH (S i) (add x i s))); [eauto|exact I].
  - intros H. destruct (proj2 (lookup_known t e) (H e (or_introl eq_refl))) as [s L]. rewrite L. apply IH. intros e' I. apply H. right. exact I.
Qed.

Section Extract.
Context {V : Type}.
Variable zero : V.
Variable to_primitive : (nat -> V) -> (nat -> V).
Variable t : tables.
Variables U prec initial : nat -> V.
Variable alpha : nat -> V.
Variable n_owned : nat.

Lemma modify_length (out : list (nat -> V)) i f : length (modify out i f) = length out.
Proof using Type. unfold modify. rewrite map_length, combine_length, seq_length. lia. Qed.

Lemma nth_error_seq a n j : j < n -> nth_error (seq a n) j = Some (a + j).
Proof using Type.
  intros H. rewrite (nth_error_nth' (seq a n) 0) by (rewrite seq_length; exact H). rewrite seq_nth by exact H. reflexivity.
Qed.

Lemma nth_error_combine {A B} (l : list A) : forall (l' : list B) j a b, nth_error l j = Some a -> nth_error l' j = Some b -> nth_error (combine l l') j = Some (a, b).
Proof using Type.
  induction l as [|x l IH]; intros l' j a b H1 H2; [destruct j; discriminate|]. destruct l' as [|y l']; [destruct j; discriminate|].
  destruct j; cbn in *; [congruence|]. apply IH; assumption.
Qed.

Lemma nth_modify (out : list (nat -> V)) i f j c : nth_error out j = Some c -> nth_error (modify out i f) j = Some (if Nat.eqb j i then f c else c).
Proof using Type.
  intros H. assert (L : j < length out) by (apply nth_error_Some; congruence).
  unfold modify. rewrite nth_error_map, (nth_error_combine _ _ j j c) by (try apply nth_error_seq; assumption). reflexivity.
Qed.

(** A loop that fills the listed positions. *)
Lemma fill_length {Ix} (pos : Ix -> nat) (f : Ix -> (nat -> V) -> nat -> V) l : forall out,
  length (fold_left (fun o x => modify o (pos x) (f x)) l out) = length out.
Proof using Type. induction l as [|x l IH]; intros out; cbn; [reflexivity|]. rewrite IH. apply modify_length. Qed.

Lemma fill_skip {Ix} (pos : Ix -> nat) (f : Ix -> (nat -> V) -> nat -> V) l : forall out j c,
  nth_error out j = Some c -> (forall x, In x l -> pos x <> j) ->
  nth_error (fold_left (fun o x => modify o (pos x) (f x)) l out) j = Some c.
Proof using Type.
  induction l as [|x l IH]; intros out j c H N; cbn; [exact H|]. apply IH; [|intros y I; apply N; right; exact I].
  rewrite (nth_modify _ _ _ _ c H). destruct (Nat.eqb_spec j (pos x)) as [E|]; [|reflexivity]. exfalso. apply (N x (or_introl eq_refl)). congruence.
Qed.

Lemma fill_hit {Ix} (pos : Ix -> nat) (f : Ix -> (nat -> V) -> nat -> V) l (P : (nat -> V) -> Prop) x : forall out j c,
  nth_error out j = Some c -> In x l -> pos x = j -> (forall y, In y l -> pos y = j -> y = x) -> (forall c, P (f x c)) ->
  exists c', nth_error (fold_left (fun o x => modify o (pos x) (f x)) l out) j = Some c' /\ P c'.
Proof using Type.
  assert (K : forall l out j c, nth_error out j = Some c -> P c -> (forall y, In y l -> pos y = j -> y = x) -> (forall c, P (f x c)) ->
     exists c', nth_error (fold_left (fun o x => modify o (pos x) (f x)) l out) j = Some c' /\ P c').
  { clear l. induction l as [|y l IH]; intros out j c H Hc Un Hf; cbn; [eauto|].
    pose proof (nth_modify out (pos y) (f y) j c H) as N. destruct (Nat.eqb_spec j (pos y)) as [E|E].
    - apply (IH _ _ _ N); [|intros z I; apply Un; right; exact I|exact Hf].
      rewrite (Un y (or_introl eq_refl) (eq_sym E)). apply Hf.
    - apply (IH _ _ _ N); [exact Hc|intros z I; apply Un; right; exact I|exact Hf]. }
  induction l as [|y l IH]; intros out j c H I Hj Un Hf; [destruct I|]. cbn.
  pose proof (nth_modify out (pos y) (f y) j c H) as N. destruct (Nat.eqb_spec j (pos y)) as [E|E].
  - apply (K _ _ _ _ N); [|intros z Iz; apply Un; right; exact Iz|exact Hf].
    rewrite (Un y (or_introl eq_refl) (eq_sym E)). apply Hf.
  - destruct I as [->|I]; [congruence|]. apply (IH _ _ _ N I Hj); [intros z Iz; apply Un; right; exact Iz|exact Hf].
Qed.

(** The values of a source at an owned degree of freedom. *)
Definition value (s : source) (i : nat) : V :=
  match s with
  | Conserved k => U (i * length (component_names t) + k)
  | Primitive k => to_primitive (fun d => U (i * length (component_names t) + d)) k
  | Precomputed k => prec (i * length (precomputed_names t) + k)
  | Initial k => initial (i * length (initial_precomputed_names t) + k)
  | Alpha => alpha i
  end.

Lemma fold_pairs (g : nat -> (nat -> V) -> nat -> V) l out :
  fold_left (fun o '(i, k) => modify o i (g k)) l out = fold_left (fun o (x : nat * nat) => modify o (fst x) (g (snd x))) l out.
Proof using Type. revert out. induction l as [|[i k] l IH]; intros out; cbn; [reflexivity|]. apply IH. Qed.

Notation EX := (extract zero to_primitive t U prec initial alpha n_owned).

Lemma extract_length sel out : EX sel = Some out -> length out = length sel.
Proof using Type.
  unfold extract. destruct (classify t sel 0 no_indices) as [x|]; [|discriminate]. intros [= <-].
  rewrite (fill_length (fun i : nat => i) (fun _ _ => alpha)).
  rewrite (fold_pairs (fun k => extract_component n_owned (length (initial_precomputed_names t)) initial k)), fill_length.
  rewrite (fold_pairs (fun k => extract_component n_owned (length (precomputed_names t)) prec k)), fill_length.
  rewrite (fold_pairs (fun k c i => if Nat.ltb i n_owned then to_primitive (get_tensor (length (component_names t)) U i) k else c i)), fill_length.
  rewrite (fold_pairs (fun k => extract_component n_owned (length (component_names t)) U k)), fill_length.
  apply repeat_length.
Qed.

Lemma extract_value sel out p e s : EX sel = Some out -> nth_error sel p = Some e -> lookup t e = Some s ->
  exists c, nth_error out p = Some c /\ forall i, i < n_owned -> c i = value s i.
Proof using Type.
  unfold extract. destruct (classify t sel 0 no_indices) as [x|] eqn:C; [|discriminate]. intros [= <-] E L.
  pose proof (classify_spec t sel 0 no_indices x C) as Sp.
  assert (Lp : p < length sel) by (apply nth_error_Some; congruence).
  assert (R : recorded x p s). { apply Sp. right. split; [lia|]. exists e. rewrite Nat.sub_0_r. tauto. }
  assert (Un : forall s', recorded x p s' -> s' = s).
  { intros s' H. apply Sp in H. destruct H as [H|(_ & e' & E' & L')]; [destruct s'; destruct H|]. rewrite Nat.sub_0_r in E'. congruence. }
  rewrite (fold_pairs (fun k => extract_component n_owned (length (initial_precomputed_names t)) initial k)).
  rewrite (fold_pairs (fun k => extract_component n_owned (length (precomputed_names t)) prec k)).
  rewrite (fold_pairs (fun k c i => if Nat.ltb i n_owned then to_primitive (get_tensor (length (component_names t)) U i) k else c i)).
  rewrite (fold_pairs (fun k => extract_component n_owned (length (component_names t)) U k)).
  set (f1 := fun (q : nat * nat) => extract_component n_owned (length (component_names t)) U (snd q)).
  set (f2 := fun (q : nat * nat) c i => if Nat.ltb i n_owned then to_primitive (get_tensor (length (component_names t)) U i) (snd q) else c i).
  set (f3 := fun (q : nat * nat) => extract_component n_owned (length (precomputed_names t)) prec (snd q)).
  set (f4 := fun (q : nat * nat) => extract_component n_owned (length (initial_precomputed_names t)) initial (snd q)).
  set (f5 := fun (_ : nat) (_ : nat -> V) => alpha).
  set (o0 := repeat (fun _ : nat => zero) (length sel)).
  set (o1 := fold_left (fun o q => modify o (fst q) (f1 q)) (conserved_indices x) o0).
  set (o2 := fold_left (fun o q => modify o (fst q) (f2 q)) (primitive_indices x) o1).
  set (o3 := fold_left (fun o q => modify o (fst q) (f3 q)) (precomputed_indices x) o2).
  set (o4 := fold_left (fun o q => modify o (fst q) (f4 q)) (initial_indices x) o3).
  change (exists c, nth_error (fold_left (fun o i => modify o i (f5 i)) (alpha_indices x) o4) p = Some c /\ forall i, i < n_owned -> c i = value s i).
  assert (H0 : exists c, nth_error o0 p = Some c). { destruct (nth_error o0 p) eqn:N; [eauto|]. apply nth_error_None in N. unfold o0 in N. rewrite repeat_length in N. lia. }
  assert (St : forall (f : nat * nat -> (nat -> V) -> nat -> V) l out, (exists c, nth_error out p = Some c) ->
     exists c, nth_error (fold_left (fun o q => modify o (fst q) (f q)) l out) p = Some c).
  { intros f l out0 [c H]. destruct (nth_error (fold_left (fun o q => modify o (fst q) (f q)) l out0) p) eqn:N; [eauto|].
    apply nth_error_None in N. rewrite (fill_length (@fst nat nat) f) in N. assert (p < length out0) by (apply nth_error_Some; congruence). lia. }
  pose proof (St f1 (conserved_indices x) o0 H0) as H1. fold o1 in H1.
  pose proof (St f2 (primitive_indices x) o1 H1) as H2. fold o2 in H2.
  pose proof (St f3 (precomputed_indices x) o2 H2) as H3. fold o3 in H3.
  pose proof (St f4 (initial_indices x) o3 H3) as H4. fold o4 in H4.
  set (P := fun c : nat -> V => forall i, i < n_owned -> c i = value s i).
  assert (Q : forall i, i < n_owned -> Nat.ltb i n_owned = true) by (intros; apply Nat.ltb_lt; assumption).
  assert (S1 : (exists k, s = Conserved k) \/ forall q, In q (conserved_indices x) -> fst q <> p).
  { destruct s; try (left; eexists; reflexivity); right; intros [a k'] I Ha; cbn in Ha; subst a; pose proof (Un (Conserved k') I); discriminate. }
  assert (S2 : (exists k, s = Primitive k) \/ forall q, In q (primitive_indices x) -> fst q <> p).
  { destruct s; try (left; eexists; reflexivity); right; intros [a k'] I Ha; cbn in Ha; subst a; pose proof (Un (Primitive k') I); discriminate. }
  assert (S3 : (exists k, s = Precomputed k) \/ forall q, In q (precomputed_indices x) -> fst q <> p).
  { destruct s; try (left; eexists; reflexivity); right; intros [a k'] I Ha; cbn in Ha; subst a; pose proof (Un (Precomputed k') I); discriminate. }
  assert (S4 : (exists k, s = Initial k) \/ forall q, In q (initial_indices x) -> fst q <> p).
  { destruct s; try (left; eexists; reflexivity); right; intros [a k'] I Ha; cbn in Ha; subst a; pose proof (Un (Initial k') I); discriminate. }
  assert (S5 : s = Alpha \/ forall q, In q (alpha_indices x) -> q <> p).
  { destruct s; try (left; reflexivity); right; intros a I Ha; subst a; pose proof (Un Alpha I); discriminate. }
  change (exists c, nth_error (fold_left (fun o i => modify o i (f5 i)) (alpha_indices x) o4) p = Some c /\ P c).
  destruct s as [k|k|k|k|]; cbn in R.
  - destruct H0 as [c0 H0].
    destruct (fill_hit (@fst nat nat) f1 (conserved_indices x) P (p, k) o0 p c0 H0 R eq_refl) as (c & Hc & Pc).
    { intros [a k'] I Ha. cbn in Ha. subst a. pose proof (Un (Conserved k') I) as A. injection A as ->. reflexivity. }
    { intros c i Hi. unfold f1, extract_component. rewrite (Q i Hi). reflexivity. }
    exists c. split; [|exact Pc].
    apply (fill_skip (fun i => i) f5); [|destruct S5 as [S5|S5]; [discriminate|exact S5]].
    apply (fill_skip (@fst nat nat) f4); [|destruct S4 as [[? S4]|S4]; [discriminate|exact S4]].
    apply (fill_skip (@fst nat nat) f3); [|destruct S3 as [[? S3]|S3]; [discriminate|exact S3]].
    apply (fill_skip (@fst nat nat) f2); [|destruct S2 as [[? S2]|S2]; [discriminate|exact S2]]. exact Hc.
  - destruct H1 as [c0 H1].
    destruct (fill_hit (@fst nat nat) f2 (primitive_indices x) P (p, k) o1 p c0 H1 R eq_refl) as (c & Hc & Pc).
    { intros [a k'] I Ha. cbn in Ha. subst a. pose proof (Un (Primitive k') I) as A. injection A as ->. reflexivity. }
    { intros c i Hi. unfold f2. rewrite (Q i Hi). reflexivity. }
    exists c. split; [|exact Pc].
    apply (fill_skip (fun i => i) f5); [|destruct S5 as [S5|S5]; [discriminate|exact S5]].
    apply (fill_skip (@fst nat nat) f4); [|destruct S4 as [[? S4]|S4]; [discriminate|exact S4]].
    apply (fill_skip (@fst nat nat) f3); [|destruct S3 as [[? S3]|S3]; [discriminate|exact S3]]. exact Hc.
  - destruct H2 as [c0 H2].
    destruct (fill_hit (@fst nat nat) f3 (precomputed_indices x) P (p, k) o2 p c0 H2 R eq_refl) as (c & Hc & Pc).
    { intros [a k'] I Ha. cbn in Ha. subst a. pose proof (Un (Precomputed k') I) as A. injection A as ->. reflexivity. }
    { intros c i Hi. unfold f3, extract_component. rewrite (Q i Hi). reflexivity. }
    exists c. split; [|exact Pc].
    apply (fill_skip (fun i => i) f5); [|destruct S5 as [S5|S5]; [discriminate|exact S5]].
    apply (fill_skip (@fst nat nat) f4); [|destruct S4 as [[? S4]|S4]; [discriminate|exact S4]]. exact Hc.
  - destruct H3 as [c0 H3].
    destruct (fill_hit (@fst nat nat) f4 (initial_indices x) P (p, k) o3 p c0 H3 R eq_refl) as (c & Hc & Pc).
    { intros [a k'] I Ha. cbn in Ha. subst a. pose proof (Un (Initial k') I) as A. injection A as ->. reflexivity. }
    { intros c i Hi. unfold f4, extract_component. rewrite (Q i Hi). reflexivity. }
    exists c. split; [|exact Pc].
    apply (fill_skip (fun i => i) f5); [|destruct S5 as [S5|S5]; [discriminate|exact S5]]. exact Hc.
  - destruct H4 as [c0 H4].
    destruct (fill_hit (fun i : nat => i) f5 (alpha_indices x) P p o4 p c0 H4 R eq_refl) as (c & Hc & Pc).
    { intros a I Ha. exact Ha. } { intros c i Hi. reflexivity. }
    exists c. split; [exact Hc|exact Pc].
Qed.

Lemma C57_accepts_proof sel :
  (check t sel = true <-> forall e, In e sel -> known t e) /\ (check t sel = true <-> exists out, EX sel = Some out).
Proof using Type.
  split; [apply check_iff|]. rewrite check_iff, <- (classify_total t sel 0 no_indices). unfold extract. split.
  - intros [y ->]. eauto.
  - intros [out H]. destruct (classify t sel 0 no_indices); [eauto|discriminate].
Qed.

(** Tables without repetitions. *)
Definition separate : Prop :=
  NoDup (component_names t) /\ NoDup (primitive_component_names t) /\ NoDup (precomputed_names t) /\ NoDup (initial_precomputed_names t).

Lemma C57_extract_proof sel out p e : separate -> EX sel = Some out -> nth_error sel p = Some e ->
  length out = length sel /\
  exists c, nth_error out p = Some c /\ forall i, i < n_owned ->
    (forall k, nth_error (component_names t) k = Some e -> c i = U (i * length (component_names t) + k)) /\
    (~ In e (component_names t) ->
      (forall k, nth_error (primitive_component_names t) k = Some e -> c i = to_primitive (fun d => U (i * length (component_names t) + d)) k) /\
      (~ In e (primitive_component_names t) ->
        (forall k, nth_error (precomputed_names t) k = Some e -> c i = prec (i * length (precomputed_names t) + k)) /\
        (~ In e (precomputed_names t) ->
          (forall k, nth_error (initial_precomputed_names t) k = Some e -> c i = initial (i * length (initial_precomputed_names t) + k)) /\
          (~ In e (initial_precomputed_names t) -> e = "alpha" /\ c i = alpha i)))).
Proof using Type.
  intros (N1 & N2 & N3 & N4) Hx He. split; [apply extract_length; exact Hx|].
  assert (Kn : known t e). { apply nth_error_In in He. revert e He. apply check_iff. apply C57_accepts_proof. eauto. }
  destruct (proj2 (lookup_known t e) Kn) as [s L]. destruct (extract_value sel out p e s Hx He L) as (c & Hc & Hv).
  exists c. split; [exact Hc|]. intros i Hi. rewrite (Hv i Hi). clear Hv Hc. unfold lookup in L. split.
  { intros k Hk. rewrite (find_index_nodup _ _ _ N1 Hk) in L. injection L as <-. reflexivity. }
  intros I1. apply find_index_none in I1. rewrite I1 in L. split.
  { intros k Hk. rewrite (find_index_nodup _ _ _ N2 Hk) in L. injection L as <-. reflexivity. }
  intros I2. apply find_index_none in I2. rewrite I2 in L. split.
  { intros k Hk. rewrite (find_index_nodup _ _ _ N3 Hk) in L. injection L as <-. reflexivity. }
  intros I3. apply find_index_none in I3. rewrite I3 in L. split.
  { intros k Hk. rewrite (find_index_nodup _ _ _ N4 Hk) in L. injection L as <-. reflexivity. }
  intros I4. apply find_index_none in I4. rewrite I4 in L. destruct (String.eqb_spec e "alpha") as [->|]; [|discriminate].
  injection L as <-. split; reflexivity.
Qed.
End Extract.

(** In the tables of the code only the first conserved and the first primitive
    component share a name. *)
Lemma shipped_separate dim t : 1 <= dim <= 3 -> In t (shipped_tables dim) ->
  separate t /\
  (forall e, In e (component_names t) -> In e (primitive_component_names t) ->
     nth_error (component_names t) 0 = Some e /\ nth_error (primitive_component_names t) 0 = Some e) /\
  (forall e, In e (precomputed_names t) \/ In e (initial_precomputed_names t) -> ~ In e (component_names t) /\ ~ In e (primitive_component_names t)) /\
  (forall e, In e (initial_precomputed_names t) -> ~ In e (precomputed_names t)) /\
  ~ In "alpha" (component_names t) /\ ~ In "alpha" (primitive_component_names t) /\
  ~ In "alpha" (precomputed_names t) /\ ~ In "alpha" (initial_precomputed_names t).
Proof.
  intros Hd Ht. assert (D : dim = 1 \/ dim = 2 \/ dim = 3) by lia.
  destruct D as [->|[->| ->]]; cbn in Ht; repeat (destruct Ht as [<-|Ht]; [|]); try contradiction.
  all: (split; [repeat split; repeat (constructor; [cbn; intuition discriminate|]); constructor|]).
  all: (split; [intros e H1 H2; cbn in H1, H2; repeat (destruct H1 as [<-|H1]; [try (split; reflexivity); exfalso; intuition discriminate|]); contradiction|]).
  all: (split; [intros e H; cbn in H; repeat (destruct H as [H|H]; try contradiction); subst; cbn; split; intuition discriminate|]).
  all: (split; [intros e H; cbn in H; repeat (destruct H as [<-|H]; [cbn; intuition discriminate|]); contradiction|]).
  all: repeat split; cbn; intuition discriminate.
Qed.

Lemma C57_shipped_proof {V} (zero : V) (to_primitive : (nat -> V) -> nat -> V) (U prec initial alpha : nat -> V) n_owned dim t sel out p e :
  (forall W, to_primitive W 0 = W 0) -> 1 <= dim <= 3 -> In t (shipped_tables dim) ->
  extract zero to_primitive t U prec initial alpha n_owned sel = Some out -> nth_error sel p = Some e ->
  exists c, nth_error out p = Some c /\ forall i, i < n_owned ->
    (forall k, nth_error (component_names t) k = Some e -> c i = U (i * length (component_names t) + k)) /\
    (forall k, nth_error (primitive_component_names t) k = Some e -> c i = to_primitive (fun d => U (i * length (component_names t) + d)) k) /\
    (forall k, nth_error (precomputed_names t) k = Some e -> c i = prec (i * length (precomputed_names t) + k)) /\
    (forall k, nth_error (initial_precomputed_names t) k = Some e -> c i = initial (i * length (initial_precomputed_names t) + k)) /\
    (e = "alpha" -> c i = alpha i).
Proof.
  intros P0 Hd Ht Hx He. destruct (shipped_separate dim t Hd Ht) as (Sep & Sh & Dj & Dj2 & A1 & A2 & A3 & A4).
  destruct (C57_extract_proof zero to_primitive t U prec initial alpha n_owned sel out p e Sep Hx He) as (_ & c & Hc & Hv).
  exists c. split; [exact Hc|]. intros i Hi. destruct (Hv i Hi) as (V1 & V2). split; [exact V1|].
  destruct Sep as (N1 & N2 & N3 & N4). split; [|split; [|split]].
  - intros k Hk. destruct (in_dec string_dec e (component_names t)) as [I|I]; [|apply V2; assumption].
    destruct (Sh e I (nth_error_In _ _ Hk)) as [E1 E2]. rewrite (V1 0 E1).
    assert (K : k = 0). { apply (proj1 (NoDup_nth_error (primitive_component_names t)) N2); [apply nth_error_Some; congruence|congruence]. }
    subst k. rewrite P0. reflexivity.
  - intros k Hk. destruct (Dj e (or_introl (nth_error_In _ _ Hk))) as [D1 D2]. apply V2; assumption.
  - intros k Hk. pose proof (nth_error_In _ _ Hk) as I. destruct (Dj e (or_intror I)) as [D1 D2]. destruct (V2 D1) as [_ V3]. destruct (V3 D2) as [_ V4]. destruct (V4 (Dj2 e I)) as [V5 _]. apply V5. exact Hk.
  - intros ->. apply V2; assumption.
Qed.
