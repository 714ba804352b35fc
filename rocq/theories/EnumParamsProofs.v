(** * Enumeration parameters: proofs *)
From Coq Require Import String Ascii List Bool.
From Verif Require Import EnumParams EnumParamsSpec.
Import ListNotations.
Local Open Scope string_scope.

Lemma sapp_assoc (a b c : string) : (a ++ b) ++ c = a ++ (b ++ c).
Proof. induction a as [|x a IH]; cbn; [reflexivity|]. rewrite IH. reflexivity. Qed.
Lemma sapp_nil (a : string) : a ++ "" = a.
Proof. induction a as [|x a IH]; cbn; [reflexivity|]. rewrite IH. reflexivity. Qed.

Lemma match_plain n : forall cur rest s, plain_name n = true -> selection_match cur (n ++ rest) s = selection_match (cur ++ n) rest s.
Proof.
  induction n as [|c n IH]; intros cur rest s H; cbn in *.
  - rewrite sapp_nil. reflexivity.
  - apply andb_true_iff in H. destruct H as [H1 H2]. apply negb_true_iff in H1. rewrite H1, IH by exact H2. rewrite sapp_assoc. reflexivity.
Qed.

Section Generic.
Context {T : Type}.
Variable eqb : T -> T -> bool.
Hypothesis eqb_ok : forall a b, eqb a b = true <-> a = b.
Variable table : list (T * string).
Hypothesis wf : well_formed table.

Fixpoint joined (l : list (T * string)) : string :=
  match l with [] => "" | it :: l' => "|" ++ snd it ++ joined l' end.

Lemma to_pattern_fold l : forall s, s <> "" -> fold_left (fun s (it : T * string) => if String.eqb s "" then snd it else s ++ "|" ++ snd it) l s = s ++ joined l.
Proof using Type.
  induction l as [|it l IH]; intros s Hs; cbn [fold_left joined]; [rewrite sapp_nil; reflexivity|].
  destruct (String.eqb_spec s "") as [|_]; [contradiction|]. rewrite IH by (destruct s; [contradiction|discriminate]).
  cbn. rewrite sapp_assoc. reflexivity.
Qed.

Lemma joined_match l : (forall it, In it l -> plain_name (snd it) = true) -> forall cur s,
  selection_match cur (joined l) s = String.eqb cur s || existsb (fun it => String.eqb (snd it) s) l.
Proof using Type.
  induction l as [|it l IH]; intros H cur s; cbn [joined existsb]; [cbn; rewrite orb_false_r; reflexivity|].
  cbn. f_equal. rewrite match_plain by (apply H; left; reflexivity). cbn. apply IH. intros x Hx. apply H. right. exact Hx.
Qed.

Lemma match_iff s : selection_match "" (to_pattern table) s = true <-> (exists t, In (t, s) table) \/ (table = [] /\ s = "").
Proof using wf.
  destruct wf as (_ & _ & W). unfold to_pattern. destruct table as [|it l].
  - cbn. split; [intros H; right; split; [reflexivity|destruct s; [reflexivity|discriminate]]|]. intros [[t []]|[_ ->]]. reflexivity.
  - cbn [fold_left]. cbn [String.eqb]. rewrite to_pattern_fold by (apply W; left; reflexivity).
    rewrite match_plain by (apply W; left; reflexivity). cbn [append].
    rewrite joined_match by (intros x Hx; apply W; right; exact Hx).
    rewrite orb_true_iff, existsb_exists. split.
    + intros [H|[[t n] [Hin H]]]; left.
      * apply String.eqb_eq in H. exists (fst it). left. rewrite <- H. destruct it; reflexivity.
      * apply String.eqb_eq in H. cbn in H. subst. exists t. right. exact Hin.
    + intros [[t [Ht|Ht]]|[H _]]; [left|right|discriminate].
      * subst it. cbn. apply String.eqb_refl.
      * exists (t, s). split; [exact Ht|]. cbn. apply String.eqb_refl.
Qed.

Lemma nodup_key {A B} (l : list (A * B)) a b b' : NoDup (map fst l) -> In (a, b) l -> In (a, b') l -> b = b'.
Proof using Type.
  induction l as [|[x y] l IH]; intros H H1 H2; [destruct H1|]. cbn in H. apply NoDup_cons_iff in H. destruct H as [Hn H].
  destruct H1 as [H1|H1], H2 as [H2|H2].
  - congruence.
  - injection H1 as -> ->. exfalso. apply Hn. apply (in_map fst) in H2. exact H2.
  - injection H2 as -> ->. exfalso. apply Hn. apply (in_map fst) in H1. exact H1.
  - apply IH; assumption.
Qed.

Lemma nodup_val {A B} (l : list (A * B)) a a' b : NoDup (map snd l) -> In (a, b) l -> In (a', b) l -> a = a'.
Proof using Type.
  induction l as [|[x y] l IH]; intros H H1 H2; [destruct H1|]. cbn in H. apply NoDup_cons_iff in H. destruct H as [Hn H].
  destruct H1 as [H1|H1], H2 as [H2|H2].
  - congruence.
  - injection H1 as -> ->. exfalso. apply Hn. apply (in_map snd) in H2. exact H2.
  - injection H2 as -> ->. exfalso. apply Hn. apply (in_map snd) in H1. exact H1.
  - apply IH; assumption.
Qed.

Lemma to_string_spec t s : to_string eqb table t = Some s <-> In (t, s) table.
Proof using eqb_ok wf.
  destruct wf as (W1 & _). unfold to_string. destruct (find _ table) as [[t' s']|] eqn:F.
  - apply find_some in F. destruct F as [F1 F2]. cbn in F2. apply eqb_ok in F2. subst t'. cbn. split; [intros [= <-]; exact F1|].
    intros H. f_equal. apply (nodup_key _ _ _ _ W1 F1 H).
  - split; [discriminate|]. intros H. pose proof (find_none _ _ F _ H) as N. cbn in N.
    assert (E : eqb t t = true) by (apply eqb_ok; reflexivity). congruence.
Qed.

Lemma to_value_spec t s : to_value table s = Some t <-> In (t, s) table.
Proof using wf.
  pose proof wf as (_ & W2 & _). unfold to_value. destruct (selection_match "" (to_pattern table) s) eqn:M.
  - destruct (find _ table) as [[t' s']|] eqn:F.
    + apply find_some in F. destruct F as [F1 F2]. cbn in F2. apply String.eqb_eq in F2. subst s'. cbn. split; [intros [= <-]; exact F1|].
      intros H. f_equal. apply (nodup_val _ _ _ _ W2 F1 H).
    + split; [discriminate|]. intros H. pose proof (find_none _ _ F _ H) as N. cbn in N. rewrite String.eqb_refl in N. discriminate.
  - split; [discriminate|]. intros H. assert (A : selection_match "" (to_pattern table) s = true) by (apply match_iff; left; exists t; exact H). congruence.
Qed.

Lemma round_trip : (forall t, In t (map fst table)) ->
  (forall t, exists s, to_string eqb table t = Some s /\ to_value table s = Some t) /\
  (forall s t, to_value table s = Some t -> to_string eqb table t = Some s) /\
  (forall s, (exists t, to_value table s = Some t) <-> In s (map snd table)).
Proof using eqb_ok wf.
  intros Hc. split; [|split].
  - intros t. pose proof (Hc t) as H. apply in_map_iff in H. destruct H as ([t' s] & Ht & Hin). cbn in Ht. subst t'.
    exists s. split; [apply to_string_spec|apply to_value_spec]; exact Hin.
  - intros s t H. apply to_string_spec, to_value_spec. exact H.
  - intros s. split.
    + intros [t H]. apply to_value_spec in H. apply (in_map snd) in H. exact H.
    + intros H. apply in_map_iff in H. destruct H as ([t s'] & Hs & Hin). cbn in Hs. subst s'. exists t. apply to_value_spec. exact Hin.
Qed.
End Generic.

Lemma dec_eqb_ok {T} (dec : forall a b : T, {a = b} + {a <> b}) a b : dec_eqb dec a b = true <-> a = b.
Proof. unfold dec_eqb. destruct (dec a b); split; congruence. Qed.

Ltac table_ok :=
  apply round_trip;
  [apply dec_eqb_ok
  |split; [|split];
     [repeat (constructor; [cbn; intuition discriminate|]); constructor
     |repeat (constructor; [cbn; intuition discriminate|]); constructor
     |intros it H; cbn in H; repeat (destruct H as [<-|H]; [split; [reflexivity|discriminate]|]); contradiction]
  |intros []; cbn; tauto].

Lemma C52_tables_proof :
  survives cfl_dec cfl_table /\ survives scheme_dec scheme_table /\ survives adaptation_dec adaptation_table /\
  survives marking_dec marking_table /\ survives time_point_dec time_point_table /\
  survives boundary_dec boundary_table /\ survives ansatz_dec ansatz_table.
Proof. refine (conj _ (conj _ (conj _ (conj _ (conj _ (conj _ _)))))); table_ok. Qed.

Lemma C52_round_trip_proof {T} (dec : forall a b : T, {a = b} + {a <> b}) (table : list (T * string)) :
  well_formed table -> (forall t, In t (map fst table)) -> survives dec table.
Proof. intros W C. apply round_trip; [apply dec_eqb_ok|exact W|exact C]. Qed.

(** A missing entry: the enumerator cannot be written. *)
Lemma C52_missing_proof {T} (dec : forall a b : T, {a = b} + {a <> b}) (table : list (T * string)) t :
  ~ In t (map fst table) -> to_string (dec_eqb dec) table t = None.
Proof.
  intros H. unfold to_string. destruct (find _ table) as [[t' s]|] eqn:F; [|reflexivity]. exfalso. apply H.
  apply find_some in F. destruct F as [F1 F2]. cbn in F2. apply dec_eqb_ok in F2. subst. apply (in_map fst) in F1. exact F1.
Qed.

Lemma C52_names_proof :
  speaking cfl_dec cfl_table cfl_identifier /\ speaking scheme_dec scheme_table scheme_identifier /\
  speaking adaptation_dec adaptation_table adaptation_identifier /\ speaking marking_dec marking_table marking_identifier /\
  speaking time_point_dec time_point_table time_point_identifier /\ speaking boundary_dec boundary_table boundary_identifier /\
  speaking ansatz_dec ansatz_table ansatz_identifier.
Proof.
  refine (conj _ (conj _ (conj _ (conj _ (conj _ (conj _ _)))))); intros []; eexists; (split; [reflexivity|]); reflexivity.
Qed.
