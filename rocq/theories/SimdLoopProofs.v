(** * Proofs about vectorized access and loops *)
From Coq Require Import List Arith Bool Lia.
From Verif Require Import SimdLoop SimdLoopSpec.
Import ListNotations.

(** ** Access *)
Lemma nth_error_skipn {A} (l : list A) : forall i k, nth_error (skipn i l) k = nth_error l (i + k).
Proof. induction l as [|a l IH]; intros [|i] k; cbn; try reflexivity; [destruct k; reflexivity|apply IH]. Qed.
Lemma nth_error_firstn {A} (l : list A) : forall n k, k < n -> nth_error (firstn n l) k = nth_error l k.
Proof. induction l as [|a l IH]; intros [|n] [|k] H; cbn; try reflexivity; try lia. apply IH. lia. Qed.

Lemma C158_read_proof {A} (w : nat) (v : list A) (i : nat) :
  (i + w <= length v -> exists l, get_entry w v i = Some l /\ length l = w /\ forall k, k < w -> nth_error l k = nth_error v (i + k)) /\
  (length v < i + w -> get_entry w v i = None).
Proof.
  unfold get_entry. split; intros H.
  - destruct (Nat.leb_spec (i + w) (length v)); [|lia]. eexists. split; [reflexivity|].
    split; [rewrite firstn_length, skipn_length; lia|]. intros k Hk. rewrite nth_error_firstn by exact Hk. apply nth_error_skipn.
  - destruct (Nat.leb_spec (i + w) (length v)); [lia|reflexivity].
Qed.

Lemma C158_gather_proof {A} (v : list A) (js : list nat) :
  (exists l, gather v js = Some l /\ length l = length js /\ forall k j, nth_error js k = Some j -> nth_error l k = nth_error v j /\ j < length v) \/
  (gather v js = None /\ exists j, In j js /\ length v <= j).
Proof.
  induction js as [|j js IH]; cbn.
  - left. exists []. split; [reflexivity|]. split; [reflexivity|]. intros [|k] j H; discriminate.
  - destruct (nth_error v j) as [a|] eqn:E.
    + assert (LJ : j < length v) by (apply nth_error_Some; congruence).
      destruct IH as [(l & G & L & H)|(G & x & I & H)].
      * left. rewrite G. exists (a :: l). split; [reflexivity|]. split; [cbn; lia|]. intros [|k] y Hy; cbn in *; [injection Hy as <-; auto|apply H; exact Hy].
      * right. rewrite G. split; [reflexivity|]. exists x. auto.
    + right. split; [reflexivity|]. exists j. split; [auto|]. apply nth_error_None. exact E.
Qed.

Lemma C158_write_proof {A} (v values : list A) (i : nat) :
  (i + length values <= length v -> exists v', write_entry v values i = Some v' /\ length v' = length v /\
     forall r, nth_error v' r = if (Nat.leb i r && Nat.ltb r (i + length values))%bool then nth_error values (r - i) else nth_error v r) /\
  (length v < i + length values -> write_entry v values i = None).
Proof.
  unfold write_entry. split; intros H.
  - destruct (Nat.leb_spec (i + length values) (length v)); [|lia]. eexists. split; [reflexivity|].
    split; [rewrite !app_length, firstn_length, skipn_length; lia|]. intros r.
    assert (FL : length (firstn i v) = i) by (rewrite firstn_length; lia).
    destruct (Nat.leb_spec i r) as [L1|L1]; cbn [andb].
    + rewrite nth_error_app2 by lia. rewrite FL. destruct (Nat.ltb_spec r (i + length values)) as [L2|L2].
      * rewrite nth_error_app1 by lia. reflexivity.
      * rewrite nth_error_app2 by lia. rewrite nth_error_skipn. f_equal. lia.
    + rewrite nth_error_app1 by lia. apply nth_error_firstn. exact L1.
  - destruct (Nat.leb_spec (i + length values) (length v)); [lia|reflexivity].
Qed.

Lemma list_ext {A} (l : list A) : forall m, (forall k, nth_error l k = nth_error m k) -> l = m.
Proof.
  induction l as [|a l IH]; intros [|b m] H; [reflexivity|specialize (H 0); discriminate|specialize (H 0); discriminate|].
  pose proof (H 0) as H0. cbn in H0. injection H0 as <-. f_equal. apply IH. intros k. exact (H (S k)).
Qed.

(** The two ways to read and write agree where the types do. *)
Lemma C158_converted_proof {A B} (cv : A -> B) (w : nat) (v : list A) (i : nat) : 0 < w ->
  get_converted cv w v i = option_map (map cv) (get_entry w v i).
Proof.
  revert v i. induction w as [|w IH]; intros v i H; [lia|]. cbn [get_converted].
  destruct (Nat.eq_dec w 0) as [->|NZ].
  - cbn [get_converted]. unfold get_entry. destruct (nth_error v i) as [a|] eqn:E.
    + assert (L : i < length v) by (apply nth_error_Some; congruence). destruct (Nat.leb_spec (i + 1) (length v)); [|lia].
      assert (Q : firstn 1 (skipn i v) = [a]).
      { apply list_ext. intros [|k]; [rewrite nth_error_firstn by lia; rewrite nth_error_skipn, Nat.add_0_r; exact E|].
        transitivity (@None A); [apply nth_error_None; rewrite firstn_length; lia|destruct k; reflexivity]. }
      rewrite Q. reflexivity.
    + apply nth_error_None in E. destruct (Nat.leb_spec (i + 1) (length v)); [lia|reflexivity].
  - rewrite IH by lia. unfold get_entry. destruct (nth_error v i) as [a|] eqn:E.
    + assert (L : i < length v) by (apply nth_error_Some; congruence).
      destruct (Nat.leb_spec (S i + w) (length v)); destruct (Nat.leb_spec (i + S w) (length v)); try lia; [|reflexivity].
      cbn [option_map]. f_equal.
      assert (Q : skipn i v = a :: skipn (S i) v).
      { apply list_ext. intros [|k]; [rewrite nth_error_skipn, Nat.add_0_r; exact E|]. transitivity (nth_error (skipn (S i) v) k); [rewrite !nth_error_skipn; f_equal; lia|reflexivity]. }
      rewrite Q. reflexivity.
    + apply nth_error_None in E. destruct (Nat.leb_spec (i + S w) (length v)); [lia|reflexivity].
Qed.

Lemma put_spec {A} (v : list A) i a : i < length v -> exists v', put v i a = Some v' /\ length v' = length v /\
  forall r, nth_error v' r = if Nat.eqb r i then Some a else nth_error v r.
Proof.
  intros H. unfold put. destruct (Nat.ltb_spec i (length v)); [|lia]. eexists. split; [reflexivity|].
  assert (FL : length (firstn i v) = i) by (rewrite firstn_length; lia).
  split; [rewrite app_length, FL; cbn [length]; rewrite skipn_length; lia|]. intros r. destruct (Nat.eqb_spec r i) as [->|N].
  - rewrite nth_error_app2 by lia. rewrite FL, Nat.sub_diag. reflexivity.
  - destruct (Nat.lt_ge_cases r i) as [L|L].
    + rewrite nth_error_app1 by lia. apply nth_error_firstn. exact L.
    + rewrite nth_error_app2 by lia. rewrite FL. destruct (r - i) as [|q] eqn:Q; [lia|]. cbn [nth_error]. rewrite nth_error_skipn. f_equal. lia.
Qed.

Lemma C158_write_converted_proof {A B} (cv : B -> A) (values : list B) : forall v i, i + length values <= length v ->
  write_converted cv v values i = write_entry v (map cv values) i.
Proof.
  induction values as [|b r IH]; intros v i H; cbn [write_converted map].
  - destruct (C158_write_proof v (@nil A) i) as [W _]. destruct W as (v' & E & _ & N); [exact H|]. rewrite E. f_equal. apply list_ext.
    intros k. rewrite N. cbn [length]. destruct (Nat.leb_spec i k); cbn [andb]; [|reflexivity]. destruct (Nat.ltb_spec k (i + 0)); [lia|reflexivity].
  - cbn [length] in H. destruct (put_spec v i (cv b)) as (v' & E & L & N); [lia|]. rewrite E, IH by lia.
    destruct (C158_write_proof v' (map cv r) (S i)) as [W _]. destruct W as (v1 & E1 & _ & N1); [rewrite map_length; lia|].
    destruct (C158_write_proof v (cv b :: map cv r) i) as [W _]. destruct W as (v2 & E2 & _ & N2); [cbn; rewrite map_length; lia|].
    rewrite E1, E2. f_equal. apply list_ext. intros k. rewrite N1, N2, N. cbn [length]. rewrite map_length.
    destruct (Nat.eqb_spec k i) as [->|Nk].
    + destruct (Nat.leb_spec (S i) i); [lia|]. cbn [andb]. destruct (Nat.leb_spec i i); [|lia]. destruct (Nat.ltb_spec i (i + S (length r))); [|lia].
      rewrite Nat.sub_diag. reflexivity.
    + destruct (Nat.leb_spec (S i) k); destruct (Nat.leb_spec i k); try lia; [|reflexivity]. cbn [andb].
      destruct (Nat.ltb_spec k (S i + length r)); destruct (Nat.ltb_spec k (i + S (length r))); try lia; [|reflexivity].
      destruct (k - i) as [|q] eqn:Q; [lia|]. cbn [nth_error]. f_equal. lia.
Qed.

(** ** Tensors *)
Lemma C158_tensor_proof {A} (rank n k : nat) (t : tensor (list A) rank) (s : tensor A rank) : shaped rank n t -> conforms rank t s -> k < n ->
  exists t', assign_serial rank t s k = Some t' /\ shaped rank n t' /\ serialize rank t' k = Some s /\
    forall j, j <> k -> serialize rank t' j = serialize rank t j.
Proof.
  intros SH CO Hk. induction rank as [|rank IH].
  - cbn in *. subst n. destruct (put_spec t k s Hk) as (t' & E & L & N). exists t'. split; [exact E|]. split; [exact L|].
    split; [rewrite N, Nat.eqb_refl; reflexivity|]. intros j Hj. rewrite N. destruct (Nat.eqb_spec j k); [contradiction|reflexivity].
  - cbn [shaped conforms assign_serial serialize] in *.
    assert (Q : forall (t : list (tensor (list A) rank)) (s : list (tensor A rank)), Forall (shaped rank n) t -> Forall2 (conforms rank) t s ->
      exists t', assign_all (fun x y => assign_serial rank x y k) t s = Some t' /\ Forall (shaped rank n) t' /\
        all_some (map (fun e => serialize rank e k) t') = Some s /\
        forall j, j <> k -> all_some (map (fun e => serialize rank e j) t') = all_some (map (fun e => serialize rank e j) t)).
    { clear t s SH CO. intros t s SH CO. induction CO as [|x y t s C CO IHl].
      - exists []. cbn. auto.
      - inversion SH as [|? ? S1 S2]; subst. destruct (IH x y S1 C) as (x' & E1 & E2 & E3 & E4). destruct (IHl S2) as (t' & F1 & F2 & F3 & F4).
        exists (x' :: t'). cbn. rewrite E1, F1. split; [reflexivity|]. split; [constructor; assumption|]. rewrite E3, F3. split; [reflexivity|].
        intros j Hj. rewrite E4, F4 by exact Hj. reflexivity. }
    apply Q; assumption.
Qed.

Lemma all_some_nth {A} (l : list (option A)) : forall r, all_some l = Some r -> length r = length l /\ forall k, nth_error l k = option_map Some (nth_error r k).
Proof.
  induction l as [|[a|] l IH]; intros r H; cbn in H; [injection H as <-; split; [reflexivity|intros [|k]; reflexivity]| |discriminate].
  destruct (all_some l) as [s|]; [|discriminate]. injection H as <-. destruct (IH s eq_refl) as [L N]. split; [cbn; lia|].
  intros [|k]; [reflexivity|apply N].
Qed.

Lemma all_some_map {A B} (f : A -> B) (l : list A) : all_some (map (fun x => Some (f x)) l) = Some (map f l).
Proof. induction l as [|a l IH]; [reflexivity|]. cbn. rewrite IH. reflexivity. Qed.

(** ** Loops *)
Section Proof.
Context {A B : Type}.
Variable body : A -> list B -> A.
Variable input : list B.
Variable default : B.
Variable columns : nat -> list nat.
Variable todo : list (nat * nat).
Variable v : list A.

Hypothesis disjoint : forall t1 t2 i1 w1 i2 w2 r, nth_error todo t1 = Some (i1, w1) -> nth_error todo t2 = Some (i2, w2) ->
  i1 <= r < i1 + w1 -> i2 <= r < i2 + w2 -> t1 = t2.
Hypothesis inside : forall i w, In (i, w) todo -> i + w <= length v.
Hypothesis uniform : forall i w r, In (i, w) todo -> i <= r < i + w -> length (columns r) = length (columns i).
Hypothesis in_input : forall i w r j, In (i, w) todo -> i <= r < i + w -> In j (columns r) -> j < length input.

Let target (r : nat) (a : A) : A := serial_row body input default columns r a.

Lemma gather_in js : (forall j, In j js -> j < length input) -> gather input js = Some (map (fun j => nth j input default) js).
Proof using Type.
  induction js as [|j js IH]; intros H; [reflexivity|]. cbn. rewrite (nth_error_nth' input default) by (apply H; left; reflexivity).
  rewrite IH; [reflexivity|]. intros x Hx. apply H. right. exact Hx.
Qed.

Lemma read_row_spec i w (m : list A) : In (i, w) todo -> length m = length v ->
  exists own others, read_row input columns i w m = Some (own, others) /\ length own = w /\
    (forall k, k < w -> nth_error own k = nth_error m (i + k)) /\
    forall k, k < w -> map (fun l => nth k l default) others = map (fun j => nth j input default) (columns (i + k)).
Proof using inside uniform in_input.
  intros I L. unfold read_row. destruct (C158_read_proof w m i) as [G _]. destruct G as (own & G & LO & NO); [rewrite L; apply inside; exact I|].
  rewrite G.
  assert (E : map (fun c => gather input (js columns i w c)) (seq 0 (length (columns i)))
            = map (fun c => Some (map (fun r => nth (nth c (columns r) 0) input default) (seq i w))) (seq 0 (length (columns i)))).
  { apply map_ext_in. intros c Hc. apply in_seq in Hc. rewrite gather_in.
    - unfold js. rewrite map_map. reflexivity.
    - intros j Hj. unfold js in Hj. apply in_map_iff in Hj. destruct Hj as (r & <- & Hr). apply in_seq in Hr.
      apply (in_input i w r); [exact I|lia|]. apply nth_In. rewrite (uniform i w r I) by lia. lia. }
  rewrite E, all_some_map. exists own. eexists. split; [reflexivity|]. split; [exact LO|]. split; [exact NO|].
  intros k Hk. rewrite map_map. rewrite <- (uniform i w (i + k) I) by lia.
  assert (Q : forall l : list nat, map (fun c => nth (nth c l 0) input default) (seq 0 (length l)) = map (fun j => nth j input default) l).
  { intros l. apply list_ext. intros c. destruct (Nat.lt_ge_cases c (length l)) as [Lc|Lc].
    - rewrite (map_nth_error (fun c => nth (nth c l 0) input default) c (seq 0 (length l)) (d := c)).
      + symmetry. apply (map_nth_error (fun j => nth j input default)). apply nth_error_nth'. exact Lc.
      + rewrite (nth_error_nth' _ 0) by (rewrite seq_length; exact Lc). rewrite seq_nth by exact Lc. reflexivity.
    - rewrite (proj2 (nth_error_None _ _)) by (rewrite map_length, seq_length; exact Lc). symmetry. apply nth_error_None. rewrite map_length. exact Lc. }
  rewrite <- (Q (columns (i + k))). apply map_ext_in. intros c Hc.
  rewrite (nth_indep _ default (nth (nth c (columns 0) 0) input default)) by (rewrite map_length, seq_length; exact Hk).
  rewrite (map_nth (fun r => nth (nth c (columns r) 0) input default)). rewrite seq_nth by exact Hk. reflexivity.
Qed.

Lemma lanes_spec i w (m : list A) : In (i, w) todo -> length m = length v -> length (columns i) <> 1 ->
  exists values, advance body input columns default i w Waiting m = (Computed values, m) /\ length values = w /\
    forall k, k < w -> nth_error values k = option_map (target (i + k)) (nth_error m (i + k)).
Proof using inside uniform in_input.
  intros I L N1. destruct (read_row_spec i w m I L) as (own & others & E & LO & NO & NB). cbn. rewrite E.
  destruct (Nat.eqb_spec (length (columns i)) 1); [contradiction|]. eexists. split; [reflexivity|].
  unfold lanes. split; [rewrite map_length, combine_length, seq_length; lia|]. intros k Hk.
  assert (NK : exists a, nth_error own k = Some a) by (destruct (nth_error own k) eqn:Q; [eauto|apply nth_error_None in Q; lia]).
  destruct NK as [a Na]. rewrite <- NO, Na by exact Hk. cbn [option_map].
  assert (NC : nth_error (combine (seq 0 w) own) k = Some (k, a)).
  { rewrite (nth_error_nth' _ (0, a)) by (rewrite combine_length, seq_length; lia). rewrite combine_nth by (rewrite seq_length; lia).
    rewrite seq_nth by exact Hk. rewrite (nth_error_nth own k a Na). reflexivity. }
  rewrite (map_nth_error _ _ _ NC). cbn [fst snd]. rewrite NB by exact Hk. unfold target, serial_row.
  rewrite (uniform i w (i + k) I) by lia. destruct (Nat.eqb_spec (length (columns i)) 1); [contradiction|]. reflexivity.
Qed.

Definition task_ok (i w : nat) (p : @phase A) (m : list A) : Prop :=
  match p with
  | Waiting => forall r, i <= r < i + w -> nth_error m r = nth_error v r
  | Computed values => length values = w /\ (forall k, k < w -> nth_error values k = option_map (target (i + k)) (nth_error v (i + k)))
  | Written => forall r, i <= r < i + w -> nth_error m r = option_map (target r) (nth_error v r)
  | Fault => False
  end.

Definition inv (s : @state A) : Prop :=
  length (memory s) = length v /\ length (phases s) = length todo /\
  (forall t i w p, nth_error todo t = Some (i, w) -> nth_error (phases s) t = Some p -> task_ok i w p (memory s)) /\
  (forall r, (forall i w, In (i, w) todo -> ~ (i <= r < i + w)) -> nth_error (memory s) r = nth_error v r).

Lemma inv_start : inv (start todo v).
Proof using Type.
  split; [reflexivity|]. split; [cbn; apply map_length|]. split; [|reflexivity]. intros t i w p Ht Hp. cbn in Hp.
  rewrite nth_error_map, Ht in Hp. cbn in Hp. injection Hp as <-. intros r _. reflexivity.
Qed.

Lemma set_nth {X} (l : list X) t x u : t < length l ->
  length (firstn t l ++ x :: skipn (S t) l) = length l /\
  nth_error (firstn t l ++ x :: skipn (S t) l) u = if Nat.eqb u t then Some x else nth_error l u.
Proof using Type.
  intros H. destruct (put_spec l t x H) as (l' & E & L & N). unfold put in E. destruct (Nat.ltb_spec t (length l)); [|lia].
  injection E as <-. split; [exact L|apply N].
Qed.

Lemma inv_step s s' : inv s -> step body input columns default todo s s' -> inv s'.
Proof using disjoint inside uniform in_input.
  intros (L1 & L2 & T & O) ST. destruct ST as [t i w p s Ht Hp Cp].
  assert (I : In (i, w) todo) by (eapply nth_error_In; exact Ht). pose proof (inside _ _ I) as IN.
  assert (Lt : t < length (phases s)) by (apply nth_error_Some; congruence).
  assert (AD : exists p' m', advance body input columns default i w p (memory s) = (p', m') /\ length m' = length v /\ task_ok i w p' m' /\
     forall r, ~ (i <= r < i + w) -> nth_error m' r = nth_error (memory s) r).
  { pose proof (T t i w p Ht Hp) as OK. destruct Cp as [->|[values ->]].
    - destruct (Nat.eq_dec (length (columns i)) 1) as [E1|N1].
      + exists Written, (memory s). cbn [advance]. rewrite (proj2 (Nat.eqb_eq _ _) E1). split; [reflexivity|]. split; [exact L1|]. split; [|reflexivity].
        cbn in OK |- *. intros r Hr. rewrite OK by exact Hr. unfold target, serial_row. rewrite (uniform i w r I Hr), (proj2 (Nat.eqb_eq _ _) E1).
        destruct (nth_error v r); reflexivity.
      + destruct (lanes_spec i w (memory s) I L1 N1) as (values & E & LV & NV). exists (Computed values), (memory s).
        split; [exact E|]. split; [exact L1|]. split; [|reflexivity]. cbn. split; [exact LV|]. intros k Hk. rewrite NV by exact Hk.
        cbn in OK. rewrite OK by lia. reflexivity.
    - cbn in OK. destruct OK as [LV NV]. destruct (C158_write_proof (memory s) values i) as [W _].
      destruct W as (m' & E & LM & NM); [rewrite LV, L1; exact IN|]. exists Written, m'. cbn [advance]. rewrite E. split; [reflexivity|].
      split; [lia|]. split.
      + cbn. intros r Hr. rewrite NM, LV. destruct (Nat.leb_spec i r); [|lia]. destruct (Nat.ltb_spec r (i + w)); [|lia]. cbn [andb].
        rewrite NV by lia. replace (i + (r - i)) with r by lia. reflexivity.
      + intros r Hr. rewrite NM, LV. destruct (Nat.leb_spec i r); [|reflexivity]. cbn [andb]. destruct (Nat.ltb_spec r (i + w)); [lia|reflexivity]. }
  destruct AD as (p' & m' & E & LM & OK & KEEP). rewrite E. cbn [fst snd].
  split; [exact LM|]. cbn [phases memory]. split; [rewrite (proj1 (set_nth (phases s) t p' 0 Lt)); exact L2|]. split.
  - intros u i2 w2 p2 Hu Hp2. rewrite (proj2 (set_nth (phases s) t p' u Lt)) in Hp2. destruct (Nat.eqb_spec u t) as [->|Nu].
    + rewrite Ht in Hu. injection Hu as <- <-. injection Hp2 as <-. exact OK.
    + pose proof (T u i2 w2 p2 Hu Hp2) as OK2.
      assert (KR : forall r, i2 <= r < i2 + w2 -> nth_error m' r = nth_error (memory s) r).
      { intros r Hr. apply KEEP. intros Hr2. apply Nu. exact (disjoint u t i2 w2 i w r Hu Ht Hr Hr2). }
      destruct p2; cbn in OK2 |- *; auto; intros r Hr; rewrite KR by exact Hr; apply OK2; exact Hr.
  - intros r Hr. rewrite KEEP by (apply Hr; exact I). apply O. exact Hr.
Qed.

Lemma inv_steps n s s' : inv s -> steps body input columns default todo n s s' -> inv s'.
Proof using disjoint inside uniform in_input. intros H ST. induction ST; [exact H|]. eapply inv_step; [apply IHST; exact H|exact H0]. Qed.

(** Each iteration takes at most two steps. *)
Definition rest (p : @phase A) : nat := match p with Waiting => 2 | Computed _ => 1 | _ => 0 end.
Lemma rest_set (l : list phase) t p p' : nth_error l t = Some p ->
  list_sum (map rest (firstn t l ++ p' :: skipn (S t) l)) + rest p = list_sum (map rest l) + rest p'.
Proof using Type.
  intros H. assert (E : l = firstn t l ++ p :: skipn (S t) l).
  { apply list_ext. intros u. assert (Lt : t < length l) by (apply nth_error_Some; congruence).
    rewrite (proj2 (set_nth l t p u Lt)). destruct (Nat.eqb_spec u t) as [->|]; [exact H|reflexivity]. }
  transitivity (list_sum (map rest (firstn t l ++ p :: skipn (S t) l)) + rest p'); [|rewrite <- E; reflexivity].
  rewrite !map_app, !list_sum_app. cbn [map].
  assert (Q : forall x r, list_sum (x :: r) = x + list_sum r) by reflexivity. rewrite !Q. lia.
Qed.

Lemma rest_step s s' : step body input columns default todo s s' -> list_sum (map rest (phases s')) < list_sum (map rest (phases s)).
Proof using Type.
  intros ST. destruct ST as [t i w p s Ht Hp Cp]. cbn [phases].
  pose proof (rest_set (phases s) t p (fst (advance body input columns default i w p (memory s))) Hp) as Q.
  assert (D : rest (fst (advance body input columns default i w p (memory s))) < rest p).
  { destruct Cp as [->|[values ->]]; cbn.
    - destruct (Nat.eqb (length (columns i)) 1); [cbn; lia|]. destruct (read_row input columns i w (memory s)) as [[own others]|]; cbn; lia.
    - destruct (write_entry (memory s) values i); cbn; lia. }
  lia.
Qed.

Lemma rest_steps n s s' : steps body input columns default todo n s s' -> n + list_sum (map rest (phases s')) <= list_sum (map rest (phases s)).
Proof using Type. intros ST. induction ST; [lia|]. apply rest_step in H. lia. Qed.

Lemma rest_start : list_sum (map rest (phases (start todo v))) = 2 * length todo.
Proof using Type.
  cbn [start phases]. rewrite map_map. generalize todo as l. induction l as [|x l IH]; [reflexivity|].
  change (2 + list_sum (map (fun _ : nat * nat => rest Waiting) l) = 2 * S (length l)). rewrite IH. lia.
Qed.

Lemma progress s : inv s -> ~ Forall (eq Written) (phases s) -> exists s', step body input columns default todo s s'.
Proof using Type.
  intros (L1 & L2 & T & _) N.
  assert (EX : exists t p, nth_error (phases s) t = Some p /\ p <> Written).
  { clear -N. induction (phases s) as [|p l IH]; [exfalso; apply N; constructor|]. destruct p.
    - exists 0, Waiting. split; [reflexivity|discriminate].
    - exists 0, (Computed values). split; [reflexivity|discriminate].
    - destruct IH as (t & q & E & Nq); [intros F; apply N; constructor; [reflexivity|exact F]|]. exists (S t), q. auto.
    - exists 0, Fault. split; [reflexivity|discriminate]. }
  destruct EX as (t & p & E & Np).
  assert (Lt : t < length todo) by (rewrite <- L2; apply nth_error_Some; congruence).
  destruct (nth_error todo t) as [[i w]|] eqn:Ht; [|apply nth_error_None in Ht; lia].
  pose proof (T t i w p Ht E) as OK.
  eexists. apply (step_task _ _ _ _ _ t i w p s Ht E). destruct p; [auto|right; eauto|contradiction|destruct OK].
Qed.
End Proof.

(** ** The iterations of both loops *)
Lemma iterations_in l r w i k : 0 < w -> In (i, k) (iterations l r w) <-> k = w /\ exists j, i = l + j * w /\ i < r.
Proof.
  intros Hw. unfold iterations. rewrite in_map_iff. split.
  - intros (j & E & I). injection E as <- <-. apply in_seq in I. split; [reflexivity|]. exists j. split; [reflexivity|].
    destruct I as [_ I]. cbn in I.
    assert (Q : w * ((r - l + w - 1) / w) <= r - l + w - 1) by (apply Nat.mul_div_le; lia). nia.
  - intros (-> & j & -> & L). exists j. split; [reflexivity|]. apply in_seq. split; [lia|]. cbn.
    apply Nat.div_le_lower_bound; nia.
Qed.

Lemma iterations_nth l r w t x : nth_error (iterations l r w) t = Some x -> x = (l + t * w, w).
Proof.
  unfold iterations. intros H. rewrite nth_error_map in H.
  destruct (nth_error (seq 0 ((r - l + w - 1) / w)) t) as [j|] eqn:E; [|discriminate]. cbn in H. injection H as <-.
  assert (Lt : t < length (seq 0 ((r - l + w - 1) / w))) by (apply nth_error_Some; congruence). rewrite seq_length in Lt.
  apply nth_error_nth with (d := 0) in E. rewrite seq_nth in E by exact Lt. cbn in E. subst. reflexivity.
Qed.

Section Tasks.
Variables (w ni no : nat).
Hypothesis Hw : 0 < w.
Hypothesis Hd : ni mod w = 0.
Hypothesis Hn : ni <= no.

Lemma tasks_in i k : In (i, k) (tasks w ni no) -> (k = 1 /\ ni <= i < no) \/ (k = w /\ (exists j, i = j * w) /\ i + w <= ni).
Proof using Hw Hd.
  clear Hn. unfold tasks. rewrite in_app_iff. rewrite (iterations_in ni no 1) by lia. rewrite (iterations_in 0 ni w) by exact Hw.
  intros [(-> & j & -> & L)|(-> & j & -> & L)]; [left; lia|right]. split; [reflexivity|]. split; [exists j; lia|].
  apply Nat.mod_divides in Hd; [|lia]. destruct Hd as [c Hc]. assert (j < c) by nia. nia.
Qed.

Lemma tasks_cover r : r < no -> exists i k, In (i, k) (tasks w ni no) /\ i <= r < i + k.
Proof using Hw.
  clear Hd Hn. intros H. unfold tasks. destruct (Nat.lt_ge_cases r ni) as [L|L].
  - exists (r / w * w), w. split; [apply in_or_app; right; apply iterations_in; [exact Hw|]; split; [reflexivity|exists (r / w)]|].
    + split; [lia|]. pose proof (Nat.mul_div_le r w). nia.
    + pose proof (Nat.mul_div_le r w). pose proof (Nat.mul_succ_div_gt r w). nia.
  - exists r, 1. split; [|lia]. apply in_or_app. left. apply iterations_in; [lia|]. split; [reflexivity|]. exists (r - ni). lia.
Qed.

Lemma tasks_disjoint t1 t2 i1 w1 i2 w2 r : nth_error (tasks w ni no) t1 = Some (i1, w1) -> nth_error (tasks w ni no) t2 = Some (i2, w2) ->
  i1 <= r < i1 + w1 -> i2 <= r < i2 + w2 -> t1 = t2.
Proof using Hw Hd Hn.
  intros E1 E2 R1 R2.
  assert (C : forall t i k, nth_error (tasks w ni no) t = Some (i, k) -> i <= r < i + k ->
     (r < ni /\ length (iterations ni no 1) <= t /\ (t - length (iterations ni no 1)) * w = i /\ k = w) \/
     (ni <= r /\ t < length (iterations ni no 1) /\ i = ni + t /\ k = 1)).
  { intros t i k E R. pose proof (nth_error_In _ _ E) as I. apply tasks_in in I. unfold tasks in E.
    destruct (Nat.lt_ge_cases t (length (iterations ni no 1))) as [L|L].
    - rewrite nth_error_app1 in E by exact L. apply iterations_nth in E. injection E as -> ->. right. lia.
    - rewrite nth_error_app2 in E by exact L. pose proof (nth_error_In _ _ E) as I2. apply iterations_nth in E. injection E as -> ->.
      apply iterations_in in I2; [|exact Hw]. left. split; [|split; [exact L|split; [lia|reflexivity]]].
      destruct I2 as (_ & j & Ej & Lj). cbn [Nat.add] in *.
      apply Nat.mod_divides in Hd; [|lia]. destruct Hd as [c Hc]. set (q := t - length (iterations ni no 1)) in *.
      assert (q < c) by nia. nia. }
  destruct (C t1 i1 w1 E1 R1) as [(A1 & A2 & A3 & A4)|(A1 & A2 & A3 & A4)]; destruct (C t2 i2 w2 E2 R2) as [(B1 & B2 & B3 & B4)|(B1 & B2 & B3 & B4)]; try lia.
  subst w1 w2. set (q1 := t1 - length (iterations ni no 1)) in *. set (q2 := t2 - length (iterations ni no 1)) in *.
  assert (q1 = q2) by nia. lia.
Qed.
End Tasks.

Lemma nregular_ok w no : 0 < w -> n_regular w no mod w = 0 /\ n_regular w no <= no.
Proof.
  intros H. unfold n_regular. split; [apply Nat.mod_mul; lia|]. pose proof (Nat.mul_div_le no w). lia.
Qed.

Lemma C158_loop_proof {A B} (body : A -> list B -> A) (input : list B) (default : B) (columns : nat -> list nat) (w ni no n : nat) (v : list A) s :
  0 < w -> ni mod w = 0 -> ni <= no -> no <= length v ->
  (forall r, r < ni -> length (columns r) = length (columns (r / w * w))) ->
  (forall r j, r < no -> In j (columns r) -> j < length input) ->
  steps body input columns default (tasks w ni no) n (start (tasks w ni no) v) s ->
  n <= 2 * length (tasks w ni no) /\
  (Forall (eq Written) (phases s) \/ exists s', step body input columns default (tasks w ni no) s s') /\
  (Forall (eq Written) (phases s) -> length (memory s) = length v /\
     forall r a, nth_error v r = Some a ->
       nth_error (memory s) r = Some (if Nat.ltb r no then serial_row body input default columns r a else a)).
Proof.
  intros Hw Hd Hn Hv U IN ST.
  assert (INS : forall i k, In (i, k) (tasks w ni no) -> i + k <= length v) by (intros i k I; apply tasks_in in I; [lia|exact Hw|exact Hd]).
  assert (UNI : forall i k r, In (i, k) (tasks w ni no) -> i <= r < i + k -> length (columns r) = length (columns i)).
  { intros i k r I R. apply tasks_in in I; [|exact Hw|exact Hd]. destruct I as [(-> & R2)|(-> & (j & ->) & R2)].
    - replace r with i by lia. reflexivity.
    - rewrite (U r) by lia. f_equal. f_equal. replace (r / w) with j; [reflexivity|].
      apply (Nat.div_unique r w j (r - j * w)); nia. }
  assert (INP : forall i k r j, In (i, k) (tasks w ni no) -> i <= r < i + k -> In j (columns r) -> j < length input).
  { intros i k r j I R J. apply (IN r j); [|exact J]. apply tasks_in in I; [|exact Hw|exact Hd]. lia. }
  assert (INV : inv body input default columns (tasks w ni no) v s).
  { eapply inv_steps; [exact (tasks_disjoint w ni no Hw Hd Hn)|exact INS|exact UNI|exact INP|apply inv_start|exact ST]. }
  split; [pose proof (rest_steps _ _ _ _ _ _ _ _ ST) as Q; rewrite rest_start in Q; lia|]. split.
  - destruct (Forall_dec (eq (@Written A)) (fun p => ltac:(destruct p; [right; discriminate|right; discriminate|left; reflexivity|right; discriminate])) (phases s)) as [F|F];
      [left; exact F|right; eapply progress; eassumption].
  - intros F. destruct INV as (L1 & L2 & T & O). split; [exact L1|]. intros r a Ea. destruct (Nat.ltb_spec r no) as [L|L].
    + destruct (tasks_cover w ni no Hw r L) as (i & k & I & R). destruct (In_nth_error _ _ I) as [t Ht].
      assert (P : nth_error (phases s) t = Some Written).
      { assert (Lt : t < length (phases s)) by (rewrite L2; apply nth_error_Some; congruence).
        destruct (nth_error (phases s) t) as [p|] eqn:E; [|apply nth_error_None in E; lia].
        apply nth_error_In in E. rewrite Forall_forall in F. rewrite <- (F p E). reflexivity. }
      specialize (T t i k Written Ht P). cbn in T. rewrite T by exact R. rewrite Ea. reflexivity.
    + rewrite O; [exact Ea|]. intros i k I. apply tasks_in in I; [lia|exact Hw|exact Hd].
Qed.
