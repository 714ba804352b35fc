(** * Lemmas about the renumbering functions *)
From Coq Require Import List Arith Lia Permutation Bool.
From Verif Require Import Vec Renumber.
Import ListNotations.

Lemma write_group_spec {A} (v : list A) start cnt f :
  start + cnt <= length v ->
  exists v', write_group v start cnt f = Some v' /\ length v' = length v /\
    (forall i, start <= i < start + cnt -> vget v' i = Some (f (i - start))) /\
    (forall i, ~ (start <= i < start + cnt) -> vget v' i = vget v i).
Proof.
  induction cnt as [|c IH]; intros H.
  - exists v; simpl; repeat split; auto; intros; lia.
  - destruct IH as (v1 & E & L & P & Q); [lia|].
    destruct (vset_defined v1 (start + c) (f c)) as [v2 E2]; [lia|].
    exists v2; simpl; rewrite E; repeat split; auto.
    + rewrite (vset_length _ _ _ _ E2); auto.
    + intros i Hi. destruct (Nat.eq_dec i (start + c)) as [->|N].
      * rewrite (vget_vset_same _ _ _ _ E2). do 2 f_equal; lia.
      * rewrite (vget_vset_other _ _ _ _ _ E2 N). apply P; lia.
    + intros i Hi.
      rewrite (vget_vset_other _ _ _ i _ E2) by lia. apply Q; lia.
Qed.

(** Number of [k' < k] with [p k']. *)
Fixpoint cnt (p : nat -> bool) (k : nat) : nat :=
  match k with
  | 0 => 0
  | S k' => cnt p k' + (if p k' then 1 else 0)
  end.

Lemma cnt_compl p k : cnt p k + cnt (fun x => negb (p x)) k = k.
Proof. induction k; simpl; [lia|]. destruct (p k); simpl; lia. Qed.

Lemma cnt_mono p a b : a <= b -> cnt p a <= cnt p b.
Proof.
  intros H; induction H; [lia|]. simpl. destruct (p m); lia.
Qed.

Lemma cnt_lt p a b : a < b -> p a = true -> cnt p a < cnt p b.
Proof.
  intros H Hp. assert (cnt p (S a) <= cnt p b) by (apply cnt_mono; lia).
  simpl in *. rewrite Hp in *. lia.
Qed.

Lemma cnt_surj p k c : c < cnt p k -> exists a, a < k /\ p a = true /\ cnt p a = c.
Proof.
  induction k as [|k IH]; simpl; intros H; [lia|].
  destruct (p k) eqn:E.
  - destruct (Nat.eq_dec c (cnt p k)) as [->|N].
    + exists k; auto.
    + destruct IH as (a & ? & ? & ?); [lia|]. exists a; auto.
  - destruct IH as (a & ? & ? & ?); [lia|]. exists a; auto.
Qed.

Section TwoPass.
  Context (p : nat -> bool) (g offset : nat) (Hg : 0 < g).

  Lemma divmod_stride k j : j < g -> (k * g + j) / g = k /\ (k * g + j) mod g = j.
  Proof.
    intros H. split.
    - symmetry; apply (Nat.div_unique _ g k j); lia.
    - symmetry; apply (Nat.mod_unique _ g k j); lia.
  Qed.

  Lemma in_stride i : i = (i / g) * g + i mod g /\ i mod g < g.
  Proof.
    split; [|apply Nat.mod_upper_bound; lia].
    rewrite Nat.mul_comm. apply Nat.div_mod. lia.
  Qed.

  Lemma first_pass_spec init m :
    m * g <= length init ->
    exists v, first_pass p g offset m init = Some (v, cnt p m * g) /\
      length v = length init /\
      (forall i, i < m * g ->
         vget v i = Some (if p (i / g)
                          then Some (offset + (cnt p (i / g) * g + i mod g))
                          else None)) /\
      (forall i, m * g <= i -> vget v i = vget init i).
  Proof.
    unfold first_pass.
    induction m as [|m IH]; intros H.
    - exists init; simpl; repeat split; auto; intros; lia.
    - destruct IH as (v & E & L & P & Q); [lia|].
      rewrite seq_S, fold_left_app, E. cbn [fold_left].
      replace (0 + m) with m by lia.
      destruct (p m) eqn:Pm.
      + destruct (write_group_spec v (m * g) g
                   (fun j => Some (offset + (cnt p m * g + j))))
          as (v' & E' & L' & P' & Q'); [lia|].
        rewrite E'. exists v'. split; [|split; [lia|split]].
        * simpl; rewrite Pm; do 2 f_equal; lia.
        * intros i Hi. destruct (le_lt_dec (m * g) i) as [Hle|Hlt].
          -- rewrite P' by lia. destruct (divmod_stride m (i - m * g)) as [D M];
               [lia|]. replace (m * g + (i - m * g)) with i in * by lia.
             rewrite D, M, Pm. reflexivity.
          -- rewrite Q' by lia. apply P; lia.
        * intros i Hi. rewrite Q' by lia. apply Q; lia.
      + destruct (write_group_spec v (m * g) g (fun _ : nat => @None nat))
          as (v' & E' & L' & P' & Q'); [lia|].
        rewrite E'. exists v'. split; [|split; [lia|split]].
        * simpl; rewrite Pm; do 2 f_equal; lia.
        * intros i Hi. destruct (le_lt_dec (m * g) i) as [Hle|Hlt].
          -- rewrite P' by lia. destruct (divmod_stride m (i - m * g)) as [D M];
               [lia|]. replace (m * g + (i - m * g)) with i in * by lia.
             rewrite D, Pm. reflexivity.
          -- rewrite Q' by lia. apply P; lia.
        * intros i Hi. rewrite Q' by lia. apply Q; lia.
  Qed.

  Definition np := fun x => negb (p x).

  (** Closed form of the new position (relative to the offset). *)
  Definition pos (s i : nat) : nat :=
    if i <? s * g then
      if p (i / g) then cnt p (i / g) * g + i mod g
      else cnt p s * g + (cnt np (i / g) * g + i mod g)
    else i.

  Lemma second_pass_spec v0 s m :
    m <= s -> s * g <= length v0 ->
    (forall i, i < s * g ->
         vget v0 i = Some (if p (i / g)
                          then Some (offset + (cnt p (i / g) * g + i mod g))
                          else None)) ->
    exists v, second_pass g offset m (cnt p s * g) v0
              = Some (v, cnt p s * g + cnt np m * g) /\
      length v = length v0 /\
      (forall i, i < m * g -> vget v i = Some (Some (offset + pos s i))) /\
      (forall i, m * g <= i -> vget v i = vget v0 i).
  Proof.
    intros Hm Hs P0. unfold second_pass.
    induction m as [|m IH].
    - exists v0; simpl. split; [do 2 f_equal; lia|].
      repeat split; auto; intros; lia.
    - destruct IH as (v & E & L & P & Q); [lia|].
      rewrite seq_S, fold_left_app, E. cbn [fold_left].
      replace (0 + m) with m by lia.
      assert (Hmg : m * g + g <= s * g) by nia.
      rewrite Q by lia. rewrite P0 by lia.
      destruct (divmod_stride m 0) as [D0 M0]; [lia|].
      rewrite Nat.add_0_r in *. rewrite D0.
      destruct (p m) eqn:Pm.
      + exists v. split; [|split; [lia|split]].
        * simpl; unfold np; rewrite Pm; simpl; do 2 f_equal; lia.
        * intros i Hi. destruct (le_lt_dec (m * g) i) as [Hle|Hlt].
          -- rewrite Q by lia. rewrite P0 by lia. unfold pos.
             destruct (divmod_stride m (i - m * g)) as [D M]; [lia|].
             replace (m * g + (i - m * g)) with i in * by lia.
             rewrite D, Pm.
             destruct (Nat.ltb_spec i (s * g)); [reflexivity|lia].
          -- apply P; lia.
        * intros i Hi. apply Q; lia.
      + destruct (write_group_spec v (m * g) g
                   (fun j => Some (offset + (cnt p s * g + cnt np m * g + j))))
          as (v' & E' & L' & P' & Q'); [lia|].
        rewrite E'. exists v'. split; [|split; [lia|split]].
        * simpl; unfold np; rewrite Pm; simpl; do 2 f_equal; lia.
        * intros i Hi. destruct (le_lt_dec (m * g) i) as [Hle|Hlt].
          -- rewrite P' by lia. unfold pos.
             destruct (divmod_stride m (i - m * g)) as [D M]; [lia|].
             replace (m * g + (i - m * g)) with i in * by lia.
             rewrite D, Pm, M.
             destruct (Nat.ltb_spec i (s * g)); [do 3 f_equal; lia|lia].
          -- rewrite Q' by lia. apply P; lia.
        * intros i Hi. rewrite Q' by lia. apply Q; lia.
  Qed.

  Lemma n_strides_mul s : n_strides (s * g) g = s.
  Proof.
    unfold n_strides. symmetry. apply (Nat.div_unique _ g s (g - 1)); lia.
  Qed.

  Lemma two_pass_spec s n_owned :
    s * g <= n_owned ->
    exists v, two_pass p g offset (s * g) n_owned = Some (v, cnt p s * g) /\
      length v = n_owned /\
      (forall i, i < n_owned -> vget v i = Some (Some (offset + pos s i))).
  Proof.
    intros H. unfold two_pass. rewrite n_strides_mul.
    destruct (first_pass_spec (repeat (Some 0) n_owned) s)
      as (v1 & E1 & L1 & P1 & Q1); [rewrite repeat_length; lia|].
    rewrite E1. rewrite repeat_length in L1.
    destruct (second_pass_spec v1 s s) as (v2 & E2 & L2 & P2 & Q2);
      [lia|lia|exact P1|].
    rewrite E2. unfold tail_pass.
    destruct (write_group_spec v2 (s * g) (n_owned - s * g)
      (fun j => Some (offset + (cnt p s * g + cnt np s * g + j))))
      as (v3 & E3 & L3 & P3 & Q3); [lia|].
    rewrite E3. exists v3. split; [reflexivity|]. split; [lia|].
    intros i Hi. destruct (le_lt_dec (s * g) i) as [Hle|Hlt].
    - rewrite P3 by lia. unfold pos.
      destruct (Nat.ltb_spec i (s * g)); [lia|].
      assert (C := cnt_compl p s). fold np in C.
      do 3 f_equal. nia.
    - rewrite Q3 by lia. apply P2; lia.
  Qed.

  Lemma div_lt_stride i s : i < s * g -> i / g < s.
  Proof. intros. apply Nat.div_lt_upper_bound; lia. Qed.

  Lemma pos_range s i : i < s * g -> pos s i < s * g.
  Proof.
    intros H. unfold pos. destruct (Nat.ltb_spec i (s * g)); [|lia].
    assert (D := div_lt_stride _ _ H). destruct (in_stride i) as [_ M].
    assert (C := cnt_compl p s). fold np in C.
    destruct (p (i / g)) eqn:E.
    - assert (cnt p (i / g) < cnt p s) by (apply cnt_lt; auto). nia.
    - assert (cnt np (i / g) < cnt np s)
        by (apply cnt_lt; auto; unfold np; now rewrite E).
      nia.
  Qed.

  Lemma pos_front s i :
    i < s * g -> (pos s i < cnt p s * g <-> p (i / g) = true).
  Proof.
    intros H. unfold pos. destruct (Nat.ltb_spec i (s * g)); [|lia].
    assert (D := div_lt_stride _ _ H). destruct (in_stride i) as [_ M].
    destruct (p (i / g)) eqn:E.
    - assert (cnt p (i / g) < cnt p s) by (apply cnt_lt; auto).
      split; intros; [reflexivity|nia].
    - split; intros; [lia|discriminate].
  Qed.

  Lemma cnt_inj q a b : q a = true -> q b = true -> cnt q a = cnt q b -> a = b.
  Proof.
    intros Ha Hb E. destruct (lt_eq_lt_dec a b) as [[L|L]|L]; auto.
    - apply (cnt_lt q) in L; auto; lia.
    - apply (cnt_lt q) in L; auto; lia.
  Qed.

  Lemma mulg_inj a b r r' : r < g -> r' < g -> a * g + r = b * g + r' -> a = b /\ r = r'.
  Proof.
    intros H H' E. destruct (divmod_stride a r H) as [D M].
    destruct (divmod_stride b r' H') as [D' M']. rewrite E in *. split; congruence.
  Qed.

  Lemma pos_inj s i k : pos s i = pos s k -> i = k.
  Proof.
    destruct (le_lt_dec (s * g) i) as [Hi|Hi];
    destruct (le_lt_dec (s * g) k) as [Hk|Hk]; intros E.
    - unfold pos in E. destruct (Nat.ltb_spec i (s * g)); [lia|].
      destruct (Nat.ltb_spec k (s * g)); [lia|]. exact E.
    - assert (R := pos_range s k Hk). rewrite <- E in R. unfold pos in R.
      destruct (Nat.ltb_spec i (s * g)); lia.
    - assert (R := pos_range s i Hi). rewrite E in R. unfold pos in R.
      destruct (Nat.ltb_spec k (s * g)); lia.
    - assert (Fi := pos_front s i Hi). assert (Fk := pos_front s k Hk).
      assert (p (i / g) = p (k / g)) as Hp.
      { destruct (p (i/g)) eqn:A; destruct (p (k/g)) eqn:B; auto.
        - assert (pos s k < cnt p s * g) as X by (rewrite <- E; now apply Fi).
          apply Fk in X. discriminate.
        - assert (pos s i < cnt p s * g) as X by (rewrite E; now apply Fk).
          apply Fi in X. discriminate. }
      destruct (in_stride i) as [Ii Mi]. destruct (in_stride k) as [Ik Mk].
      unfold pos in E. destruct (Nat.ltb_spec i (s * g)); [|lia].
      destruct (Nat.ltb_spec k (s * g)); [|lia]. rewrite <- Hp in E.
      destruct (p (i / g)) eqn:A.
      + apply mulg_inj in E as [E1 E2]; auto.
        apply cnt_inj in E1; auto. rewrite Ii, Ik, E1, E2; reflexivity.
      + assert (E' : cnt np (i / g) * g + i mod g = cnt np (k / g) * g + k mod g) by lia.
        apply mulg_inj in E' as [E1 E2]; auto.
        apply cnt_inj in E1; [| unfold np; now rewrite A | unfold np; now rewrite <- Hp].
        rewrite Ii, Ik, E1, E2; reflexivity.
  Qed.

  Lemma pos_stride s k j :
    k < s -> j < g ->
    pos s (k * g + j)
    = (if p k then cnt p k else cnt p s + cnt np k) * g + j.
  Proof.
    intros Hk Hj. unfold pos. destruct (divmod_stride k j Hj) as [D M].
    rewrite D, M. destruct (Nat.ltb_spec (k * g + j) (s * g)); [|nia].
    destruct (p k); lia.
  Qed.

  (** Everything that is needed about the two-pass renumbering. *)
  Lemma two_pass_facts s n_owned :
    s * g <= n_owned ->
    exists order n_front,
      two_pass p g offset (s * g) n_owned = Some (map Some order, n_front) /\
      Permutation order (seq offset n_owned) /\
      (exists c, n_front = c * g) /\ n_front <= s * g /\
      (forall k, k < s -> exists k', k' < s /\
         forall j, j < g ->
           vget order (k * g + j) = Some (offset + k' * g + j)) /\
      (forall i, s * g <= i < n_owned -> vget order i = Some (offset + i)) /\
      (forall i x, i < s * g -> vget order i = Some x ->
         (x < offset + n_front <-> p (i / g) = true)) /\
      (forall a b x y, a < b -> b < s * g -> p (a / g) = p (b / g) ->
         vget order a = Some x -> vget order b = Some y -> x < y).
  Proof.
    intros H. destruct (two_pass_spec s n_owned H) as (v & E & L & P).
    exists (map (fun i => offset + pos s i) (seq 0 n_owned)), (cnt p s * g).
    assert (G : forall i, i < n_owned ->
       vget (map (fun i => offset + pos s i) (seq 0 n_owned)) i
       = Some (offset + pos s i)).
    { intros i Hi. unfold vget. rewrite nth_error_map.
      rewrite nth_error_nth' with (d := 0) by (rewrite seq_length; lia).
      simpl. now rewrite seq_nth. }
    assert (LG : length (map (fun i => offset + pos s i) (seq 0 n_owned)) = n_owned)
      by now rewrite map_length, seq_length.
    split; [|split; [|split; [|split; [|split; [|split; [|split]]]]]].
    - rewrite E. do 2 f_equal. apply vget_ext.
      + rewrite map_length, LG; auto.
      + intros i Hi. rewrite L in Hi. rewrite P by lia.
        unfold vget. rewrite nth_error_map.
        specialize (G i Hi). unfold vget in G. rewrite G. reflexivity.
    - apply inj_perm_seq; auto.
      + intros i x Hx. assert (i < n_owned) by (apply vget_some in Hx; lia).
        rewrite G in Hx by auto. inversion Hx.
        destruct (le_lt_dec (s * g) i).
        * unfold pos. destruct (Nat.ltb_spec i (s * g)); lia.
        * assert (pos s i < s * g) by (apply pos_range; auto). lia.
      + intros i k x Hx Hy.
        assert (i < n_owned) by (apply vget_some in Hx; lia).
        assert (k < n_owned) by (apply vget_some in Hy; lia).
        rewrite G in Hx, Hy by auto. apply (pos_inj s).
        inversion Hx; inversion Hy; lia.
    - exists (cnt p s); reflexivity.
    - assert (C := cnt_compl p s). nia.
    - intros k Hk. exists (if p k then cnt p k else cnt p s + cnt np k).
      assert (C := cnt_compl p s). fold np in C.
      split.
      + destruct (p k) eqn:A.
        * assert (cnt p k < cnt p s) by (apply cnt_lt; auto). lia.
        * assert (cnt np k < cnt np s) by (apply cnt_lt; auto; unfold np; now rewrite A).
          lia.
      + intros j Hj. rewrite G by nia. f_equal. rewrite pos_stride by auto. lia.
    - intros i Hi. rewrite G by lia. unfold pos.
      destruct (Nat.ltb_spec i (s * g)); [lia|reflexivity].
    - intros i x Hi Hx. rewrite G in Hx by lia. inversion Hx.
      rewrite <- (pos_front s i Hi). lia.
    - intros a b x y Hab Hb Hp Hx Hy. rewrite G in Hx, Hy by lia.
      inversion Hx; inversion Hy. unfold pos.
      destruct (Nat.ltb_spec a (s * g)); [|lia].
      destruct (Nat.ltb_spec b (s * g)); [|lia].
      rewrite <- Hp. destruct (in_stride a) as [Ia Ma].
      destruct (in_stride b) as [Ib Mb].
      assert (a / g <= b / g) by (apply Nat.div_le_mono; lia).
      destruct (Nat.eq_dec (a / g) (b / g)) as [Q|Q].
      + rewrite <- Q in *. destruct (p (a / g)); lia.
      + destruct (p (a / g)) eqn:A.
        * assert (cnt p (a / g) < cnt p (b / g)) by (apply cnt_lt; auto; lia). nia.
        * assert (cnt np (a / g) < cnt np (b / g))
            by (apply cnt_lt; [lia|unfold np; now rewrite A]). nia.
  Qed.
End TwoPass.

Lemma stride_has_export_iff exported g k :
  stride_has_export exported g k = true <->
  exists j, j < g /\ exported (k * g + j) = true.
Proof.
  unfold stride_has_export. rewrite existsb_exists. split.
  - intros (j & Hin & E). apply in_seq in Hin. exists j; split; [lia|auto].
  - intros (j & Hj & E). exists j; split; auto. apply in_seq; lia.
Qed.

Lemma stride_is_consistent_iff rl g offset k :
  stride_is_consistent rl g offset k = true <->
  forall j, j < g -> rl (offset + k * g + j) = rl (offset + k * g).
Proof.
  unfold stride_is_consistent. rewrite forallb_forall. split.
  - intros H j Hj. specialize (H j). rewrite in_seq in H.
    symmetry. apply Nat.eqb_eq. apply H. lia.
  - intros H j Hin. apply in_seq in Hin. apply Nat.eqb_eq. symmetry. apply H. lia.
Qed.

(** ** internal_range *)

Definition bins_flat (bins : list (nat * list nat)) : list nat :=
  concat (map snd bins).

(** Invariant on bins: keys strictly ascending; every bin is nonempty, shorter
    than the group size, holds only indices of the right row length. *)
Fixpoint bins_ok (rl : nat -> nat) (offset : nat) (lo : nat)
         (bins : list (nat * list nat)) : Prop :=
  match bins with
  | [] => True
  | (k, l) :: r => lo <= k /\ (forall i, In i l -> rl (offset + i) = k) /\
                   bins_ok rl offset (S k) r
  end.

Lemma bin_insert_flat bins key idx :
  Permutation (bins_flat (bin_insert bins key idx)) (idx :: bins_flat bins).
Proof.
  induction bins as [|[k l] r IH]; simpl.
  - reflexivity.
  - destruct (key =? k).
    + unfold bins_flat; simpl. rewrite <- app_assoc. simpl.
      symmetry. apply Permutation_middle.
    + destruct (key <? k).
      * unfold bins_flat; simpl. reflexivity.
      * unfold bins_flat in *; simpl. rewrite IH.
        symmetry. apply Permutation_middle.
Qed.

Lemma bin_erase_flat bins key :
  Permutation (bin_find bins key ++ bins_flat (bin_erase bins key)) (bins_flat bins).
Proof.
  induction bins as [|[k l] r IH]; simpl; [reflexivity|].
  destruct (key =? k).
  - unfold bins_flat; simpl; reflexivity.
  - unfold bins_flat in *; simpl.
    transitivity (l ++ bin_find r key ++ concat (map snd (bin_erase r key))).
    + rewrite !app_assoc. apply Permutation_app_tail. apply Permutation_app_comm.
    + now apply Permutation_app_head.
Qed.

Lemma bins_ok_weaken rl o a b bins : a <= b -> bins_ok rl o b bins -> bins_ok rl o a bins.
Proof. destruct bins as [|[k l] r]; simpl; auto. intros H (P & Q & R). split; [lia|auto]. Qed.

Lemma bin_insert_ok rl o lo bins key idx :
  lo <= key -> rl (o + idx) = key -> bins_ok rl o lo bins ->
  bins_ok rl o lo (bin_insert bins key idx).
Proof.
  revert lo; induction bins as [|[k l] r IH]; simpl; intros lo H E B.
  - split; [lia|split; auto]. intros i [<-|[]]; auto.
  - destruct B as (B1 & B2 & B3).
    destruct (Nat.eqb_spec key k) as [->|N].
    + simpl. split; [lia|split; auto]. intros i Hin.
      apply in_app_or in Hin as [|[<-|[]]]; auto.
    + destruct (Nat.ltb_spec key k).
      * simpl. split; [lia|split].
        -- intros i [<-|[]]; auto.
        -- repeat split; auto.
      * simpl. repeat split; auto. apply IH; auto. lia.
Qed.

Lemma bin_erase_ok rl o lo bins key :
  bins_ok rl o lo bins -> bins_ok rl o lo (bin_erase bins key).
Proof.
  revert lo; induction bins as [|[k l] r IH]; simpl; intros lo B; auto.
  destruct B as (B1 & B2 & B3). destruct (key =? k).
  - apply (bins_ok_weaken _ _ _ (S k)); auto; lia.
  - simpl; repeat split; auto.
Qed.

Lemma bin_find_ok rl o lo bins key :
  bins_ok rl o lo bins -> forall i, In i (bin_find bins key) -> rl (o + i) = key.
Proof.
  revert lo; induction bins as [|[k l] r IH]; simpl; intros lo B i Hin; [tauto|].
  destruct B as (B1 & B2 & B3). destruct (Nat.eqb_spec key k) as [->|N]; auto.
  eapply IH; eauto.
Qed.

Lemma bin_find_below rl o lo bins key :
  bins_ok rl o lo bins -> key < lo -> bin_find bins key = [].
Proof.
  revert lo; induction bins as [|[k l] r IH]; simpl; intros lo B H; auto.
  destruct B as (B1 & B2 & B3). destruct (Nat.eqb_spec key k); [lia|].
  apply (IH (S k)); auto; lia.
Qed.

Lemma bin_find_insert_other rl o lo bins key key' idx :
  bins_ok rl o lo bins -> key' <> key ->
  bin_find (bin_insert bins key idx) key' = bin_find bins key'.
Proof.
  revert lo; induction bins as [|[k l] r IH]; simpl; intros lo B N.
  - destruct (Nat.eqb_spec key' key); [lia|reflexivity].
  - destruct B as (B1 & B2 & B3).
    destruct (Nat.eqb_spec key k) as [->|N1]; simpl.
    + destruct (Nat.eqb_spec key' k); [lia|reflexivity].
    + destruct (Nat.ltb_spec key k); simpl.
      * destruct (Nat.eqb_spec key' key); [lia|reflexivity].
      * destruct (Nat.eqb_spec key' k); [reflexivity|]. eapply IH; eauto.
Qed.

Lemma bin_find_insert_same rl o lo bins key idx :
  bins_ok rl o lo bins ->
  bin_find (bin_insert bins key idx) key = bin_find bins key ++ [idx].
Proof.
  revert lo; induction bins as [|[k l] r IH]; simpl; intros lo B.
  - now rewrite Nat.eqb_refl.
  - destruct B as (B1 & B2 & B3).
    destruct (Nat.eqb_spec key k) as [->|N1]; simpl.
    + now rewrite Nat.eqb_refl.
    + destruct (Nat.ltb_spec key k); simpl.
      * rewrite Nat.eqb_refl.
        assert (bin_find r key = []) as ->; [|reflexivity].
        apply (bin_find_below rl o (S k)); auto; lia.
      * destruct (Nat.eqb_spec key k); [lia|]. eapply IH; eauto.
Qed.

Lemma bin_find_erase_other bins key key' :
  key' <> key -> bin_find (bin_erase bins key) key' = bin_find bins key'.
Proof.
  induction bins as [|[k l] r IH]; simpl; intros N; auto.
  destruct (Nat.eqb_spec key k) as [->|N1].
  - destruct (Nat.eqb_spec key' k); [lia|reflexivity].
  - simpl. destruct (key' =? k); auto.
Qed.

Lemma bin_find_erase_same rl o lo bins key :
  bins_ok rl o lo bins -> bin_find (bin_erase bins key) key = [].
Proof.
  revert lo; induction bins as [|[k l] r IH]; simpl; intros lo B; auto.
  destruct B as (B1 & B2 & B3).
  destruct (Nat.eqb_spec key k) as [->|N1].
  - apply (bin_find_below rl o (S k)); auto; lia.
  - simpl. destruct (Nat.eqb_spec key k); [lia|]. eapply IH; eauto.
Qed.

(** [recorded v offset out]: the vector holds at the m-th entry of [out] the
    value offset + m. *)
Definition recorded (v : list nat) (offset : nat) (out : list nat) : Prop :=
  forall m i, nth_error out m = Some i -> vget v i = Some (offset + m).

Lemma assign_all_spec l : forall v offset out,
  NoDup (out ++ l) -> (forall i, In i l -> i < length v) ->
  recorded v offset out ->
  exists v', assign_all v (offset + length out) l
             = Some (v', offset + length (out ++ l)) /\
             length v' = length v /\ recorded v' offset (out ++ l).
Proof.
  induction l as [|i l IH]; intros v offset out ND HB R; simpl.
  - exists v. rewrite app_nil_r. auto.
  - destruct (vset_defined v i (offset + length out)) as [v1 E1];
      [apply HB; left; auto|].
    rewrite E1.
    assert (L1 := vset_length _ _ _ _ E1).
    specialize (IH v1 offset (out ++ [i])).
    rewrite <- app_assoc in IH; simpl in IH.
    destruct IH as (v' & E' & L' & R').
    + exact ND.
    + intros k Hk. rewrite L1. apply HB; right; auto.
    + intros m k Hk.
      destruct (le_lt_dec (length out) m) as [Hle|Hlt].
      * rewrite nth_error_app2 in Hk by auto.
        destruct (m - length out) as [|d] eqn:D; [|destruct d; discriminate].
        simpl in Hk. inversion Hk; subst k.
        rewrite (vget_vset_same _ _ _ _ E1). f_equal; lia.
      * rewrite nth_error_app1 in Hk by auto.
        rewrite (vget_vset_other _ _ _ _ _ E1); [apply R; auto|].
        intros ->. apply nth_error_In in Hk.
        apply NoDup_remove_2 in ND. apply ND. apply in_or_app; auto.
    + rewrite app_length in E'. simpl in E'.
      replace (S (offset + length out)) with (offset + (length out + 1)) by lia.
      exists v'. split; [exact E'|]. split; [lia|exact R'].
Qed.

Lemma NoDup_app_remove_r {A} (l l' : list A) : NoDup (l ++ l') -> NoDup l.
Proof.
  revert l. induction l' as [|x r IH]; intros l H.
  - now rewrite app_nil_r in H.
  - apply IH. eapply NoDup_remove_1; eauto.
Qed.

Lemma assign_bins_spec bins : forall v offset out,
  NoDup (out ++ bins_flat bins) ->
  (forall i, In i (bins_flat bins) -> i < length v) ->
  recorded v offset out ->
  exists v', assign_bins v (offset + length out) bins
             = Some (v', offset + length (out ++ bins_flat bins)) /\
             length v' = length v /\ recorded v' offset (out ++ bins_flat bins).
Proof.
  induction bins as [|[k l] r IH]; intros v offset out ND HB R; simpl.
  - unfold bins_flat in *; simpl in *. rewrite app_nil_r. exists v; auto.
  - unfold bins_flat in *; simpl in *. rewrite app_assoc in *.
    destruct (assign_all_spec l v offset out) as (v1 & E1 & L1 & R1); auto.
    + apply NoDup_app_remove_r in ND. exact ND.
    + intros i Hi. apply HB. apply in_or_app; auto.
    + rewrite E1.
      destruct (IH v1 offset (out ++ l)) as (v' & E' & L' & R'); auto.
      * intros i Hi. rewrite L1. apply HB. apply in_or_app; auto.
      * exists v'; rewrite L' , L1; auto.
Qed.

(** Groups: the list is a concatenation of ascending lists of length g with
    uniform row length. *)
Definition grouped (rl : nat -> nat) (offset g : nat) (out : list nat) : Prop :=
  exists groups, out = concat groups /\
    forall G, In G groups -> length G = g /\
      exists L, forall i, In i G -> rl (offset + i) = L.

Lemma in_bins_flat_find rl o lo bins i :
  bins_ok rl o lo bins -> In i (bins_flat bins) ->
  In i (bin_find bins (rl (o + i))).
Proof.
  revert lo; induction bins as [|[k l] r IH]; intros lo B Hin;
    unfold bins_flat in *; simpl in *; [tauto|].
  destruct B as (B1 & B2 & B3). apply in_app_or in Hin as [Hin|Hin].
  - rewrite (B2 i Hin), Nat.eqb_refl. exact Hin.
  - specialize (IH _ B3 Hin).
    destruct (Nat.eqb_spec (rl (o + i)) k) as [E|N]; auto.
    rewrite E in IH. rewrite (bin_find_below _ _ _ _ _ B3) in IH by lia.
    destruct IH.
Qed.

Lemma Forall_lt_seq_perm l n : Permutation l (seq 0 n) -> forall i, In i l -> i < n.
Proof.
  intros P i Hi. apply (Permutation_in _ P) in Hi. apply in_seq in Hi. lia.
Qed.

Lemma internal_range_sweep rl g offset n :
  0 < g -> forall m, m <= n ->
  exists v out bins,
    fold_left (bin_step rl offset g) (seq 0 m)
              (Some (repeat 0 n, offset, [])) = Some (v, offset + length out, bins) /\
    length v = n /\ Permutation (out ++ bins_flat bins) (seq 0 m) /\
    recorded v offset out /\ grouped rl offset g out /\
    bins_ok rl offset 0 bins /\ (forall L, length (bin_find bins L) < g).
Proof.
  intros Hg m. induction m as [|m IH]; intros Hm.
  - exists (repeat 0 n), [], []. simpl.
    split; [f_equal; f_equal; f_equal; lia|].
    rewrite repeat_length. repeat split; auto.
    + intros k i H; destruct k; discriminate.
    + exists []; simpl; split; auto. intros G [].
  - destruct IH as (v & out & bins & E & L & P & R & Gr & B & S); [lia|].
    rewrite seq_S, fold_left_app, E. cbn [fold_left]. simpl (0 + m).
    unfold bin_step.
    set (key := rl (offset + m)). set (bins1 := bin_insert bins key m).
    assert (B1 : bins_ok rl offset 0 bins1)
      by (apply bin_insert_ok; auto; lia).
    assert (F1 : Permutation (out ++ bins_flat bins1) (seq 0 (m + 1))).
    { unfold bins1. rewrite (bin_insert_flat bins key m).
      rewrite <- Permutation_middle. rewrite seq_app. simpl.
      rewrite P. apply Permutation_cons_append. }
    assert (FS : bin_find bins1 key = bin_find bins key ++ [m])
      by (eapply bin_find_insert_same; eauto).
    assert (FE := bin_erase_flat bins1 key).
    destruct (Nat.eqb_spec (length (bin_find bins1 key)) g) as [Eg|Ng].
    + assert (ND : NoDup (out ++ bin_find bins1 key)).
      { assert (N : NoDup (out ++ bins_flat bins1)).
        { eapply Permutation_NoDup; [symmetry; exact F1|]. apply seq_NoDup. }
        rewrite <- FE in N. rewrite app_assoc in N.
        apply NoDup_app_remove_r in N. exact N. }
      destruct (assign_all_spec (bin_find bins1 key) v offset out)
        as (v' & E' & L' & R'); auto.
      { intros i Hi. rewrite L.
        assert (i < m + 1); [|lia].
        apply (Forall_lt_seq_perm _ _ F1). apply in_or_app; right.
        rewrite <- FE. apply in_or_app; auto. }
      rewrite E'. exists v', (out ++ bin_find bins1 key), (bin_erase bins1 key).
      split; [reflexivity|]. split; [lia|]. split.
      { rewrite <- app_assoc, FE. rewrite F1, seq_app. simpl. reflexivity. }
      split; [auto|]. split.
      { destruct Gr as (groups & Eo & Hgr).
        exists (groups ++ [bin_find bins1 key]). split.
        - rewrite concat_app, Eo. simpl. now rewrite app_nil_r.
        - intros G Hin. apply in_app_or in Hin as [Hin|[<-|[]]]; auto.
          split; auto. exists key. eapply bin_find_ok; eauto. }
      split; [apply bin_erase_ok; auto|].
      intros K. destruct (Nat.eq_dec K key) as [->|NK].
      * rewrite (bin_find_erase_same _ _ _ _ _ B1). simpl; lia.
      * rewrite bin_find_erase_other by auto. unfold bins1.
        rewrite (bin_find_insert_other rl offset 0) by auto. apply S.
    + exists v, out, bins1. split; [reflexivity|]. split; [auto|]. split.
      { rewrite F1, seq_app. simpl. reflexivity. }
      split; [auto|]. split; [auto|]. split; [auto|].
      intros K. destruct (Nat.eq_dec K key) as [->|NK].
      * specialize (S key). rewrite FS, app_length in *. simpl in *. lia.
      * unfold bins1. rewrite (bin_find_insert_other rl offset 0) by auto. apply S.
Qed.

Lemma concat_uniform_nth {A} (groups : list (list A)) g m x :
  0 < g -> (forall G, In G groups -> length G = g) ->
  nth_error (concat groups) m = Some x ->
  exists G, nth_error groups (m / g) = Some G /\ nth_error G (m mod g) = Some x.
Proof.
  intros Hg. revert m. induction groups as [|G r IH]; simpl; intros m H E.
  - destruct m; discriminate.
  - assert (LG : length G = g) by (apply H; auto).
    destruct (le_lt_dec g m) as [Hle|Hlt].
    + rewrite nth_error_app2 in E by lia. rewrite LG in E.
      destruct (IH (m - g)) as (G' & E1 & E2); auto.
      assert (D : m = (m - g) + 1 * g) by lia.
      exists G'. rewrite D. rewrite Nat.div_add, Nat.mod_add by lia.
      rewrite Nat.add_1_r. simpl. auto.
    + rewrite nth_error_app1 in E by lia.
      exists G. rewrite Nat.div_small, Nat.mod_small by lia. auto.
Qed.

Lemma concat_uniform_length {A} (groups : list (list A)) g :
  (forall G, In G groups -> length G = g) ->
  length (concat groups) = length groups * g.
Proof.
  induction groups as [|G r IH]; simpl; intros H; auto.
  rewrite app_length, IH by auto. rewrite H by auto. lia.
Qed.

(** The leftover indices of a given row length. *)
Definition leftover (rl : nat -> nat) (offset : nat) (order : list nat)
           (n_int n L : nat) : list nat :=
  filter (fun i => (rl (offset + i) =? L) &&
                   (offset + n_int <=? nth i order 0)) (seq 0 n).

Lemma internal_range_facts rl g offset n :
  0 < g ->
  exists order n_int,
    internal_range rl g offset n = Some (order, n_int) /\
    Permutation order (seq offset n) /\
    (exists c, n_int = c * g) /\ n_int <= n /\
    (forall i1 i2 a b, vget order i1 = Some (offset + a) ->
       vget order i2 = Some (offset + b) -> a < n_int -> b < n_int ->
       a / g = b / g -> rl (offset + i1) = rl (offset + i2)) /\
    (forall L, length (leftover rl offset order n_int n L) < g).
Proof.
  intros Hg. unfold internal_range.
  destruct (internal_range_sweep rl g offset n Hg n (Nat.le_refl n))
    as (v & out & bins & E & L & P & R & (groups & Eo & Hgr) & B & S).
  rewrite E.
  assert (ND : NoDup (out ++ bins_flat bins)).
  { eapply Permutation_NoDup; [symmetry; exact P|apply seq_NoDup]. }
  destruct (assign_bins_spec bins v offset out) as (v' & E' & L' & R'); auto.
  { intros i Hi. rewrite L. apply (Forall_lt_seq_perm _ _ P).
    apply in_or_app; auto. }
  rewrite E'. exists v', (length out).
  replace (offset + length out - offset) with (length out) by lia.
  assert (LO : length (out ++ bins_flat bins) = n).
  { rewrite (Permutation_length P). apply seq_length. }
  assert (INV : forall i, i < n -> exists m, m < n /\
            nth_error (out ++ bins_flat bins) m = Some i /\
            vget v' i = Some (offset + m)).
  { intros i Hi. assert (In i (out ++ bins_flat bins)) as Hin.
    { apply (Permutation_in i (Permutation_sym P)). apply in_seq; lia. }
    apply In_nth_error in Hin as [m Em]. exists m. split; [|split]; auto.
    rewrite <- LO. apply nth_error_Some. congruence. }
  split; [reflexivity|]. split; [|split; [|split; [|split]]].
  - apply inj_perm_seq; [lia| |].
    + intros i x Hx. assert (i < n) by (apply vget_some in Hx; lia).
      destruct (INV i) as (m & Hm & _ & Em); auto.
      rewrite Em in Hx. inversion Hx; lia.
    + intros i k x Hx Hy.
      assert (i < n) by (apply vget_some in Hx; lia).
      assert (k < n) by (apply vget_some in Hy; lia).
      destruct (INV i) as (m & Hm & Nm & Em); auto.
      destruct (INV k) as (m' & Hm' & Nm' & Em'); auto.
      assert (m = m') by (rewrite Hx in Em; rewrite Hy in Em';
                          inversion Em; inversion Em'; lia).
      subst m'. congruence.
  - exists (length groups). rewrite Eo. apply concat_uniform_length.
    intros G HG; apply Hgr; auto.
  - rewrite <- LO, app_length. lia.
  - intros i1 i2 a b V1 V2 Ha Hb Hab.
    assert (forall i c, vget v' i = Some (offset + c) -> c < length out ->
                        nth_error out c = Some i) as Back.
    { intros i c Hv Hc. assert (i < n) by (apply vget_some in Hv; lia).
      destruct (INV i) as (m & Hm & Nm & Em); auto.
      assert (m = c) by (rewrite Hv in Em; inversion Em; lia). subst m.
      rewrite nth_error_app1 in Nm by auto. exact Nm. }
    assert (N1 := Back _ _ V1 Ha). assert (N2 := Back _ _ V2 Hb).
    rewrite Eo in N1, N2.
    apply (concat_uniform_nth groups g) in N1 as (G1 & A1 & C1); auto;
      [|intros G HG; apply Hgr; auto].
    apply (concat_uniform_nth groups g) in N2 as (G2 & A2 & C2); auto;
      [|intros G HG; apply Hgr; auto].
    rewrite Hab, A2 in A1. inversion A1; subst G1.
    destruct (Hgr G2) as (_ & LL & HL); [eapply nth_error_In; eauto|].
    rewrite (HL i1), (HL i2); auto; eapply nth_error_In; eauto.
  - intros K. apply Nat.le_lt_trans with (length (bin_find bins K)); auto.
    apply NoDup_incl_length.
    + apply NoDup_filter, seq_NoDup.
    + intros i Hi. unfold leftover in Hi. apply filter_In in Hi as (Hin & Hc).
      apply in_seq in Hin. apply andb_true_iff in Hc as (H1 & H2).
      apply Nat.eqb_eq in H1. apply Nat.leb_le in H2.
      destruct (INV i) as (m & Hm & Nm & Em); [lia|].
      assert (nth i v' 0 = offset + m) as Q.
      { unfold vget in Em. apply nth_error_nth with (d := 0) in Em. exact Em. }
      rewrite Q in H2.
      rewrite nth_error_app2 in Nm by lia.
      apply nth_error_In in Nm. rewrite <- H1.
      eapply in_bins_flat_find; eauto.
Qed.

(** ** consistent_stride_range *)

Lemma stride_scan_spec rl g offset : 0 < g -> forall fuel i cur,
  let r := stride_scan rl g offset i fuel cur in
  (i mod g <> 0 -> cur = rl (offset + i / g * g)) ->
  i <= r <= i + fuel /\
  (forall a, i <= a < r -> rl (offset + a) = rl (offset + a / g * g)) /\
  (r < i + fuel -> rl (offset + r) <> rl (offset + r / g * g)).
Proof.
  intros Hg. induction fuel as [|f IH]; intros i cur; simpl; intros Hc.
  - split; [lia|]. split; intros; lia.
  - assert (Q : forall a, a mod g = 0 -> a / g * g = a).
    { intros a Ha. rewrite (Nat.div_mod a g) at 2 by lia. rewrite Ha. lia. }
    assert (NX : forall c, c = rl (offset + i / g * g) ->
                 S i mod g <> 0 -> c = rl (offset + S i / g * g)).
    { intros c -> Hs. assert (i mod g < g) by (apply Nat.mod_upper_bound; lia).
      assert (D := Nat.div_mod i g ltac:(lia)).
      destruct (Nat.eq_dec (S (i mod g)) g) as [Eq|Nq].
      - exfalso. apply Hs.
        symmetry. apply (Nat.mod_unique _ g (S (i / g)) 0); [lia|]. nia.
      - assert (S i / g = i / g) as ->; auto.
        symmetry. apply (Nat.div_unique _ g (i / g) (S (i mod g))); lia. }
    destruct (Nat.eqb_spec (i mod g) 0) as [Z|NZ].
    + destruct (IH (S i) (rl (offset + i))) as (A & B & C).
      { apply NX. now rewrite Q. }
      split; [lia|]. split.
      * intros a Ha. destruct (Nat.eq_dec a i) as [->|]; [now rewrite Q|].
        apply B; lia.
      * intros; apply C; lia.
    + destruct (Nat.eqb_spec cur (rl (offset + i))) as [Ec|Nc]; simpl.
      * destruct (IH (S i) cur) as (A & B & C).
        { intros. apply NX; auto. }
        split; [lia|]. split.
        -- intros a Ha. destruct (Nat.eq_dec a i) as [->|]; [|apply B; lia].
           rewrite <- Ec. auto.
        -- intros; apply C; lia.
      * split; [lia|]. split; [intros; lia|]. intros _ Eq. apply Nc.
        rewrite Eq. auto.
Qed.

Lemma consistent_stride_range_facts rl g offset s :
  0 < g ->
  let r := consistent_stride_range rl g offset (s * g) in
  (exists c, r = c * g) /\ r <= s * g /\
  (forall k j, k * g + g <= r -> j < g ->
     rl (offset + k * g + j) = rl (offset + k * g)) /\
  (r < s * g -> exists j, j < g /\ rl (offset + r + j) <> rl (offset + r)).
Proof.
  intros Hg r. unfold r, consistent_stride_range.
  set (t := stride_scan rl g offset 0 (s * g) 0).
  destruct (stride_scan_spec rl g offset Hg (s * g) 0 0) as (A & B & C).
  { intros H. rewrite Nat.mod_0_l in H; lia. }
  fold t in A, B, C.
  assert (D := Nat.div_mod t g ltac:(lia)).
  assert (M := Nat.mod_upper_bound t g ltac:(lia)).
  split; [eexists; reflexivity|]. split; [nia|]. split.
  - intros k j Hk Hj. destruct (divmod_stride g Hg k j Hj) as [Dk _].
    rewrite <- Nat.add_assoc.
    rewrite (B (k * g + j)) by nia. now rewrite Dk.
  - intros Hr. exists (t mod g). split; [auto|].
    assert (t < 0 + s * g).
    { destruct (Nat.eq_dec t (s * g)) as [Et|]; [|lia].
      rewrite Et in Hr. rewrite Nat.div_mul in Hr by lia. lia. }
    specialize (C H). rewrite <- Nat.add_assoc.
    replace (t / g * g + t mod g) with t by lia. exact C.
Qed.

(** ** recompute_n_export *)

Lemma fold_max_ge (f : nat * nat -> bool) ranges : forall acc,
  acc <= fold_left (fun acc it => if f it then Nat.max acc (snd it) else acc) ranges acc /\
  forall r, In r ranges -> f r = true ->
    snd r <= fold_left (fun acc it => if f it then Nat.max acc (snd it) else acc) ranges acc.
Proof.
  induction ranges as [|x l IH]; simpl; intros acc.
  - split; [lia|]. intros r [].
  - destruct (IH (if f x then Nat.max acc (snd x) else acc)) as [A B].
    split.
    + destruct (f x); lia.
    + intros r [<-|Hin] Hf; [rewrite Hf in *; lia|]. apply B; auto.
Qed.

Lemma round_up_ge m w : 0 < w -> m <= (m + w - 1) / w * w.
Proof.
  intros H. assert (D := Nat.div_mod (m + w - 1) w ltac:(lia)).
  assert (M := Nat.mod_upper_bound (m + w - 1) w ltac:(lia)). nia.
Qed.

Lemma recompute_n_export_covers ranges n_int w :
  0 < w ->
  (forall a b, In (a, b) ranges -> b <= n_int \/ n_int <= a) ->
  forall a b i, In (a, b) ranges -> a <= i < b -> i < n_int ->
    i < recompute_n_export ranges n_int w.
Proof.
  intros Hw Hs a b i Hin Hi Hlt. unfold recompute_n_export.
  destruct (fold_max_ge (fun it => snd it <=? n_int) ranges 0) as [_ H].
  specialize (H (a, b) Hin). simpl in H.
  destruct (Hs a b Hin); [|lia].
  rewrite (proj2 (Nat.leb_le b n_int)) in H by auto. specialize (H eq_refl).
  set (m := fold_left _ ranges 0) in *.
  assert (R := round_up_ge m w Hw). lia.
Qed.

Lemma recompute_n_export_multiple ranges n_int w :
  exists c, recompute_n_export ranges n_int w = c * w.
Proof. unfold recompute_n_export. eexists; reflexivity. Qed.

Lemma fold_max_le (n : nat) (ranges : list (nat * nat)) : forall acc, acc <= n ->
  fold_left (fun acc it => if snd it <=? n then Nat.max acc (snd it) else acc) ranges acc <= n.
Proof.
  induction ranges as [|x l IH]; simpl; intros acc H; auto.
  apply IH. destruct (Nat.leb_spec (snd x) n); lia.
Qed.

Lemma recompute_n_export_le ranges s w :
  0 < w -> recompute_n_export ranges (s * w) w <= s * w.
Proof.
  intros Hw. unfold recompute_n_export.
  assert (H := fold_max_le (s * w) ranges 0 ltac:(lia)).
  set (m := fold_left _ ranges 0) in *.
  assert ((m + w - 1) / w <= s); [|nia].
  apply Nat.lt_succ_r. apply Nat.div_lt_upper_bound; nia.
Qed.

(** ** Uniform strides survive a stride permutation *)
Lemma stride_perm_uniform (order : list nat) g offset s n (rl rl' : nat -> nat) :
  0 < g -> s * g <= n ->
  Permutation order (seq offset n) ->
  (forall k, k < s -> exists k', k' < s /\
     forall j, j < g -> vget order (k * g + j) = Some (offset + k' * g + j)) ->
  (forall i, s * g <= i < n -> vget order i = Some (offset + i)) ->
  (forall i x, vget order i = Some x -> rl' x = rl (offset + i)) ->
  (forall k j, k < s -> j < g ->
     rl (offset + k * g + j) = rl (offset + k * g)) ->
  forall k j, k < s -> j < g ->
     rl' (offset + k * g + j) = rl' (offset + k * g).
Proof.
  intros Hg Hn P St Tl R U k j Hk Hj.
  assert (In (offset + k * g) order) as Hin.
  { apply (Permutation_in _ (Permutation_sym P)). apply in_seq. nia. }
  apply In_nth_error in Hin as [i Ei]. fold (vget order i) in Ei.
  assert (i < n).
  { apply vget_some in Ei. rewrite (Permutation_length P), seq_length in Ei. auto. }
  destruct (le_lt_dec (s * g) i) as [Hle|Hlt].
  { rewrite Tl in Ei by lia. inversion Ei. nia. }
  destruct (in_stride g Hg i) as [Di Mi].
  assert (Dlt : i / g < s) by (apply Nat.div_lt_upper_bound; lia).
  destruct (St (i / g) Dlt) as (k' & Hk' & Hst).
  assert (E0 := Hst (i mod g) Mi). rewrite <- Di, Ei in E0.
  assert (k * g + 0 = k' * g + i mod g) as E1 by (inversion E0; lia).
  apply mulg_inj in E1 as [<- Z]; [|auto|lia|auto].
  assert (Ej := Hst j Hj). apply R in Ej. apply R in Ei.
  rewrite Ej, Ei. rewrite Nat.add_assoc, U by auto.
  f_equal. lia.
Qed.

(** ** Statements of the property theorems *)

Lemma C07_export_indices_first_proof :
  forall (exported : nat -> bool) (g offset s n : nat),
    0 < g -> s * g <= n ->
    exists order n_export,
      export_indices_first exported g offset (s * g) n
        = Some (map Some order, n_export) /\
      Permutation order (seq offset n) /\
      (exists c, n_export = c * g) /\ n_export <= s * g /\
      (forall k, k < s -> exists k', k' < s /\
         forall j, j < g -> vget order (k * g + j) = Some (offset + k' * g + j)) /\
      (forall i, s * g <= i < n -> vget order i = Some (offset + i)) /\
      (forall i x, i < s * g -> vget order i = Some x ->
         (x < offset + n_export <->
          exists j, j < g /\ exported (i / g * g + j) = true)).
Proof.
  intros exported g offset s n Hg Hn.
  destruct (two_pass_facts (stride_has_export exported g) g offset Hg s n Hn)
    as (order & nf & E & P & C & L & S & T & F & _).
  exists order, nf. repeat split; auto.
  - intros Hx. apply stride_has_export_iff. eapply F; eauto.
  - intros Hx. apply (F i x); auto. now apply stride_has_export_iff.
Qed.

Lemma C07_exported_below_bound_proof :
  forall (exported : nat -> bool) (g offset s n : nat) order n_export,
    0 < g -> s * g <= n ->
    export_indices_first exported g offset (s * g) n
      = Some (map Some order, n_export) ->
    forall i x, i < s * g -> exported i = true ->
      vget order i = Some x -> x < offset + n_export.
Proof.
  intros exported g offset s n order nf Hg Hn E i x Hi Hx V.
  destruct (C07_export_indices_first_proof exported g offset s n Hg Hn)
    as (order' & nf' & E' & _ & _ & _ & _ & _ & F).
  rewrite E in E'. inversion E' as [[E1 E2]]. subst nf'.
  assert (order = order') as <-.
  { clear -E1. revert order' E1; induction order as [|a l IH]; intros [|b l'] H;
      simpl in H; try discriminate; auto. inversion H. f_equal; auto. }
  apply (F i x Hi V). exists (i mod g).
  split; [apply Nat.mod_upper_bound; lia|].
  rewrite <- Hx. f_equal. rewrite Nat.mul_comm. symmetry.
  apply Nat.div_mod. lia.
Qed.

Lemma C07_keeps_uniform_strides_proof :
  forall (exported : nat -> bool) (g offset s n : nat) order n_export
         (row_length row_length' : nat -> nat),
    0 < g -> s * g <= n ->
    export_indices_first exported g offset (s * g) n
      = Some (map Some order, n_export) ->
    (forall i x, vget order i = Some x ->
                 row_length' x = row_length (offset + i)) ->
    (forall k j, k < s -> j < g ->
       row_length (offset + k * g + j) = row_length (offset + k * g)) ->
    forall k j, k < s -> j < g ->
       row_length' (offset + k * g + j) = row_length' (offset + k * g).
Proof.
  intros exported g offset s n order nf rl rl' Hg Hn E.
  destruct (C07_export_indices_first_proof exported g offset s n Hg Hn)
    as (order' & nf' & E' & P & _ & _ & S & T & _).
  rewrite E in E'. inversion E' as [[E1 E2]]. subst nf'.
  assert (order = order') as <-.
  { clear -E1. revert order' E1; induction order as [|a l IH]; intros [|b l'] H;
      simpl in H; try discriminate; auto. inversion H. f_equal; auto. }
  intros. eapply stride_perm_uniform; eauto.
Qed.

Lemma C08_inconsistent_strides_last_proof :
  forall (row_length : nat -> nat) (g offset s n : nat),
    0 < g -> s * g <= n ->
    exists order n_ok,
      inconsistent_strides_last row_length g offset (s * g) n
        = Some (map Some order, n_ok) /\
      Permutation order (seq offset n) /\
      (exists c, n_ok = c * g) /\ n_ok <= s * g /\
      (forall k, k < s -> exists k', k' < s /\
         forall j, j < g -> vget order (k * g + j) = Some (offset + k' * g + j)) /\
      (forall i, s * g <= i < n -> vget order i = Some (offset + i)) /\
      (** below the returned bound exactly the rows of uniform strides *)
      (forall i x, i < s * g -> vget order i = Some x ->
         (x < offset + n_ok <->
          forall j, j < g -> row_length (offset + i / g * g + j)
                             = row_length (offset + i / g * g))) /\
      (** in their previous relative order *)
      (forall a b x y, a < b -> b < s * g ->
         vget order a = Some x -> vget order b = Some y ->
         x < offset + n_ok -> y < offset + n_ok -> x < y).
Proof.
  intros rl g offset s n Hg Hn.
  destruct (two_pass_facts (stride_is_consistent rl g offset) g offset Hg s n Hn)
    as (order & nf & E & P & C & L & S & T & F & O).
  exists order, nf. repeat split; auto.
  - intros Hx. apply stride_is_consistent_iff. eapply F; eauto.
  - intros Hx. apply (F i x); auto. now apply stride_is_consistent_iff.
  - intros a b x y Hab Hb Hx Hy Lx Ly. apply (O a b); auto.
    assert (A : a < s * g) by lia.
    apply (proj1 (F a x A Hx)) in Lx. apply (proj1 (F b y Hb Hy)) in Ly.
    congruence.
Qed.

Lemma C09_export_count_covers_refuted_proof :
  exists ranges s w a b i,
    0 < w /\ (forall x y, In (x, y) ranges -> x < y) /\
    In (a, b) ranges /\ a <= i < b /\ i < s * w /\
    ~ (i < recompute_n_export ranges (s * w) w).
Proof.
  exists [(2, 6)], 1, 4, 2, 6, 3. vm_compute.
  repeat split; auto; try lia.
  intros x y [H|[]]. inversion H; lia.
Qed.

Lemma C09_export_count_covers_partial_proof :
  forall (ranges : list (nat * nat)) (s w : nat),
    0 < w ->
    (forall a b, In (a, b) ranges -> b <= s * w \/ s * w <= a) ->
    (forall a b i, In (a, b) ranges -> a <= i < b -> i < s * w ->
        i < recompute_n_export ranges (s * w) w) /\
    recompute_n_export ranges (s * w) w <= s * w /\
    exists c, recompute_n_export ranges (s * w) w = c * w.
Proof.
  intros ranges s w Hw Hs. split; [|split].
  - intros. eapply recompute_n_export_covers; eauto.
  - apply recompute_n_export_le; auto.
  - apply recompute_n_export_multiple.
Qed.
