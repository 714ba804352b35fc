From Coq Require Import List Arith Lia Bool Permutation Sorted.
From Verif Require Import Vec Opt Sparse SparseSpec.
Import ListNotations.

(** ** Lists *)

Lemma foldM_flat_map {A B C} (f : A -> C -> option A) (h : B -> list C) l a :
  foldM f a (flat_map h l) = foldM (fun a x => foldM f a (h x)) a l.
Proof.
  revert a; induction l as [|x l IH]; simpl; intros a; [reflexivity|].
  rewrite foldM_app. destruct (foldM f a (h x)); auto.
Qed.

Lemma foldM_map {A B C} (f : A -> C -> option A) (g : B -> C) l a :
  foldM f a (map g l) = foldM (fun a x => f a (g x)) a l.
Proof.
  revert a; induction l as [|x l IH]; simpl; intros a; [reflexivity|].
  destruct (f a (g x)); auto.
Qed.

Lemma nth_flat_seq {B} (h : nat -> list B) n a q k x :
  q < n -> nth_error (h (a + q)) k = Some x ->
  nth_error (flat_map h (seq a n)) (length (flat_map h (seq a q)) + k) = Some x.
Proof.
  intros Hq Hk. replace n with (q + S (n - q - 1)) by lia.
  rewrite seq_app, flat_map_app. simpl.
  rewrite nth_error_app2 by lia.
  replace (length (flat_map h (seq a q)) + k - length (flat_map h (seq a q))) with k by lia.
  rewrite nth_error_app1; [assumption|]. apply nth_error_Some. congruence.
Qed.

Lemma length_flat_uniform {B} (h : nat -> list B) n a w :
  (forall i, a <= i < a + n -> length (h i) = w) ->
  length (flat_map h (seq a n)) = n * w.
Proof.
  revert a; induction n as [|n IH]; simpl; intros a H; [reflexivity|].
  rewrite app_length, H by lia. rewrite IH; [reflexivity|]. intros; apply H; lia.
Qed.

Lemma seq_snoc a n : seq a (S n) = seq a n ++ [a + n].
Proof. replace (S n) with (n + 1) by lia. rewrite seq_app. reflexivity. Qed.

Lemma map_NoDup_in {B C} (f : B -> C) l :
  (forall x y, In x l -> In y l -> f x = f y -> x = y) -> NoDup l -> NoDup (map f l).
Proof.
  induction l as [|x l IH]; simpl; intros Hi ND; [constructor|].
  inversion ND; subst. constructor.
  - intros Hin. apply in_map_iff in Hin as [y [E Hy]]. apply Hi in E; auto. subst; auto.
  - apply IH; auto.
Qed.

Lemma div_le_self' n w : 0 < w -> n / w <= n.
Proof.
  intros W. apply Nat.div_le_upper_bound; [lia|].
  destruct w as [|w]; [lia|]. simpl. lia.
Qed.

(** ** The static pattern *)
Section Static.
Variable rows : list (list nat).
Variable w ni : nat.

Definition srow i := nth i rows [].
Definition slen i := length (srow i).
Definition scol i p := nth p (srow i) 0.
Notation start := (csr_start rows).

Record wf_static : Prop := {
  ws_head : forall i, i < length rows -> exists t, srow i = i :: t;
  ws_nodup : forall i, i < length rows -> NoDup (srow i);
  ws_range : forall i j, i < length rows -> In j (srow i) -> j < length rows;
  ws_sym : forall i j, i < length rows -> In j (srow i) -> In i (srow j) }.

Record wf_strides : Prop := {
  wt_width : 0 < w;
  wt_multiple : exists q, ni = q * w;
  wt_le : ni <= length rows;
  wt_uniform : forall i, i < ni -> slen i = slen (i / w * w) }.

Lemma vget_srow i : i < length rows -> vget rows i = Some (srow i).
Proof. intros H. unfold vget, srow. apply nth_error_nth'. assumption. Qed.

Lemma vget_scol i p : p < slen i -> vget (srow i) p = Some (scol i p).
Proof. intros H. unfold vget, scol. apply nth_error_nth'. assumption. Qed.

Lemma start_S i : i < length rows -> start (S i) = start i + slen i.
Proof.
  unfold csr_start, slen, srow. revert i.
  induction rows as [|r l IH]; intros i H; simpl in *; [lia|].
  destruct i as [|i]; simpl; [lia|]. specialize (IH i ltac:(lia)). simpl in IH. lia.
Qed.

Lemma start_mono i j : i <= j -> j <= length rows -> start i <= start j.
Proof.
  intros H Hj. induction H; [lia|].
  rewrite start_S by lia. lia.
Qed.

Lemma start_lt i j p : i < j -> j <= length rows -> p < slen i -> start i + p < start j.
Proof.
  intros H Hj Hp. assert (A := start_mono (S i) j ltac:(lia) Hj).
  rewrite start_S in A by lia. lia.
Qed.

Hypothesis WS : wf_static.
Hypothesis WT : wf_strides.

Lemma w_pos : 0 < w. Proof. apply WT. Qed.

Lemma r0_le i : i / w * w <= i.
Proof. assert (W := w_pos). assert (D := Nat.div_mod i w ltac:(lia)). lia. Qed.

Lemma r0_stride i : i < ni -> i / w * w + w <= ni.
Proof.
  assert (W := w_pos). intros H. destruct (wt_multiple WT) as [q ->].
  assert (i / w < q) by (apply Nat.div_lt_upper_bound; lia). nia.
Qed.

Lemma start_stride s k :
  s * w + w <= ni -> k <= w ->
  start (s * w + k) = start (s * w) + k * slen (s * w).
Proof.
  assert (W := w_pos). assert (L := wt_le WT).
  intros H. induction k as [|k IH]; intros Hk; [rewrite Nat.add_0_r; lia|].
  replace (s * w + S k) with (S (s * w + k)) by lia.
  rewrite start_S by lia. rewrite IH by lia.
  rewrite (wt_uniform WT (s * w + k)) by lia.
  replace ((s * w + k) / w) with s; [lia|].
  apply Nat.div_unique with k; lia.
Qed.

Lemma start_next s : s * w + w <= ni ->
  start (S s * w) = start (s * w) + w * slen (s * w).
Proof.
  intros H. replace (S s * w) with (s * w + w) by (simpl; lia).
  apply start_stride; auto.
Qed.

Lemma start_multiple s : s * w <= ni -> exists q, start (s * w) = q * w.
Proof.
  assert (W := w_pos).
  induction s as [|s IH]; intros H; [exists 0; reflexivity|].
  destruct IH as [q E]; [simpl in H; lia|].
  rewrite start_next by (simpl in H; lia). rewrite E.
  exists (q + slen (s * w)). lia.
Qed.

Lemma ni_div : ni / w * w = ni.
Proof.
  assert (W := w_pos). destruct (wt_multiple WT) as [q ->].
  rewrite Nat.div_mul by lia. reflexivity.
Qed.

Lemma div_le_self : ni / w <= ni.
Proof. apply div_le_self'. apply w_pos. Qed.

(** Storage slot of an entry. *)
Definition slot i p :=
  if i <? ni then start (i / w * w) + i mod w + p * w else start i + p.

Lemma find_col_spec j r p :
  NoDup r -> nth_error r p = Some j -> find_col j r = Some p.
Proof.
  revert p; induction r as [|k r IH]; simpl; intros p ND H; [destruct p; discriminate|].
  inversion ND; subst. destruct p as [|p]; simpl in H.
  - inversion H; subst. now rewrite Nat.eqb_refl.
  - destruct (k =? j) eqn:E.
    + apply Nat.eqb_eq in E. subst k. exfalso. apply H2. eapply nth_error_In; eauto.
    + rewrite (IH p); auto.
Qed.

Lemma csr_position_spec i p :
  i < length rows -> p < slen i -> csr_position rows i (scol i p) = Some (start i + p).
Proof.
  intros Hi Hp. unfold csr_position. rewrite vget_srow by assumption.
  rewrite (find_col_spec _ _ p); [reflexivity|apply WS; assumption|].
  apply vget_scol. assumption.
Qed.

Lemma scol_range i p : i < length rows -> p < slen i -> scol i p < length rows.
Proof.
  intros Hi Hp. apply (ws_range WS i); [assumption|]. unfold scol.
  apply nth_In. assumption.
Qed.

(** Position of the mirrored entry *)
Lemma mirror i p : i < length rows -> p < slen i ->
  exists q, q < slen (scol i p) /\ scol (scol i p) q = i.
Proof.
  intros Hi Hp. assert (H := ws_sym WS i (scol i p) Hi).
  specialize (H ltac:(apply nth_In; assumption)).
  apply (In_nth _ _ 0) in H as [q [L E]]. exists q. split; assumption.
Qed.

Lemma slen_pos i : i < length rows -> 0 < slen i.
Proof. intros H. destruct (ws_head WS i H) as [t E]. unfold slen. rewrite E. simpl; lia. Qed.
Lemma scol_0 i : i < length rows -> scol i 0 = i.
Proof. intros H. destruct (ws_head WS i H) as [t E]. unfold scol. rewrite E. reflexivity. Qed.

Lemma transposed_spec i c q :
  c < length rows -> q < slen c -> scol c q = i ->
  transposed_index w ni rows i c = Some (slot c q).
Proof.
  intros Hc Hq <-. unfold transposed_index.
  rewrite csr_position_spec by assumption.
  unfold slot. destruct (c <? ni) eqn:E; [|reflexivity].
  apply Nat.ltb_lt in E.
  rewrite vget_srow by assumption.
  assert (D := csr_position_spec c 0 Hc (slen_pos c Hc)). rewrite scol_0 in D by assumption.
  rewrite D. f_equal.
  assert (W := w_pos). assert (B := r0_stride c E). assert (R := r0_le c).
  assert (DM := Nat.div_mod c w ltac:(lia)). assert (M := Nat.mod_upper_bound c w ltac:(lia)).
  assert (St := start_stride (c / w) (c mod w) B ltac:(lia)).
  replace (c / w * w + c mod w) with c in St by lia.
  rewrite <- (wt_uniform WT c E) in St. fold (slen c). lia.
Qed.

(** ** Address arithmetic *)
Definition addr nc i p d :=
  if i <? ni then (start (i / w * w) + p * w) * nc + d * w + i mod w
  else (start i + p) * nc + d.

Lemma slot_lt_internal i p :
  i < ni -> p < slen i -> start (i / w * w) + p * w + w <= start (S (i / w) * w).
Proof.
  intros H Hp. rewrite start_next by (apply r0_stride; assumption).
  rewrite (wt_uniform WT i H) in Hp. nia.
Qed.

Lemma addr_bound nc i p d :
  i < length rows -> p < slen i -> d < nc -> addr nc i p d < start (length rows) * nc.
Proof.
  intros Hi Hp Hd. unfold addr. assert (W := w_pos).
  destruct (i <? ni) eqn:E.
  - apply Nat.ltb_lt in E. assert (A := slot_lt_internal i p E Hp).
    assert (B := r0_stride i E).
    assert (M := start_mono (S (i / w) * w) (length rows)).
    assert (L := wt_le WT). simpl in M. specialize (M ltac:(lia) ltac:(lia)).
    assert (Mo := Nat.mod_upper_bound i w ltac:(lia)). simpl in A.
    apply Nat.lt_le_trans with ((start (i / w * w) + p * w + w) * nc); [nia|].
    apply Nat.mul_le_mono_r. simpl. lia.
  - assert (A := start_lt i (length rows) p Hi ltac:(lia) Hp). nia.
Qed.

Lemma addr_mono_internal nc i p d i' p' d' :
  i < ni -> p < slen i -> d < nc -> i / w < i' / w -> i' < ni ->
  addr nc i p d < addr nc i' p' d'.
Proof.
  intros Hi Hp Hd Hlt Hi'. unfold addr. assert (W := w_pos).
  rewrite (proj2 (Nat.ltb_lt i ni)), (proj2 (Nat.ltb_lt i' ni)) by assumption.
  assert (A := slot_lt_internal i p Hi Hp).
  assert (B := r0_stride i' Hi'). assert (L := wt_le WT).
  assert (M := start_mono (S (i / w) * w) (i' / w * w) ltac:(nia) ltac:(lia)).
  assert (Mo := Nat.mod_upper_bound i w ltac:(lia)).
  apply Nat.lt_le_trans with ((start (i / w * w) + p * w + w) * nc); [nia|].
  apply Nat.le_trans with (start (i' / w * w) * nc); [|nia].
  apply Nat.mul_le_mono_r. lia.
Qed.

Lemma addr_internal_rest nc i p d i' p' d' :
  i < ni -> p < slen i -> d < nc -> ni <= i' -> i' < length rows ->
  addr nc i p d < addr nc i' p' d'.
Proof.
  intros Hi Hp Hd Hle Hi'. unfold addr. assert (W := w_pos).
  rewrite (proj2 (Nat.ltb_lt i ni)) by assumption.
  rewrite (proj2 (Nat.ltb_ge i' ni)) by assumption.
  assert (A := slot_lt_internal i p Hi Hp).
  assert (B := r0_stride i Hi).
  assert (M := start_mono (S (i / w) * w) i' ltac:(simpl; lia) ltac:(lia)).
  assert (Mo := Nat.mod_upper_bound i w ltac:(lia)).
  apply Nat.lt_le_trans with ((start (i / w * w) + p * w + w) * nc); [nia|].
  apply Nat.le_trans with (start i' * nc); [|nia].
  apply Nat.mul_le_mono_r. lia.
Qed.

Lemma addr_inj nc i p d i' p' d' :
  i < length rows -> p < slen i -> d < nc ->
  i' < length rows -> p' < slen i' -> d' < nc ->
  addr nc i p d = addr nc i' p' d' -> i = i' /\ p = p' /\ d = d'.
Proof.
  intros Hi Hp Hd Hi' Hp' Hd' E. assert (W := w_pos).
  destruct (le_lt_dec ni i) as [L|L]; destruct (le_lt_dec ni i') as [L'|L'].
  - unfold addr in E.
    rewrite (proj2 (Nat.ltb_ge i ni)), (proj2 (Nat.ltb_ge i' ni)) in E by assumption.
    assert (E1 : start i + p = start i' + p' /\ d = d').
    { assert (start i + p = ((start i + p) * nc + d) / nc)
        by (apply Nat.div_unique with d; lia).
      assert (start i' + p' = ((start i' + p') * nc + d') / nc)
        by (apply Nat.div_unique with d'; lia).
      rewrite E in H. split; [lia|]. nia. }
    destruct E1 as [E1 E2].
    destruct (Nat.lt_trichotomy i i') as [Q|[Q|Q]].
    + assert (X := start_lt i i' p Q ltac:(lia) Hp). lia.
    + subst. repeat split; lia.
    + assert (X := start_lt i' i p' Q ltac:(lia) Hp'). lia.
  - assert (X := addr_internal_rest nc i' p' d' i p d L' Hp' Hd' L Hi). lia.
  - assert (X := addr_internal_rest nc i p d i' p' d' L Hp Hd L' Hi'). lia.
  - destruct (Nat.lt_trichotomy (i / w) (i' / w)) as [Q|[Q|Q]].
    + assert (X := addr_mono_internal nc i p d i' p' d' L Hp Hd Q L'). lia.
    + unfold addr in E.
      rewrite (proj2 (Nat.ltb_lt i ni)), (proj2 (Nat.ltb_lt i' ni)) in E by assumption.
      rewrite <- Q in E.
      assert (Mo := Nat.mod_upper_bound i w ltac:(lia)).
      assert (Mo' := Nat.mod_upper_bound i' w ltac:(lia)).
      assert (E' : (p * nc + d) * w + i mod w = (p' * nc + d') * w + i' mod w) by nia.
      assert (X : p * nc + d = ((p * nc + d) * w + i mod w) / w)
        by (apply Nat.div_unique with (i mod w); lia).
      assert (X' : p' * nc + d' = ((p' * nc + d') * w + i' mod w) / w)
        by (apply Nat.div_unique with (i' mod w); lia).
      rewrite E' in X. rewrite <- X' in X.
      assert (Em : i mod w = i' mod w) by nia.
      assert (Y : p = (p * nc + d) / nc) by (apply Nat.div_unique with d; lia).
      assert (Y' : p' = (p' * nc + d') / nc) by (apply Nat.div_unique with d'; lia).
      rewrite X in Y. rewrite <- Y' in Y. subst p'.
      split; [|split; [reflexivity|lia]].
      rewrite (Nat.div_mod i w), (Nat.div_mod i' w) by lia. congruence.
    + assert (X := addr_mono_internal nc i' p' d' i p d L' Hp' Hd' Q L). lia.
Qed.

Lemma slot_addr i p : slot i p = addr 1 i p 0.
Proof. unfold slot, addr. destruct (i <? ni); lia. Qed.

(** ** The loops of reinit *)

Definition tmirror (rp : nat * nat) : nat :=
  match transposed_index w ni rows (fst rp) (scol (fst rp) (snd rp)) with
  | Some t => t | None => 0 end.
Definition cmirror (rp : nat * nat) : nat := scol (fst rp) (snd rp).

Definition valid (rp : nat * nat) : Prop := fst rp < length rows /\ snd rp < slen (fst rp).

Lemma push_entry_spec i p ct :
  valid (i, p) ->
  push_entry w ni rows i p ct = Some (fst ct ++ [cmirror (i, p)], snd ct ++ [tmirror (i, p)]).
Proof.
  intros [Hi Hp]; simpl in *. unfold push_entry, cmirror, tmirror; simpl.
  rewrite vget_srow by assumption. rewrite vget_scol by assumption.
  destruct (mirror i p Hi Hp) as [q [Hq E]].
  rewrite (transposed_spec i (scol i p) q); auto. apply scol_range; auto.
Qed.

Lemma push_list slots ct :
  (forall rp, In rp slots -> valid rp) ->
  foldM (fun ct rp => push_entry w ni rows (fst rp) (snd rp) ct) ct slots =
  Some (fst ct ++ map cmirror slots, snd ct ++ map tmirror slots).
Proof.
  revert ct; induction slots as [|[i p] l IH]; intros [c t] H; simpl.
  - rewrite !app_nil_r. reflexivity.
  - rewrite push_entry_spec by (apply H; left; reflexivity). simpl.
    rewrite IH by (intros; apply H; right; assumption). simpl.
    rewrite <- !app_assoc. reflexivity.
Qed.

Definition stride_slots s : list (nat * nat) :=
  flat_map (fun p => map (fun k => (s * w + k, p)) (seq 0 w)) (seq 0 (slen (s * w))).
Definition row_slots i : list (nat * nat) := map (fun p => (i, p)) (seq 0 (slen i)).

Lemma stride_slots_valid s rp : s * w + w <= ni -> In rp (stride_slots s) -> valid rp.
Proof.
  intros Hs Hin. unfold stride_slots in Hin.
  apply in_flat_map in Hin as [p [Hp Hin]]. apply in_map_iff in Hin as [k [<- Hk]].
  apply in_seq in Hp, Hk. assert (L := wt_le WT). assert (W := w_pos).
  split; simpl; [lia|].
  rewrite (wt_uniform WT (s * w + k)) by lia.
  replace ((s * w + k) / w) with s; [lia|]. apply Nat.div_unique with k; lia.
Qed.

Lemma row_slots_valid i rp : i < length rows -> In rp (row_slots i) -> valid rp.
Proof.
  intros Hi Hin. apply in_map_iff in Hin as [p [<- Hp]]. apply in_seq in Hp.
  split; simpl; lia.
Qed.

Lemma stride_slots_length s : length (stride_slots s) = w * slen (s * w).
Proof.
  unfold stride_slots. rewrite (length_flat_uniform _ _ _ w); [lia|].
  intros. rewrite map_length, seq_length. reflexivity.
Qed.

Lemma strides_length m : m * w <= ni ->
  length (flat_map stride_slots (seq 0 m)) = start (m * w).
Proof.
  induction m as [|m IH]; intros H; [reflexivity|].
  rewrite seq_snoc, flat_map_app, app_length. rewrite IH by (simpl in H; lia).
  simpl flat_map. rewrite app_nil_r, stride_slots_length.
  rewrite (start_next m) by (simpl in H; lia). reflexivity.
Qed.

Lemma rows_length m : ni + m <= length rows ->
  start ni + length (flat_map row_slots (seq ni m)) = start (ni + m).
Proof.
  induction m as [|m IH]; intros H; [simpl; rewrite !Nat.add_0_r; reflexivity|].
  rewrite seq_snoc, flat_map_app, app_length. simpl flat_map. rewrite app_nil_r.
  unfold row_slots at 2. rewrite map_length, seq_length.
  rewrite <- Nat.add_succ_comm. simpl. rewrite start_S by lia. rewrite <- IH by lia. lia.
Qed.

Lemma push_stride s ct : s * w + w <= ni ->
  foldM (fun ct p => foldM (fun ct k => push_entry w ni rows (s * w + k) p ct) ct (seq 0 w))
    ct (seq 0 (slen (s * w))) =
  Some (fst ct ++ map cmirror (stride_slots s), snd ct ++ map tmirror (stride_slots s)).
Proof.
  intros Hs. rewrite <- (push_list (stride_slots s) ct).
  - unfold stride_slots. rewrite foldM_flat_map. apply foldM_ext.
    intros p ct' _. rewrite foldM_map. reflexivity.
  - intros rp. apply stride_slots_valid. assumption.
Qed.

Lemma push_row i ct : i < length rows ->
  foldM (fun ct p => push_entry w ni rows i p ct) ct (seq 0 (slen i)) =
  Some (fst ct ++ map cmirror (row_slots i), snd ct ++ map tmirror (row_slots i)).
Proof.
  intros Hs. rewrite <- (push_list (row_slots i) ct).
  - unfold row_slots. rewrite foldM_map. reflexivity.
  - intros rp. apply row_slots_valid. assumption.
Qed.

Lemma vectorized_loop rs0 m :
  length rs0 = length rows + 1 -> vget rs0 0 = Some (Some 0) -> m * w <= ni ->
  exists rs1,
    foldM (fun st s =>
      let i := s * w in
      row_i <- vget rows i ;;
      ct <- foldM (fun ct p =>
              foldM (fun ct k => push_entry w ni rows (i + k) p ct)
                ct (seq 0 w))
            (snd st) (seq 0 (length row_i)) ;;
      rs <- vset (fst st) (i / w + 1) (Some (length (fst ct))) ;;
      Some (rs, ct)) (rs0, ([], [])) (seq 0 m) =
    Some (rs1, (map cmirror (flat_map stride_slots (seq 0 m)),
                map tmirror (flat_map stride_slots (seq 0 m)))) /\
    length rs1 = length rows + 1 /\
    (forall s, s <= m -> vget rs1 s = Some (Some (start (s * w)))).
Proof.
  intros L0 G0. assert (W := w_pos). assert (Ln := wt_le WT).
  induction m as [|m IH]; intros Hm.
  - exists rs0. split; [reflexivity|]. split; [assumption|].
    intros s Hs. replace s with 0 by lia. assumption.
  - destruct IH as [rs1 [E [L1 G1]]]; [simpl in Hm; lia|].
    rewrite seq_snoc, foldM_app, E. simpl plus. cbn [foldM].
    assert (Hs : m * w + w <= ni) by (simpl in Hm; lia).
    cbn zeta. rewrite vget_srow by lia. cbn [fst snd].
    assert (P : foldM (fun ct p =>
              foldM (fun ct k => push_entry w ni rows (m * w + k) p ct) ct (seq 0 w))
            (map cmirror (flat_map stride_slots (seq 0 m)),
             map tmirror (flat_map stride_slots (seq 0 m)))
            (seq 0 (length (srow (m * w)))) =
            Some (map cmirror (flat_map stride_slots (seq 0 (S m))),
                  map tmirror (flat_map stride_slots (seq 0 (S m))))).
    { rewrite seq_snoc, flat_map_app. simpl flat_map. rewrite app_nil_r, !map_app.
      apply (push_stride m (_, _)). assumption. }
    rewrite P. rewrite <- seq_snoc.
    cbn [fst]. rewrite map_length, strides_length by assumption.
    rewrite Nat.div_mul by lia.
    assert (M : m <= m * w) by nia.
    destruct (vset_defined rs1 (m + 1) (Some (start (S m * w)))) as [rs2 V]; [lia|].
    rewrite V. exists rs2. split; [reflexivity|]. split.
    + rewrite (vset_length _ _ _ _ V). assumption.
    + intros s Hle. destruct (Nat.eq_dec s (m + 1)) as [->|N].
      * rewrite (vget_vset_same _ _ _ _ V). do 3 f_equal. lia.
      * rewrite (vget_vset_other _ _ _ _ _ V N). apply G1. lia.
Qed.

Lemma scalar_loop rs0 pre m :
  length rs0 = length rows + 1 ->
  (forall s, s <= ni / w -> vget rs0 s = Some (Some (start (s * w)))) ->
  vget rs0 ni = Some (Some (start ni)) ->
  length pre = start ni ->
  ni + m <= length rows ->
  exists rs1,
    foldM (fun st i =>
      row_i <- vget rows i ;;
      ct <- foldM (fun ct p => push_entry w ni rows i p ct)
            (snd st) (seq 0 (length row_i)) ;;
      rs <- vset (fst st) (i + 1) (Some (length (fst ct))) ;;
      Some (rs, ct)) (rs0, (map cmirror pre, map tmirror pre)) (seq ni m) =
    Some (rs1, (map cmirror (pre ++ flat_map row_slots (seq ni m)),
                map tmirror (pre ++ flat_map row_slots (seq ni m)))) /\
    length rs1 = length rows + 1 /\
    (forall s, s <= ni / w -> vget rs1 s = Some (Some (start (s * w)))) /\
    (forall i, ni <= i <= ni + m -> vget rs1 i = Some (Some (start i))).
Proof.
  intros L0 Gs Gn Lp. assert (W := w_pos). assert (Ln := wt_le WT).
  assert (Dv : ni / w <= ni) by (apply div_le_self).
  induction m as [|m IH]; intros Hm.
  - exists rs0. simpl. rewrite app_nil_r. repeat split; auto.
    intros i Hi. replace i with ni by lia. assumption.
  - destruct IH as [rs1 [E [L1 [G1 G2]]]]; [lia|].
    rewrite seq_snoc, foldM_app, E. cbn [foldM fst snd].
    rewrite vget_srow by lia.
    assert (P : foldM (fun ct p => push_entry w ni rows (ni + m) p ct)
            (map cmirror (pre ++ flat_map row_slots (seq ni m)),
             map tmirror (pre ++ flat_map row_slots (seq ni m)))
            (seq 0 (length (srow (ni + m)))) =
            Some (map cmirror (pre ++ flat_map row_slots (seq ni (S m))),
                  map tmirror (pre ++ flat_map row_slots (seq ni (S m))))).
    { rewrite seq_snoc, flat_map_app. simpl flat_map. rewrite app_nil_r, app_assoc.
      rewrite (map_app _ _ (row_slots (ni + m))), (map_app tmirror _ (row_slots (ni + m))).
      apply (push_row (ni + m) (_, _)). lia. }
    rewrite P. rewrite <- seq_snoc.
    cbn [fst]. rewrite map_length, app_length, Lp, rows_length by lia.
    destruct (vset_defined rs1 (ni + m + 1) (Some (start (ni + S m)))) as [rs2 V]; [lia|].
    rewrite V. exists rs2. split; [reflexivity|]. split; [|split].
    + rewrite (vset_length _ _ _ _ V). assumption.
    + intros s Hle. rewrite (vget_vset_other _ _ _ _ _ V) by lia. auto.
    + intros i Hle. destruct (Nat.eq_dec i (ni + m + 1)) as [->|N].
      * rewrite (vget_vset_same _ _ _ _ V). do 3 f_equal. lia.
      * rewrite (vget_vset_other _ _ _ _ _ V N). apply G2. lia.
Qed.

(** Everything the accessors need to know about the result of reinit. *)
Record pattern_ok (p : simd_pattern) : Prop := {
  pk_width : sp_width p = w;
  pk_internal : sp_internal p = ni;
  pk_nrows : n_rows p = length rows;
  pk_rs_stride : forall s, s <= ni / w -> rs p s = Some (start (s * w));
  pk_rs_row : forall i, ni <= i <= length rows -> rs p i = Some (start i);
  pk_column : forall i q, valid (i, q) -> vget (column_indices p) (slot i q) = Some (scol i q);
  pk_transposed : forall i q, valid (i, q) ->
     vget (indices_transposed p) (slot i q) = Some (tmirror (i, q)) }.

Lemma all_slots_nth i q : valid (i, q) ->
  nth_error (flat_map stride_slots (seq 0 (ni / w)) ++
             flat_map row_slots (seq ni (length rows - ni))) (slot i q) = Some (i, q).
Proof.
  intros [Hi Hq]; simpl in *. assert (W := w_pos). assert (Ln := wt_le WT).
  assert (Lv : length (flat_map stride_slots (seq 0 (ni / w))) = start ni)
    by (rewrite strides_length; [rewrite ni_div; reflexivity|rewrite ni_div; lia]).
  unfold slot. destruct (i <? ni) eqn:E.
  - apply Nat.ltb_lt in E.
    assert (Hs : i / w < ni / w).
    { assert (X := r0_stride i E). assert (Y := ni_div). nia. }
    assert (B := r0_stride i E).
    rewrite nth_error_app1.
    + rewrite <- (strides_length (i / w)) by lia.
      rewrite <- Nat.add_assoc.
      apply nth_flat_seq; [assumption|]. simpl.
      unfold stride_slots.
      assert (Lp : length (flat_map (fun p => map (fun k => (i / w * w + k, p)) (seq 0 w)) (seq 0 q)) = q * w)
        by (apply length_flat_uniform; intros; rewrite map_length, seq_length; reflexivity).
      replace (i mod w + q * w) with
        (length (flat_map (fun p => map (fun k => (i / w * w + k, p)) (seq 0 w)) (seq 0 q)) + i mod w)
        by lia.
      apply (nth_flat_seq (fun p => map (fun k => (i / w * w + k, p)) (seq 0 w))).
      * rewrite <- (wt_uniform WT i E). assumption.
      * simpl. rewrite nth_error_map.
        assert (Mo := Nat.mod_upper_bound i w ltac:(lia)).
        rewrite (nth_error_nth' _ 0) by (rewrite seq_length; assumption).
        rewrite seq_nth by assumption. simpl.
        do 2 f_equal. rewrite (Nat.div_mod i w) at 3 by lia. lia.
    + rewrite Lv. assert (A := slot_lt_internal i q E Hq).
      assert (Mo := Nat.mod_upper_bound i w ltac:(lia)).
      assert (M := start_mono (S (i / w) * w) ni ltac:(simpl; lia) Ln). lia.
  - apply Nat.ltb_ge in E.
    rewrite nth_error_app2.
    + rewrite Lv.
      assert (R := rows_length (i - ni) ltac:(lia)).
      replace (ni + (i - ni)) with i in R by lia.
      replace (start i + q - start ni) with
        (length (flat_map row_slots (seq ni (i - ni))) + q) by lia.
      apply nth_flat_seq; [lia|].
      replace (ni + (i - ni)) with i by lia. unfold row_slots.
      rewrite nth_error_map. rewrite (nth_error_nth' _ 0) by (rewrite seq_length; assumption).
      rewrite seq_nth by assumption. reflexivity.
    + rewrite Lv. assert (M := start_mono ni i E ltac:(lia)). lia.
Qed.

Lemma reinit_static_ok n_owned :
  exists p, reinit_static w ni n_owned rows = Some p /\ pattern_ok p /\ sp_owned p = n_owned.
Proof.
  assert (W := w_pos). assert (Ln := wt_le WT).
  unfold reinit_static.
  destruct (vset_defined (repeat (@None nat) (length rows + 1)) 0 (Some 0)) as [rs0 V0];
    [rewrite repeat_length; lia|].
  rewrite V0.
  assert (L0 : length rs0 = length rows + 1)
    by (rewrite (vset_length _ _ _ _ V0), repeat_length; reflexivity).
  destruct (vectorized_loop rs0 (ni / w) L0 (vget_vset_same _ _ _ _ V0)) as [rs1 [E1 [L1 G1]]];
    [rewrite ni_div; lia|].
  match type of E1 with _ = ?r => change (vectorized_part w ni rows (rs0, ([], [])) = r) in E1 end.
  rewrite E1. cbn [fst snd].
  rewrite (G1 (ni / w)) by lia.
  destruct (vset_defined rs1 ni (Some (start (ni / w * w)))) as [rs2 V2]; [lia|].
  rewrite V2. rewrite ni_div in V2.
  destruct (scalar_loop rs2 (flat_map stride_slots (seq 0 (ni / w))) (length rows - ni))
    as [rs3 [E3 [L3 [G3 G4]]]].
  - rewrite (vset_length _ _ _ _ V2). assumption.
  - intros s Hs. destruct (Nat.eq_dec s ni) as [->|N].
    + rewrite (vget_vset_same _ _ _ _ V2). do 2 f_equal.
      assert (ni / w = ni) by (assert (ni / w <= ni) by (apply div_le_self); lia).
      assert (Q := ni_div). rewrite H in Q. rewrite Q. reflexivity.
    + rewrite (vget_vset_other _ _ _ _ _ V2 N). auto.
  - rewrite (vget_vset_same _ _ _ _ V2). reflexivity.
  - rewrite strides_length; [rewrite ni_div; reflexivity|rewrite ni_div; lia].
  - lia.
  - match type of E3 with foldM _ ?st _ = ?r =>
      change (scalar_part w ni rows st = r) in E3 end.
    rewrite E3. eexists. split; [reflexivity|]. split; [|reflexivity].
    constructor; simpl; auto.
    + unfold n_rows; simpl. rewrite L3. lia.
    + intros s Hs. unfold rs; simpl. rewrite G3 by assumption. reflexivity.
    + intros i Hi. unfold rs; simpl. rewrite G4 by lia. reflexivity.
    + intros i q Hv. unfold vget. rewrite nth_error_map, (all_slots_nth i q Hv). reflexivity.
    + intros i q Hv. unfold vget. rewrite nth_error_map, (all_slots_nth i q Hv). reflexivity.
Qed.

(** ** Accessors on a good pattern *)
Variable p : simd_pattern.
Hypothesis PK : pattern_ok p.

Lemma rs_internal i : i < ni -> rs p (i / w) = Some (start (i / w * w)).
Proof.
  intros H. apply (pk_rs_stride p PK). apply Nat.div_le_mono; [assert (W := w_pos); lia|lia].
Qed.

Lemma entry_addr_spec nc i q d :
  i < length rows -> entry_addr p nc i q d = Some (addr nc i q d).
Proof.
  intros Hi. unfold entry_addr, addr. rewrite (pk_internal p PK), (pk_width p PK).
  destruct (i <? ni) eqn:E.
  - apply Nat.ltb_lt in E. rewrite rs_internal by assumption. reflexivity.
  - apply Nat.ltb_ge in E. rewrite (pk_rs_row p PK) by lia. reflexivity.
Qed.

Lemma column_spec i q : valid (i, q) -> column p i q = Some (scol i q).
Proof.
  intros Hv. assert (C := pk_column p PK i q Hv). destruct Hv as [Hi Hq]; simpl in *.
  unfold column. unfold slot in C. rewrite (pk_internal p PK), (pk_width p PK).
  destruct (i <? ni) eqn:E.
  - apply Nat.ltb_lt in E. rewrite rs_internal by assumption. assumption.
  - apply Nat.ltb_ge in E. rewrite (pk_rs_row p PK) by lia. assumption.
Qed.

Lemma row_length_spec i : i < length rows -> row_length p i = Some (slen i).
Proof.
  intros Hi. assert (W := w_pos). assert (Ln := wt_le WT).
  unfold row_length. rewrite (pk_internal p PK), (pk_width p PK).
  destruct (i <? ni) eqn:E.
  - apply Nat.ltb_lt in E. rewrite rs_internal by assumption.
    assert (B := r0_stride i E).
    assert (Hs : i / w + 1 <= ni / w).
    { assert (Y := ni_div). nia. }
    rewrite (pk_rs_stride p PK) by assumption.
    replace (i / w + 1) with (S (i / w)) by lia.
    rewrite start_next by assumption.
    f_equal. rewrite (wt_uniform WT i E).
    replace (start (i / w * w) + w * slen (i / w * w) - start (i / w * w))
      with (slen (i / w * w) * w) by lia.
    apply Nat.div_mul. lia.
  - apply Nat.ltb_ge in E. rewrite !(pk_rs_row p PK) by lia.
    replace (i + 1) with (S i) by lia. rewrite start_S by assumption. f_equal. lia.
Qed.

Lemma n_nonzero_spec : n_nonzero p = Some (start (length rows)).
Proof.
  unfold n_nonzero. rewrite (pk_nrows p PK). apply (pk_rs_row p PK).
  assert (Ln := wt_le WT). lia.
Qed.

(** ** Reading and writing *)
Section RW.
Context {A : Type}.
Implicit Types data : list A.

Lemma get_tensor_spec nc data i q :
  i < length rows ->
  get_tensor p nc data i q = mapM (fun d => vget data (addr nc i q d)) (seq 0 nc).
Proof.
  intros Hi. unfold get_tensor. apply mapM_ext. intros d _.
  rewrite entry_addr_spec by assumption. reflexivity.
Qed.

Lemma vget_map_seq (f : nat -> A) n d : d < n -> vget (map f (seq 0 n)) d = Some (f d).
Proof.
  intros H. unfold vget. rewrite nth_error_map.
  rewrite (nth_error_nth' _ 0) by (rewrite seq_length; assumption).
  rewrite seq_nth by assumption. reflexivity.
Qed.

Lemma write_tensor_spec nc data i q (f : nat -> A) :
  i < length rows ->
  write_tensor p nc data i q (map f (seq 0 nc)) =
  write_all data (map (fun d => (addr nc i q d, f d)) (seq 0 nc)).
Proof.
  intros Hi. unfold write_tensor, write_all. rewrite foldM_map. apply foldM_ext.
  intros d b Hd. apply in_seq in Hd.
  rewrite entry_addr_spec by assumption. rewrite vget_map_seq by lia. reflexivity.
Qed.

Lemma lane_div i k : i mod w = 0 -> k < w -> (i + k) / w = i / w.
Proof.
  intros Hm Hk. assert (W := w_pos). symmetry. apply Nat.div_unique with k; [assumption|].
  assert (D := Nat.div_mod i w ltac:(lia)). lia.
Qed.
Lemma lane_mod i k : i mod w = 0 -> k < w -> (i + k) mod w = k.
Proof.
  intros Hm Hk. assert (W := w_pos). symmetry. apply Nat.mod_unique with (i / w); [assumption|].
  assert (D := Nat.div_mod i w ltac:(lia)). lia.
Qed.
Lemma lane_row i k : i < ni -> i mod w = 0 -> k < w -> i + k < ni.
Proof.
  intros Hi Hm Hk. assert (B := r0_stride i Hi). assert (W := w_pos).
  assert (D := Nat.div_mod i w ltac:(lia)). lia.
Qed.
Lemma lane_start i : i mod w = 0 -> i / w * w = i.
Proof. intros Hm. assert (W := w_pos). assert (D := Nat.div_mod i w ltac:(lia)). lia. Qed.
Lemma lane_len i k : i < ni -> i mod w = 0 -> k < w -> slen (i + k) = slen i.
Proof.
  intros Hi Hm Hk. assert (L := lane_row i k Hi Hm Hk).
  rewrite (wt_uniform WT (i + k)) by assumption.
  rewrite lane_div by assumption. rewrite lane_start by assumption. reflexivity.
Qed.
Lemma lane_addr nc i k q d : i < ni -> i mod w = 0 -> k < w ->
  addr nc (i + k) q d = (start (i / w * w) + q * w) * nc + d * w + k.
Proof.
  intros Hi Hm Hk. assert (L := lane_row i k Hi Hm Hk).
  unfold addr. rewrite (proj2 (Nat.ltb_lt _ _) L).
  rewrite lane_div, lane_mod by assumption. reflexivity.
Qed.

Lemma get_tensor_v_spec nc data i q :
  i < ni -> i mod w = 0 ->
  get_tensor_v p nc data i q =
  mapM (fun d => mapM (fun k => vget data (addr nc (i + k) q d)) (seq 0 w)) (seq 0 nc).
Proof.
  intros Hi Hm. unfold get_tensor_v. rewrite (pk_width p PK), rs_internal by assumption.
  apply mapM_ext. intros d _. apply mapM_ext. intros k Hk. apply in_seq in Hk.
  rewrite lane_addr by (assumption || lia). reflexivity.
Qed.

Lemma write_tensor_v_spec nc data i q (f : nat -> nat -> A) :
  i < ni -> i mod w = 0 ->
  write_tensor_v p nc data i q (map (fun d => map (f d) (seq 0 w)) (seq 0 nc)) =
  write_all data (flat_map (fun d => map (fun k => (addr nc (i + k) q d, f d k)) (seq 0 w))
                    (seq 0 nc)).
Proof.
  intros Hi Hm. unfold write_tensor_v. rewrite (pk_width p PK), rs_internal by assumption.
  unfold write_all. rewrite foldM_flat_map. apply foldM_ext.
  intros d b Hd. apply in_seq in Hd.
  assert (E : vget (map (fun d => map (f d) (seq 0 w)) (seq 0 nc)) d = Some (map (f d) (seq 0 w))).
  { unfold vget. rewrite nth_error_map, (nth_error_nth' _ 0) by (rewrite seq_length; lia).
    rewrite seq_nth by lia. reflexivity. }
  rewrite E, foldM_map. apply foldM_ext. intros k b' Hk. apply in_seq in Hk.
  rewrite vget_map_seq by lia. simpl. rewrite lane_addr by (assumption || lia). reflexivity.
Qed.

(** Lane-wise scalar writes *)
Lemma lanes_write_spec nc data i q (f : nat -> nat -> A) :
  i < ni -> i mod w = 0 ->
  foldM (fun data k => write_tensor p nc data (i + k) q (map (fun d => f d k) (seq 0 nc)))
    data (seq 0 w) =
  write_all data (flat_map (fun k => map (fun d => (addr nc (i + k) q d, f d k)) (seq 0 nc))
                    (seq 0 w)).
Proof.
  intros Hi Hm. unfold write_all. rewrite foldM_flat_map. apply foldM_ext.
  intros k b Hk. apply in_seq in Hk.
  assert (L := lane_row i k Hi Hm ltac:(lia)). assert (Ln := wt_le WT).
  rewrite write_tensor_spec by lia. unfold write_all. rewrite !foldM_map. reflexivity.
Qed.

Lemma entry_nodup nc i q : valid (i, q) -> NoDup (map (addr nc i q) (seq 0 nc)).
Proof.
  intros [Hi Hq]; simpl in *. apply map_NoDup_in; [|apply seq_NoDup].
  intros d d' Hd Hd' E. apply in_seq in Hd, Hd'.
  apply (addr_inj nc i q d i q d'); auto; lia.
Qed.

Lemma lanes_nodup nc i q : i < ni -> i mod w = 0 -> q < slen i ->
  NoDup (map fst (flat_map (fun k => map (fun d => (addr nc (i + k) q d, (d, k))) (seq 0 nc)) (seq 0 w))).
Proof.
  intros Hi Hm Hq. assert (Ln := wt_le WT).
  assert (G : forall m, m <= w ->
    NoDup (flat_map (fun k => map (fun d => addr nc (i + k) q d) (seq 0 nc)) (seq 0 m))).
  { induction m as [|m IH]; intros Hle; [constructor|].
    rewrite seq_snoc, flat_map_app. simpl flat_map. rewrite app_nil_r.
    assert (V : forall k, k < w -> valid (i + k, q)).
    { intros k Hk. split; simpl.
      - assert (X := lane_row i k Hi Hm Hk). lia.
      - rewrite lane_len by assumption. assumption. }
    assert (ND1 := IH ltac:(lia)).
    assert (ND2 := entry_nodup nc (i + m) q (V m ltac:(lia))).
    assert (Dj : forall x, In x (flat_map (fun k => map (fun d => addr nc (i + k) q d) (seq 0 nc)) (seq 0 m)) ->
                 ~ In x (map (addr nc (i + m) q) (seq 0 nc))).
    { intros x H1 H2. apply in_flat_map in H1 as [k [Hk H1]].
      apply in_map_iff in H1 as [d [<- Hd]]. apply in_map_iff in H2 as [d' [E Hd']].
      apply in_seq in Hk, Hd, Hd'.
      destruct (V k ltac:(lia)) as [A1 A2]. destruct (V m ltac:(lia)) as [B1 B2]. simpl in *.
      apply addr_inj in E; auto; lia. }
    clear - ND1 ND2 Dj. induction (flat_map _ (seq 0 m)) as [|x l IHl]; simpl; [assumption|].
    inversion ND1; subst. constructor.
    - rewrite in_app_iff. intros [H|H]; [auto|]. apply (Dj x); [left; reflexivity|assumption].
    - apply IHl; [assumption|]. intros y Hy. apply Dj. right; assumption. }
  specialize (G w (le_n _)).
  rewrite flat_map_concat_map, concat_map, map_map, <- flat_map_concat_map.
  erewrite flat_map_ext; [exact G|]. intros k. rewrite map_map. reflexivity.
Qed.

Lemma vec_write_is_lane_writes nc data i q (f : nat -> nat -> A) :
  i < ni -> i mod w = 0 -> q < slen i ->
  write_tensor_v p nc data i q (map (fun d => map (f d) (seq 0 w)) (seq 0 nc)) =
  foldM (fun data k => write_tensor p nc data (i + k) q (map (fun d => f d k) (seq 0 nc)))
    data (seq 0 w).
Proof.
  intros Hi Hm Hq. rewrite lanes_write_spec, write_tensor_v_spec by assumption.
  symmetry. apply write_all_perm.
  - apply (flat_map_swap (fun k d => (addr nc (i + k) q d, f d k))).
  - assert (X := lanes_nodup nc i q Hi Hm Hq).
    rewrite flat_map_concat_map, concat_map, map_map, <- flat_map_concat_map in X |- *.
    erewrite flat_map_ext; [exact X|]. intros k. rewrite !map_map. reflexivity.
Qed.

(** Reads after a scalar write *)
Lemma write_defined nc data i q (f : nat -> A) :
  valid (i, q) -> length data = start (length rows) * nc ->
  exists data', write_tensor p nc data i q (map f (seq 0 nc)) = Some data' /\
    length data' = length data.
Proof.
  intros [Hi Hq] L; simpl in *.
  rewrite write_tensor_spec by assumption.
  destruct (write_all_defined (map (fun d => (addr nc i q d, f d)) (seq 0 nc)) data) as [data' E].
  - intros a x Hin. apply in_map_iff in Hin as [d [E Hd]]. inversion E; subst.
    apply in_seq in Hd. rewrite L. apply addr_bound; auto; lia.
  - exists data'. split; [assumption|]. eapply write_all_length; eauto.
Qed.

Lemma read_same nc data data' i q (f : nat -> A) :
  valid (i, q) ->
  write_tensor p nc data i q (map f (seq 0 nc)) = Some data' ->
  get_tensor p nc data' i q = Some (map f (seq 0 nc)).
Proof.
  intros V E. assert (ND := entry_nodup nc i q V). destruct V as [Hi Hq]; simpl in *.
  rewrite write_tensor_spec in E by assumption.
  rewrite get_tensor_spec by assumption.
  assert (G : forall l, (forall d, In d l -> d < nc) ->
    mapM (fun d => vget data' (addr nc i q d)) l = Some (map f l)).
  { induction l as [|d l IH]; intros H; [reflexivity|]. simpl.
    rewrite (write_all_same _ _ _ (addr nc i q d) (f d) E).
    - rewrite IH by (intros; apply H; right; assumption). reflexivity.
    - rewrite map_map. assumption.
    - apply in_map_iff. exists d. split; [reflexivity|]. apply in_seq.
      specialize (H d (or_introl eq_refl)). lia. }
  apply G. intros d Hd. apply in_seq in Hd. lia.
Qed.

Lemma read_other nc data data' i q i' q' (f : nat -> A) :
  valid (i, q) -> valid (i', q') -> (i', q') <> (i, q) ->
  write_tensor p nc data i q (map f (seq 0 nc)) = Some data' ->
  get_tensor p nc data' i' q' = get_tensor p nc data i' q'.
Proof.
  intros [Hi Hq] [Hi' Hq'] Hne E; simpl in *.
  rewrite write_tensor_spec in E by assumption.
  rewrite !get_tensor_spec by assumption.
  apply mapM_ext. intros d Hd. apply in_seq in Hd.
  apply (write_all_other _ _ _ _ E). rewrite map_map. simpl.
  intros Hin. apply in_map_iff in Hin as [d' [E' Hd']]. apply in_seq in Hd'.
  apply addr_inj in E'; auto; try lia. destruct E' as [-> [-> _]]. congruence.
Qed.

Lemma get_defined nc data i q :
  valid (i, q) -> length data = start (length rows) * nc ->
  exists e, get_tensor p nc data i q = Some e.
Proof.
  intros [Hi Hq] L; simpl in *. rewrite get_tensor_spec by assumption.
  apply mapM_total. intros d Hd. apply in_seq in Hd.
  apply vget_defined. rewrite L. apply addr_bound; auto; lia.
Qed.

(** Transposed access *)
Lemma transposed_slot i q c q' :
  valid (i, q) -> scol i q = c -> q' < slen c -> scol c q' = i ->
  vget (indices_transposed p) (slot i q) = Some (slot c q').
Proof.
  intros V <- Hq' E. rewrite (pk_transposed p PK i q V). f_equal.
  unfold tmirror; simpl. destruct V as [Hi Hq]; simpl in *.
  rewrite (transposed_spec i (scol i q) q'); auto. apply scol_range; auto.
Qed.

Lemma get_transposed_spec nc data i q c q' :
  0 < nc -> valid (i, q) -> scol i q = c -> q' < slen c -> scol c q' = i ->
  get_transposed_tensor p nc data i q = get_tensor p nc data c q'.
Proof.
  intros Hnc V Ec Hq' E.
  assert (T := transposed_slot i q c q' V Ec Hq' E).
  assert (C := pk_column p PK i q V).
  destruct V as [Hi Hq]; simpl in *. assert (W := w_pos).
  assert (Hc : c < length rows) by (subst c; apply scol_range; auto).
  rewrite get_tensor_spec by assumption.
  unfold get_transposed_tensor. rewrite (pk_internal p PK), (pk_width p PK).
  assert (S : (if i <? ni then b <- rs p (i / w) ;; Some (b + i mod w + q * w)
               else b <- rs p i ;; Some (b + q)) = Some (slot i q)).
  { unfold slot. destruct (i <? ni) eqn:Ei.
    - apply Nat.ltb_lt in Ei. rewrite rs_internal by assumption. reflexivity.
    - apply Nat.ltb_ge in Ei. rewrite (pk_rs_row p PK) by lia. reflexivity. }
  rewrite S, T, C. rewrite Ec.
  destruct (1 <? nc) eqn:En.
  - unfold slot, addr. destruct (c <? ni) eqn:Ei; [|reflexivity].
    apply Nat.ltb_lt in Ei. assert (B := r0_stride c Ei).
    destruct (start_multiple (c / w) ltac:(lia)) as [m Em].
    assert (Mo := Nat.mod_upper_bound c w ltac:(lia)).
    apply mapM_ext. intros d _. f_equal.
    rewrite Em.
    replace (m * w + c mod w + q' * w) with (c mod w + (m + q') * w) by lia.
    rewrite Nat.div_add, (Nat.div_small (c mod w)) by lia.
    rewrite Nat.mod_add, (Nat.mod_small (c mod w)) by lia. simpl. lia.
  - apply Nat.ltb_ge in En. replace nc with 1 by lia. simpl.
    rewrite slot_addr. destruct (vget data (addr 1 c q' 0)); reflexivity.
Qed.

Lemma get_transposed_v_spec data i q :
  i < ni -> i mod w = 0 ->
  get_transposed_v p data i q =
  mapM (fun k => index <- vget (indices_transposed p) (slot (i + k) q) ;; vget data index) (seq 0 w).
Proof.
  intros Hi Hm. unfold get_transposed_v. rewrite (pk_width p PK), rs_internal by assumption.
  apply mapM_ext. intros k Hk. apply in_seq in Hk.
  assert (L := lane_row i k Hi Hm ltac:(lia)).
  unfold slot. rewrite (proj2 (Nat.ltb_lt _ _) L), lane_div, lane_mod by (assumption || lia).
  replace (start (i / w * w) + q * w + k) with (start (i / w * w) + k + q * w) by lia.
  reflexivity.
Qed.
End RW.
End Static.

(** ** dsp_minimal *)

Lemma insert_col_In j r x : In x (insert_col j r) <-> x = j \/ In x r.
Proof.
  induction r as [|k r IH]; simpl; [intuition|].
  destruct (j <? k) eqn:E1; [simpl; intuition|].
  destruct (j =? k) eqn:E2; simpl.
  - apply Nat.eqb_eq in E2. subst. intuition.
  - rewrite IH. intuition.
Qed.

Lemma insert_col_sorted j r : StronglySorted lt r -> StronglySorted lt (insert_col j r).
Proof.
  induction 1 as [|k r Hs IH Hf]; simpl; [repeat constructor|].
  destruct (j <? k) eqn:E1.
  - apply Nat.ltb_lt in E1. constructor; [constructor; assumption|].
    constructor; [assumption|]. eapply Forall_impl; [|eassumption]. simpl; intros; lia.
  - apply Nat.ltb_ge in E1. destruct (j =? k) eqn:E2; [constructor; assumption|].
    apply Nat.eqb_neq in E2. constructor; [assumption|].
    apply Forall_forall. intros x Hx. apply insert_col_In in Hx as [->|Hx]; [lia|].
    rewrite Forall_forall in Hf. auto.
Qed.

Lemma dsp_add_spec rows i j :
  i < length rows ->
  exists rows', dsp_add rows i j = Some rows' /\ length rows' = length rows /\
    (forall a, nth a rows' [] = if a =? i then insert_col j (nth a rows []) else nth a rows []).
Proof.
  intros Hi. unfold dsp_add, vget. rewrite (nth_error_nth' _ []) by assumption.
  destruct (vset_defined rows i (insert_col j (nth i rows []))) as [rows' V]; [assumption|].
  exists rows'. split; [assumption|]. split; [eapply vset_length; eauto|].
  intros a. destruct (a =? i) eqn:E.
  - apply Nat.eqb_eq in E. subst a.
    assert (G := vget_vset_same _ _ _ _ V). apply nth_error_nth with (d := []) in G. assumption.
  - apply Nat.eqb_neq in E. assert (G := vget_vset_other _ _ _ _ _ V E).
    unfold vget in G. rewrite !nth_default_eq || idtac.
    destruct (nth_error rows a) as [r|] eqn:Er.
    + rewrite (nth_error_nth _ _ _ G), (nth_error_nth _ _ _ Er). reflexivity.
    + rewrite !nth_overflow; [reflexivity| |]; apply nth_error_None; assumption.
Qed.

Definition couples (n_owned : nat) (l : list (nat * nat)) (a b : nat) : Prop :=
  In (a, b) l \/ (n_owned <= a /\ In (b, a) l).

Lemma dsp_loop n_owned n_rel l :
  n_owned <= n_rel ->
  (forall i j, In (i, j) l -> i < n_owned /\ j < n_rel) ->
  exists rows,
    foldM (fun rows ij => rows1 <- dsp_add rows (fst ij) (snd ij) ;;
             if n_owned <=? snd ij then dsp_add rows1 (snd ij) (fst ij) else Some rows1)
      (repeat [] n_rel) l = Some rows /\
    length rows = n_rel /\
    (forall a, StronglySorted lt (nth a rows [])) /\
    (forall a b, a < n_rel -> (In b (nth a rows []) <-> couples n_owned l a b)).
Proof.
  intros Hon. induction l as [|[i j] l IH] using rev_ind; intros H.
  - exists (repeat [] n_rel). split; [reflexivity|]. split; [apply repeat_length|].
    assert (N : forall a, nth a (repeat (@nil nat) n_rel) [] = []) by (intros; apply nth_repeat).
    split; intros a; rewrite N; [constructor|]. intros b _. unfold couples; simpl. tauto.
  - destruct IH as [rows [E [L [S M]]]]; [intros; apply H; apply in_app_iff; auto|].
    rewrite foldM_app, E. cbn [foldM fst snd].
    destruct (H i j) as [Hi Hj]; [apply in_app_iff; right; left; reflexivity|].
    destruct (dsp_add_spec rows i j) as [r1 [E1 [L1 N1]]]; [lia|]. rewrite E1.
    destruct (n_owned <=? j) eqn:Ej.
    + apply Nat.leb_le in Ej.
      destruct (dsp_add_spec r1 j i) as [r2 [E2 [L2 N2]]]; [lia|]. rewrite E2.
      exists r2. split; [reflexivity|]. split; [lia|]. split.
      * intros a. rewrite N2, N1. destruct (a =? j), (a =? i); auto using insert_col_sorted.
      * intros a b Ha. rewrite N2, N1. unfold couples. rewrite !in_app_iff. simpl.
        specialize (M a b Ha). unfold couples in M.
        destruct (Nat.eqb_spec a j) as [Q1|Q1]; destruct (Nat.eqb_spec a i) as [Q2|Q2]; try lia;
          rewrite ?insert_col_In, M; subst;
          intuition (try congruence; try lia;
            repeat match goal with X : (_, _) = (_, _) |- _ => inversion X; clear X; subst end;
            auto; try lia; try congruence).
    + apply Nat.leb_gt in Ej.
      exists r1. split; [reflexivity|]. split; [lia|]. split.
      * intros a. rewrite N1. destruct (a =? i); auto using insert_col_sorted.
      * intros a b Ha. rewrite N1. unfold couples. rewrite !in_app_iff. simpl.
        specialize (M a b Ha). unfold couples in M.
        destruct (Nat.eqb_spec a i) as [Q2|Q2];
          rewrite ?insert_col_In, M; subst;
          intuition (try congruence; try lia;
            repeat match goal with X : (_, _) = (_, _) |- _ => inversion X; clear X; subst end;
            auto; try lia; try congruence).
Qed.

Lemma static_rows_length rows : length (static_rows rows) = length rows.
Proof. unfold static_rows. rewrite map_length, combine_length, seq_length. lia. Qed.

Lemma nth_error_combine {B C} (l : list B) (m : list C) i x y :
  nth_error l i = Some x -> nth_error m i = Some y ->
  nth_error (combine l m) i = Some (x, y).
Proof.
  revert m i; induction l as [|b l IH]; intros [|c m] [|i] H1 H2; simpl in *; try discriminate.
  - congruence.
  - auto.
Qed.

Lemma static_rows_nth rows i : i < length rows ->
  srow (static_rows rows) i = static_row i (nth i rows []).
Proof.
  intros Hi. unfold srow, static_rows.
  apply nth_error_nth. rewrite nth_error_map.
  rewrite (nth_error_combine _ _ _ i (nth i rows [])); [reflexivity| |].
  - rewrite (nth_error_nth' _ 0) by (rewrite seq_length; assumption).
    rewrite seq_nth by assumption. reflexivity.
  - apply nth_error_nth'. assumption.
Qed.

Lemma static_row_In i r j : In j (static_row i r) <-> j = i \/ In j r.
Proof.
  unfold static_row. simpl. rewrite filter_In.
  destruct (Nat.eq_dec j i) as [->|N].
  - intuition.
  - assert (negb (j =? i) = true) by (apply negb_true_iff, Nat.eqb_neq; assumption).
    intuition.
Qed.

Lemma sorted_nodup r : StronglySorted lt r -> NoDup r.
Proof.
  induction 1 as [|x r Hs IH Hf]; constructor; auto.
  intros Hin. rewrite Forall_forall in Hf. specialize (Hf _ Hin). lia.
Qed.

Lemma sorted_filter f r : StronglySorted lt r -> StronglySorted lt (filter f r).
Proof.
  induction 1 as [|x r Hs IH Hf]; simpl; [constructor|].
  destruct (f x); [|assumption]. constructor; [assumption|].
  apply Forall_forall. intros y Hy. apply filter_In in Hy as [Hy _].
  rewrite Forall_forall in Hf. auto.
Qed.

Lemma static_row_nodup i r : StronglySorted lt r -> NoDup (static_row i r).
Proof.
  intros H. unfold static_row. constructor.
  - rewrite filter_In. intros [_ Q]. rewrite Nat.eqb_refl in Q. discriminate.
  - apply NoDup_filter. apply sorted_nodup. assumption.
Qed.

Definition dsp_pairs (n_owned : nat) (dsp : list (list nat)) : list (nat * nat) :=
  flat_map (fun i => map (fun j => (i, j)) (nth i dsp [])) (seq 0 n_owned).

Lemma dsp_minimal_pairs n_owned n_rel dsp :
  length dsp = n_owned ->
  dsp_minimal n_owned n_rel dsp =
  foldM (fun rows ij => rows1 <- dsp_add rows (fst ij) (snd ij) ;;
             if n_owned <=? snd ij then dsp_add rows1 (snd ij) (fst ij) else Some rows1)
      (repeat [] n_rel) (dsp_pairs n_owned dsp).
Proof.
  intros L. unfold dsp_minimal, dsp_pairs. rewrite foldM_flat_map. apply foldM_ext.
  intros i b Hi. apply in_seq in Hi. unfold vget.
  rewrite (nth_error_nth' _ []) by lia. rewrite foldM_map. reflexivity.
Qed.

Lemma dsp_pairs_In n_owned dsp a b :
  In (a, b) (dsp_pairs n_owned dsp) <-> a < n_owned /\ In b (nth a dsp []).
Proof.
  unfold dsp_pairs. rewrite in_flat_map. split.
  - intros [i [Hi Hin]]. apply in_seq in Hi. apply in_map_iff in Hin as [j [E Hj]].
    inversion E; subst. split; [lia|assumption].
  - intros [Ha Hb]. exists a. split; [apply in_seq; lia|].
    apply in_map_iff. exists b. auto.
Qed.

(** The static pattern built from a good input. *)
Lemma good_input_rows w ni n_owned n_rel dsp :
  good_input w ni n_owned n_rel dsp ->
  exists rows0, dsp_minimal n_owned n_rel dsp = Some rows0 /\
    let rows := static_rows rows0 in
    length rows = n_rel /\ wf_static rows /\ wf_strides rows w ni /\
    (forall i, i < n_rel -> StronglySorted lt (tl (srow rows i))) /\
    (forall i, i < n_owned -> Permutation (srow rows i) (nth i dsp [])) /\
    (forall i j, n_owned <= i -> i < n_rel ->
       (In j (srow rows i) <-> j = i \/ (j < n_owned /\ In i (nth j dsp [])))).
Proof.
  intros G.
  assert (Lr := gi_rows _ _ _ _ _ G). assert (Ho := gi_owned _ _ _ _ _ G).
  assert (Nth : forall i, i < n_owned -> nth_error dsp i = Some (nth i dsp []))
    by (intros; apply nth_error_nth'; lia).
  destruct (dsp_loop n_owned n_rel (dsp_pairs n_owned dsp) Ho) as [rows0 [E [L [S M]]]].
  { intros i j Hin. apply dsp_pairs_In in Hin as [Hi Hj]. split; [assumption|].
    eapply (gi_range _ _ _ _ _ G); eauto. }
  exists rows0. rewrite dsp_minimal_pairs by assumption. split; [assumption|].
  assert (LR : length (static_rows rows0) = n_rel) by (rewrite static_rows_length; assumption).
  assert (SR : forall i, i < n_rel -> srow (static_rows rows0) i = static_row i (nth i rows0 []))
    by (intros; apply static_rows_nth; lia).
  assert (Own : forall i j, i < n_owned -> (In j (srow (static_rows rows0) i) <-> In j (nth i dsp []))).
  { intros i j Hi. rewrite SR by lia. rewrite static_row_In, M by lia. unfold couples.
    rewrite !dsp_pairs_In. assert (D := gi_diag _ _ _ _ _ G i _ (Nth i Hi)).
    split; [intros [->|[Q|Q]]; [assumption|tauto|lia]|tauto]. }
  assert (Gho : forall i j, n_owned <= i -> i < n_rel ->
       (In j (srow (static_rows rows0) i) <-> j = i \/ (j < n_owned /\ In i (nth j dsp [])))).
  { intros i j Hi Hi'. rewrite SR by lia. rewrite static_row_In, M by lia. unfold couples.
    rewrite !dsp_pairs_In. split; [intros [->|[Q|Q]]; [auto|lia|tauto]|].
    intros [->|Q]; [auto|]. right; right. tauto. }
  assert (ND : forall i, i < n_rel -> NoDup (srow (static_rows rows0) i))
    by (intros i Hi; rewrite SR by lia; apply static_row_nodup; auto).
  assert (Pm : forall i, i < n_owned -> Permutation (srow (static_rows rows0) i) (nth i dsp [])).
  { intros i Hi. apply NoDup_Permutation.
    - apply ND; lia.
    - eapply (gi_nodup _ _ _ _ _ G); eauto.
    - intros j. apply Own. assumption. }
  cbn zeta. split; [assumption|]. split; [|split; [|split; [|split]]]; auto.
  - constructor; rewrite ?LR.
    + intros i Hi. rewrite SR by lia. unfold static_row. eauto.
    + exact ND.
    + intros i j Hi Hj. destruct (le_lt_dec n_owned i) as [L1|L1].
      * apply Gho in Hj; [|assumption..]. lia.
      * apply Own in Hj; [|assumption]. eapply (gi_range _ _ _ _ _ G); eauto.
    + intros i j Hi Hj. destruct (le_lt_dec n_owned i) as [L1|L1].
      * apply Gho in Hj; [|assumption..]. destruct Hj as [->|[Hj1 Hj2]].
        -- rewrite SR by lia. rewrite static_row_In. auto.
        -- apply Own; assumption.
      * apply Own in Hj; [|assumption].
        assert (Hjr : j < n_rel) by (eapply (gi_range _ _ _ _ _ G); eauto).
        destruct (le_lt_dec n_owned j) as [L2|L2].
        -- apply Gho; [assumption..|]. auto.
        -- apply Own; [assumption|].
           eapply (gi_sym _ _ _ _ _ G); eauto.
  - assert (W := gi_width _ _ _ _ _ G). constructor; rewrite ?LR.
    + apply G.
    + apply G.
    + assert (Q := gi_internal _ _ _ _ _ G). lia.
    + intros i Hi. assert (Q := gi_internal _ _ _ _ _ G). unfold slen.
      assert (D := Nat.div_mod i w ltac:(lia)). assert (Mo := Nat.mod_upper_bound i w ltac:(lia)).
      rewrite (Permutation_length (Pm i ltac:(lia))).
      rewrite (Permutation_length (Pm (i / w * w) ltac:(lia))).
      eapply (gi_uniform _ _ _ _ _ G (i / w) (i mod w)); [lia|lia| |].
      * apply Nth. lia.
      * replace (i / w * w + i mod w) with i by lia. apply Nth. lia.
  - intros i Hi. rewrite SR by assumption. simpl. apply sorted_filter. auto.
Qed.

(** Wrap-up: a good input gives a pattern with all the properties used by the
    accessors. *)
Lemma good_reinit w ni n_owned n_rel dsp p :
  good_input w ni n_owned n_rel dsp ->
  reinit w ni n_owned n_rel dsp = Some p ->
  exists rows, length rows = n_rel /\ wf_static rows /\ wf_strides rows w ni /\
    pattern_ok rows w ni p /\ sp_owned p = n_owned /\
    (forall i, i < n_rel -> StronglySorted lt (tl (srow rows i))) /\
    (forall i, i < n_owned -> Permutation (srow rows i) (nth i dsp [])) /\
    (forall i j, n_owned <= i -> i < n_rel ->
       (In j (srow rows i) <-> j = i \/ (j < n_owned /\ In i (nth j dsp [])))).
Proof.
  intros G E. destruct (good_input_rows _ _ _ _ _ G) as [rows0 [E0 [L [WS [WT [S [Pm Gh]]]]]]].
  unfold reinit in E. rewrite E0 in E.
  destruct (reinit_static_ok _ _ _ WS WT n_owned) as [p' [E' [PK O]]].
  rewrite E' in E. inversion E; subst p'.
  exists (static_rows rows0). exact (conj L (conj WS (conj WT (conj PK (conj O (conj S (conj Pm Gh))))))).
Qed.

Lemma good_reinit_defined w ni n_owned n_rel dsp :
  good_input w ni n_owned n_rel dsp ->
  exists p, reinit w ni n_owned n_rel dsp = Some p.
Proof.
  intros G. destruct (good_input_rows _ _ _ _ _ G) as [rows0 [E0 [L [WS [WT _]]]]].
  destruct (reinit_static_ok _ _ _ WS WT n_owned) as [p [E' _]].
  exists p. unfold reinit. rewrite E0. assumption.
Qed.

Lemma nth_map_seq {A} (f : nat -> A) n k d : k < n -> nth k (map f (seq 0 n)) d = f k.
Proof.
  intros H. apply nth_error_nth. rewrite nth_error_map.
  rewrite (nth_error_nth' _ 0) by (rewrite seq_length; assumption).
  rewrite seq_nth by assumption. reflexivity.
Qed.

Lemma list_as_map {A} (e : list A) n x0 :
  length e = n -> e = map (fun d => nth d e x0) (seq 0 n).
Proof.
  intros <-. induction e as [|x e IH]; [reflexivity|].
  simpl. f_equal. rewrite <- seq_shift, map_map. exact IH.
Qed.

Lemma entry_as_map {A} (e : list A) nc :
  0 < nc -> length e = nc -> exists f, e = map f (seq 0 nc).
Proof.
  intros H L. destruct e as [|x e]; simpl in L; [lia|].
  exists (fun d => nth d (x :: e) x). apply list_as_map. exact L.
Qed.

Lemma mapM_pure {A B} (f : A -> option B) (g : A -> B) l :
  (forall x, In x l -> f x = Some (g x)) -> mapM f l = Some (map g l).
Proof.
  induction l as [|x l IH]; simpl; intros H; [reflexivity|].
  rewrite (H x), IH; auto.
Qed.

(** Stride-wise writes are lane-wise writes, also on the level of lists. *)
Lemma lanes_as_map {A} (lanes : list (list A)) w nc :
  0 < w -> 0 < nc -> length lanes = w -> (forall e, In e lanes -> length e = nc) ->
  exists f : nat -> nat -> A,
    lanes = map (fun k => map (fun d => f d k) (seq 0 nc)) (seq 0 w).
Proof.
  intros Hw Hnc L E.
  destruct lanes as [|l0 lanes0]; simpl in L; [lia|].
  assert (length l0 = nc) by (apply E; simpl; auto).
  destruct l0 as [|x l0]; simpl in *; [lia|].
  set (ls := (x :: l0) :: lanes0) in *.
  exists (fun d k => nth d (nth k ls []) x).
  rewrite (list_as_map ls w []) at 1 by exact L.
  apply map_ext_in. intros k Hk. apply in_seq in Hk. apply list_as_map. apply E.
  apply (nth_In ls). unfold ls; simpl; lia.
Qed.

Lemma mapM_nth_lanes {A} (f : nat -> nat -> A) w nc :
  mapM (fun d => mapM (fun e => nth_error e d)
          (map (fun k => map (fun d => f d k) (seq 0 nc)) (seq 0 w))) (seq 0 nc) =
  Some (map (fun d => map (f d) (seq 0 w)) (seq 0 nc)).
Proof.
  apply mapM_pure. intros d Hd. apply in_seq in Hd.
  rewrite mapM_map. apply mapM_pure. intros k Hk. apply (vget_map_seq (fun d => f d k)). lia.
Qed.

(** ** Refinement of the abstract matrix *)
Section Ops.
Context {A : Type}.
Variables (rows : list (list nat)) (w ni : nat) (p : simd_pattern).
Hypothesis WS : wf_static rows.
Hypothesis WT : wf_strides rows w ni.
Hypothesis PK : pattern_ok rows w ni p.
Variable nc : nat.
Hypothesis Hnc : 0 < nc.

Definition represents (data : list A) (m : nat -> nat -> list A) : Prop :=
  length data = csr_start rows (length rows) * nc /\
  forall i q, valid rows (i, q) -> get_tensor p nc data i q = Some (m i q).

Lemma represents_ext data m m' :
  (forall i q, m i q = m' i q) -> represents data m -> represents data m'.
Proof. intros H [L R]. split; [assumption|]. intros. rewrite <- H. auto. Qed.

Lemma n_rows_spec : n_rows p = length rows.
Proof. exact (pk_nrows _ _ _ _ PK). Qed.

Lemma write_represents data m i q e :
  valid rows (i, q) -> length e = nc -> represents data m ->
  exists data', write_tensor p nc data i q e = Some data' /\
    represents data' (apply_op m (WriteOne i q e)).
Proof.
  intros V L [Ld R]. destruct (entry_as_map e nc Hnc L) as [f ->].
  destruct (write_defined rows w ni WT p PK nc data i q f V Ld) as [data' [E L']].
  exists data'. split; [assumption|]. split; [lia|].
  intros i' q' V'. simpl.
  destruct (Nat.eqb_spec i' i) as [->|N]; [destruct (Nat.eqb_spec q' q) as [->|N]|]; simpl.
  - eapply read_same; eauto.
  - rewrite <- R by assumption. eapply read_other with (i := i) (q := q); eauto; intros Q; inversion Q; auto.
  - rewrite <- R by assumption. eapply read_other with (i := i) (q := q); eauto; intros Q; inversion Q; auto.
Qed.

(** The abstract effect of writing the lanes one after the other. *)
Definition lane_m (m : nat -> nat -> list A) i q (g : nat -> list A) n :=
  fun i' q' => if andb (q' =? q) (andb (i <=? i') (i' <? i + n)) then g (i' - i) else m i' q'.

Lemma lane_m_S m i q g n i' q' :
  lane_m m i q g (S n) i' q' = apply_op (lane_m m i q g n) (WriteOne (i + n) q (g n)) i' q'.
Proof.
  unfold lane_m. simpl.
  destruct (Nat.eqb_spec q' q); destruct (Nat.leb_spec i i'); destruct (Nat.ltb_spec i' (i + S n));
    destruct (Nat.eqb_spec i' (i + n)); destruct (Nat.ltb_spec i' (i + n)); simpl;
    try reflexivity; try lia.
  subst i'. f_equal. lia.
Qed.

Lemma lanes_represents data m i q (f : nat -> nat -> A) n :
  i < ni -> i mod w = 0 -> q < slen rows i -> n <= w -> represents data m ->
  exists data',
    foldM (fun data k => write_tensor p nc data (i + k) q (map (fun d => f d k) (seq 0 nc)))
      data (seq 0 n) = Some data' /\
    represents data' (lane_m m i q (fun k => map (fun d => f d k) (seq 0 nc)) n).
Proof.
  intros Hi Hm Hq. induction n as [|n IH]; intros Hn R.
  - exists data. split; [reflexivity|]. eapply represents_ext; [|exact R].
    intros. unfold lane_m.
    destruct (q0 =? q); destruct (Nat.leb_spec i i0); destruct (Nat.ltb_spec i0 (i + 0)); simpl;
      try reflexivity; lia.
  - destruct IH as [data' [E R']]; [lia|assumption|].
    assert (V : valid rows (i + n, q)).
    { assert (i + n < ni) by (eapply lane_row; eauto; lia).
      assert (ni <= length rows) by apply WT. split; simpl; [lia|].
      rewrite (lane_len rows w ni WT i n Hi Hm) by lia. assumption. }
    destruct (write_represents data' _ (i + n) q (map (fun d => f d n) (seq 0 nc)) V
                ltac:(rewrite map_length, seq_length; reflexivity) R') as [data2 [E2 R2]].
    exists data2. rewrite seq_snoc, foldM_app, E. simpl. rewrite E2. split; [reflexivity|].
    eapply represents_ext; [|exact R2]. intros. symmetry. apply lane_m_S.
Qed.

Lemma op_represents data m o :
  op_ok p nc o -> represents data m ->
  exists data', run_op p nc data o = Some data' /\ represents data' (apply_op m o).
Proof.
  destruct o as [i q e|i q lanes]; simpl; intros Ok R.
  - destruct Ok as [Hi [[len [El Hq]] L]]. rewrite n_rows_spec in Hi.
    rewrite (row_length_spec rows w ni WT p PK i Hi) in El. inversion El; subst.
    apply write_represents; [split; simpl; assumption|assumption|assumption].
  - destruct Ok as [Hi [Hm [[len [El Hq]] [L E]]]].
    rewrite (pk_internal _ _ _ _ PK) in Hi. rewrite (pk_width _ _ _ _ PK) in *.
    assert (Hw := wt_width _ _ _ WT). assert (Hl := wt_le _ _ _ WT).
    rewrite (row_length_spec rows w ni WT p PK i ltac:(lia)) in El. inversion El; subst len.
    destruct (lanes_as_map lanes w nc Hw Hnc L E) as [f ->].
    rewrite mapM_nth_lanes.
    destruct (lanes_represents data m i q f w Hi Hm Hq (le_n _) R) as [data' [E' R']].
    exists data'. split.
    + erewrite vec_write_is_lane_writes by eauto. exact E'.
    + eapply represents_ext; [|exact R']. intros i' q'. unfold lane_m.
      destruct (Nat.eqb_spec q' q); [|reflexivity].
      destruct (Nat.leb_spec i i'); simpl; [|reflexivity].
      destruct (Nat.ltb_spec i' (i + w)).
      * rewrite nth_map_seq by lia. reflexivity.
      * rewrite nth_overflow; [reflexivity|]. rewrite map_length, seq_length. lia.
Qed.

Lemma ops_represent os data m :
  Forall (op_ok p nc) os -> represents data m ->
  exists data', foldM (run_op p nc) data os = Some data' /\
    represents data' (fold_left apply_op os m).
Proof.
  revert data m; induction os as [|o os IH]; intros data m F R; simpl; [eauto|].
  inversion F; subst. destruct (op_represents data m o) as [d1 [E1 R1]]; auto.
  rewrite E1. apply IH; auto.
Qed.

Lemma some_represents data :
  length data = csr_start rows (length rows) * nc -> exists m, represents data m.
Proof.
  intros L.
  exists (fun i q => match get_tensor p nc data i q with Some e => e | None => [] end).
  split; [assumption|]. intros i q V.
  destruct (get_defined rows w ni WT p PK nc data i q V L) as [e ->]. reflexivity.
Qed.

(** *** read_in *)
Lemma row_writes (wr : list A -> nat -> option (list A))
      (g : (nat -> nat -> list A) -> nat -> (nat -> nat -> list A)) n data m :
  (forall c data m, c < n -> represents data m ->
     exists data', wr data c = Some data' /\ represents data' (g m c)) ->
  represents data m ->
  exists data', foldM wr data (seq 0 n) = Some data' /\
    represents data' (fold_left g (seq 0 n) m).
Proof.
  intros H R. induction n as [|n IH].
  - exists data. split; [reflexivity|exact R].
  - destruct IH as [d1 [E1 R1]]; [intros; apply H; [lia|assumption]|].
    destruct (H n d1 _ (Nat.lt_succ_diag_r n) R1) as [d2 [E2 R2]].
    exists d2. rewrite seq_snoc, foldM_app, E1, fold_left_app. simpl. rewrite E2. auto.
Qed.

Definition filled (mm : nat -> nat -> list A) (m : nat -> nat -> list A) lo hi : nat -> nat -> list A :=
  fun i q => if andb (lo <=? i) (i <? hi) then mm i (scol rows i q) else m i q.

Definition col_filled (mm m : nat -> nat -> list A) lo hi c : nat -> nat -> list A :=
  fun i q => if andb (andb (lo <=? i) (i <? hi)) (q <? c) then mm i (scol rows i q) else m i q.

Lemma represents_ext_valid data m m' :
  (forall i q, valid rows (i, q) -> m i q = m' i q) -> represents data m -> represents data m'.
Proof. intros H [L R]. split; [assumption|]. intros. rewrite <- H by assumption. auto. Qed.

Lemma read_in_stride mm data m s :
  (forall i j, length (mm i j) = nc) ->
  s * w + w <= ni -> represents data m ->
  exists data',
    (len <- row_length p (s * w) ;;
      foldM (fun data col_idx =>
          lanes <- mapM (fun k => j <- column p (s * w + k) col_idx ;; Some (mm (s * w + k) j))
                     (seq 0 (sp_width p)) ;;
          temp <- mapM (fun d => mapM (fun e => vget e d) lanes) (seq 0 nc) ;;
          write_tensor_v p nc data (s * w) col_idx temp)
        data (seq 0 len)) = Some data' /\
    represents data' (filled mm m (s * w) (s * w + w)).
Proof.
  intros Lm Hs R. assert (Hw := wt_width _ _ _ WT). assert (Hle := wt_le _ _ _ WT).
  rewrite (row_length_spec rows w ni WT p PK (s * w) ltac:(lia)).
  assert (Hm : (s * w) mod w = 0) by (apply Nat.mod_mul; lia).
  assert (Hsl : s * w < ni) by lia.
  assert (Main : forall n, n <= slen rows (s * w) -> exists data',
    foldM (fun data col_idx =>
          lanes <- mapM (fun k => j <- column p (s * w + k) col_idx ;; Some (mm (s * w + k) j))
                     (seq 0 (sp_width p)) ;;
          temp <- mapM (fun d => mapM (fun e => vget e d) lanes) (seq 0 nc) ;;
          write_tensor_v p nc data (s * w) col_idx temp)
        data (seq 0 n) = Some data' /\
    represents data' (col_filled mm m (s * w) (s * w + w) n)).
  { induction n as [|n IH]; intros Hn.
    - exists data. split; [reflexivity|]. eapply represents_ext; [|exact R]. intros i q.
      unfold col_filled. rewrite andb_false_r. reflexivity.
    - destruct IH as [d1 [E1 R1]]; [lia|].
      set (lanes := map (fun k => mm (s * w + k) (scol rows (s * w + k) n)) (seq 0 w)).
      destruct (fun ok => op_represents d1 _ (WriteStride (s * w) n lanes) ok R1) as [d2 [E2 R2]].
      { simpl. rewrite (pk_internal _ _ _ _ PK), (pk_width _ _ _ _ PK).
        split; [assumption|]. split; [assumption|]. split.
        - exists (slen rows (s * w)). split; [|lia].
          apply (row_length_spec rows w ni WT p PK). lia.
        - split; [unfold lanes; rewrite map_length, seq_length; reflexivity|].
          intros e He. apply in_map_iff in He as [k [<- _]]. apply Lm. }
      exists d2. split.
      + rewrite seq_snoc, foldM_app, E1. simpl foldM. rewrite (pk_width _ _ _ _ PK).
        rewrite (mapM_pure _ (fun k => mm (s * w + k) (scol rows (s * w + k) n))).
        * fold lanes. unfold run_op in E2. unfold vget.
          destruct (mapM (fun d => mapM (fun e => nth_error e d) lanes) (seq 0 nc)); [|discriminate].
          rewrite E2. reflexivity.
        * intros k Hk. apply in_seq in Hk.
          rewrite (column_spec rows w ni WT p PK (s * w + k) n); [reflexivity|].
          split; simpl; [lia|]. rewrite (lane_len rows w ni WT (s * w) k Hsl Hm) by lia. lia.
      + eapply represents_ext; [|exact R2]. intros i q. simpl. unfold col_filled.
        destruct (Nat.eqb_spec q n) as [->|N]; destruct (Nat.leb_spec (s * w) i); simpl.
        * destruct (Nat.ltb_spec i (s * w + w)); simpl.
          -- rewrite (proj2 (Nat.ltb_lt n (S n))) by lia. unfold lanes.
             rewrite nth_map_seq by lia.
             replace (s * w + (i - s * w)) with i by lia. reflexivity.
          -- apply nth_overflow. unfold lanes. rewrite map_length, seq_length. lia.
        * reflexivity.
        * destruct (Nat.ltb_spec i (s * w + w)); simpl; [|reflexivity].
          destruct (Nat.ltb_spec q n); destruct (Nat.ltb_spec q (S n)); try reflexivity; lia.
        * reflexivity. }
  destruct (Main (slen rows (s * w)) (le_n _)) as [d [E R']]. exists d. split; [exact E|].
  eapply represents_ext_valid; [|exact R']. intros i q [V1 V2]. simpl in *.
  unfold col_filled, filled.
  destruct (Nat.leb_spec (s * w) i); destruct (Nat.ltb_spec i (s * w + w)); simpl; try reflexivity.
  replace i with (s * w + (i - s * w)) in V2 by lia.
  rewrite (lane_len rows w ni WT (s * w) (i - s * w) Hsl Hm) in V2 by lia.
  rewrite (proj2 (Nat.ltb_lt _ _) V2). reflexivity.
Qed.

Lemma read_in_row mm data m i :
  (forall i j, length (mm i j) = nc) ->
  i < length rows -> represents data m ->
  exists data',
    (len <- row_length p i ;;
      foldM (fun data col_idx =>
          j <- column p i col_idx ;; write_tensor p nc data i col_idx (mm i j))
        data (seq 0 len)) = Some data' /\
    represents data' (filled mm m i (S i)).
Proof.
  intros Lm Hi R. rewrite (row_length_spec rows w ni WT p PK i Hi).
  assert (Main : forall n, n <= slen rows i -> exists data',
    foldM (fun data col_idx =>
          j <- column p i col_idx ;; write_tensor p nc data i col_idx (mm i j))
        data (seq 0 n) = Some data' /\
    represents data' (col_filled mm m i (S i) n)).
  { induction n as [|n IH]; intros Hn.
    - exists data. split; [reflexivity|]. eapply represents_ext; [|exact R]. intros i' q.
      unfold col_filled. rewrite andb_false_r. reflexivity.
    - destruct IH as [d1 [E1 R1]]; [lia|].
      assert (V : valid rows (i, n)) by (split; simpl; lia).
      destruct (write_represents d1 _ i n (mm i (scol rows i n)) V (Lm _ _) R1) as [d2 [E2 R2]].
      exists d2. split.
      + rewrite seq_snoc, foldM_app, E1. simpl foldM.
        rewrite (column_spec rows w ni WT p PK i n V), E2. reflexivity.
      + eapply represents_ext; [|exact R2]. intros i' q. simpl. unfold col_filled.
        destruct (Nat.eqb_spec i' i) as [->|N]; simpl.
        * rewrite (proj2 (Nat.leb_le i i)), (proj2 (Nat.ltb_lt i (S i))) by lia. simpl.
          destruct (Nat.eqb_spec q n) as [E0|N]; destruct (Nat.ltb_spec q n); simpl;
            destruct (Nat.ltb_spec q (S n)); try lia; subst; reflexivity.
        * destruct (Nat.leb_spec i i'); destruct (Nat.ltb_spec i' (S i)); simpl; try reflexivity. lia. }
  destruct (Main (slen rows i) (le_n _)) as [d [E R']]. exists d. split; [exact E|].
  eapply represents_ext_valid; [|exact R']. intros i' q [V1 V2]. simpl in *.
  unfold col_filled, filled.
  destruct (Nat.leb_spec i i'); destruct (Nat.ltb_spec i' (S i)); simpl; try reflexivity.
  replace i' with i in * by lia. rewrite (proj2 (Nat.ltb_lt _ _) V2). reflexivity.
Qed.

Lemma filled_chain mm m a b c i q :
  a <= b -> b <= c -> filled mm (filled mm m a b) b c i q = filled mm m a c i q.
Proof.
  intros H1 H2. unfold filled.
  destruct (Nat.leb_spec a i); destruct (Nat.leb_spec b i); destruct (Nat.ltb_spec i b);
    destruct (Nat.ltb_spec i c); simpl; try reflexivity; lia.
Qed.

Lemma read_in_represents mm data m :
  (forall i j, length (mm i j) = nc) ->
  ni <= sp_owned p -> sp_owned p <= length rows -> represents data m ->
  exists data', read_in p nc mm data = Some data' /\
    represents data' (fun i q => if i <? sp_owned p then mm i (scol rows i q) else m i q).
Proof.
  intros Lm H1 H2 R. unfold read_in. rewrite (pk_internal _ _ _ _ PK), (pk_width _ _ _ _ PK).
  assert (Hw := wt_width _ _ _ WT). assert (Hle := wt_le _ _ _ WT).
  assert (Nd := ni_div rows w ni WT).
  assert (P1 : forall n, n <= ni / w -> exists data',
    foldM (fun data s =>
      len <- row_length p (s * w) ;;
      foldM (fun data col_idx =>
          lanes <- mapM (fun k => j <- column p (s * w + k) col_idx ;; Some (mm (s * w + k) j))
                     (seq 0 w) ;;
          temp <- mapM (fun d => mapM (fun e => vget e d) lanes) (seq 0 nc) ;;
          write_tensor_v p nc data (s * w) col_idx temp)
        data (seq 0 len))
    data (seq 0 n) = Some data' /\ represents data' (filled mm m 0 (n * w))).
  { induction n as [|n IH]; intros Hn.
    - exists data. split; [reflexivity|]. eapply represents_ext; [|exact R]. intros i q. unfold filled.
      simpl. reflexivity.
    - destruct IH as [d1 [E1 R1]]; [lia|].
      destruct (read_in_stride mm d1 _ n Lm ltac:(nia) R1) as [d2 [E2 R2]].
      rewrite (pk_width _ _ _ _ PK) in E2.
      exists d2. rewrite seq_snoc, foldM_app, E1. simpl foldM.
      split; [rewrite E2; reflexivity|].
      eapply represents_ext; [|exact R2]. intros i q.
      rewrite filled_chain by lia. f_equal. lia. }
  destruct (P1 (ni / w) (le_n _)) as [d1 [E1 R1]]. rewrite E1. rewrite Nd in R1.
  assert (P2 : forall n, ni + n <= length rows -> exists data',
    foldM (fun data i =>
      len <- row_length p i ;;
      foldM (fun data col_idx =>
          j <- column p i col_idx ;;
          write_tensor p nc data i col_idx (mm i j))
        data (seq 0 len)) d1 (seq ni n) = Some data' /\
    represents data' (filled mm m 0 (ni + n))).
  { induction n as [|n IH]; intros Hn.
    - exists d1. split; [reflexivity|]. rewrite Nat.add_0_r. exact R1.
    - destruct IH as [d2 [E2 R2]]; [lia|].
      destruct (read_in_row mm d2 _ (ni + n) Lm ltac:(lia) R2) as [d3 [E3 R3]].
      exists d3. rewrite seq_snoc, foldM_app, E2. simpl foldM.
      split; [rewrite E3; reflexivity|].
      eapply represents_ext; [|exact R3]. intros i q.
      rewrite filled_chain by lia. f_equal. lia. }
  destruct (P2 (sp_owned p - ni) ltac:(lia)) as [d2 [E2 R2]].
  exists d2. split; [exact E2|]. eapply represents_ext; [|exact R2].
  intros i q. unfold filled. simpl. replace (ni + (sp_owned p - ni)) with (sp_owned p) by lia.
  reflexivity.
Qed.
End Ops.

Lemma good_inputb_ok w ni n_owned n_rel dsp :
  good_inputb w ni n_owned n_rel dsp = true -> good_input w ni n_owned n_rel dsp.
Proof.
  unfold good_inputb. rewrite !andb_true_iff, forallb_forall.
  intros [[[[[H1 H2] H3] H4] H5] H6].
  apply Nat.ltb_lt in H1. apply Nat.eqb_eq in H2. apply Nat.leb_le in H3.
  apply Nat.leb_le in H4. apply Nat.eqb_eq in H5.
  assert (K : forall i r, nth_error dsp i = Some r -> i < n_owned /\ nth i dsp [] = r).
  { intros i r E. split; [rewrite <- H5; apply nth_error_Some; congruence|apply nth_error_nth; assumption]. }
  assert (M : forall i r, nth_error dsp i = Some r ->
      NoDup r /\ In i r /\ (forall j, In j r -> j < n_rel /\ (n_owned <= j \/ In i (nth j dsp []))) /\
      (ni <= i \/ length r = length (nth (i / w * w) dsp []))).
  { intros i r E. destruct (K i r E) as [Hi <-].
    specialize (H6 i ltac:(apply in_seq; lia)). rewrite !andb_true_iff, forallb_forall in H6.
    destruct H6 as [[[A B] C] D]. split; [|split; [|split]].
    - destruct (list_eq_dec Nat.eq_dec (nodup Nat.eq_dec (nth i dsp [])) (nth i dsp [])) as [Q|];
        [rewrite <- Q; apply NoDup_nodup|discriminate].
    - destruct (in_dec Nat.eq_dec i (nth i dsp [])); [assumption|discriminate].
    - intros j Hj. specialize (C j Hj). rewrite andb_true_iff, orb_true_iff in C.
      destruct C as [C1 C2]. apply Nat.ltb_lt in C1. split; [assumption|].
      destruct C2 as [C2|C2]; [left; apply Nat.leb_le; assumption|right].
      destruct (in_dec Nat.eq_dec i (nth j dsp [])); [assumption|discriminate].
    - rewrite orb_true_iff in D. destruct D as [D|D]; [left; apply Nat.leb_le; assumption|].
      right. apply Nat.eqb_eq. assumption. }
  constructor; auto.
  - exists (ni / w). assert (Q := Nat.div_mod ni w ltac:(lia)). lia.
  - intros i r E. apply (M i r E).
  - intros i r E. apply (M i r E).
  - intros i r j E Hj. apply (M i r E). assumption.
  - intros i j r r' E E' Hj. destruct (M i r E) as [_ [_ [Q _]]]. destruct (Q j Hj) as [_ [Q2|Q2]].
    + destruct (K _ _ E'). lia.
    + destruct (K _ _ E') as [_ <-]. assumption.
  - intros s k r r' Hk Hs E E'. destruct (M _ _ E') as [_ [_ [_ [Q|Q]]]]; [lia|].
    rewrite Q. destruct (K _ _ E) as [_ <-]. do 3 f_equal.
    rewrite Nat.div_add_l by lia. rewrite Nat.div_small by lia. lia.
Qed.

(** ** Statements of the property theorems *)

Lemma C03_reinit_pattern_proof :
  forall w ni n_owned n_rel dsp,
    good_input w ni n_owned n_rel dsp ->
    exists p, reinit w ni n_owned n_rel dsp = Some p /\
      n_rows p = n_rel /\
      forall i, i < n_rel ->
        exists tail, row_length p i = Some (S (length tail)) /\
          (forall q, q <= length tail -> column p i q = Some (nth q (i :: tail) 0)) /\
          StronglySorted lt tail /\
          (i < n_owned -> Permutation (i :: tail) (nth i dsp [])) /\
          (n_owned <= i -> forall j,
              In j tail <-> j < n_owned /\ In i (nth j dsp [])).
Proof.
  intros w ni n_owned n_rel dsp G.
  destruct (good_reinit_defined _ _ _ _ _ G) as [p E]. exists p. split; [assumption|].
  destruct (good_reinit _ _ _ _ _ _ G E) as [rows [L [WS [WT [PK [O [S [Pm Gh]]]]]]]].
  split; [rewrite (pk_nrows _ _ _ _ PK); assumption|].
  intros i Hi. destruct (ws_head _ WS i ltac:(lia)) as [t Et].
  exists t. rewrite (row_length_spec rows w ni WT p PK i ltac:(lia)).
  assert (Len : slen rows i = Datatypes.S (length t)) by (unfold slen; rewrite Et; reflexivity).
  split; [congruence|]. split; [|split; [|split]].
  - intros q Hq. rewrite (column_spec rows w ni WT p PK i q) by (split; simpl; lia).
    unfold scol. rewrite Et. reflexivity.
  - specialize (S i Hi). rewrite Et in S. exact S.
  - intros Hio. specialize (Pm i Hio). rewrite Et in Pm. exact Pm.
  - intros Hio j. specialize (Gh i j Hio Hi). rewrite Et in Gh. simpl in Gh.
    assert (ND := ws_nodup _ WS i ltac:(lia)). rewrite Et in ND. inversion ND; subst.
    split.
    + intros Hj. destruct (proj1 Gh (or_intror Hj)) as [->|Q]; [contradiction|assumption].
    + intros Q. destruct (proj2 Gh (or_intror Q)) as [->|Q2]; [lia|assumption].
Qed.

Lemma C03_transposed_proof :
  forall (A : Type) w ni n_owned n_rel dsp p nc (data : list A) i q j q' len len',
    good_input w ni n_owned n_rel dsp ->
    reinit w ni n_owned n_rel dsp = Some p ->
    0 < nc ->
    i < n_rel -> row_length p i = Some len -> q < len -> column p i q = Some j ->
    row_length p j = Some len' -> q' < len' -> column p j q' = Some i ->
    get_transposed_tensor p nc data i q = get_tensor p nc data j q'.
Proof.
  intros A w ni n_owned n_rel dsp p nc data i q j q' len len' G E Hnc Hi El Hq Ec El' Hq' Ec'.
  destruct (good_reinit _ _ _ _ _ _ G E) as [rows [L [WS [WT [PK [O [S [Pm Gh]]]]]]]].
  rewrite (row_length_spec rows w ni WT p PK i ltac:(lia)) in El. inversion El; subst len.
  rewrite (column_spec rows w ni WT p PK i q) in Ec by (split; simpl; lia). inversion Ec; subst j.
  assert (Hj : scol rows i q < length rows) by (apply scol_range; auto; lia).
  rewrite (row_length_spec rows w ni WT p PK _ Hj) in El'. inversion El'; subst len'.
  rewrite (column_spec rows w ni WT p PK _ q') in Ec' by (split; simpl; lia).
  injection Ec' as Q.
  apply (get_transposed_spec rows w ni WS WT p PK nc data i q _ q'); auto.
  split; simpl; [lia|assumption].
Qed.

Lemma C03_transposed_exists_proof :
  forall w ni n_owned n_rel dsp p i q j len,
    good_input w ni n_owned n_rel dsp ->
    reinit w ni n_owned n_rel dsp = Some p ->
    i < n_rel -> row_length p i = Some len -> q < len -> column p i q = Some j ->
    exists q' len', row_length p j = Some len' /\ q' < len' /\ column p j q' = Some i /\
      forall q'', q'' < len' -> column p j q'' = Some i -> q'' = q'.
Proof.
  intros w ni n_owned n_rel dsp p i q j len G E Hi El Hq Ec.
  destruct (good_reinit _ _ _ _ _ _ G E) as [rows [L [WS [WT [PK [O [S [Pm Gh]]]]]]]].
  rewrite (row_length_spec rows w ni WT p PK i ltac:(lia)) in El. inversion El; subst len.
  rewrite (column_spec rows w ni WT p PK i q) in Ec by (split; simpl; lia). inversion Ec; subst j.
  assert (Hj : scol rows i q < length rows) by (apply scol_range; auto; lia).
  destruct (mirror rows WS i q ltac:(lia) Hq) as [q' [Hq' Q]].
  exists q', (slen rows (scol rows i q)).
  rewrite (row_length_spec rows w ni WT p PK _ Hj).
  split; [reflexivity|]. split; [assumption|].
  rewrite (column_spec rows w ni WT p PK _ q') by (split; simpl; lia).
  split; [congruence|]. intros q'' Hq'' Ec''.
  rewrite (column_spec rows w ni WT p PK _ q'') in Ec'' by (split; simpl; lia).
  injection Ec'' as Q2.
  assert (ND := ws_nodup _ WS _ Hj). apply (proj1 (NoDup_nth _ 0)) with (i := q'') (j := q') in ND; [exact ND|exact Hq''|exact Hq'|].
  exact (eq_trans Q2 (eq_sym Q)).
Qed.

Lemma C03_transposed_vectorized_proof :
  forall (A : Type) w ni n_owned n_rel dsp p (data : list A) i q len,
    good_input w ni n_owned n_rel dsp ->
    reinit w ni n_owned n_rel dsp = Some p ->
    i < ni -> i mod w = 0 -> row_length p i = Some len -> q < len ->
    length data = nnz p ->
    exists lanes, get_transposed_v p data i q = Some lanes /\ length lanes = w /\
      forall k, k < w -> exists x, nth_error lanes k = Some x /\
         get_transposed_tensor p 1 data (i + k) q = Some [x].
Proof.
  intros A w ni n_owned n_rel dsp p data i q len G E Hi Hm El Hq Ld.
  destruct (good_reinit _ _ _ _ _ _ G E) as [rows [L [WS [WT [PK [O [S [Pm Gh]]]]]]]].
  assert (Hle := wt_le _ _ _ WT). assert (Hw := wt_width _ _ _ WT).
  unfold nnz in Ld. rewrite (n_nonzero_spec rows w ni WT p PK) in Ld.
  rewrite (row_length_spec rows w ni WT p PK i ltac:(lia)) in El. inversion El; subst len.
  rewrite (get_transposed_v_spec rows w ni WT p PK data i q Hi Hm).
  assert (Each : forall k, k < w -> exists x,
     (index <- vget (indices_transposed p) (slot rows w ni (i + k) q) ;; vget data index) = Some x /\
     get_transposed_tensor p 1 data (i + k) q = Some [x]).
  { intros k Hk. assert (i + k < ni) by (eapply lane_row; eauto).
    assert (V : valid rows (i + k, q)).
    { split; simpl; [lia|]. rewrite (lane_len rows w ni WT i k Hi Hm Hk). assumption. }
    assert (Hj : scol rows (i + k) q < length rows) by (apply scol_range; auto; apply V).
    destruct (mirror rows WS (i + k) q (proj1 V) (proj2 V)) as [q' [Hq' Q]].
    rewrite (get_transposed_spec rows w ni WS WT p PK 1 data (i + k) q _ q' ltac:(lia) V eq_refl Hq' Q).
    rewrite (transposed_slot rows w ni WS WT p PK (i + k) q _ q' V eq_refl Hq' Q).
    rewrite (get_tensor_spec rows w ni WT p PK 1 data _ q' Hj). simpl.
    rewrite <- slot_addr.
    assert (B := addr_bound rows w ni WT 1 (scol rows (i + k) q) q' 0 Hj Hq' ltac:(lia)).
    rewrite <- slot_addr in B. unfold vget.
    destruct (nth_error data (slot rows w ni (scol rows (i + k) q) q')) as [x|] eqn:Ex.
    - exists x. auto.
    - apply nth_error_None in Ex. lia. }
  destruct (mapM_total (fun k => index <- vget (indices_transposed p) (slot rows w ni (i + k) q) ;;
                                 vget data index) (seq 0 w)) as [lanes El2].
  { intros k Hk. apply in_seq in Hk. destruct (Each k) as [x [Ex _]]; [lia|]. eauto. }
  exists lanes. split; [assumption|]. destruct (mapM_some _ _ _ El2) as [Ll Hl].
  rewrite seq_length in Ll. split; [assumption|]. intros k Hk.
  destruct (Hl k k) as [y [Ey Ny]].
  { rewrite (nth_error_nth' _ 0) by (rewrite seq_length; assumption).
    rewrite seq_nth by assumption. reflexivity. }
  destruct (Each k Hk) as [x [Ex Gx]]. exists y. split; [assumption|]. congruence.
Qed.

Lemma C01_writes_refine_proof :
  forall (A : Type) w ni n_owned n_rel dsp p nc (data : list A) m os,
    good_input w ni n_owned n_rel dsp ->
    reinit w ni n_owned n_rel dsp = Some p ->
    0 < nc -> length data = nnz p * nc ->
    (forall i q len, i < n_rel -> row_length p i = Some len -> q < len ->
        get_tensor p nc data i q = Some (m i q)) ->
    Forall (op_ok p nc) os ->
    exists data', foldM (run_op p nc) data os = Some data' /\
      length data' = length data /\
      forall i q len, i < n_rel -> row_length p i = Some len -> q < len ->
        get_tensor p nc data' i q = Some (fold_left apply_op os m i q).
Proof.
  intros A w ni n_owned n_rel dsp p nc data m os G E Hnc Ld R Ok.
  destruct (good_reinit _ _ _ _ _ _ G E) as [rows [L [WS [WT [PK [O [S [Pm Gh]]]]]]]].
  unfold nnz in Ld. rewrite (n_nonzero_spec rows w ni WT p PK) in Ld.
  destruct (ops_represent rows w ni p WT PK nc Hnc os data m Ok) as [data' [E' [Ld' R']]].
  { split; [assumption|]. intros i q [V1 V2]. simpl in *.
    apply (R i q (slen rows i)); [lia| |assumption].
    apply (row_length_spec rows w ni WT p PK). assumption. }
  exists data'. split; [assumption|]. split; [lia|].
  intros i q len Hi El Hq.
  rewrite (row_length_spec rows w ni WT p PK i ltac:(lia)) in El. inversion El; subst len.
  apply R'. split; simpl; lia.
Qed.

Lemma C01_reads_defined_proof :
  forall (A : Type) w ni n_owned n_rel dsp p nc (data : list A) i q len,
    good_input w ni n_owned n_rel dsp ->
    reinit w ni n_owned n_rel dsp = Some p ->
    length data = nnz p * nc ->
    i < n_rel -> row_length p i = Some len -> q < len ->
    exists e, get_tensor p nc data i q = Some e /\ length e = nc.
Proof.
  intros A w ni n_owned n_rel dsp p nc data i q len G E Ld Hi El Hq.
  destruct (good_reinit _ _ _ _ _ _ G E) as [rows [L [WS [WT [PK [O [S [Pm Gh]]]]]]]].
  unfold nnz in Ld. rewrite (n_nonzero_spec rows w ni WT p PK) in Ld.
  rewrite (row_length_spec rows w ni WT p PK i ltac:(lia)) in El. inversion El; subst len.
  destruct (get_defined rows w ni WT p PK nc data i q) as [e Ee]; [split; simpl; lia|assumption|].
  exists e. split; [assumption|].
  unfold get_tensor in Ee. apply mapM_some in Ee as [Q _]. rewrite seq_length in Q. assumption.
Qed.

Lemma C01_write_read_proof :
  forall (A : Type) w ni n_owned n_rel dsp p nc (data : list A) i q e,
    good_input w ni n_owned n_rel dsp ->
    reinit w ni n_owned n_rel dsp = Some p ->
    0 < nc -> length data = nnz p * nc ->
    op_ok p nc (WriteOne i q e) ->
    exists data', write_tensor p nc data i q e = Some data' /\
      get_tensor p nc data' i q = Some e /\
      forall i' q' len, i' < n_rel -> row_length p i' = Some len -> q' < len ->
        (i', q') <> (i, q) ->
        get_tensor p nc data' i' q' = get_tensor p nc data i' q'.
Proof.
  intros A w ni n_owned n_rel dsp p nc data i q e G E Hnc Ld Ok.
  destruct (good_reinit _ _ _ _ _ _ G E) as [rows [L [WS [WT [PK [O [S [Pm Gh]]]]]]]].
  unfold nnz in Ld. rewrite (n_nonzero_spec rows w ni WT p PK) in Ld.
  destruct (some_represents rows w ni p WT PK nc data Ld) as [m R].
  destruct (op_represents rows w ni p WT PK nc Hnc data m _ Ok R) as [data' [E' R']].
  exists data'. split; [exact E'|].
  simpl in Ok. destruct Ok as [Hi [[len [El Hq]] Le]].
  rewrite (pk_nrows _ _ _ _ PK) in Hi.
  rewrite (row_length_spec rows w ni WT p PK i Hi) in El. inversion El; subst len.
  split.
  - rewrite (proj2 R') by (split; simpl; assumption). simpl. rewrite !Nat.eqb_refl. reflexivity.
  - intros i' q' len Hi' El' Hq' N.
    rewrite (row_length_spec rows w ni WT p PK i' ltac:(lia)) in El'. inversion El'; subst len.
    assert (V : valid rows (i', q')) by (split; simpl; lia).
    rewrite (proj2 R') by assumption. rewrite (proj2 R) by assumption. simpl.
    destruct (Nat.eqb_spec i' i); destruct (Nat.eqb_spec q' q); simpl; congruence.
Qed.

Lemma C01_read_in_proof :
  forall (A : Type) w ni n_owned n_rel dsp p nc (data : list A) (m : nat -> nat -> list A),
    good_input w ni n_owned n_rel dsp ->
    reinit w ni n_owned n_rel dsp = Some p ->
    0 < nc -> length data = nnz p * nc ->
    (forall i j, length (m i j) = nc) ->
    exists data', read_in p nc m data = Some data' /\ length data' = length data /\
      (forall i q j len, i < n_owned -> row_length p i = Some len -> q < len ->
        column p i q = Some j -> get_tensor p nc data' i q = Some (m i j)) /\
      (forall i q len, n_owned <= i -> i < n_rel -> row_length p i = Some len -> q < len ->
        get_tensor p nc data' i q = get_tensor p nc data i q).
Proof.
  intros A w ni n_owned n_rel dsp p nc data m G E Hnc Ld Lm.
  destruct (good_reinit _ _ _ _ _ _ G E) as [rows [L [WS [WT [PK [O [S [Pm Gh]]]]]]]].
  unfold nnz in Ld. rewrite (n_nonzero_spec rows w ni WT p PK) in Ld.
  destruct (some_represents rows w ni p WT PK nc data Ld) as [m0 R].
  assert (Hio := gi_internal _ _ _ _ _ G). assert (Hor := gi_owned _ _ _ _ _ G).
  destruct (read_in_represents rows w ni p WT PK nc Hnc m data m0 Lm) as [data' [E' R']];
    [rewrite O; lia|rewrite O; lia|assumption|].
  exists data'. split; [assumption|]. split; [destruct R, R'; lia|]. rewrite O in R'. split.
  - intros i q j len Hi El Hq Ec.
    rewrite (row_length_spec rows w ni WT p PK i ltac:(lia)) in El. inversion El; subst len.
    assert (V : valid rows (i, q)) by (split; simpl; lia).
    rewrite (column_spec rows w ni WT p PK i q V) in Ec. inversion Ec; subst j.
    rewrite (proj2 R' _ _ V). destruct (Nat.ltb_spec i n_owned); [reflexivity|lia].
  - intros i q len Hi Hi' El Hq.
    rewrite (row_length_spec rows w ni WT p PK i ltac:(lia)) in El. inversion El; subst len.
    assert (V : valid rows (i, q)) by (split; simpl; lia).
    rewrite (proj2 R' _ _ V), (proj2 R _ _ V). destruct (Nat.ltb_spec i n_owned); [lia|reflexivity].
Qed.

Lemma C02_vector_read_proof :
  forall (A : Type) w ni n_owned n_rel dsp p nc (data : list A) i q len,
    good_input w ni n_owned n_rel dsp ->
    reinit w ni n_owned n_rel dsp = Some p ->
    length data = nnz p * nc ->
    i < ni -> i mod w = 0 -> row_length p i = Some len -> q < len ->
    exists regs, get_tensor_v p nc data i q = Some regs /\ length regs = nc /\
      forall d k, d < nc -> k < w ->
        exists reg e x, nth_error regs d = Some reg /\ length reg = w /\
          nth_error reg k = Some x /\
          get_tensor p nc data (i + k) q = Some e /\ nth_error e d = Some x.
Proof.
  intros A w ni n_owned n_rel dsp p nc data i q len G E Ld Hi Hm El Hq.
  destruct (good_reinit _ _ _ _ _ _ G E) as [rows [L [WS [WT [PK [O [S [Pm Gh]]]]]]]].
  unfold nnz in Ld. rewrite (n_nonzero_spec rows w ni WT p PK) in Ld.
  assert (Hle := wt_le _ _ _ WT).
  rewrite (row_length_spec rows w ni WT p PK i ltac:(lia)) in El. inversion El; subst len.
  rewrite (get_tensor_v_spec rows w ni WT p PK nc data i q Hi Hm).
  assert (B : forall k d, k < w -> d < nc ->
     exists x, vget data (addr rows w ni nc (i + k) q d) = Some x).
  { intros k d Hk Hd. assert (i + k < ni) by (eapply lane_row; eauto).
    assert (Q := addr_bound rows w ni WT nc (i + k) q d ltac:(lia)
                   ltac:(rewrite (lane_len rows w ni WT i k Hi Hm Hk); assumption) Hd).
    unfold vget. destruct (nth_error data (addr rows w ni nc (i + k) q d)) eqn:Ex; eauto.
    apply nth_error_None in Ex. lia. }
  destruct (mapM_total (fun d => mapM (fun k => vget data (addr rows w ni nc (i + k) q d)) (seq 0 w))
      (seq 0 nc)) as [regs Er].
  { intros d Hd. apply in_seq in Hd. apply mapM_total. intros k Hk. apply in_seq in Hk.
    apply B; lia. }
  exists regs. split; [assumption|]. destruct (mapM_some _ _ _ Er) as [Lr Hr].
  rewrite seq_length in Lr. split; [assumption|]. intros d k Hd Hk.
  assert (Nseq : forall n a, a < n -> nth_error (seq 0 n) a = Some a).
  { intros n a Ha. rewrite (nth_error_nth' _ 0) by (rewrite seq_length; assumption).
    rewrite seq_nth by assumption. reflexivity. }
  destruct (Hr d d (Nseq _ _ Hd)) as [reg [Ereg Nreg]].
  destruct (mapM_some _ _ _ Ereg) as [Lreg Hreg]. rewrite seq_length in Lreg.
  destruct (Hreg k k (Nseq _ _ Hk)) as [x [Ex Nx]].
  assert (i + k < ni) by (eapply lane_row; eauto).
  rewrite (get_tensor_spec rows w ni WT p PK nc data (i + k) q ltac:(lia)).
  destruct (mapM_total (fun d => vget data (addr rows w ni nc (i + k) q d)) (seq 0 nc)) as [e Ee].
  { intros d' Hd'. apply in_seq in Hd'. apply B; lia. }
  destruct (mapM_some _ _ _ Ee) as [_ He]. destruct (He d d (Nseq _ _ Hd)) as [y [Ey Ny]].
  exists reg, e, x. repeat split; auto. congruence.
Qed.

Lemma C02_vector_write_proof :
  forall (A : Type) w ni n_owned n_rel dsp p nc (data : list A) i q lanes,
    good_input w ni n_owned n_rel dsp ->
    reinit w ni n_owned n_rel dsp = Some p ->
    0 < nc -> length data = nnz p * nc ->
    op_ok p nc (WriteStride i q lanes) ->
    exists data', run_op p nc data (WriteStride i q lanes) = Some data' /\
      foldM (fun data ke => write_tensor p nc data (i + fst ke) q (snd ke))
        data (combine (seq 0 w) lanes) = Some data'.
Proof.
  intros A w ni n_owned n_rel dsp p nc data i q lanes G E Hnc Ld Ok.
  destruct (good_reinit _ _ _ _ _ _ G E) as [rows [L [WS [WT [PK [O [S [Pm Gh]]]]]]]].
  unfold nnz in Ld. rewrite (n_nonzero_spec rows w ni WT p PK) in Ld.
  destruct (some_represents rows w ni p WT PK nc data Ld) as [m R].
  destruct (op_represents rows w ni p WT PK nc Hnc data m _ Ok R) as [data' [E' R']].
  exists data'. split; [exact E'|].
  simpl in Ok. destruct Ok as [Hi [Hm [[len [El Hq]] [Ll Le]]]].
  rewrite (pk_internal _ _ _ _ PK) in Hi. rewrite (pk_width _ _ _ _ PK) in *.
  assert (Hw := wt_width _ _ _ WT). assert (Hle := wt_le _ _ _ WT).
  rewrite (row_length_spec rows w ni WT p PK i ltac:(lia)) in El. inversion El; subst len.
  destruct (lanes_as_map lanes w nc Hw Hnc Ll Le) as [f ->].
  unfold run_op in E'. rewrite mapM_nth_lanes in E'.
  rewrite (vec_write_is_lane_writes rows w ni WT p PK nc data i q f Hi Hm Hq) in E'.
  rewrite <- E'. clear.
  generalize (seq 0 w) as l. intros l. revert data.
  induction l as [|k l IH]; intros data; simpl; [reflexivity|].
  destruct (write_tensor p nc data (i + k) q (map (fun d => f d k) (seq 0 nc))); auto.
Qed.
