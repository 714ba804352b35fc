(** * Lists and loops used in the proofs about the exchange of ghost rows *)
From Coq Require Import List Arith Bool Lia Sorted Permutation.
From Verif Require Import Vec Opt Sparse SparseProofs GhostRows.
Import ListNotations.

(** ** Sorted lists *)
Lemma sorted_unique (a b : list nat) :
  StronglySorted lt a -> StronglySorted lt b -> (forall x, In x a <-> In x b) -> a = b.
Proof.
  revert b; induction a as [|x a IH]; intros [|y b] Sa Sb H; [reflexivity| | |].
  - exfalso. apply (proj2 (H y)). left; reflexivity.
  - exfalso. apply (proj1 (H x)). left; reflexivity.
  - inversion Sa as [|? ? Sa' Fa]; inversion Sb as [|? ? Sb' Fb]; subst.
    rewrite Forall_forall in Fa, Fb.
    assert (x = y).
    { destruct (proj1 (H x) (or_introl eq_refl)) as [E|E]; [congruence|].
      destruct (proj2 (H y) (or_introl eq_refl)) as [E'|E']; [congruence|].
      specialize (Fa _ E'). specialize (Fb _ E). lia. }
    subst y. f_equal. apply IH; [assumption..|]. intros z. split; intros Hz.
    + destruct (proj1 (H z) (or_intror Hz)) as [E|E]; [|assumption]. subst.
      specialize (Fa _ Hz). lia.
    + destruct (proj2 (H z) (or_intror Hz)) as [E|E]; [|assumption]. subst.
      specialize (Fb _ Hz). lia.
Qed.

Lemma sorted_seq a n : StronglySorted lt (seq a n).
Proof.
  revert a; induction n as [|n IH]; intros a; simpl; constructor; [apply IH|].
  apply Forall_forall. intros x Hx. apply in_seq in Hx. lia.
Qed.

Lemma sorted_map (f : nat -> nat) l :
  (forall x y, In x l -> In y l -> x < y -> f x < f y) -> StronglySorted lt l -> StronglySorted lt (map f l).
Proof.
  induction l as [|x l IH]; intros H S; simpl; constructor; inversion S; subst.
  - apply IH; [|assumption]. intros; apply H; simpl; auto.
  - rewrite Forall_forall in *. intros y Hy. apply in_map_iff in Hy as [z [<- Hz]].
    apply H; simpl; auto.
Qed.

Lemma sorted_app (a b : list nat) :
  StronglySorted lt a -> StronglySorted lt b -> (forall x y, In x a -> In y b -> x < y) -> StronglySorted lt (a ++ b).
Proof.
  induction a as [|x a IH]; intros Sa Sb H; simpl; [assumption|].
  inversion Sa; subst. constructor.
  - apply IH; [assumption..|]. intros; apply H; simpl; auto.
  - apply Forall_app. split; [assumption|]. apply Forall_forall. intros y Hy. apply H; simpl; auto.
Qed.

(** Index in a sorted list. *)
Lemma count_below (l : list nat) k :
  StronglySorted lt l -> k < length l -> length (filter (fun x => x <? nth k l 0) l) = k.
Proof.
  intros S. revert k; induction S as [|x l S IH F]; intros k Hk; simpl in *; [lia|].
  rewrite Forall_forall in F. destruct k as [|k].
  - rewrite (proj2 (Nat.ltb_ge x x)) by lia.
    replace (filter (fun y => y <? x) l) with (@nil nat); [reflexivity|].
    clear -F. induction l as [|y l IH]; [reflexivity|]. simpl.
    rewrite (proj2 (Nat.ltb_ge y x)) by (specialize (F y (or_introl eq_refl)); lia).
    apply IH. intros; apply F; right; assumption.
  - assert (Q := F (nth k l 0) ltac:(apply nth_In; lia)).
    rewrite (proj2 (Nat.ltb_lt x (nth k l 0))) by lia. simpl. rewrite IH by lia. reflexivity.
Qed.

Lemma count_below_lt (l : list nat) a b :
  In a l -> a < b -> length (filter (fun x => x <? a) l) < length (filter (fun x => x <? b) l).
Proof.
  intros Ha Hab. induction l as [|x l IH]; [destruct Ha|]. simpl.
  assert (M : forall l, length (filter (fun x => x <? a) l) <= length (filter (fun x => x <? b) l)).
  { clear -Hab. induction l as [|y l IH]; [simpl; lia|]. simpl.
    destruct (y <? a) eqn:E1, (y <? b) eqn:E2; simpl; try lia.
    apply Nat.ltb_lt in E1. apply Nat.ltb_ge in E2. lia. }
  destruct Ha as [->|Ha].
  - rewrite (proj2 (Nat.ltb_ge a a)) by lia. rewrite (proj2 (Nat.ltb_lt a b)) by lia. simpl.
    specialize (M l). lia.
  - specialize (IH Ha). destruct (x <? a) eqn:E1, (x <? b) eqn:E2; simpl; try lia.
    apply Nat.ltb_lt in E1. apply Nat.ltb_ge in E2. lia.
Qed.

Lemma filter_map_comm {A B} (f : B -> bool) (g : A -> B) l :
  filter f (map g l) = map g (filter (fun x => f (g x)) l).
Proof. induction l as [|x l IH]; [reflexivity|]. simpl. destruct (f (g x)); simpl; rewrite IH; reflexivity. Qed.

Lemma flat_map_filter {A B} (f : A -> list B) (t : A -> bool) l :
  (forall x, In x l -> t x = false -> f x = []) -> flat_map f (filter t l) = flat_map f l.
Proof.
  induction l as [|x l IH]; intros H; [reflexivity|]. simpl. destruct (t x) eqn:E; simpl.
  - rewrite IH; [reflexivity|]. intros; apply H; simpl; auto.
  - rewrite (H x) by (simpl; auto). simpl. apply IH. intros; apply H; simpl; auto.
Qed.

Lemma flat_map_ext_in {A B} (f g : A -> list B) l :
  (forall x, In x l -> f x = g x) -> flat_map f l = flat_map g l.
Proof.
  induction l as [|x l IH]; intros H; [reflexivity|]. simpl. rewrite (H x) by (simpl; auto). rewrite IH; [reflexivity|].
  intros; apply H; simpl; auto.
Qed.

Lemma flat_map_flat_map {A B C} (f : A -> list B) (g : B -> list C) l :
  flat_map g (flat_map f l) = flat_map (fun x => flat_map g (f x)) l.
Proof. induction l as [|x l IH]; [reflexivity|]. simpl. rewrite flat_map_app, IH. reflexivity. Qed.

Lemma flat_map_map {A B C} (f : A -> B) (g : B -> list C) l : flat_map g (map f l) = flat_map (fun x => g (f x)) l.
Proof. induction l as [|x l IH]; [reflexivity|]. simpl. rewrite IH. reflexivity. Qed.

Lemma list_by_index (l : list nat) : l = map (fun k => nth k l 0) (seq 0 (length l)).
Proof.
  induction l as [|x l IH]; [reflexivity|]. simpl. f_equal. rewrite <- seq_shift, map_map. exact IH.
Qed.

(** ** Positions in a list *)
Fixpoint ix (j : nat) (l : list nat) : nat :=
  match l with [] => 0 | k :: r => if k =? j then 0 else S (ix j r) end.

Lemma ix_nth j l : In j l -> ix j l < length l /\ nth (ix j l) l 0 = j.
Proof.
  induction l as [|k l IH]; intros H; [destruct H|]. simpl. destruct (Nat.eqb_spec k j) as [->|N].
  - simpl. split; [lia|reflexivity].
  - destruct H as [H|H]; [congruence|]. destruct (IH H). simpl. split; [lia|assumption].
Qed.

Lemma combine_positions a l : NoDup l ->
  combine (seq a (length l)) l = map (fun j => (a + ix j l, j)) l.
Proof.
  revert a; induction l as [|k l IH]; intros a ND; [reflexivity|]. inversion ND; subst.
  simpl length. simpl seq. cbn [combine map]. f_equal.
  - simpl. rewrite Nat.eqb_refl. f_equal. lia.
  - rewrite IH by assumption. apply map_ext_in. intros j Hj. simpl.
    destruct (Nat.eqb_spec k j) as [->|N]; [contradiction|]. f_equal. lia.
Qed.

Lemma row_entries_spec row i T lo hi : ~ In i T -> NoDup T ->
  row_entries row (i :: T) lo hi =
  map (fun j => (row, ix j (i :: T))) (i :: filter (fun j => (lo <=? j) && (j <? hi)) T).
Proof.
  intros Hi ND. unfold row_entries. cbn [length tl].
  replace (S (length T) - 1) with (length T) by lia.
  rewrite combine_positions by assumption. rewrite filter_map_comm, map_map.
  cbn [map]. f_equal.
  - simpl. rewrite Nat.eqb_refl. reflexivity.
  - apply map_ext_in. intros j Hj. apply filter_In in Hj as [Hj _].
    simpl. destruct (Nat.eqb_spec i j) as [->|N]; [contradiction|]. reflexivity.
Qed.

(** ** Running sums *)
Fixpoint cumul (s : nat) (l : list (nat * nat)) : list (nat * nat) :=
  match l with [] => [] | (q, n) :: r => (q, s + n) :: cumul (s + n) r end.

Lemma cumul_fst s l : map fst (cumul s l) = map fst l.
Proof. revert s; induction l as [|[q n] l IH]; intros s; simpl; [reflexivity|]. rewrite IH. reflexivity. Qed.
Lemma cumul_length s l : length (cumul s l) = length l.
Proof. revert s; induction l as [|[q n] l IH]; intros s; simpl; [reflexivity|]. rewrite IH. reflexivity. Qed.
Definition total (l : list (nat * nat)) : nat := fold_right (fun t s => snd t + s) 0 l.
Lemma cumul_app s a b : cumul s (a ++ b) = cumul s a ++ cumul (s + total a) b.
Proof.
  revert s; induction a as [|[q n] a IH]; intros s; simpl; [rewrite Nat.add_0_r; reflexivity|].
  rewrite IH. rewrite Nat.add_assoc. reflexivity.
Qed.
Lemma total_app a b : total (a ++ b) = total a + total b.
Proof. unfold total. rewrite fold_right_app. induction a as [|t a IH]; simpl; [reflexivity|]. lia. Qed.

(** The k-th target and the begin of its range. *)
Lemma cumul_at a q n b :
  vget (cumul 0 (a ++ (q, n) :: b)) (length a) = Some (q, total a + n) /\
  begin_of (cumul 0 (a ++ (q, n) :: b)) (length a) = Some (total a).
Proof.
  split.
  - rewrite cumul_app. unfold vget. rewrite nth_error_app2 by (rewrite cumul_length; lia).
    rewrite cumul_length, Nat.sub_diag. reflexivity.
  - induction a as [|[q' n'] a' _] using rev_ind; [reflexivity|].
    rewrite app_length. simpl length. rewrite Nat.add_1_r. cbn [begin_of].
    rewrite <- app_assoc. simpl app. rewrite cumul_app. unfold vget.
    rewrite nth_error_app2 by (rewrite cumul_length; lia).
    rewrite cumul_length, Nat.sub_diag. simpl. f_equal. rewrite total_app. simpl. lia.
Qed.

(** ** The receive loop *)
Lemma vset_middle {A} (a : list A) x b y : vset (a ++ x :: b) (length a) y = Some (a ++ y :: b).
Proof. induction a as [|z a IH]; [reflexivity|]. simpl. rewrite IH. reflexivity. Qed.
Lemma vget_middle {A} (a : list A) x b : vget (a ++ x :: b) (length a) = Some x.
Proof. unfold vget. rewrite nth_error_app2 by lia. rewrite Nat.sub_diag. reflexivity. Qed.

Definition weight (B : list (list nat)) : nat := fold_right (fun r s => length r + s) 0 B.

Lemma receive_block gt k s c rt q n done_ e rest pre post B :
  gt = pre ++ (q, n) :: post -> length pre = k -> rt = done_ ++ (q, e) :: rest -> length done_ = k ->
  0 < length B -> c + length B = n ->
  foldM (receive_step gt) (k, s, c, rt) B = Some (k + 1, s + weight B, 0, done_ ++ (q, s + weight B) :: rest).
Proof.
  intros Eg Lp Er Ld. revert s c. induction B as [|r B IH]; intros s c HB Hn; [simpl in HB; lia|].
  cbn [foldM]. unfold receive_step at 1. rewrite Eg, <- Lp, vget_middle. cbn [snd].
  simpl length in Hn. destruct B as [|r' B].
  - simpl in Hn. rewrite (proj2 (Nat.eqb_eq (c + 1) n)) by lia.
    rewrite Er. rewrite Lp, <- Ld, vget_middle. cbn [fst]. rewrite vset_middle. cbn [foldM weight fold_right].
    rewrite Nat.add_0_r. reflexivity.
  - rewrite (proj2 (Nat.eqb_neq (c + 1) n)) by (simpl in Hn; lia).
    rewrite Lp, <- Eg. rewrite IH by (simpl in *; lia).
    replace (s + length r + weight (r' :: B)) with (s + weight (r :: r' :: B)) by (simpl; lia). reflexivity.
Qed.

Lemma receive_blocks (Bs : list (nat * list (list nat))) : forall gt pre s done_ old,
  (forall b, In b Bs -> 0 < length (snd b)) ->
  gt = pre ++ map (fun b => (fst b, length (snd b))) Bs -> length pre = length done_ -> length old = length Bs ->
  exists k s' , foldM (receive_step gt) (length done_, s, 0, done_ ++ combine (map fst Bs) old) (flat_map snd Bs) =
    Some (k, s', 0, done_ ++ cumul s (map (fun b => (fst b, weight (snd b))) Bs)).
Proof.
  induction Bs as [|[q B] Bs IH]; intros gt pre s done_ old HB Eg Lp Lo.
  - simpl. exists (length done_), s. reflexivity.
  - destruct old as [|e old]; [simpl in Lo; lia|]. cbn [flat_map snd]. rewrite foldM_app.
    rewrite (receive_block gt (length done_) s 0 _ q (length B) done_ e (combine (map fst Bs) old) pre
              (map (fun b => (fst b, length (snd b))) Bs) B);
      [|assumption|assumption|reflexivity|reflexivity|apply (HB (q, B)); left; reflexivity|lia].
    destruct (IH gt (pre ++ [(q, length B)]) (s + weight B) (done_ ++ [(q, s + weight B)]) old) as [k [s' E]].
    + intros; apply HB; right; assumption.
    + rewrite Eg, <- app_assoc. reflexivity.
    + rewrite !app_length. simpl. lia.
    + simpl in Lo. lia.
    + exists k, s'. rewrite app_length in E. simpl length in E. rewrite <- !app_assoc in E. exact E.
Qed.

(** ** The send loop *)
Lemma scan_skip rank p l : p <= length l -> (forall t, In t (firstn p l) -> fst t <> rank) ->
  p + scan rank (skipn p l) = scan rank l.
Proof.
  revert p; induction l as [|t l IH]; intros p Hp H.
  - simpl in Hp. assert (p = 0) by lia. subst. reflexivity.
  - destruct p as [|p]; [reflexivity|]. simpl skipn. simpl scan.
    rewrite (proj2 (Nat.eqb_neq (fst t) rank)) by (apply H; left; reflexivity).
    rewrite <- (IH p) by (simpl in *; try lia; intros; apply H; right; assumption). reflexivity.
Qed.

Lemma scan_ix rank l : scan rank l = ix rank (map fst l).
Proof. induction l as [|t l IH]; [reflexivity|]. simpl. destruct (fst t =? rank); [reflexivity|]. rewrite IH. reflexivity. Qed.

Lemma ix_absent j l : ~ In j l -> ix j l = length l.
Proof.
  induction l as [|k l IH]; intros H; [reflexivity|]. simpl.
  destruct (Nat.eqb_spec k j) as [->|N]; [exfalso; apply H; left; reflexivity|].
  rewrite IH; [reflexivity|]. intros Q; apply H; right; assumption.
Qed.
Lemma ix_present j l : In j l -> ix j l <> length l.
Proof. intros H. destruct (ix_nth j l H). lia. Qed.
Lemma ix_le j l : ix j l <= length l.
Proof. induction l as [|k l IH]; simpl; [lia|]. destruct (k =? j); simpl; lia. Qed.

(** In a sorted list, what is before the position of t is smaller than t. *)
Lemma before_ix t l x : StronglySorted lt l -> In t l -> In x (firstn (ix t l) l) -> x < t.
Proof.
  induction 1 as [|k l S IH F]; intros Ht Hx; [destruct Ht|]. simpl in Hx.
  destruct (Nat.eqb_spec k t) as [->|N]; [destruct Hx|].
  destruct Ht as [Ht|Ht]; [congruence|]. rewrite Forall_forall in F. simpl in Hx.
  destruct Hx as [<-|Hx]; [apply F; assumption|]. apply IH; assumption.
Qed.

(** Invariant of p_match. *)
Definition match_inv (rt : list (nat * nat)) (p rank : nat) : Prop :=
  p = length rt \/ (p < length rt /\ forall x, In x (firstn p (map fst rt)) -> x <> rank).

Lemma match_rank_spec rt p rank : match_inv rt p rank -> match_rank rt p rank = ix rank (map fst rt).
Proof.
  unfold match_rank. rewrite <- scan_ix. intros [->|[Hp H]].
  - rewrite Nat.eqb_refl. reflexivity.
  - rewrite (proj2 (Nat.eqb_neq p (length rt))) by lia. apply scan_skip; [lia|].
    intros t Ht. apply H. rewrite firstn_map. apply in_map. assumption.
Qed.

Lemma match_inv_next rt rank rank' : StronglySorted lt (map fst rt) -> rank < rank' ->
  match_inv rt (ix rank (map fst rt)) rank'.
Proof.
  intros S Hr. destruct (in_dec Nat.eq_dec rank (map fst rt)) as [I|N].
  - right. split; [destruct (ix_nth _ _ I) as [Q _]; rewrite map_length in Q; exact Q|].
    intros x Hx. assert (Q := before_ix _ _ _ S I Hx). lia.
  - left. rewrite ix_absent by assumption. apply map_length.
Qed.

(** One import target: [rowlist] are the rows that are sent. *)
Lemma send_rows rows (ranges imports : list nat) pm n_rt lo hi : pm <> n_rt ->
  vget ranges pm = Some lo -> vget ranges (pm + 1) = Some hi ->
  forall rowlist pre post entries, imports = pre ++ rowlist ++ post ->
  (forall i, In i rowlist -> i < length rows) ->
  foldM (fun '(idx, entries) (_ : nat) =>
      if pm =? n_rt then Some (idx + 1, entries)
      else row <- vget imports idx ;; cols <- vget rows row ;; lo <- vget ranges pm ;; hi <- vget ranges (pm + 1) ;;
        Some (idx + 1, entries ++ row_entries row cols lo hi))
    (length pre, entries) (seq 0 (length rowlist)) =
  Some (length pre + length rowlist, entries ++ flat_map (fun i => row_entries i (srow rows i) lo hi) rowlist).
Proof.
  intros Np Elo Ehi. rewrite (proj2 (Nat.eqb_neq pm n_rt) Np).
  assert (G : forall rowlist pre post entries a, imports = pre ++ rowlist ++ post ->
    (forall i, In i rowlist -> i < length rows) ->
    foldM (fun '(idx, entries) (_ : nat) =>
        row <- vget imports idx ;; cols <- vget rows row ;; lo <- vget ranges pm ;; hi <- vget ranges (pm + 1) ;;
        Some (idx + 1, entries ++ row_entries row cols lo hi))
      (length pre, entries) (seq a (length rowlist)) =
    Some (length pre + length rowlist, entries ++ flat_map (fun i => row_entries i (srow rows i) lo hi) rowlist)).
  { induction rowlist as [|i l IH]; intros pre post entries a Ei Hr.
    - simpl. rewrite Nat.add_0_r, app_nil_r. reflexivity.
    - cbn [app] in Ei.
      assert (Vi : vget imports (length pre) = Some i) by (rewrite Ei; apply vget_middle).
      assert (Vr := vget_srow rows i (Hr i (or_introl eq_refl))).
      assert (Ei' : imports = (pre ++ [i]) ++ l ++ post) by (rewrite Ei, <- app_assoc; reflexivity).
      assert (Q := IH (pre ++ [i]) post (entries ++ row_entries i (srow rows i) lo hi) (S a) Ei'
                     ltac:(intros; apply Hr; right; assumption)).
      rewrite app_length in Q. cbn [length] in Q. rewrite <- app_assoc in Q.
      replace (length pre + length (i :: l)) with (length pre + 1 + length l) by (cbn [length]; lia).
      etransitivity; [|exact Q]. cbn [length seq foldM]. rewrite Vi, Vr, Elo, Ehi. reflexivity. }
  intros. apply G with post; assumption.
Qed.

Lemma skip_rows (imports ranges : list nat) (rows : list (list nat)) pm n : forall a idx (entries : list (nat * nat)),
  foldM (fun '(idx, entries) (_ : nat) =>
      if pm =? pm then Some (idx + 1, entries)
      else row <- vget imports idx ;; cols <- vget rows row ;; lo <- vget ranges pm ;; hi <- vget ranges (pm + 1) ;;
        Some (idx + 1, entries ++ row_entries row cols lo hi))
    (idx, entries) (seq a n) = Some (idx + n, entries).
Proof.
  induction n as [|n IH]; intros a idx entries; cbn [seq foldM]; [rewrite Nat.add_0_r; reflexivity|].
  rewrite Nat.eqb_refl at 1. rewrite IH. f_equal. f_equal. lia.
Qed.

(** All import targets: [S t] are the rows that are sent to t, [lo t, hi t) the ghost range
    of t. *)
Section Send.
Variables (rows : list (list nat)) (rt : list (nat * nat)) (ranges : list nat).
Variables (S : nat -> list nat) (lo hi : nat -> nat).
Hypothesis Srt : StronglySorted lt (map fst rt).
Hypothesis Hlo : forall t, In t (map fst rt) -> vget ranges (ix t (map fst rt)) = Some (lo t).
Hypothesis Hhi : forall t, In t (map fst rt) -> vget ranges (ix t (map fst rt) + 1) = Some (hi t).

Definition send_block (t : nat) : list (nat * nat) :=
  if in_dec Nat.eq_dec t (map fst rt) then flat_map (fun i => row_entries i (srow rows i) (lo t) (hi t)) (S t) else [].

Lemma send_loop_gen : forall M imports pre p s entries sends,
  StronglySorted lt M -> (forall t, In t M -> forall i, In i (S t) -> i < length rows) ->
  imports = pre ++ flat_map S M -> length entries = s ->
  (match M with [] => True | t :: _ => match_inv rt p t end) ->
  exists p' k, foldM (send_step rows rt ranges imports) (p, length pre, entries, sends) (map (fun t => (t, length (S t))) M) =
    Some (p', k, entries ++ flat_map send_block M, sends ++ cumul s (map (fun t => (t, length (send_block t))) M)).
Proof.
  induction M as [|t M IH]; intros imports pre p s entries sends SM HS Ei Le Hm.
  - simpl. rewrite !app_nil_r. eauto.
  - cbn [map foldM]. unfold send_step at 1. cbn [fst snd]. rewrite (match_rank_spec _ _ _ Hm).
    inversion SM as [|? ? SM' F]. subst a l.
    assert (E1 : foldM (fun '(idx, entries) (_ : nat) =>
        if ix t (map fst rt) =? length rt then Some (idx + 1, entries)
        else row <- vget imports idx ;; cols <- vget rows row ;; lo <- vget ranges (ix t (map fst rt)) ;;
          hi <- vget ranges (ix t (map fst rt) + 1) ;;
          Some (idx + 1, entries ++ row_entries row cols lo hi))
        (length pre, entries) (seq 0 (length (S t))) =
      Some (length pre + length (S t), entries ++ send_block t)).
    { unfold send_block. destruct (in_dec Nat.eq_dec t (map fst rt)) as [I|N].
      - apply (send_rows rows ranges imports (ix t (map fst rt)) (length rt) (lo t) (hi t)
                 ltac:(rewrite <- (map_length fst rt); apply ix_present; assumption)
                 (Hlo t I) (Hhi t I) (S t) pre (flat_map S M)).
        + exact Ei.
        + apply HS. left; reflexivity.
      - rewrite (ix_absent t) by assumption. rewrite map_length, app_nil_r.
        apply skip_rows. }
    rewrite E1. cbn [fst snd].
    destruct (IH imports (pre ++ S t) (ix t (map fst rt)) (s + length (send_block t)) (entries ++ send_block t)
                (sends ++ [(t, length (entries ++ send_block t))])) as [p' [k E]].
    + assumption.
    + intros t' Ht'. apply HS. right; assumption.
    + rewrite Ei. cbn [flat_map]. rewrite app_assoc. reflexivity.
    + rewrite app_length. lia.
    + destruct M as [|t' M]; [exact Logic.I|]. apply match_inv_next; [assumption|].
      rewrite Forall_forall in F. apply F. left; reflexivity.
    + exists p', k. rewrite app_length in E at 1. rewrite E. cbn [flat_map cumul]. rewrite <- !app_assoc.
      f_equal. f_equal. cbn [app]. rewrite app_length, Le. reflexivity.
Qed.
End Send.

(** ** Packing *)
Section Pack.
Context {A : Type}.

Definition tens (p : simd_pattern) (nc : nat) (data : list A) (rp : nat * nat) : list A :=
  match get_tensor p nc data (fst rp) (snd rp) with Some e => e | None => [] end.

Lemma pack_spec p nc (data : list A) entries :
  (forall rp, In rp entries -> exists e, get_tensor p nc data (fst rp) (snd rp) = Some e) ->
  pack p nc data entries = Some (flat_map (tens p nc data) entries).
Proof.
  intros H. unfold pack.
  assert (E : mapM (fun '(row, pos) => mapM (fun d => a <- send_addr p nc row pos d ;; vget data a) (seq 0 nc)) entries =
    Some (map (tens p nc data) entries)).
  { induction entries as [|[row pos] l IH]; [reflexivity|]. cbn [mapM map].
    change (mapM (fun d => a <- send_addr p nc row pos d;; vget data a) (seq 0 nc)) with (get_tensor p nc data row pos).
    destruct (H (row, pos) (or_introl eq_refl)) as [e Ee]. unfold tens at 1. cbn [fst snd] in *. rewrite Ee.
    rewrite IH by (intros; apply H; right; assumption). reflexivity. }
  rewrite E. rewrite flat_map_concat_map. reflexivity.
Qed.

(** Cutting a concatenation. *)
Lemma cut_middle (a m b : list A) : firstn (length m) (skipn (length a) (a ++ m ++ b)) = m.
Proof.
  rewrite skipn_app, skipn_all, Nat.sub_diag. simpl.
  rewrite firstn_app, Nat.sub_diag, firstn_all. simpl. apply app_nil_r.
Qed.

(** The messages: [blocks] lists the receivers and what they get. *)
Lemma messages_cut (nc : nat) (blocks : list (nat * list (nat * nat))) (f : nat * nat -> list A) :
  (forall b rp, In b blocks -> In rp (snd b) -> length (f rp) = nc) ->
  let targets := cumul 0 (map (fun b => (fst b, length (snd b))) blocks) in
  let buffer := flat_map f (flat_map snd blocks) in
  mapM (fun k => t <- vget targets k ;; b <- begin_of targets k ;;
      Some (fst t, firstn ((snd t - b) * nc) (skipn (nc * b) buffer))) (seq 0 (length targets)) =
  Some (map (fun b => (fst b, flat_map f (snd b))) blocks).
Proof.
  intros Hf targets buffer.
  assert (Lf : forall l, (forall rp, In rp l -> length (f rp) = nc) -> length (flat_map f l) = length l * nc).
  { induction l as [|x l IH]; intros H; [reflexivity|]. cbn [flat_map length]. rewrite app_length, IH, H by (intros; try apply H; simpl; auto).
    simpl. lia. }
  assert (LF : forall bs, (forall b, In b bs -> In b blocks) ->
     length (flat_map f (flat_map snd bs)) = total (map (fun b => (fst b, length (snd b))) bs) * nc).
  { induction bs as [|b bs IH]; intros H; [reflexivity|]. cbn [flat_map map total fold_right snd].
    rewrite flat_map_app, app_length, Lf.
    - rewrite IH by (intros; apply H; right; assumption). unfold total. lia.
    - intros rp Hrp. apply (Hf b); [apply H; left; reflexivity|assumption]. }
  assert (G : forall done_ rest, blocks = done_ ++ rest ->
     mapM (fun k => t <- vget targets k ;; b <- begin_of targets k ;;
      Some (fst t, firstn ((snd t - b) * nc) (skipn (nc * b) buffer))) (seq (length done_) (length rest)) =
     Some (map (fun b => (fst b, flat_map f (snd b))) rest)).
  { intros done_ rest. revert done_. induction rest as [|b rest IH]; intros done_ E; [reflexivity|].
    simpl length. cbn [seq mapM map].
    assert (C := cumul_at (map (fun b => (fst b, length (snd b))) done_) (fst b) (length (snd b))
                          (map (fun b => (fst b, length (snd b))) rest)).
    rewrite map_length in C.
    replace (map (fun b0 : nat * list (nat * nat) => (fst b0, length (snd b0))) done_ ++
             (fst b, length (snd b)) :: map (fun b0 => (fst b0, length (snd b0))) rest)
      with (map (fun b0 : nat * list (nat * nat) => (fst b0, length (snd b0))) blocks) in C
      by (rewrite E, map_app; reflexivity).
    destruct C as [C1 C2]. fold targets in C1, C2. rewrite C1, C2. cbn [fst snd].
    specialize (IH (done_ ++ [b])). rewrite app_length in IH. simpl length in IH. rewrite Nat.add_1_r in IH.
    rewrite IH by (rewrite E, <- app_assoc; reflexivity). f_equal. f_equal. f_equal.
    unfold buffer. rewrite E. rewrite flat_map_app. cbn [flat_map]. rewrite !flat_map_app.
    assert (L1 := LF done_ ltac:(intros; rewrite E; apply in_app_iff; auto)).
    assert (L2 := Lf (snd b) ltac:(intros; apply (Hf b); [rewrite E; apply in_app_iff; right; left; reflexivity|assumption])).
    replace (nc * total (map (fun b0 => (fst b0, length (snd b0))) done_)) with (length (flat_map f (flat_map snd done_))) by lia.
    replace ((total (map (fun b0 => (fst b0, length (snd b0))) done_) + length (snd b) -
              total (map (fun b0 => (fst b0, length (snd b0))) done_)) * nc) with (length (flat_map f (snd b))) by (rewrite L2; f_equal; lia).
    apply cut_middle. }
  unfold targets at 3. rewrite cumul_length, map_length. apply (G [] blocks). reflexivity.
Qed.

(** ** Receiving *)

(** [segs]: sender, message and what is in the place of the message. *)
Lemma receive_splices (nc base : nat) (r : nat) (sent : list (list (nat * list A)))
    (segs : list (nat * nat * list A * list A)) (pre : list A) :
  length pre = nc * base ->
  (forall q n m o, In (q, n, m, o) segs -> length o = n * nc /\ length m <= n * nc /\
     exists from, vget sent q = Some from /\ message_to r from = Some m) ->
  let targets := cumul 0 (map (fun s => (fst (fst (fst s)), snd (fst (fst s)))) segs) in
  foldM (fun data k => t <- vget targets k ;; b <- begin_of targets k ;; from <- vget sent (fst t) ;;
      msg <- message_to r from ;;
      if length msg <=? (snd t - b) * nc then splice data (nc * (base + b)) msg else None)
    (pre ++ flat_map snd segs) (seq 0 (length targets)) =
  Some (pre ++ flat_map (fun s => snd (fst s) ++ skipn (length (snd (fst s))) (snd s)) segs).
Proof.
  intros Lp H targets.
  set (h := fun s : nat * nat * list A * list A => (fst (fst (fst s)), snd (fst (fst s)))).
  set (new := fun s : nat * nat * list A * list A => snd (fst s) ++ skipn (length (snd (fst s))) (snd s)).
  assert (Ln : forall d, (forall s, In s d -> In s segs) -> length (flat_map new d) = nc * total (map h d)).
  { induction d as [|[[[q n] m] o] d IH]; intros Hd; [simpl; lia|]. cbn [flat_map map total fold_right].
    destruct (H q n m o (Hd _ (or_introl eq_refl))) as [L1 [L2 _]].
    rewrite app_length, IH by (intros; apply Hd; right; assumption).
    unfold new, h. cbn [fst snd]. rewrite app_length, skipn_length. unfold total. lia. }
  assert (G : forall rest done_, segs = done_ ++ rest ->
    foldM (fun data k => t <- vget targets k ;; b <- begin_of targets k ;; from <- vget sent (fst t) ;;
      msg <- message_to r from ;;
      if length msg <=? (snd t - b) * nc then splice data (nc * (base + b)) msg else None)
    (pre ++ flat_map new done_ ++ flat_map snd rest) (seq (length done_) (length rest)) =
    Some (pre ++ flat_map new done_ ++ flat_map new rest)).
  { induction rest as [|s rest IH]; intros done_ E; [reflexivity|].
    simpl length. cbn [seq foldM].
    destruct s as [[[q n] m] o].
    assert (C := cumul_at (map h done_) q n (map h rest)). rewrite map_length in C.
    replace (map h done_ ++ (q, n) :: map h rest) with (map h segs) in C by (rewrite E, map_app; reflexivity).
    destruct C as [C1 C2]. change (cumul 0 (map h segs)) with targets in C1, C2. rewrite C1, C2. cbn [fst snd].
    destruct (H q n m o) as [L1 [L2 [from [E1 E2]]]]; [rewrite E; apply in_app_iff; right; left; reflexivity|].
    rewrite E1, E2.
    replace (total (map h done_) + n - total (map h done_)) with n by lia.
    rewrite (proj2 (Nat.leb_le _ _) L2).
    assert (Ld := Ln done_ ltac:(intros; rewrite E; apply in_app_iff; auto)).
    cbn [flat_map snd].
    assert (Es : splice (pre ++ flat_map new done_ ++ o ++ flat_map snd rest) (nc * (base + total (map h done_))) m =
      Some (pre ++ flat_map new (done_ ++ [(q, n, m, o)]) ++ flat_map snd rest)).
    { unfold splice.
      replace (nc * (base + total (map h done_))) with (length (pre ++ flat_map new done_)) by (rewrite app_length; lia).
      rewrite (proj2 (Nat.leb_le _ _)).
      2:{ rewrite !app_length. lia. }
      rewrite (app_assoc pre (flat_map new done_) (o ++ flat_map snd rest)).
      rewrite firstn_app, firstn_all, Nat.sub_diag. simpl firstn. rewrite app_nil_r.
      rewrite skipn_app, skipn_all2 by lia. cbn [app].
      replace (length (pre ++ flat_map new done_) + length m - length (pre ++ flat_map new done_)) with (length m) by lia.
      rewrite skipn_app. replace (length m - length o) with 0 by lia. cbn [skipn].
      rewrite flat_map_app. cbn [flat_map]. unfold new at 3. cbn [fst snd].
      rewrite app_nil_r, <- !app_assoc. reflexivity. }
    rewrite Es. specialize (IH (done_ ++ [(q, n, m, o)])). rewrite app_length in IH. simpl length in IH.
    rewrite Nat.add_1_r in IH. rewrite IH by (rewrite E, <- app_assoc; reflexivity).
    f_equal. f_equal. rewrite flat_map_app. cbn [flat_map]. rewrite app_nil_r, <- app_assoc. reflexivity. }
  unfold targets at 3. rewrite cumul_length, map_length. apply (G segs []). reflexivity.
Qed.
End Pack.
