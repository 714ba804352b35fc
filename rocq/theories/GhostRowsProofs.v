(** * The exchange of ghost rows: proofs *)
From Coq Require Import List Arith Bool Lia Sorted Permutation.
From Verif Require Import Vec Opt Sparse SparseSpec SparseProofs GhostRows GhostRowsSpec GhostRowsLists GhostRowsWorld.
Import ListNotations.

(** ** Chunks of the data *)
Section Chunks.
Context {A : Type}.
Implicit Types data : list A.

Lemma mapM_window data a nc : a + nc <= length data ->
  mapM (fun d => vget data (a + d)) (seq 0 nc) = Some (firstn nc (skipn a data)).
Proof.
  intros H.
  assert (G : forall n b, a + b + n <= length data ->
     mapM (fun d => vget data (a + d)) (seq b n) = Some (firstn n (skipn (a + b) data))).
  { induction n as [|n IH]; intros b Hb; [reflexivity|]. cbn [seq mapM].
    destruct (vget_defined data (a + b) ltac:(lia)) as [x Ex]. rewrite Ex. rewrite IH by lia.
    f_equal. unfold vget in Ex. clear -Ex.
    replace (a + S b) with (S (a + b)) by lia. revert Ex. generalize (a + b) as k. intros k.
    revert data. induction k as [|k IHk]; intros [|y data] Ex; simpl in *; try discriminate.
    - inversion Ex; subst. reflexivity.
    - apply IHk. assumption. }
  specialize (G nc 0). rewrite Nat.add_0_r in G. apply G. lia.
Qed.

Lemma window_add data s m n : firstn m (skipn s data) ++ firstn n (skipn (s + m) data) = firstn (m + n) (skipn s data).
Proof.
  replace (skipn (s + m) data) with (skipn m (skipn s data)).
  2:{ clear. revert data. induction s as [|s IH]; intros data; [reflexivity|]. destruct data as [|x data]; [rewrite !skipn_nil; reflexivity|]. apply IH. }
  generalize (skipn s data) as l. clear. induction m as [|m IH]; intros l; [reflexivity|].
  destruct l as [|x l]; [rewrite !firstn_nil; reflexivity|]. cbn [firstn skipn app Nat.add]. rewrite IH. reflexivity.
Qed.

Lemma windows data nc s n : flat_map (fun pos => firstn nc (skipn ((s + pos) * nc) data)) (seq 0 n) = firstn (n * nc) (skipn (s * nc) data).
Proof.
  induction n as [|n IH]; [reflexivity|]. rewrite seq_snoc, flat_map_app, IH. cbn [flat_map Nat.add]. rewrite app_nil_r.
  replace ((s + n) * nc) with (s * nc + n * nc) by lia. rewrite window_add. f_equal. lia.
Qed.
End Chunks.

Section Rank.
Context {A : Type}.
Variables (rows : list (list nat)) (w ni : nat) (p : simd_pattern) (nc : nat).
Hypothesis WS : wf_static rows.
Hypothesis WT : wf_strides rows w ni.
Hypothesis PK : pattern_ok rows w ni p.
Implicit Types data : list A.
Notation start := (csr_start rows).

Lemma tens_length data i pos : valid rows (i, pos) -> length data = start (length rows) * nc ->
  exists x, get_tensor p nc data i pos = Some x /\ length x = nc /\ tens p nc data (i, pos) = x.
Proof.
  intros V Ld. destruct (get_defined rows w ni WT p PK nc data i pos V Ld) as [x E].
  exists x. split; [assumption|]. split; [|unfold tens; cbn [fst snd]; rewrite E; reflexivity].
  unfold get_tensor in E. apply mapM_some in E as [E _]. rewrite seq_length in E. assumption.
Qed.

Lemma scalar_tensor data i pos : ni <= i -> valid rows (i, pos) -> length data = start (length rows) * nc ->
  get_tensor p nc data i pos = Some (firstn nc (skipn ((start i + pos) * nc) data)).
Proof.
  intros Hi [Hr Hp] Ld. cbn [fst snd] in *. rewrite (get_tensor_spec rows w ni WT p PK) by assumption.
  rewrite <- mapM_window.
  - apply mapM_ext. intros d _. unfold addr. rewrite (proj2 (Nat.ltb_ge i ni)) by assumption. reflexivity.
  - rewrite Ld. assert (Q := start_lt rows i (length rows) pos Hr (le_n _) Hp). nia.
Qed.

Lemma row_data data i : ni <= i -> i < length rows -> length data = start (length rows) * nc ->
  flat_map (fun pos => tens p nc data (i, pos)) (seq 0 (slen rows i)) = firstn (slen rows i * nc) (skipn (start i * nc) data).
Proof.
  intros Hi Hr Ld. rewrite <- windows. apply flat_map_ext_in. intros pos Hp. apply in_seq in Hp.
  unfold tens. cbn [fst snd]. rewrite scalar_tensor; [reflexivity|assumption|split; cbn [fst snd]; lia|assumption].
Qed.

Lemma rows_data data a n : ni <= a -> a + n <= length rows -> length data = start (length rows) * nc ->
  flat_map (fun i => flat_map (fun pos => tens p nc data (i, pos)) (seq 0 (slen rows i))) (seq a n) =
  firstn ((start (a + n) - start a) * nc) (skipn (start a * nc) data).
Proof.
  intros Ha Hn Ld. induction n as [|n IH].
  - rewrite Nat.add_0_r, Nat.sub_diag. reflexivity.
  - rewrite seq_snoc, flat_map_app, IH by lia. cbn [flat_map]. rewrite app_nil_r.
    rewrite row_data by (assumption || lia).
    assert (M := start_mono rows a (a + n) ltac:(lia) ltac:(lia)).
    assert (E := start_S rows (a + n) ltac:(lia)).
    replace (start (a + n) * nc) with (start a * nc + (start (a + n) - start a) * nc) by nia.
    rewrite window_add. f_equal. replace (a + S n) with (S (a + n)) by lia. rewrite E. nia.
Qed.

(** The data from row a on is the list of its tensors. *)
Lemma data_split data a : ni <= a -> a <= length rows -> length data = start (length rows) * nc ->
  data = firstn (start a * nc) data ++
    flat_map (fun i => flat_map (fun pos => tens p nc data (i, pos)) (seq 0 (slen rows i))) (seq a (length rows - a)).
Proof.
  intros Ha Hr Ld. rewrite rows_data by (assumption || lia).
  replace (a + (length rows - a)) with (length rows) by lia.
  rewrite (firstn_all2 (n := (start (length rows) - start a) * nc)).
  - symmetry. apply firstn_skipn.
  - rewrite skipn_length. nia.
Qed.

Lemma chunk_length (T : nat -> nat -> list A) i n : (forall pos, pos < n -> length (T i pos) = nc) ->
  length (flat_map (T i) (seq 0 n)) = n * nc.
Proof.
  intros H. apply length_flat_uniform. intros pos Hp. apply H. lia.
Qed.

Lemma chunks_length (T : nat -> nat -> list A) a n : a + n <= length rows ->
  (forall i pos, a <= i < a + n -> pos < slen rows i -> length (T i pos) = nc) ->
  length (flat_map (fun i => flat_map (T i) (seq 0 (slen rows i))) (seq a n)) + start a * nc = start (a + n) * nc.
Proof.
  induction n as [|n IH]; intros Hn H; [rewrite Nat.add_0_r; reflexivity|].
  rewrite seq_snoc, flat_map_app, app_length. cbn [flat_map]. rewrite app_nil_r.
  rewrite chunk_length by (intros; apply H; lia).
  assert (Q := IH ltac:(lia) ltac:(intros; apply H; lia)).
  replace (a + S n) with (S (a + n)) by lia. rewrite start_S by lia. nia.
Qed.

(** Reading data that is assembled from tensors. *)
Lemma read_chunks data (T : nat -> nat -> list A) pre a : ni <= a -> a <= length rows ->
  (forall i pos, a <= i < length rows -> pos < slen rows i -> length (T i pos) = nc) ->
  length pre = start a * nc ->
  data = pre ++ flat_map (fun i => flat_map (T i) (seq 0 (slen rows i))) (seq a (length rows - a)) ->
  length data = start (length rows) * nc /\
  forall i pos, a <= i -> valid rows (i, pos) -> get_tensor p nc data i pos = Some (T i pos).
Proof.
  intros Ha Hr HT Lp E.
  assert (Ld : length data = start (length rows) * nc).
  { rewrite E, app_length, Lp.
    assert (Q := chunks_length T a (length rows - a) ltac:(lia) ltac:(intros; apply HT; lia)).
    replace (a + (length rows - a)) with (length rows) in Q by lia. lia. }
  split; [assumption|]. intros i pos Hi V. rewrite scalar_tensor; [|lia|assumption|assumption]. f_equal.
  destruct V as [Vi Vp]. cbn [fst snd] in *.
  assert (S1 : seq a (length rows - a) = seq a (i - a) ++ i :: seq (S i) (length rows - S i)).
  { replace (length rows - a) with ((i - a) + S (length rows - S i)) by lia. rewrite seq_app. f_equal.
    replace (a + (i - a)) with i by lia. reflexivity. }
  assert (S2 : seq 0 (slen rows i) = seq 0 pos ++ pos :: seq (S pos) (slen rows i - S pos)).
  { replace (slen rows i) with (pos + S (slen rows i - S pos)) at 1 by lia. rewrite seq_app. reflexivity. }
  rewrite S1, flat_map_app in E. cbn [flat_map] in E. rewrite S2 in E at 1.
  rewrite (flat_map_app (T i)) in E. cbn [flat_map] in E.
  set (X := flat_map (fun i => flat_map (T i) (seq 0 (slen rows i))) (seq a (i - a))) in *.
  set (Y := flat_map (T i) (seq 0 pos)) in *.
  set (Z := flat_map (T i) (seq (S pos) (slen rows i - S pos))) in *.
  set (V := flat_map (fun i => flat_map (T i) (seq 0 (slen rows i))) (seq (S i) (length rows - S i))) in *.
  assert (LX : length X + start a * nc = start i * nc).
  { assert (Q := chunks_length T a (i - a) ltac:(lia) ltac:(intros; apply HT; lia)).
    replace (a + (i - a)) with i in Q by lia. exact Q. }
  assert (LY : length Y = pos * nc) by (apply chunk_length; intros; apply HT; lia).
  assert (E' : data = (pre ++ X ++ Y) ++ T i pos ++ (Z ++ V)) by (rewrite E, <- !app_assoc; reflexivity).
  rewrite E'. assert (LT : length (T i pos) = nc) by (apply HT; lia).
  replace ((start i + pos) * nc) with (length (pre ++ X ++ Y)) by (rewrite !app_length; nia).
  rewrite <- LT at 1. apply cut_middle.
Qed.

(** Rows before a do not see what comes after. *)
Lemma addr_below i pos d a : ni <= a -> a <= length rows -> i < a -> pos < slen rows i -> d < nc ->
  addr rows w ni nc i pos d < start a * nc.
Proof.
  intros Ha Hr Hi Hp Hd. destruct (Nat.eq_dec a (length rows)) as [->|N]; [apply addr_bound; auto; lia|].
  unfold addr. assert (Wp := wt_width _ _ _ WT). destruct (i <? ni) eqn:E.
  - apply Nat.ltb_lt in E. assert (Q := slot_lt_internal rows w ni WT i pos E Hp).
    assert (B := r0_stride rows w ni WT i E).
    assert (M := start_mono rows (S (i / w) * w) a ltac:(simpl; lia) ltac:(lia)).
    assert (Mo := Nat.mod_upper_bound i w ltac:(lia)).
    apply Nat.lt_le_trans with ((start (i / w * w) + pos * w + w) * nc); [nia|].
    apply Nat.mul_le_mono_r. lia.
  - assert (Q := start_lt rows i a pos Hi ltac:(lia) Hp). nia.
Qed.

Lemma read_below data data' i pos a : ni <= a -> a <= length rows -> i < a -> pos < slen rows i ->
  firstn (start a * nc) data = firstn (start a * nc) data' ->
  get_tensor p nc data i pos = get_tensor p nc data' i pos.
Proof.
  intros Ha Hr Hi Hp E. rewrite !(get_tensor_spec rows w ni WT p PK) by lia. apply mapM_ext. intros d Hd. apply in_seq in Hd.
  assert (B := addr_below i pos d a Ha Hr Hi Hp ltac:(lia)). unfold vget.
  assert (Q : forall l : list A, nth_error l (addr rows w ni nc i pos d) = nth_error (firstn (start a * nc) l) (addr rows w ni nc i pos d)).
  { revert B. generalize (start a * nc) as n, (addr rows w ni nc i pos d) as k. clear.
    intros n k H l. revert k l H. induction n as [|n IH]; intros k l H; [lia|].
    destruct l as [|x l]; [destruct k; reflexivity|]. destruct k as [|k]; [reflexivity|]. simpl. apply IH. lia. }
  rewrite (Q data), (Q data'), E. reflexivity.
Qed.
End Rank.

(** ** All ranks *)
Section All.
Variables (w : nat) (ni : nat -> nat) (L : layout) (cols : nat -> list nat).
Hypothesis W : good_world w ni L cols.
Hypothesis NI : no_isolated_rank L.
Notation nrel r := (size L r + length (ghosts L r)).
Notation rw := (rows_of L cols).
Notation ex := (exchange_of L cols).

Definition pat r : simd_pattern :=
  match reinit w (ni r) (size L r) (nrel r) (local_rows L cols r) with
  | Some p => p | None => Build_simd_pattern 0 0 0 [] [] [] end.

Lemma pat_spec r : r < ranks L ->
  reinit w (ni r) (size L r) (nrel r) (local_rows L cols r) = Some (pat r) /\
  pattern_ok (rw r) w (ni r) (pat r) /\ sp_owned (pat r) = size L r /\
  length (rw r) = nrel r /\ wf_static (rw r) /\ wf_strides (rw r) w (ni r).
Proof.
  intros Hr. destruct (rows_of_spec w ni L cols W r Hr) as [rows0 [E0 [E1 [Le [WS [WT _]]]]]].
  destruct (reinit_static_ok _ _ _ WS WT (size L r)) as [p [Ep [PK O]]].
  assert (E : reinit w (ni r) (size L r) (nrel r) (local_rows L cols r) = Some p).
  { unfold reinit. rewrite E0, <- E1. assumption. }
  unfold pat. rewrite E. auto 8.
Qed.

Lemma reinit_rank_spec r old : r < ranks L -> (ghosts L r = [] -> old = Exchange [] [] []) ->
  reinit_rank w (ni r) L cols old r = Some (pat r, ex r).
Proof.
  intros Hr Ho. destruct (pat_spec r Hr) as [E [_ [_ [Le _]]]].
  destruct (rows_of_spec w ni L cols W r Hr) as [rows0 [E0 [E1 _]]].
  unfold reinit_rank. rewrite E, E0, <- E1.
  assert (X : exchange_pattern (size L r) (rw r) (partitioner_of L r) old = Some (ex r)).
  { destruct (list_eq_dec Nat.eq_dec (ghosts L r) []) as [G|G].
    - unfold exchange_pattern. rewrite (proj2 (Nat.ltb_ge _ _)) by (rewrite Le, G; simpl; lia).
      rewrite (exchange_empty L cols r Hr NI G), Ho by assumption. reflexivity.
    - apply (exchange_spec w ni L cols W r old Hr G). }
  rewrite X. reflexivity.
Qed.

Definition world_state := map (fun r => (pat r, ex r)) (seq 0 (ranks L)).

Lemma reinit_all olds : (forall r, r < ranks L -> ghosts L r = [] -> olds r = Exchange [] [] []) ->
  mapM (fun r => reinit_rank w (ni r) L cols (olds r) r) (seq 0 (ranks L)) = Some world_state.
Proof.
  intros Ho. apply mapM_pure. intros r Hr. apply in_seq in Hr.
  apply reinit_rank_spec; [lia|]. apply Ho. lia.
Qed.

Lemma nth_map_ranks {B} (f : nat -> B) r : r < ranks L -> nth_error (map f (seq 0 (ranks L))) r = Some (f r).
Proof.
  intros Hr. rewrite nth_error_map, (nth_error_nth' _ 0) by (rewrite seq_length; assumption).
  rewrite seq_nth by assumption. reflexivity.
Qed.

Section Data.
Context {A : Type}.
Variables (nc : nat) (dat : nat -> list A).
Hypothesis Hdat : forall r, r < ranks L -> length (dat r) = csr_start (rw r) (length (rw r)) * nc.

Notation T r := (tens (pat r) nc (dat r)).
Definition msg q t := flat_map (T q) (block L cols q t).

Lemma block_valid q t rp : q < ranks L -> t < ranks L -> In rp (block L cols q t) -> valid (rw q) rp.
Proof.
  intros Hq Ht H. unfold block in H. destruct (matched L q t); [|destruct H].
  apply in_flat_map in H as [g [Hg H]]. apply in_map_iff in H as [c [<- Hc]].
  destruct (sent_rows_owned L q t g Hq Hg) as [O [_ B]].
  destruct (pat_spec q Hq) as [_ [_ [_ [Le [WS _]]]]].
  split; cbn [fst snd entry_pos]; [lia|].
  unfold slen. apply ix_nth. apply (owned_row w ni L cols W q g O). exists c. split; [|reflexivity].
  destruct Hc as [<-|Hc]; [apply (gw_diag _ _ _ _ W q); assumption|].
  apply K_In in Hc; tauto.
Qed.

Lemma messages_spec q : q < ranks L ->
  messages (pat q) (ex q) nc (dat q) = Some (map (fun t => (t, msg q t)) (to_ranks L q)).
Proof.
  intros Hq. destruct (pat_spec q Hq) as [_ [PK [_ [Le [WS WT]]]]]. unfold messages.
  assert (V : forall t rp, In t (to_ranks L q) -> In rp (block L cols q t) -> valid (rw q) rp).
  { intros t rp Ht. apply block_valid; [assumption|]. apply to_ranks_In in Ht. tauto. }
  cbn [exchange_of entries_to_be_sent send_targets].
  rewrite pack_spec.
  2:{ intros rp Hrp. apply in_flat_map in Hrp as [t [Ht Hrp]]. specialize (V t rp Ht Hrp).
      destruct rp as [i pos]. apply (get_defined (rw q) w (ni q) WT (pat q) PK); auto. }
  assert (M := messages_cut nc (map (fun t => (t, block L cols q t)) (to_ranks L q)) (T q)).
  rewrite !map_map, flat_map_map in M. cbn [fst snd] in M. apply M.
  intros b rp Hb Hrp. apply in_map_iff in Hb as [t [<- Ht]]. cbn [snd] in Hrp. specialize (V t rp Ht Hrp).
  destruct rp as [i pos]. destruct (tens_length (rw q) w (ni q) (pat q) nc WT PK (dat q) i pos V (Hdat q Hq)) as [x [_ [Lx Ex]]].
  rewrite Ex. assumption.
Qed.

Lemma message_find q r : In r (to_ranks L q) -> message_to r (map (fun t => (t, msg q t)) (to_ranks L q)) = Some (msg q r).
Proof.
  unfold message_to. induction (to_ranks L q) as [|t l IH]; intros H; [destruct H|]. cbn [map find fst].
  destruct (Nat.eqb_spec t r) as [->|N]; [reflexivity|]. destruct H as [H|H]; [congruence|]. apply IH; assumption.
Qed.

(** The owner of an index. *)
Definition owner g := hd 0 (filter (fun q => owns L q g) (seq 0 (ranks L))).
Lemma owner_spec q g : owned_by L q g -> owner g = q.
Proof.
  intros O. unfold owner.
  destruct (filter (fun q => owns L q g) (seq 0 (ranks L))) as [|t l] eqn:E.
  - exfalso. assert (In q []) as []. rewrite <- E. apply filter_In. split; [apply in_seq; destruct O; lia|].
    apply owns_spec; [apply O|assumption].
  - assert (H : In t (t :: l)) by (left; reflexivity). rewrite <- E in H. apply filter_In in H as [H1 H2].
    apply in_seq in H1. apply owns_spec in H2; [|lia]. simpl. eapply owner_unique; eauto.
Qed.

(** What is in the ghost rows afterwards. *)
Definition new_tensor r g pos :=
  if matched L (owner g) r then T (owner g) (entry_pos L cols (owner g) g (nth pos (g :: K L cols r g) 0))
  else T r (to_local L r g, pos).

Lemma received r q : r < ranks L -> In q (from_ranks L r) ->
  let old := flat_map (fun g => flat_map (fun pos => T r (to_local L r g, pos)) (seq 0 (ghost_weight L cols r g))) (ghosts_from L r q) in
  length old = sum_weights L cols r (ghosts_from L r q) * nc /\ length (msg q r) <= length old /\
  msg q r ++ skipn (length (msg q r)) old =
  flat_map (fun g => flat_map (new_tensor r g) (seq 0 (ghost_weight L cols r g))) (ghosts_from L r q).
Proof.
  intros Hr Hq old. apply from_ranks_In in Hq as [Hq Hn].
  destruct (pat_spec r Hr) as [_ [PK [_ [Le [WS WT]]]]].
  destruct (pat_spec q Hq) as [_ [PKq [_ [Leq [WSq WTq]]]]].
  assert (HG : forall g, In g (ghosts_from L r q) -> In g (ghosts L r) /\ owned_by L q g)
    by (intros g Hg; apply ghosts_from_In in Hg; assumption).
  assert (V : forall g pos, In g (ghosts_from L r q) -> pos < ghost_weight L cols r g -> valid (rw r) (to_local L r g, pos)).
  { intros g pos Hg Hp. destruct (HG g Hg) as [G O]. split; cbn [fst snd].
    - destruct (to_global_local w ni L cols W r g Hr (or_intror G)). lia.
    - rewrite (ghost_slen w ni L cols W r g Hr G). assumption. }
  assert (Lt : forall (F : nat -> nat -> list A) l, (forall g pos, In g l -> pos < ghost_weight L cols r g -> length (F g pos) = nc) ->
     length (flat_map (fun g => flat_map (F g) (seq 0 (ghost_weight L cols r g))) l) = sum_weights L cols r l * nc).
  { intros F l. induction l as [|g l IH]; intros H; [reflexivity|]. cbn [flat_map sum_weights fold_right].
    rewrite app_length, IH by (intros; apply H; simpl; auto).
    rewrite (length_flat_uniform (F g) _ _ nc) by (intros; apply H; simpl; auto; lia).
    unfold sum_weights. lia. }
  assert (Lo : length old = sum_weights L cols r (ghosts_from L r q) * nc).
  { apply (Lt (fun g pos => T r (to_local L r g, pos))). intros g pos Hg Hp.
    destruct (tens_length (rw r) w (ni r) (pat r) nc WT PK (dat r) _ _ (V g pos Hg Hp) (Hdat r Hr)) as [x [_ [Lx Ex]]].
    rewrite Ex; assumption. }
  split; [assumption|]. unfold msg, block. destruct (matched L q r) eqn:Em.
  - assert (Eq : flat_map (T q) (flat_map (fun g => map (entry_pos L cols q g) (g :: K L cols r g)) (ghosts_from L r q)) =
      flat_map (fun g => flat_map (new_tensor r g) (seq 0 (ghost_weight L cols r g))) (ghosts_from L r q)).
    { rewrite flat_map_flat_map. apply flat_map_ext_in. intros g Hg. destruct (HG g Hg) as [G O].
      rewrite flat_map_map. rewrite (list_by_index (g :: K L cols r g)) at 1. rewrite flat_map_map.
      apply flat_map_ext_in. intros pos Hp. unfold new_tensor. rewrite (owner_spec q g O), Em. reflexivity. }
    rewrite Eq.
    assert (Ln : length (flat_map (fun g => flat_map (new_tensor r g) (seq 0 (ghost_weight L cols r g))) (ghosts_from L r q)) = length old).
    { rewrite Lo. apply Lt. intros g pos Hg Hp. unfold new_tensor. destruct (HG g Hg) as [G O].
      rewrite (owner_spec q g O), Em. set (c := nth pos (g :: K L cols r g) 0).
      assert (Vc : valid (rw q) (entry_pos L cols q g c)).
      { apply (block_valid q r _ Hq Hr). unfold block. rewrite Em. apply in_flat_map. exists g. split; [assumption|].
        apply in_map. apply nth_In. exact Hp. }
      destruct (tens_length (rw q) w (ni q) (pat q) nc WTq PKq (dat q) (fst (entry_pos L cols q g c)) (snd (entry_pos L cols q g c)) Vc (Hdat q Hq)) as [x [_ [Lx Ex]]].
      rewrite <- surjective_pairing in Ex. rewrite Ex. assumption. }
    rewrite Ln. split; [lia|]. rewrite skipn_all, app_nil_r. reflexivity.
  - cbn [flat_map length skipn app]. split; [lia|]. unfold old. apply flat_map_ext_in. intros g Hg. destruct (HG g Hg) as [G O].
    unfold new_tensor. rewrite (owner_spec q g O), Em. reflexivity.
Qed.

(** The ghost part of the data, by rank and by row. *)
Lemma ghost_part r (F : nat -> nat -> list A) : r < ranks L ->
  flat_map (fun i => flat_map (fun pos => F (to_global L r i) pos) (seq 0 (slen (rw r) i))) (seq (size L r) (length (rw r) - size L r)) =
  flat_map (fun q => flat_map (fun g => flat_map (F g) (seq 0 (ghost_weight L cols r g))) (ghosts_from L r q)) (from_ranks L r).
Proof.
  intros Hr. destruct (pat_spec r Hr) as [_ [_ [_ [Le _]]]].
  rewrite <- flat_map_flat_map, <- (ghosts_by_rank w ni L cols W r Hr).
  replace (length (rw r) - size L r) with (length (ghosts L r)) by lia.
  rewrite (list_by_index (ghosts L r)) at 2. rewrite flat_map_map.
  replace (seq (size L r) (length (ghosts L r))) with (map (fun k => size L r + k) (seq 0 (length (ghosts L r)))).
  - rewrite flat_map_map. apply flat_map_ext_in. intros k Hk. apply in_seq in Hk.
    assert (G : In (nth k (ghosts L r) 0) (ghosts L r)) by (apply nth_In; lia).
    assert (E := to_local_ghost w ni L cols W r k Hr ltac:(lia)).
    assert (E1 : to_global L r (size L r + k) = nth k (ghosts L r) 0).
    { rewrite <- E. apply (to_global_local w ni L cols W r _ Hr). right; assumption. }
    rewrite E1. rewrite <- E, (ghost_slen w ni L cols W r _ Hr G). reflexivity.
  - clear. generalize (length (ghosts L r)) as n. induction n as [|n IH]; [reflexivity|].
    rewrite !seq_snoc, map_app, IH. reflexivity.
Qed.

Definition new_data r :=
  firstn (csr_start (rw r) (size L r) * nc) (dat r) ++
  flat_map (fun i => flat_map (fun pos => new_tensor r (to_global L r i) pos) (seq 0 (slen (rw r) i)))
    (seq (size L r) (length (rw r) - size L r)).

Definition all_messages := map (fun q => map (fun t => (t, msg q t)) (to_ranks L q)) (seq 0 (ranks L)).

Lemma receive_spec r : r < ranks L -> receive (pat r) (ex r) nc r all_messages (dat r) = Some (new_data r).
Proof.
  intros Hr. destruct (pat_spec r Hr) as [_ [PK [Ho [Le [WS WT]]]]].
  assert (Hni : ni r <= size L r) by (apply (gw_internal _ _ _ _ W); assumption).
  unfold receive. rewrite Ho, (pk_rs_row _ _ _ _ PK) by lia.
  set (base := csr_start (rw r) (size L r)).
  set (old := fun q => flat_map (fun g => flat_map (fun pos => T r (to_local L r g, pos)) (seq 0 (ghost_weight L cols r g))) (ghosts_from L r q)).
  set (segs := map (fun q => (q, sum_weights L cols r (ghosts_from L r q), msg q r, old q)) (from_ranks L r)).
  assert (R := receive_splices nc base r all_messages segs (firstn (base * nc) (dat r))).
  assert (Es : map (fun s => (fst (fst (fst s)), snd (fst (fst s)))) segs = map (fun q => (q, sum_weights L cols r (ghosts_from L r q))) (from_ranks L r))
    by (unfold segs; rewrite map_map; reflexivity).
  cbn zeta in R. rewrite Es in R. cbn [exchange_of receive_targets].
  change (cumul 0 (map (fun q => (q, sum_weights L cols r (ghosts_from L r q))) (from_ranks L r))) with (recv_targets L cols r) in R.
  assert (Ed : firstn (base * nc) (dat r) ++ flat_map snd segs = dat r).
  { rewrite (data_split (rw r) w (ni r) (pat r) nc WT PK (dat r) (size L r)) at 2; [|assumption|lia|apply Hdat; assumption].
    fold base. f_equal. unfold segs. rewrite flat_map_map. cbn [snd]. unfold old.
    rewrite <- (ghost_part r (fun g pos => T r (to_local L r g, pos)) Hr).
    apply flat_map_ext_in. intros i Hi. apply in_seq in Hi.
    destruct (to_local_global w ni L cols W r i Hr ltac:(lia)) as [E _]. rewrite E. reflexivity. }
  rewrite Ed in R. rewrite R.
  - f_equal. unfold new_data. fold base. f_equal. rewrite (ghost_part r (new_tensor r) Hr).
    unfold segs. rewrite flat_map_map. cbn [fst snd]. apply flat_map_ext_in. intros q Hq.
    apply (received r q Hr Hq).
  - rewrite firstn_length, Hdat by assumption. assert (M := start_mono (rw r) (size L r) (length (rw r)) ltac:(lia) ltac:(lia)).
    fold base in M. nia.
  - intros q n m o H. unfold segs in H. apply in_map_iff in H as [q' [E Hq]]. inversion E; subst q' n m o.
    destruct (received r q Hr Hq) as [L1 [L2 _]]. fold (old q) in L1, L2.
    split; [assumption|]. split; [lia|].
    assert (Hq' := proj1 (proj1 (from_ranks_In L r q) Hq)).
    exists (map (fun t => (t, msg q t)) (to_ranks L q)). split.
    + unfold all_messages, vget. apply (nth_map_ranks (fun q => map (fun t => (t, msg q t)) (to_ranks L q)) q Hq').
    + apply message_find. apply to_ranks_In. split; [assumption|]. apply from_ranks_In in Hq. tauto.
Qed.

Lemma combine_maps {B C D} (f : B -> C) (g : B -> D) l : combine (map f l) (map g l) = map (fun x => (f x, g x)) l.
Proof. induction l as [|x l IH]; [reflexivity|]. cbn [map combine]. rewrite IH. reflexivity. Qed.

Lemma update_spec : update_ghost_rows nc world_state (map dat (seq 0 (ranks L))) = Some (map new_data (seq 0 (ranks L))).
Proof.
  unfold update_ghost_rows, world_state. rewrite combine_maps.
  assert (E1 : mapM (fun '((p, e), data) => messages p e nc data) (map (fun r => ((pat r, ex r), dat r)) (seq 0 (ranks L))) = Some all_messages).
  { rewrite mapM_map. apply mapM_pure. intros q Hq. apply in_seq in Hq. apply messages_spec. lia. }
  rewrite E1.
  match goal with |- (if ?b then _ else _) = _ => assert (Eb : b = true) end.
  { apply forallb_forall. intros [q msgs] Hin. unfold all_messages in Hin. rewrite map_length, seq_length in Hin.
    rewrite <- (map_id (seq 0 (ranks L))) in Hin at 1. rewrite combine_maps in Hin.
    apply in_map_iff in Hin as [q' [E Hq]]. inversion E; subst q' msgs. apply in_seq in Hq.
    apply forallb_forall. intros m Hm. apply in_map_iff in Hm as [t [<- Ht]]. cbn [fst].
    apply to_ranks_In in Ht as [Ht Hn]. rewrite (nth_map_ranks (fun r => (pat r, ex r)) t Ht).
    apply existsb_exists. assert (I : In q (map fst (recv_targets L cols t))).
    { rewrite recv_targets_fst. apply from_ranks_In. split; [lia|assumption]. }
    apply in_map_iff in I as [x [Ex Hx]]. exists x. split; [exact Hx|]. apply Nat.eqb_eq. assumption. }
  rewrite Eb. rewrite !map_length, seq_length. rewrite <- (map_id (seq 0 (ranks L))) at 1. rewrite combine_maps, mapM_map.
  apply mapM_pure. intros r Hr. apply in_seq in Hr. apply receive_spec. lia.
Qed.

(** ** Reading the result *)
Lemma entry_spec r (data : list A) i pos : r < ranks L -> i < nrel r ->
  entry (pat r) nc data i pos = if pos <? slen (rw r) i then get_tensor (pat r) nc data i pos else None.
Proof.
  intros Hr Hi. destruct (pat_spec r Hr) as [_ [PK [Ho [Le [WS WT]]]]].
  unfold entry. rewrite (row_length_spec (rw r) w (ni r) WT (pat r) PK) by lia. reflexivity.
Qed.

Lemma new_length g r q pos : r < ranks L -> In g (ghosts L r) -> owned_by L q g -> pos < ghost_weight L cols r g ->
  length (new_tensor r g pos) = nc.
Proof.
  intros Hr G O Hp. assert (Hq := proj1 O).
  destruct (pat_spec r Hr) as [_ [PK [_ [Le [WS WT]]]]].
  destruct (pat_spec q Hq) as [_ [PKq [_ [Leq [WSq WTq]]]]].
  unfold new_tensor. rewrite (owner_spec q g O). destruct (matched L q r) eqn:Em.
  - set (c := nth pos (g :: K L cols r g) 0).
    assert (Vc : valid (rw q) (entry_pos L cols q g c)).
    { apply (block_valid q r _ Hq Hr). unfold block. rewrite Em. apply in_flat_map. exists g.
      split; [apply ghosts_from_In; auto|]. apply in_map. apply nth_In. exact Hp. }
    destruct (tens_length (rw q) w (ni q) (pat q) nc WTq PKq (dat q) (fst (entry_pos L cols q g c)) (snd (entry_pos L cols q g c)) Vc (Hdat q Hq)) as [x [_ [Lx Ex]]].
    rewrite <- surjective_pairing in Ex. rewrite Ex. assumption.
  - assert (V : valid (rw r) (to_local L r g, pos)).
    { split; cbn [fst snd].
      - destruct (to_global_local w ni L cols W r g Hr (or_intror G)). lia.
      - rewrite (ghost_slen w ni L cols W r g Hr G). assumption. }
    destruct (tens_length (rw r) w (ni r) (pat r) nc WT PK (dat r) _ _ V (Hdat r Hr)) as [x [_ [Lx Ex]]].
    rewrite Ex; assumption.
Qed.

Lemma new_data_reads r : r < ranks L ->
  length (new_data r) = csr_start (rw r) (length (rw r)) * nc /\
  (forall i pos, i < size L r -> pos < slen (rw r) i -> get_tensor (pat r) nc (new_data r) i pos = get_tensor (pat r) nc (dat r) i pos) /\
  (forall g pos, In g (ghosts L r) -> pos < ghost_weight L cols r g -> get_tensor (pat r) nc (new_data r) (to_local L r g) pos = Some (new_tensor r g pos)).
Proof.
  intros Hr. destruct (pat_spec r Hr) as [_ [PK [Ho [Le [WS WT]]]]].
  assert (Hni : ni r <= size L r) by (apply (gw_internal _ _ _ _ W); assumption).
  assert (M := start_mono (rw r) (size L r) (length (rw r)) ltac:(lia) ltac:(lia)).
  assert (Lp : length (firstn (csr_start (rw r) (size L r) * nc) (dat r)) = csr_start (rw r) (size L r) * nc).
  { rewrite firstn_length, Hdat by assumption. nia. }
  destruct (read_chunks (rw r) w (ni r) (pat r) nc WT PK (new_data r) (fun i pos => new_tensor r (to_global L r i) pos)
     (firstn (csr_start (rw r) (size L r) * nc) (dat r)) (size L r) Hni ltac:(lia)) as [Ln R].
  - intros i pos Hi Hp. destruct (to_local_global w ni L cols W r i Hr ltac:(lia)) as [E Kn].
    assert (G : In (to_global L r i) (ghosts L r)).
    { destruct Kn as [O|G]; [|assumption]. destruct (to_local_owned L r _ O). lia. }
    destruct (gw_foreign _ _ _ _ W r _ Hr G) as [q [_ O]].
    apply (new_length _ r q pos Hr G O). rewrite <- (ghost_slen w ni L cols W r _ Hr G), E. assumption.
  - assumption.
  - reflexivity.
  - split; [assumption|]. split.
    + intros i pos Hi Hp. apply (read_below (rw r) w (ni r) (pat r) nc WT PK _ _ i pos (size L r)); try assumption; try lia.
      unfold new_data. rewrite firstn_app, Lp, Nat.sub_diag. cbn [firstn]. rewrite app_nil_r. rewrite firstn_firstn, Nat.min_id. reflexivity.
    + intros g pos G Hp. destruct (to_global_local w ni L cols W r g Hr (or_intror G)) as [E B].
      rewrite R.
      * rewrite E. reflexivity.
      * destruct (ghost_index w ni L cols W r g Hr G) as [k [_ [_ E1]]]. lia.
      * split; cbn [fst snd]; [lia|]. rewrite (ghost_slen w ni L cols W r _ Hr G). assumption.
Qed.

Lemma has_ghost_matched q r : r < ranks L -> (matched L q r = true <-> has_ghost_of L q r).
Proof.
  intros Hr. unfold matched. rewrite mem_spec, from_ranks_In. split.
  - intros [_ H]. destruct (ghosts_from L q r) as [|h l] eqn:E; [congruence|]. exists h.
    apply ghosts_from_In; [assumption|]. rewrite E. left; reflexivity.
  - intros [h H]. split; [assumption|]. apply (ghosts_from_In L q r h Hr) in H. destruct (ghosts_from L q r); [destruct H|discriminate].
Qed.

Lemma unmatched_diagonal q r g : r < ranks L -> q <> r -> owned_by L q g -> matched L q r = false -> K L cols r g = [].
Proof.
  intros Hr N O Em. destruct (K L cols r g) as [|c l] eqn:E; [reflexivity|]. exfalso.
  assert (H : In c (K L cols r g)) by (rewrite E; left; reflexivity). apply K_In in H as [Oc Ic]; [|assumption].
  assert (matched L q r = true); [|congruence]. apply has_ghost_matched; [assumption|]. exists c. split; [|assumption].
  destruct (gw_ghosted _ _ _ _ W q g c O Ic) as [O'|G]; [|assumption].
  exfalso. apply N. apply (owner_unique w ni L cols W q r c); assumption.
Qed.

Lemma world_synchronized : synchronized L nc world_state (map dat (seq 0 (ranks L))) (map new_data (seq 0 (ranks L))).
Proof.
  intros r p e data data' Hs Hd Hd'.
  assert (Hr : r < ranks L).
  { unfold world_state in Hs. rewrite <- (seq_length (ranks L) 0), <- (map_length (fun r => (pat r, ex r))). apply nth_error_Some. congruence. }
  unfold world_state in *. rewrite nth_map_ranks in Hs by assumption. rewrite nth_map_ranks in Hd by assumption. rewrite nth_map_ranks in Hd' by assumption.
  inversion Hs; subst p e. inversion Hd; subst data. inversion Hd'; subst data'. clear Hs Hd Hd'.
  destruct (pat_spec r Hr) as [_ [PK [Ho [Le [WS WT]]]]].
  destruct (new_data_reads r Hr) as [Ln [R1 R2]]. split.
  - intros i pos Hi. rewrite !entry_spec by (assumption || lia).
    destruct (pos <? slen (rw r) i) eqn:E; [|reflexivity]. apply Nat.ltb_lt in E. apply R1; assumption.
  - intros g q p' e' data_q G O Hq1 Hq2 pos x Hx. assert (Hq := proj1 O).
    rewrite nth_map_ranks in Hq1 by assumption. rewrite nth_map_ranks in Hq2 by assumption. inversion Hq1; subst p' e'. inversion Hq2; subst data_q. clear Hq1 Hq2.
    destruct (to_global_local w ni L cols W r g Hr (or_intror G)) as [Eg Bg].
    destruct (to_global_local w ni L cols W q g Hq (or_introl O)) as [Egq Bgq].
    rewrite entry_spec in Hx by assumption. destruct (pos <? slen (rw r) (to_local L r g)) eqn:Ep; [|discriminate].
    apply Nat.ltb_lt in Ep. assert (Ep' := Ep). rewrite (ghost_slen w ni L cols W r g Hr G) in Ep'.
    rewrite R2 in Hx by assumption. inversion Hx; subst x. clear Hx.
    assert (Nqr : q <> r) by (intros ->; apply (ghost_not_owned w ni L cols W r g); assumption).
    destruct (pat_spec q Hq) as [_ [PKq [_ [Leq [WSq WTq]]]]].
    unfold new_tensor. rewrite (owner_spec q g O). split.
    + intros Hc. assert (Em : matched L q r = true).
      { destruct (matched L q r) eqn:Em; [reflexivity|]. exfalso.
        destruct Hc as [Hc|Hc]; [|apply has_ghost_matched in Hc; [congruence|assumption]].
        assert (Q := unmatched_diagonal q r g Hr Nqr O Em). unfold ghost_weight in Ep'. rewrite Q in Ep'. simpl in Ep'. lia. }
      rewrite Em. set (c := nth pos (g :: K L cols r g) 0).
      assert (Hc' : In c (g :: K L cols r g)) by (apply nth_In; exact Ep').
      assert (Ic : In c (cols g)).
      { destruct Hc' as [<-|Hc']; [apply (gw_diag _ _ _ _ W q); assumption|]. apply K_In in Hc'; tauto. }
      exists c, (snd (entry_pos L cols q g c)).
      assert (Ir : In (to_local L q c) (srow (rw q) (to_local L q g))).
      { apply (owned_row w ni L cols W q g O). exists c. auto. }
      assert (V : valid (rw q) (to_local L q g, snd (entry_pos L cols q g c))).
      { split; cbn [fst snd entry_pos]; [lia|]. unfold slen. apply ix_nth. assumption. }
      split; [|split].
      * rewrite (column_spec (rw r) w (ni r) WT (pat r) PK); [|split; cbn [fst snd]; [lia|assumption]].
        f_equal. unfold scol. rewrite (ghost_row w ni L cols W r g Hr G). destruct pos as [|pos]; [reflexivity|]. cbn [nth].
        unfold c. cbn [nth]. unfold ghost_weight in Ep'.
        rewrite (nth_indep _ 0 (0 - first L r)) by (rewrite map_length; lia). rewrite (map_nth (fun c => c - first L r)).
        assert (Hk : In (nth pos (K L cols r g) 0) (K L cols r g)) by (apply nth_In; lia).
        apply K_In in Hk as [Ok _]; [|assumption]. destruct (to_local_owned L r _ Ok) as [-> _]. reflexivity.
      * rewrite (column_spec (rw q) w (ni q) WTq (pat q) PKq) by assumption. f_equal. unfold scol. cbn [entry_pos snd].
        apply ix_nth. assumption.
      * rewrite entry_spec by assumption. destruct V as [V1 V2]. cbn [fst snd] in V2.
        rewrite (proj2 (Nat.ltb_lt _ _) V2).
        destruct (tens_length (rw q) w (ni q) (pat q) nc WTq PKq (dat q) _ _ (conj V1 V2) (Hdat q Hq)) as [x [Ex [_ Ex2]]].
        rewrite Ex. f_equal. symmetry. exact Ex2.
    + intros -> Hn. destruct (matched L q r) eqn:Em; [exfalso; apply Hn, has_ghost_matched; assumption|].
      rewrite entry_spec by assumption. rewrite (proj2 (Nat.ltb_lt _ _) Ep).
      destruct (tens_length (rw r) w (ni r) (pat r) nc WT PK (dat r) (to_local L r g) 0) as [x [Ex [_ Ex2]]].
      { split; cbn [fst snd]; [lia|assumption]. }
      { apply Hdat; assumption. }
      rewrite Ex, Ex2. reflexivity.
Qed.
End Data.

Lemma nnz_spec r : r < ranks L -> nnz (pat r) = csr_start (rw r) (length (rw r)).
Proof.
  intros Hr. destruct (pat_spec r Hr) as [_ [PK [_ [_ [_ WT]]]]].
  unfold nnz. rewrite (n_nonzero_spec (rw r) w (ni r) WT (pat r) PK). reflexivity.
Qed.

Lemma fits_nth {A} nc (datas : list (list A)) : fits nc world_state datas ->
  datas = map (fun r => nth r datas []) (seq 0 (ranks L)) /\
  forall r, r < ranks L -> length (nth r datas []) = csr_start (rw r) (length (rw r)) * nc.
Proof.
  intros F.
  assert (Ln : length datas = ranks L).
  { unfold fits in F.
    assert (Q : length world_state = length datas) by (clear -F; induction F; simpl; congruence).
    unfold world_state in Q. rewrite map_length, seq_length in Q. auto. }
  split.
  - clear F. rewrite <- Ln. clear. induction datas as [|d l IH]; [reflexivity|]. simpl. f_equal.
    rewrite <- seq_shift, map_map. exact IH.
  - intros r Hr. rewrite <- (nnz_spec r Hr).
    assert (G : forall (s : list (simd_pattern * exchange)) d, Forall2 (fun pe data => length data = nnz (fst pe) * nc) s d -> forall k pe, nth_error s k = Some pe ->
       length (nth k d ([] : list A)) = nnz (fst pe) * nc).
    { clear. induction 1 as [|pe data s d H F IH]; intros k pe' E; [destruct k; discriminate|].
      destruct k as [|k]; simpl in *; [inversion E; subst; assumption|]. apply IH. assumption. }
    apply (G _ _ F r (pat r, ex r)). unfold world_state. exact (nth_map_ranks (fun r => (pat r, ex r)) r Hr).
Qed.

Lemma fits_new {A} nc (f : nat -> list A) :
  (forall r, r < ranks L -> length (f r) = csr_start (rw r) (length (rw r)) * nc) ->
  fits nc world_state (map f (seq 0 (ranks L))).
Proof.
  intros H. unfold fits, world_state.
  assert (G : forall l, (forall r, In r l -> r < ranks L) ->
     Forall2 (fun pe data => length data = nnz (fst pe) * nc) (map (fun r => (pat r, ex r)) l) (map f l)).
  { induction l as [|r l IH]; intros Hl; cbn [map]; constructor.
    - cbn [fst]. rewrite nnz_spec by (apply Hl; left; reflexivity). apply H, Hl. left; reflexivity.
    - apply IH. intros; apply Hl; right; assumption. }
  apply G. intros r Hr. apply in_seq in Hr. lia.
Qed.
End All.

Lemma C59_exchange_proof {A} w ni L cols olds :
  good_world w ni L cols -> no_isolated_rank L ->
  (forall r, r < ranks L -> ghosts L r = [] -> olds r = Exchange [] [] []) ->
  exists state, mapM (fun r => reinit_rank w (ni r) L cols (olds r) r) (seq 0 (ranks L)) = Some state /\
  forall nc (datas : list (list A)), fits nc state datas ->
  exists datas', update_ghost_rows nc state datas = Some datas' /\ fits nc state datas' /\
    synchronized L nc state datas datas'.
Proof.
  intros W NI Ho. exists (world_state w ni L cols). split; [apply reinit_all; assumption|].
  intros nc datas F. destruct (fits_nth w ni L cols W nc datas F) as [E H]. rewrite E.
  exists (map (new_data w ni L cols nc (fun r => nth r datas [])) (seq 0 (ranks L))).
  split; [apply update_spec; assumption|]. split.
  - apply fits_new; [assumption|]. intros r Hr. apply new_data_reads; assumption.
  - apply world_synchronized; assumption.
Qed.
