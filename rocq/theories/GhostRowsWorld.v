(** * The patterns and the exchange data of all ranks *)
From Coq Require Import List Arith Bool Lia Sorted Permutation.
From Verif Require Import Vec Opt Sparse SparseSpec SparseProofs GhostRows GhostRowsSpec GhostRowsLists.
Import ListNotations.

Section World.
Variables (w : nat) (ni : nat -> nat) (L : layout) (cols : nat -> list nat).
Hypothesis W : good_world w ni L cols.

Notation nrel r := (size L r + length (ghosts L r)).

Lemma owns_spec r g : r < ranks L -> owns L r g = true <-> owned_by L r g.
Proof.
  intros Hr. unfold owns, owned_by. rewrite andb_true_iff, Nat.leb_le, Nat.ltb_lt. tauto.
Qed.
Lemma owns_false r g : r < ranks L -> ~ owned_by L r g -> owns L r g = false.
Proof. intros Hr N. destruct (owns L r g) eqn:E; [|reflexivity]. apply owns_spec in E; tauto. Qed.

Lemma owner_unique r q g : owned_by L r g -> owned_by L q g -> r = q.
Proof.
  intros [H1 H2] [H3 H4]. destruct (lt_eq_lt_dec r q) as [[H|H]|H]; [|assumption|].
  - assert (A := gw_ascending _ _ _ _ W r q H H3). lia.
  - assert (A := gw_ascending _ _ _ _ W q r H H1). lia.
Qed.

Lemma ghost_not_owned r g : r < ranks L -> In g (ghosts L r) -> ~ owned_by L r g.
Proof.
  intros Hr Hg O. destruct (gw_foreign _ _ _ _ W r g Hr Hg) as [q [N Q]].
  apply N. apply (owner_unique q r g); assumption.
Qed.

(** ** Local numbers *)
Lemma to_local_owned r g : owned_by L r g -> to_local L r g = g - first L r /\ to_local L r g < size L r.
Proof.
  intros O. unfold to_local. rewrite (proj2 (owns_spec r g (proj1 O)) O). destruct O as [_ O]. lia.
Qed.
Lemma to_local_ghost r k : r < ranks L -> k < length (ghosts L r) ->
  to_local L r (nth k (ghosts L r) 0) = size L r + k.
Proof.
  intros Hr Hk. unfold to_local.
  rewrite owns_false; [|assumption|apply ghost_not_owned; [assumption|apply nth_In; assumption]].
  rewrite count_below; [reflexivity|apply (gw_ghosts _ _ _ _ W); assumption|assumption].
Qed.
Lemma ghost_index r g : r < ranks L -> In g (ghosts L r) ->
  exists k, k < length (ghosts L r) /\ g = nth k (ghosts L r) 0 /\ to_local L r g = size L r + k.
Proof.
  intros Hr Hg. apply (In_nth _ _ 0) in Hg as [k [Hk E]]. exists k. split; [assumption|]. split; [auto|].
  rewrite <- E. apply to_local_ghost; assumption.
Qed.

Definition known r g := owned_by L r g \/ In g (ghosts L r).

Lemma to_global_local r g : r < ranks L -> known r g -> to_global L r (to_local L r g) = g /\ to_local L r g < nrel r.
Proof.
  intros Hr [O|G].
  - destruct (to_local_owned r g O) as [E B]. unfold to_global. rewrite (proj2 (Nat.ltb_lt _ _) B). rewrite E.
    destruct O as [_ O]. lia.
  - destruct (ghost_index r g Hr G) as [k [Hk [E1 E2]]]. unfold to_global. rewrite E2.
    rewrite (proj2 (Nat.ltb_ge _ _)) by lia. replace (size L r + k - size L r) with k by lia. split; [auto|lia].
Qed.
Lemma to_local_global r i : r < ranks L -> i < nrel r -> to_local L r (to_global L r i) = i /\ known r (to_global L r i).
Proof.
  intros Hr Hi. unfold to_global. destruct (i <? size L r) eqn:E.
  - apply Nat.ltb_lt in E. assert (O : owned_by L r (first L r + i)) by (split; lia).
    destruct (to_local_owned r _ O) as [E1 _]. split; [lia|]. left; assumption.
  - apply Nat.ltb_ge in E. rewrite to_local_ghost by lia. split; [lia|]. right. apply nth_In. lia.
Qed.
Lemma to_local_inj r a b : r < ranks L -> known r a -> known r b -> to_local L r a = to_local L r b -> a = b.
Proof.
  intros Hr Ha Hb E. destruct (to_global_local r a Hr Ha) as [E1 _]. destruct (to_global_local r b Hr Hb) as [E2 _]. congruence.
Qed.
Lemma local_owned_iff r g : r < ranks L -> known r g -> (to_local L r g < size L r <-> owned_by L r g).
Proof.
  intros Hr K. split; [|intros O; apply to_local_owned; assumption].
  intros H. destruct K as [O|G]; [assumption|]. destruct (ghost_index r g Hr G) as [k [_ [_ E]]]. lia.
Qed.

Lemma known_cols r a b : owned_by L r a -> In b (cols a) -> known r b.
Proof. intros O I. exact (gw_ghosted _ _ _ _ W r a b O I). Qed.

(** ** The local pattern is a good input *)
Lemma local_rows_nth r i : i < size L r ->
  nth_error (local_rows L cols r) i = Some (map (to_local L r) (cols (first L r + i))).
Proof.
  intros H. unfold local_rows. rewrite nth_error_map.
  rewrite (nth_error_nth' _ 0) by (rewrite seq_length; assumption). rewrite seq_nth by assumption. reflexivity.
Qed.
Lemma local_rows_length r : length (local_rows L cols r) = size L r.
Proof. unfold local_rows. rewrite map_length, seq_length. reflexivity. Qed.
Lemma local_rows_some r i x : nth_error (local_rows L cols r) i = Some x ->
  i < size L r /\ x = map (to_local L r) (cols (first L r + i)).
Proof.
  intros H. assert (B : i < size L r).
  { rewrite <- (local_rows_length r). apply nth_error_Some. congruence. }
  split; [assumption|]. rewrite local_rows_nth in H by assumption. congruence.
Qed.
Lemma own r i : r < ranks L -> i < size L r -> owned_by L r (first L r + i).
Proof. intros; split; lia. Qed.

Lemma world_input r : r < ranks L -> good_input w (ni r) (size L r) (nrel r) (local_rows L cols r).
Proof.
  intros Hr. constructor.
  - apply W.
  - apply (gw_multiple _ _ _ _ W); assumption.
  - apply (gw_internal _ _ _ _ W); assumption.
  - lia.
  - apply local_rows_length.
  - intros i x H. apply local_rows_some in H as [B ->]. assert (O := own r i Hr B).
    apply map_NoDup_in; [|apply (gw_nodup _ _ _ _ W r); assumption].
    intros a b Ha Hb E. apply (to_local_inj r); [assumption|..|assumption]; eapply known_cols; eauto.
  - intros i x H. apply local_rows_some in H as [B ->]. assert (O := own r i Hr B).
    apply in_map_iff. exists (first L r + i). split; [|apply (gw_diag _ _ _ _ W r); assumption].
    destruct (to_local_owned r _ O) as [E _]. lia.
  - intros i x j H Hj. apply local_rows_some in H as [B ->]. assert (O := own r i Hr B).
    apply in_map_iff in Hj as [c [<- Hc]]. apply to_global_local; [assumption|]. eapply known_cols; eauto.
  - intros i j x y Hi Hj I. apply local_rows_some in Hi as [Bi ->]. apply local_rows_some in Hj as [Bj ->].
    assert (Oi := own r i Hr Bi). assert (Oj := own r j Hr Bj).
    apply in_map_iff in I as [c [E Hc]].
    assert (c = first L r + j).
    { apply (to_local_inj r); [assumption|exact (known_cols r _ c Oi Hc)|left; assumption|].
      destruct (to_local_owned r _ Oj) as [Q _]. rewrite E, Q. lia. }
    subst c. apply in_map_iff. exists (first L r + i). split; [destruct (to_local_owned r _ Oi); lia|].
    apply (gw_sym _ _ _ _ W r r); assumption.
  - intros s k x y Hk Hs Hx Hy. apply local_rows_some in Hx as [_ ->]. apply local_rows_some in Hy as [_ ->].
    rewrite !map_length. apply (gw_uniform _ _ _ _ W r); assumption.
Qed.

(** ** Couplings *)

(** The columns of g that rank r owns, ascending. *)
Definition mem (x : nat) (l : list nat) : bool := if in_dec Nat.eq_dec x l then true else false.
Lemma mem_spec x l : mem x l = true <-> In x l.
Proof. unfold mem. destruct (in_dec Nat.eq_dec x l); intuition congruence. Qed.
Definition K r g := filter (fun c => mem c (cols g)) (seq (first L r) (size L r)).
Lemma K_In r g c : r < ranks L -> In c (K r g) <-> owned_by L r c /\ In c (cols g).
Proof.
  intros Hr. unfold K. rewrite filter_In, in_seq, mem_spec. unfold owned_by. intuition.
Qed.
Lemma K_sorted r g : StronglySorted lt (K r g).
Proof. apply sorted_filter, sorted_seq. Qed.

(** ** The rows of the static pattern *)
Definition rows_of r := static_rows (match dsp_minimal (size L r) (nrel r) (local_rows L cols r) with Some x => x | None => [] end).

Lemma rows_of_spec r : r < ranks L ->
  exists rows0, dsp_minimal (size L r) (nrel r) (local_rows L cols r) = Some rows0 /\ rows_of r = static_rows rows0 /\
    length (rows_of r) = nrel r /\ wf_static (rows_of r) /\ wf_strides (rows_of r) w (ni r) /\
    (forall i, i < nrel r -> StronglySorted lt (tl (srow (rows_of r) i))) /\
    (forall i, i < size L r -> Permutation (srow (rows_of r) i) (nth i (local_rows L cols r) [])) /\
    (forall i j, size L r <= i -> i < nrel r ->
       (In j (srow (rows_of r) i) <-> j = i \/ (j < size L r /\ In i (nth j (local_rows L cols r) [])))).
Proof.
  intros Hr. destruct (good_input_rows _ _ _ _ _ (world_input r Hr)) as [rows0 [E H]].
  exists rows0. assert (E' : rows_of r = static_rows rows0) by (unfold rows_of; rewrite E; reflexivity).
  rewrite E'. split; [assumption|]. split; [reflexivity|]. exact H.
Qed.

Lemma row_shape r i : r < ranks L -> i < nrel r ->
  exists T, srow (rows_of r) i = i :: T /\ StronglySorted lt T /\ ~ In i T /\ NoDup T.
Proof.
  intros Hr Hi. destruct (rows_of_spec r Hr) as [rows0 [_ [_ [Le [WS [_ [S _]]]]]]].
  destruct (ws_head _ WS i) as [T E]; [lia|]. exists T. split; [assumption|].
  specialize (S i Hi). rewrite E in S. split; [assumption|].
  assert (ND := ws_nodup _ WS i ltac:(lia)). rewrite E in ND. inversion ND; subst. auto.
Qed.

(** The row of an owned index: the columns in local numbers. *)
Lemma owned_row r g : owned_by L r g -> forall j,
  In j (srow (rows_of r) (to_local L r g)) <-> exists c, In c (cols g) /\ to_local L r c = j.
Proof.
  intros O j. assert (Hr := proj1 O). destruct (rows_of_spec r Hr) as [rows0 [_ [_ [Le [WS [_ [S [Pm _]]]]]]]].
  destruct (to_local_owned r g O) as [E B]. specialize (Pm _ B).
  assert (Nx : nth (to_local L r g) (local_rows L cols r) [] = map (to_local L r) (cols g)).
  { apply nth_error_nth. rewrite local_rows_nth by assumption. rewrite E. do 3 f_equal. destruct O as [_ O]. lia. }
  rewrite Nx in Pm. split; intros H.
  - apply (Permutation_in _ Pm) in H. apply in_map_iff in H as [c [E1 E2]]. eauto.
  - apply (Permutation_in _ (Permutation_sym Pm)). apply in_map_iff. destruct H as [c [E1 E2]]. eauto.
Qed.

(** The row of a ghost: the diagonal and the columns that are owned. *)
Lemma ghost_row r g : r < ranks L -> In g (ghosts L r) ->
  srow (rows_of r) (to_local L r g) = to_local L r g :: map (fun c => c - first L r) (K r g).
Proof.
  intros Hr Hg. destruct (ghost_index r g Hr Hg) as [k [Hk [Eg El]]].
  destruct (row_shape r (to_local L r g) Hr ltac:(lia)) as [T [E [S [N ND]]]]. rewrite E. f_equal.
  destruct (gw_foreign _ _ _ _ W r g Hr Hg) as [q [Nq Oq]].
  destruct (rows_of_spec r Hr) as [rows0 [_ [_ [Le [WS [_ [_ [_ Gh]]]]]]]].
  specialize (Gh (to_local L r g)).
  apply sorted_unique; [assumption|apply sorted_map; [|apply K_sorted]|].
  { intros x y Hx Hy Hlt. apply K_In in Hx as [[_ Hx] _]; [|assumption]. lia. }
  intros j. specialize (Gh j ltac:(lia) ltac:(lia)). rewrite E in Gh. cbn [In] in Gh.
  assert (NJ : forall j, j < size L r -> nth j (local_rows L cols r) [] = map (to_local L r) (cols (first L r + j)))
    by (intros; apply nth_error_nth, local_rows_nth; assumption).
  split; intros H.
  - destruct (proj1 Gh (or_intror H)) as [->|[Hj I]]; [contradiction|].
    rewrite NJ in I by assumption. apply in_map_iff in I as [c [E1 E2]]. assert (O := own r j Hr Hj).
    assert (c = g) by (apply (to_local_inj r); [assumption|eapply known_cols; eauto|right; assumption|assumption]). subst c.
    apply in_map_iff. exists (first L r + j). split; [lia|]. apply K_In; [assumption|]. split; [assumption|].
    apply (gw_sym _ _ _ _ W r q); assumption.
  - apply in_map_iff in H as [c [<- Hc]]. apply K_In in Hc as [Oc Ic]; [|assumption].
    assert (B := proj2 Oc).
    destruct (proj2 Gh) as [H|H]; [|lia|assumption].
    right. split; [lia|]. rewrite NJ by lia. replace (first L r + (c - first L r)) with c by lia.
    apply in_map. apply (gw_sym _ _ _ _ W q r); assumption.
Qed.

(** ** Ghosts by owner *)
Lemma ghosts_from_In r q g : q < ranks L -> In g (ghosts_from L r q) <-> In g (ghosts L r) /\ owned_by L q g.
Proof. intros Hq. unfold ghosts_from. rewrite filter_In, owns_spec by assumption. tauto. Qed.

Lemma ghosts_split r : r < ranks L -> ghosts L r = flat_map (ghosts_from L r) (seq 0 (ranks L)).
Proof.
  intros Hr. apply sorted_unique; [apply (gw_ghosts _ _ _ _ W); assumption| |].
  - assert (G : forall n, n <= ranks L -> StronglySorted lt (flat_map (ghosts_from L r) (seq 0 n))).
    { induction n as [|n IH]; intros Hn; [constructor|]. rewrite seq_snoc, flat_map_app. apply sorted_app.
      - apply IH; lia.
      - cbn [flat_map Nat.add]. rewrite app_nil_r. apply sorted_filter. apply (gw_ghosts _ _ _ _ W); assumption.
      - intros x y Hx Hy. apply in_flat_map in Hx as [q [Hq Hx]]. apply in_seq in Hq.
        apply in_flat_map in Hy as [q' [Hq' Hy]]. destruct Hq' as [<-|[]]. cbn [Nat.add] in Hy.
        apply ghosts_from_In in Hx as [_ Ox]; [|lia]. apply ghosts_from_In in Hy as [_ Oy]; [|lia].
        assert (A := gw_ascending _ _ _ _ W q n ltac:(lia) ltac:(lia)). unfold owned_by in *. lia. }
    apply G. lia.
  - intros g. rewrite in_flat_map. split.
    + intros Hg. destruct (gw_foreign _ _ _ _ W r g Hr Hg) as [q [_ Oq]]. exists q. split.
      * apply in_seq. destruct Oq; lia.
      * apply ghosts_from_In; [apply Oq|]. auto.
    + intros [q [Hq H]]. apply in_seq in Hq. apply ghosts_from_In in H as [H _]; [assumption|lia].
Qed.

(** Receivers and senders with something to exchange. *)
Definition nz (f : nat -> list nat) (q : nat) : bool := negb (length (f q) =? 0).
Definition from_ranks r := filter (nz (ghosts_from L r)) (seq 0 (ranks L)).
Definition to_ranks r := filter (nz (fun q => ghosts_from L q r)) (seq 0 (ranks L)).

Lemma nonzero_map (f : nat -> list nat) l :
  nonzero (map (fun q => (q, length (f q))) l) = map (fun q => (q, length (f q))) (filter (nz f) l).
Proof. unfold nonzero. rewrite filter_map_comm. reflexivity. Qed.
Lemma nz_spec f q : nz f q = true <-> f q <> [].
Proof using Type. unfold nz. destruct (f q); simpl; split; congruence. Qed.
Lemma nz_false f q : nz f q = false -> f q = [].
Proof. unfold nz. destruct (f q); simpl; congruence. Qed.
Lemma from_ranks_In r q : In q (from_ranks r) <-> q < ranks L /\ ghosts_from L r q <> [].
Proof using Type. unfold from_ranks. rewrite filter_In, in_seq, nz_spec. split; intros [H1 H2]; (split; [lia|assumption]). Qed.
Lemma to_ranks_In r q : In q (to_ranks r) <-> q < ranks L /\ ghosts_from L q r <> [].
Proof using Type. unfold to_ranks. rewrite filter_In, in_seq, (nz_spec (fun q => ghosts_from L q r)). split; intros [H1 H2]; (split; [lia|assumption]). Qed.
Lemma from_ranks_sorted r : StronglySorted lt (from_ranks r).
Proof. apply sorted_filter, sorted_seq. Qed.
Lemma to_ranks_sorted r : StronglySorted lt (to_ranks r).
Proof. apply sorted_filter, sorted_seq. Qed.

Definition sent_rows r t := map (fun g => g - first L r) (ghosts_from L t r).

Lemma partitioner_targets r :
  partitioner_of L r = Partitioner (map (fun q => (q, length (ghosts_from L r q))) (from_ranks r))
    (map (fun q => (q, length (sent_rows r q))) (to_ranks r)) (flat_map (sent_rows r) (to_ranks r)).
Proof.
  unfold partitioner_of. rewrite !nonzero_map. unfold from_ranks, to_ranks. f_equal.
  - apply map_ext. intros q. unfold sent_rows. rewrite map_length. reflexivity.
  - symmetry. apply flat_map_filter. intros q _ H. apply nz_false in H. unfold sent_rows. rewrite H. reflexivity.
Qed.

Lemma ghosts_by_rank r : r < ranks L -> ghosts L r = flat_map (ghosts_from L r) (from_ranks r).
Proof.
  intros Hr. rewrite ghosts_split at 1 by assumption. symmetry. apply flat_map_filter.
  intros q _ H. apply nz_false in H. assumption.
Qed.

(** ** The receive targets *)
Definition ghost_weight r g := S (length (K r g)).
Definition sum_weights r l := fold_right (fun g s => ghost_weight r g + s) 0 l.
Definition recv_targets r := cumul 0 (map (fun q => (q, sum_weights r (ghosts_from L r q))) (from_ranks r)).

Lemma ghost_slen r g : r < ranks L -> In g (ghosts L r) -> slen (rows_of r) (to_local L r g) = ghost_weight r g.
Proof. intros Hr Hg. unfold slen. rewrite ghost_row by assumption. simpl. rewrite map_length. reflexivity. Qed.

Lemma receive_loop_spec r old : r < ranks L ->
  receive_loop (size L r) (rows_of r) (ghost_targets (partitioner_of L r)) old = Some (recv_targets r).
Proof.
  intros Hr. destruct (rows_of_spec r Hr) as [rows0 [_ [_ [Le _]]]].
  unfold receive_loop. rewrite partitioner_targets. cbn [ghost_targets].
  set (Bs := map (fun q => (q, map (fun g => srow (rows_of r) (to_local L r g)) (ghosts_from L r q))) (from_ranks r)).
  assert (Eg : map (fun q => (q, length (ghosts_from L r q))) (from_ranks r) = map (fun b => (fst b, length (snd b))) Bs).
  { unfold Bs. rewrite map_map. apply map_ext. intros q. cbn [fst snd]. rewrite map_length. reflexivity. }
  rewrite Eg.
  assert (Er : foldM (fun st i => row <- vget (rows_of r) i ;; receive_step (map (fun b => (fst b, length (snd b))) Bs) st row)
      (0, 0, 0, combine (map fst (map (fun b => (fst b, length (snd b))) Bs))
           (map snd (resize (length (map (fun b => (fst b, length (snd b))) Bs)) old)))
      (seq (size L r) (length (rows_of r) - size L r)) =
    foldM (receive_step (map (fun b => (fst b, length (snd b))) Bs))
      (0, 0, 0, combine (map fst Bs) (map snd (resize (length Bs) old))) (flat_map snd Bs)).
  { rewrite map_map. cbn [fst]. rewrite map_length. change (map (fun x : nat * list (list nat) => fst x) Bs) with (map fst Bs).
    replace (length (rows_of r) - size L r) with (length (ghosts L r)) by lia.
    assert (F : flat_map snd Bs = map (srow (rows_of r)) (seq (size L r) (length (ghosts L r)))).
    { unfold Bs. rewrite flat_map_map. cbn [snd].
      transitivity (map (fun g => srow (rows_of r) (to_local L r g)) (ghosts L r)).
      - rewrite (ghosts_by_rank r Hr) . generalize (from_ranks r) as l. induction l as [|q l IH]; [reflexivity|].
        cbn [flat_map]. rewrite map_app, IH. reflexivity.
      - rewrite (list_by_index (ghosts L r)) at 1. rewrite map_map.
        replace (seq (size L r) (length (ghosts L r))) with (map (fun k => size L r + k) (seq 0 (length (ghosts L r)))).
        + rewrite map_map. apply map_ext_in. intros k Hk. apply in_seq in Hk. rewrite to_local_ghost by (assumption || lia). reflexivity.
        + clear. generalize (length (ghosts L r)) as n. induction n as [|n IH]; [reflexivity|].
          rewrite !seq_snoc, map_app, IH. reflexivity. }
    rewrite F, foldM_map. apply foldM_ext. intros i b Hi. apply in_seq in Hi.
    rewrite vget_srow by lia. reflexivity. }
  rewrite Er.
  destruct (receive_blocks Bs (map (fun b => (fst b, length (snd b))) Bs) [] 0 [] (map snd (resize (length Bs) old))) as [k [s E]].
  - intros b Hb. unfold Bs in Hb. apply in_map_iff in Hb as [q [<- Hq]]. cbn [snd]. rewrite map_length.
    apply from_ranks_In in Hq as [_ Hq]. destruct (ghosts_from L r q); [congruence|simpl; lia].
  - reflexivity.
  - reflexivity.
  - rewrite map_length. unfold resize. rewrite app_length, repeat_length, firstn_length. lia.
  - cbn [length app] in E. rewrite E. cbn [snd]. f_equal. unfold recv_targets, Bs. rewrite map_map. cbn [fst snd].
    f_equal. apply map_ext_in. intros q Hq. f_equal. apply from_ranks_In in Hq as [Hq _].
    assert (H : forall g, In g (ghosts_from L r q) -> In g (ghosts L r)) by (intros g Hg; apply ghosts_from_In in Hg; tauto).
    induction (ghosts_from L r q) as [|g l IH]; [reflexivity|]. cbn [map weight fold_right sum_weights].
    rewrite <- ghost_slen by (try assumption; apply H; left; reflexivity).
    unfold slen. f_equal. apply IH. intros; apply H; right; assumption.
Qed.

Lemma recv_targets_fst r : map fst (recv_targets r) = from_ranks r.
Proof. unfold recv_targets. rewrite cumul_fst, map_map. cbn [fst]. apply map_id. Qed.

(** ** The ghost range of a rank *)
Definition below r t := length (flat_map (ghosts_from L r) (firstn (ix t (from_ranks r)) (from_ranks r))).
Definition range_lo r t := size L r + below r t.
Definition range_hi r t := range_lo r t + length (ghosts_from L r t).

Lemma ghost_ranges_at s a b :
  vget (ghost_ranges s (a ++ b)) (length a) = Some (s + total a).
Proof.
  revert s; induction a as [|[q n] a IH]; intros s.
  - destruct b as [|[q n] b]; simpl; rewrite Nat.add_0_r; reflexivity.
  - simpl. unfold vget in *. simpl. rewrite IH. f_equal. lia.
Qed.

Lemma split_at_ix t l : In t l -> l = firstn (ix t l) l ++ t :: skipn (S (ix t l)) l.
Proof.
  induction l as [|k l IH]; intros H; [destruct H|]. simpl. destruct (Nat.eqb_spec k t) as [->|N]; [reflexivity|].
  destruct H as [H|H]; [congruence|]. cbn [firstn app]. f_equal. apply IH; assumption.
Qed.

Lemma total_lengths r l : total (map (fun q => (q, length (ghosts_from L r q))) l) = length (flat_map (ghosts_from L r) l).
Proof. induction l as [|q l IH]; [reflexivity|]. cbn [map total fold_right flat_map snd]. rewrite app_length, <- IH. reflexivity. Qed.

Lemma ranges_lo r t : In t (from_ranks r) ->
  vget (ghost_ranges (size L r) (ghost_targets (partitioner_of L r))) (ix t (from_ranks r)) = Some (range_lo r t).
Proof.
  intros H. rewrite partitioner_targets. cbn [ghost_targets].
  rewrite (split_at_ix t _ H) at 1. rewrite map_app.
  assert (E := ghost_ranges_at (size L r) (map (fun q => (q, length (ghosts_from L r q))) (firstn (ix t (from_ranks r)) (from_ranks r)))
     (map (fun q => (q, length (ghosts_from L r q))) (t :: skipn (S (ix t (from_ranks r))) (from_ranks r)))).
  rewrite map_length, firstn_length, Nat.min_l, total_lengths in E by apply ix_le. exact E.
Qed.
Lemma ranges_hi r t : In t (from_ranks r) ->
  vget (ghost_ranges (size L r) (ghost_targets (partitioner_of L r))) (ix t (from_ranks r) + 1) = Some (range_hi r t).
Proof.
  intros H. rewrite partitioner_targets. cbn [ghost_targets].
  rewrite (split_at_ix t _ H) at 1.
  set (a := firstn (ix t (from_ranks r)) (from_ranks r)). set (b := skipn (S (ix t (from_ranks r))) (from_ranks r)).
  replace (a ++ t :: b) with ((a ++ [t]) ++ b) by (rewrite <- app_assoc; reflexivity). rewrite map_app.
  assert (E := ghost_ranges_at (size L r) (map (fun q => (q, length (ghosts_from L r q))) (a ++ [t]))
     (map (fun q => (q, length (ghosts_from L r q))) b)).
  rewrite map_length, app_length, total_lengths, flat_map_app, app_length in E.
  assert (La : length a = ix t (from_ranks r)) by (unfold a; rewrite firstn_length, Nat.min_l; [reflexivity|apply ix_le]).
  rewrite La in E. cbn [length flat_map] in E. rewrite app_nil_r in E.
  unfold range_hi, range_lo, below. fold a. rewrite <- Nat.add_assoc. exact E.
Qed.

(** A local index is in the range of t if and only if t owns the global index. *)
Lemma range_spec r t j : r < ranks L -> In t (from_ranks r) -> j < nrel r ->
  (range_lo r t <=? j) && (j <? range_hi r t) = owns L t (to_global L r j).
Proof.
  intros Hr Ht Hj. assert (Ht' := proj1 (from_ranks_In r t) Ht). destruct Ht' as [Ht1 Ht2].
  assert (Ntr : t <> r).
  { intros ->. apply Ht2. destruct (ghosts_from L r r) as [|g l] eqn:E; [reflexivity|]. exfalso.
    assert (Q : In g (ghosts_from L r r)) by (rewrite E; left; reflexivity).
    apply ghosts_from_In in Q as [Q1 Q2]; [|assumption]. apply (ghost_not_owned r g); assumption. }
  assert (G : ghosts L r = flat_map (ghosts_from L r) (firstn (ix t (from_ranks r)) (from_ranks r)) ++ ghosts_from L r t ++
     flat_map (ghosts_from L r) (skipn (S (ix t (from_ranks r))) (from_ranks r))).
  { rewrite (ghosts_by_rank r Hr) at 1. rewrite (split_at_ix t _ Ht) at 1. rewrite flat_map_app. reflexivity. }
  assert (ND : NoDup (from_ranks r)) by (apply sorted_nodup, from_ranks_sorted).
  rewrite (split_at_ix t _ Ht) in ND. apply NoDup_remove_2 in ND.
  unfold range_hi, range_lo, below.
  set (G1 := flat_map (ghosts_from L r) (firstn (ix t (from_ranks r)) (from_ranks r))) in *.
  set (G2 := flat_map (ghosts_from L r) (skipn (S (ix t (from_ranks r))) (from_ranks r))) in *.
  assert (Out : forall g, In g G1 \/ In g G2 -> ~ owned_by L t g).
  { intros g Hg O. apply ND. apply in_app_iff.
    assert (X : exists q, (In q (firstn (ix t (from_ranks r)) (from_ranks r)) \/ In q (skipn (S (ix t (from_ranks r))) (from_ranks r))) /\ In g (ghosts_from L r q)).
    { destruct Hg as [Hg|Hg]; apply in_flat_map in Hg as [q [Hq Hg]]; exists q; auto. }
    destruct X as [q [Hq Hg']].
    assert (Q : In q (from_ranks r)) by (rewrite (split_at_ix t _ Ht); apply in_app_iff; simpl; tauto).
    apply from_ranks_In in Q as [Q _]. apply ghosts_from_In in Hg' as [_ Og]; [|assumption].
    rewrite <- (owner_unique t q g O Og) in Hq. exact Hq. }
  unfold to_global. destruct (j <? size L r) eqn:Ej.
  - apply Nat.ltb_lt in Ej. rewrite (proj2 (Nat.leb_gt _ _)) by lia. simpl. symmetry. apply owns_false; [assumption|].
    intros O. apply Ntr. apply (owner_unique t r (first L r + j)); [assumption|]. apply own; assumption.
  - apply Nat.ltb_ge in Ej. remember (j - size L r) as k eqn:Ek.
    assert (Hk : k < length (ghosts L r)) by lia. rewrite G in Hk |- *. rewrite !app_length in Hk.
    destruct (le_lt_dec (length G1) k) as [H1|H1].
    + rewrite app_nth2 by lia. rewrite (proj2 (Nat.leb_le _ _)) by lia. simpl andb.
      destruct (le_lt_dec (length (ghosts_from L r t)) (k - length G1)) as [H2|H2].
      * rewrite app_nth2 by lia. rewrite (proj2 (Nat.ltb_ge _ _)) by lia. symmetry. apply owns_false; [assumption|].
        apply Out. right. apply nth_In. lia.
      * rewrite app_nth1 by lia. rewrite (proj2 (Nat.ltb_lt _ _)) by lia. symmetry. apply owns_spec; [assumption|].
        apply (ghosts_from_In r t); [assumption|]. apply nth_In. lia.
    + rewrite app_nth1 by lia. rewrite (proj2 (Nat.leb_gt _ _)) by lia. simpl. symmetry. apply owns_false; [assumption|].
      apply Out. left. apply nth_In. lia.
Qed.

(** ** What is sent of a row *)

(** Rank q sends the row of g to rank t: the diagonal and the columns that t owns, in
    ascending order. *)
Definition entry_pos q g c := (to_local L q g, ix (to_local L q c) (srow (rows_of q) (to_local L q g))).

Lemma sent_row q t g : owned_by L q g -> In t (from_ranks q) ->
  row_entries (to_local L q g) (srow (rows_of q) (to_local L q g)) (range_lo q t) (range_hi q t) =
  map (entry_pos q g) (g :: K t g).
Proof.
  intros O Ht. assert (Hq := proj1 O). assert (Ht1 := proj1 (proj1 (from_ranks_In q t) Ht)).
  destruct (to_global_local q g Hq (or_introl O)) as [_ B].
  destruct (row_shape q (to_local L q g) Hq B) as [T [E [S [N ND]]]].
  unfold entry_pos. rewrite E. rewrite row_entries_spec by assumption. cbn [map]. f_equal.
  assert (Kn : forall c, In c (K t g) -> owned_by L t c /\ In c (cols g) /\ known q c /\ In c (ghosts L q)).
  { intros c Hc. apply K_In in Hc as [Oc Ic]; [|assumption]. assert (Kc := known_cols q g c O Ic).
    repeat split; try assumption; try apply Oc. destruct Kc as [Oc'|Gc]; [exfalso|assumption].
    assert (Etq := owner_unique t q c Oc Oc'). subst t. apply from_ranks_In in Ht as [_ Ht]. apply Ht.
    destruct (ghosts_from L q q) as [|x l] eqn:Ex; [reflexivity|]. exfalso.
    assert (Q : In x (ghosts_from L q q)) by (rewrite Ex; left; reflexivity).
    apply ghosts_from_In in Q as [Q1 Q2]; [|assumption]. apply (ghost_not_owned q x); assumption. }
  assert (F : filter (fun j => (range_lo q t <=? j) && (j <? range_hi q t)) T = map (to_local L q) (K t g)).
  { apply sorted_unique.
    - apply sorted_filter. assumption.
    - apply sorted_map; [|apply K_sorted]. intros x y Hx Hy Hlt.
      destruct (Kn x Hx) as [_ [_ [_ Gx]]]. destruct (Kn y Hy) as [_ [_ [_ Gy]]].
      unfold to_local. rewrite !owns_false by (try assumption; apply ghost_not_owned; assumption).
      assert (Q := count_below_lt (ghosts L q) x y Gx Hlt). lia.
    - intros j. rewrite filter_In. assert (R := owned_row q g O j). rewrite E in R. cbn [In] in R. split.
      + intros [HT Hr]. destruct (proj1 R (or_intror HT)) as [c [Ic Ec]].
        assert (Kc := known_cols q g c O Ic).
        destruct (to_global_local q c Hq Kc) as [E1 E2]. rewrite Ec in E1, E2.
        rewrite range_spec in Hr by assumption. rewrite E1 in Hr. apply owns_spec in Hr; [|assumption].
        apply in_map_iff. exists c. split; [assumption|]. apply K_In; auto.
      + intros H. apply in_map_iff in H as [c [Ec Hc]]. destruct (Kn c Hc) as [Oc [Ic [Kc Gc]]].
        destruct (to_global_local q c Hq Kc) as [E1 E2]. rewrite Ec in E1, E2. split.
        * destruct (proj2 R (ex_intro _ c (conj Ic Ec))) as [H|H]; [|assumption]. exfalso.
          assert (Egc : g = c) by (apply (to_local_inj q); [assumption|left; assumption|assumption|congruence]).
          apply (ghost_not_owned q c Hq Gc). rewrite <- Egc. assumption.
        * rewrite range_spec by assumption. rewrite E1. apply owns_spec; assumption. }
  rewrite F, map_map. reflexivity.
Qed.

(** ** The exchange data *)
Definition matched q t := mem t (from_ranks q).
Definition block q t : list (nat * nat) :=
  if matched q t then flat_map (fun g => map (entry_pos q g) (g :: K t g)) (ghosts_from L t q) else [].
Definition exchange_of q : exchange :=
  Exchange (recv_targets q) (cumul 0 (map (fun t => (t, length (block q t))) (to_ranks q))) (flat_map (block q) (to_ranks q)).

Lemma sent_rows_owned q t g : q < ranks L -> In g (ghosts_from L t q) -> owned_by L q g /\ g - first L q = to_local L q g /\ to_local L q g < size L q.
Proof.
  intros Hq Hg. apply ghosts_from_In in Hg as [_ O]; [|assumption]. split; [assumption|].
  destruct (to_local_owned q g O). split; [auto|assumption].
Qed.

Lemma exchange_spec q old : q < ranks L -> ghosts L q <> [] ->
  exchange_pattern (size L q) (rows_of q) (partitioner_of L q) old = Some (exchange_of q).
Proof.
  intros Hq Ng. destruct (rows_of_spec q Hq) as [rows0 [_ [_ [Le _]]]].
  unfold exchange_pattern.
  rewrite (proj2 (Nat.ltb_lt _ _)) by (destruct (ghosts L q); [congruence|simpl in *; lia]).
  rewrite receive_loop_spec by assumption.
  set (ranges := ghost_ranges (size L q) (ghost_targets (partitioner_of L q))).
  destruct (send_loop_gen (rows_of q) (recv_targets q) ranges (sent_rows q) (range_lo q) (range_hi q)) with
    (M := to_ranks q) (imports := flat_map (sent_rows q) (to_ranks q)) (pre := @nil nat) (p := 0) (s := 0)
    (entries := @nil (nat * nat)) (sends := @nil (nat * nat)) as [p' [k E]].
  - rewrite recv_targets_fst. apply from_ranks_sorted.
  - rewrite recv_targets_fst. apply ranges_lo.
  - rewrite recv_targets_fst. apply ranges_hi.
  - apply to_ranks_sorted.
  - intros t Ht i Hi. apply in_map_iff in Hi as [g [<- Hg]].
    destruct (sent_rows_owned q t g Hq Hg) as [_ [-> B]]. lia.
  - reflexivity.
  - reflexivity.
  - destruct (to_ranks q) as [|t M]; [exact Logic.I|].
    destruct (recv_targets q) as [|x l]; [left; reflexivity|right]. split; [simpl; lia|]. intros x' [].
  - rewrite partitioner_targets at 1 2. cbn [import_targets import_indices]. cbn [length app] in E. rewrite E.
    unfold exchange_of. f_equal.
    assert (Eb : forall t, send_block (rows_of q) (recv_targets q) (sent_rows q) (range_lo q) (range_hi q) t = block q t).
    { intros t. unfold send_block, block, matched, mem. rewrite recv_targets_fst.
      destruct (in_dec Nat.eq_dec t (from_ranks q)) as [I|N]; [|reflexivity].
      unfold sent_rows. rewrite flat_map_map. apply flat_map_ext_in. intros g Hg.
      destruct (sent_rows_owned q t g Hq Hg) as [O [-> B]]. apply sent_row; assumption. }
    f_equal.
    + f_equal. apply map_ext. intros t. rewrite Eb. reflexivity.
    + apply flat_map_ext. intros t. apply Eb.
Qed.

Lemma exchange_empty q : q < ranks L -> no_isolated_rank L -> ghosts L q = [] -> exchange_of q = Exchange [] [] [].
Proof.
  intros Hq NI Ng.
  assert (F : from_ranks q = []).
  { unfold from_ranks. induction (seq 0 (ranks L)) as [|t l IH]; [reflexivity|]. 
    assert (Hz : nz (ghosts_from L q) t = false) by (unfold nz, ghosts_from; rewrite Ng; reflexivity).
    cbn [filter]. rewrite Hz. exact IH. }
  assert (T : to_ranks q = []).
  { destruct (to_ranks q) as [|t l] eqn:E; [reflexivity|]. exfalso.
    assert (H : In t (to_ranks q)) by (rewrite E; left; reflexivity). apply to_ranks_In in H as [Ht H].
    destruct (ghosts_from L t q) as [|g l'] eqn:Eg; [congruence|].
    assert (Hg : In g (ghosts_from L t q)) by (rewrite Eg; left; reflexivity).
    apply ghosts_from_In in Hg as [H1 H2]; [|assumption]. apply (NI q t g); assumption. }
  unfold exchange_of, recv_targets. rewrite F, T. reflexivity.
Qed.
End World.
