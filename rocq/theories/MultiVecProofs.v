(** * Lemmas about multi-component vectors *)
From Coq Require Import List Arith Lia Bool Permutation.
From Verif Require Import Vec Opt SparseProofs MultiVec MultiVecSpec.
Import ListNotations.

Section MV.
Context {A : Type}.
Variables (n m : nat).
Implicit Types v : list A.

Lemma nth_error_seq0 k a : a < k -> nth_error (seq 0 k) a = Some a.
Proof.
  intros H. rewrite (nth_error_nth' _ 0) by (rewrite seq_length; lia).
  rewrite seq_nth by lia. reflexivity.
Qed.

Lemma mod_unique_sum i i' c c' : c < n -> c' < n -> i' * n + c' = i * n + c -> c' = c.
Proof.
  intros H1 H2 E. assert (i' = i) by nia. subst. lia.
Qed.

Lemma mapM_app {B C} (f : B -> option C) l1 l2 :
  mapM f (l1 ++ l2) = (a <- mapM f l1 ;; b <- mapM f l2 ;; Some (a ++ b)).
Proof.
  induction l1 as [|x l1 IH]; simpl.
  - destruct (mapM f l2); reflexivity.
  - destruct (f x); [|reflexivity]. rewrite IH. destruct (mapM f l1); [|reflexivity].
    destruct (mapM f l2); reflexivity.
Qed.

Lemma mv_get_defined v i : length v = m * n -> i < m ->
  exists t, mv_get n v i = Some t /\ length t = n.
Proof.
  intros L Hi. destruct (mapM_total (fun d => vget v (i * n + d)) (seq 0 n)) as [t E].
  - intros d Hd. apply in_seq in Hd. apply vget_defined. nia.
  - exists t. split; [exact E|]. apply mapM_some in E as [E _]. rewrite seq_length in E. exact E.
Qed.

Lemma mv_get_intro v i (t : list A) : length t = n ->
  (forall d, d < n -> vget v (i * n + d) = vget t d) -> mv_get n v i = Some t.
Proof.
  intros L H. unfold mv_get.
  rewrite (mapM_ext _ (fun d => vget t d)) by (intros d Hd; apply in_seq in Hd; apply H; lia).
  rewrite <- L. clear. induction t as [|x t IH] using rev_ind; [reflexivity|].
  rewrite app_length. simpl. rewrite Nat.add_comm. simpl Nat.add. rewrite seq_snoc.
  rewrite mapM_app. rewrite (mapM_ext _ (fun d => vget t d)).
  - rewrite IH. simpl. unfold vget. rewrite nth_error_app2 by lia.
    replace (length t - length t) with 0 by lia. reflexivity.
  - intros d Hd. apply in_seq in Hd. unfold vget. apply nth_error_app1. lia.
Qed.

Lemma foldM_combine {B S} (g : S -> nat -> B -> option S) (t : list B) a s0 :
  foldM (fun s d => x <- vget t (d - a) ;; g s d x) s0 (seq a (length t)) =
  foldM (fun s dx => g s (fst dx) (snd dx)) s0 (combine (seq a (length t)) t).
Proof.
  revert a s0; induction t as [|x t IH]; intros a s0; [reflexivity|].
  simpl length. simpl seq. simpl combine. cbn [foldM fst snd].
  replace (a - a) with 0 by lia. simpl vget.
  destruct (g s0 a x) as [s1|]; [|reflexivity].
  rewrite <- IH. apply foldM_ext. intros d b Hd. apply in_seq in Hd.
  replace (d - a) with (Datatypes.S (d - Datatypes.S a)) by lia. reflexivity.
Qed.

Lemma foldM_combine0 {B S} (g : S -> nat -> B -> option S) (t : list B) k s0 :
  length t = k ->
  foldM (fun s d => x <- vget t d ;; g s d x) s0 (seq 0 k) =
  foldM (fun s dx => g s (fst dx) (snd dx)) s0 (combine (seq 0 k) t).
Proof.
  intros <-. rewrite <- foldM_combine. apply foldM_ext. intros d b _.
  rewrite Nat.sub_0_r. reflexivity.
Qed.

Lemma in_combine_seq {B} (t : list B) a d x :
  In (d, x) (combine (seq a (length t)) t) <-> a <= d /\ nth_error t (d - a) = Some x.
Proof.
  revert a; induction t as [|y t IH]; intros a; simpl.
  - split; [tauto|]. intros [_ H]. destruct (d - a); discriminate.
  - rewrite IH. split.
    + intros [E|[H1 H2]].
      * inversion E; subst. rewrite Nat.sub_diag. auto.
      * split; [lia|]. replace (d - a) with (S (d - S a)) by lia. exact H2.
    + intros [H1 H2]. destruct (Nat.eq_dec d a) as [->|N].
      * rewrite Nat.sub_diag in H2. inversion H2. auto.
      * right. split; [lia|]. replace (d - a) with (S (d - S a)) in H2 by lia. exact H2.
Qed.

Lemma map_fst_combine {B C} (l : list B) (r : list C) :
  length l = length r -> map fst (combine l r) = l.
Proof. revert r; induction l; intros [|y r] H; simpl in *; try lia; f_equal; auto. Qed.

(** Loop of writes to addresses [g d], values from a list. *)
Lemma write_loop (g : nat -> nat) v (t : list A) k :
  length t = k ->
  (forall d, d < k -> g d < length v) ->
  (forall d d', d < k -> d' < k -> g d = g d' -> d = d') ->
  exists v', foldM (fun v d => x <- vget t d ;; vset v (g d) x) v (seq 0 k) = Some v' /\
    length v' = length v /\
    (forall d, d < k -> vget v' (g d) = vget t d) /\
    (forall a, (forall d, d < k -> a <> g d) -> vget v' a = vget v a).
Proof.
  intros L B I. rewrite foldM_combine0 with (g := fun v d x => vset v (g d) x) by assumption.
  assert (E0 : foldM (fun v dx => vset v (g (fst dx)) (snd dx)) v (combine (seq 0 k) t) =
               write_all v (map (fun dx => (g (fst dx), snd dx)) (combine (seq 0 k) t))).
  { unfold write_all. rewrite foldM_map. reflexivity. }
  rewrite E0. subst k.
  assert (Inn : forall a x, In (a, x) (map (fun dx => (g (fst dx), snd dx)) (combine (seq 0 (length t)) t)) <->
     exists d, a = g d /\ nth_error t d = Some x).
  { intros a x. rewrite in_map_iff. split.
    - intros [[d y] [E H]]. simpl in E. inversion E; subst. apply in_combine_seq in H as [_ H].
      rewrite Nat.sub_0_r in H. eauto.
    - intros [d [-> H]]. exists (d, x). split; [reflexivity|]. apply in_combine_seq.
      rewrite Nat.sub_0_r. split; [lia|assumption]. }
  destruct (write_all_defined (map (fun dx => (g (fst dx), snd dx)) (combine (seq 0 (length t)) t)) v)
    as [v' E].
  { intros a x H. apply Inn in H as [d [-> H]]. apply B. apply nth_error_Some. congruence. }
  exists v'. split; [assumption|]. split; [eapply write_all_length; eauto|]. split.
  - intros d Hd. destruct (vget_defined t d Hd) as [x Ex]. rewrite Ex.
    eapply write_all_same; [exact E| |apply Inn; eauto].
    rewrite map_map. simpl.
    replace (map (fun x0 : nat * A => g (fst x0)) (combine (seq 0 (length t)) t))
      with (map g (map fst (combine (seq 0 (length t)) t))) by (rewrite map_map; reflexivity).
    rewrite map_fst_combine by (rewrite seq_length; reflexivity).
    apply map_NoDup_in; [|apply seq_NoDup].
    intros x0 y0 Hx Hy. apply in_seq in Hx, Hy. apply I; lia.
  - intros a Ha. eapply write_all_other; [exact E|]. intros H.
    apply in_map_iff in H as [[a' x] [<- H]]. apply Inn in H as [d [E2 H]]. simpl in Ha.
    apply (Ha d); [apply nth_error_Some; congruence|assumption].
Qed.

Lemma mv_write_spec v i (t : list A) : length v = m * n -> i < m -> length t = n ->
  exists v', mv_write n v i t = Some v' /\ length v' = length v /\
    (forall d, d < n -> vget v' (i * n + d) = vget t d) /\
    (forall a, (forall d, d < n -> a <> i * n + d) -> vget v' a = vget v a).
Proof.
  intros L Hi Lt. apply (write_loop (fun d => i * n + d)); [assumption| |]; intros; nia.
Qed.

Lemma insert_spec v ls c (s : list A) : length v = m * n -> ls <= m -> c < n -> length s = ls ->
  exists v', insert_component n v ls s c = Some v' /\ length v' = length v /\
    (forall i, i < ls -> vget v' (i * n + c) = vget s i) /\
    (forall a, (forall i, i < ls -> a <> i * n + c) -> vget v' a = vget v a).
Proof.
  intros L Hl Hc Ls. apply (write_loop (fun i => i * n + c)); [assumption| |]; intros; nia.
Qed.

Lemma extract_spec v ls c (s0 x : list A) : length v = m * n -> ls <= m -> c < n ->
  length s0 = ls -> length x = ls ->
  (forall i, i < ls -> vget v (i * n + c) = vget x i) ->
  extract_component n v ls s0 c = Some x.
Proof.
  intros L Hl Hc Ls Lx H.
  destruct (write_loop (fun i => i) s0 x ls Lx) as [s' [E [L' [S O]]]]; [lia|auto|].
  unfold extract_component.
  rewrite (foldM_ext _ (fun s i => y <- vget x i ;; vset s i y))
    by (intros i b Hi; apply in_seq in Hi; rewrite H by lia; reflexivity).
  rewrite E. f_equal. apply vget_ext; [lia|]. intros i Hi. apply S. lia.
Qed.

Lemma gather_spec v js : length v = m * n -> (forall j, In j js -> j < m) ->
  exists regs, mapM (fun d => mapM (fun j => vget v (0 + j * n + d)) js) (seq 0 n) = Some regs /\
    length regs = n /\
    forall d k j, d < n -> nth_error js k = Some j ->
      exists reg t x, nth_error regs d = Some reg /\ length reg = length js /\
        nth_error reg k = Some x /\ mv_get n v j = Some t /\ nth_error t d = Some x.
Proof.
  intros L Hj.
  destruct (mapM_total (fun d => mapM (fun j => vget v (0 + j * n + d)) js) (seq 0 n)) as [regs E].
  { intros d Hd. apply in_seq in Hd. apply mapM_total. intros j Hin. apply vget_defined.
    specialize (Hj j Hin). simpl. nia. }
  exists regs. split; [assumption|]. destruct (mapM_some _ _ _ E) as [Lr Hr].
  rewrite seq_length in Lr. split; [assumption|]. intros d k j Hd Hk.
  destruct (Hr d d (nth_error_seq0 _ _ Hd)) as [reg [Ereg Nreg]].
  destruct (mapM_some _ _ _ Ereg) as [Lreg Hreg].
  destruct (Hreg k j Hk) as [x [Ex Nx]].
  assert (Hjm : j < m) by (apply Hj; eapply nth_error_In; eauto).
  destruct (mv_get_defined v j L Hjm) as [t [Et Lt]].
  destruct (mapM_some _ _ _ Et) as [_ Ht]. destruct (Ht d d (nth_error_seq0 _ _ Hd)) as [y [Ey Ny]].
  exists reg, t, x. repeat split; auto. simpl in Ex. congruence.
Qed.

Lemma mapM_nth (js : list nat) (f : nat -> nat) :
  mapM (fun k => j <- vget js k ;; Some (f j)) (seq 0 (length js)) = Some (map f js).
Proof.
  assert (H : forall a pre, length pre = a ->
     mapM (fun k => j <- vget (pre ++ js) k ;; Some (f j)) (seq a (length js)) = Some (map f js)).
  { induction js as [|j js IH]; intros a pre L; [reflexivity|].
    simpl. unfold vget at 1. rewrite nth_error_app2 by lia. rewrite L, Nat.sub_diag. simpl.
    rewrite (mapM_ext _ (fun k => j0 <- vget ((pre ++ [j]) ++ js) k ;; Some (f j0))).
    - rewrite IH; [reflexivity|]. rewrite app_length. simpl. lia.
    - intros k _. rewrite <- app_assoc. reflexivity. }
  exact (H 0 [] eq_refl).
Qed.

Lemma combine_map_self {B} (f : nat -> B) l : combine l (map f l) = map (fun k => (k, f k)) l.
Proof. induction l; simpl; congruence. Qed.

Lemma combine_seq_map w (f : nat -> nat) :
  combine (seq 0 (length (map f (seq 0 w)))) (map f (seq 0 w)) = map (fun k => (k, f k)) (seq 0 w).
Proof. rewrite map_length, seq_length. apply combine_map_self. Qed.

(** Both loops of a vectorized store as one sequence of writes. *)
Definition upd (plus : option (A -> A -> A)) v a x : option (list A) :=
  match plus with None => vset v a x | Some pl => y <- vget v a ;; vset v a (pl y x) end.

Definition upd_all plus v (l : list (nat * A)) := foldM (fun v ax => upd plus v (fst ax) (snd ax)) v l.

Lemma upd_length plus v a x v' : upd plus v a x = Some v' -> length v' = length v.
Proof.
  unfold upd. destruct plus; [destruct (vget v a); [|discriminate]|]; apply vset_length.
Qed.

Lemma upd_comm plus v i j x y : i <> j ->
  (v' <- upd plus v i x ;; upd plus v' j y) = (v' <- upd plus v j y ;; upd plus v' i x).
Proof.
  intros N. unfold upd. destruct plus as [pl|]; [|apply vset_comm; assumption].
  destruct (vget v i) as [a|] eqn:Ei; destruct (vget v j) as [b|] eqn:Ej.
  - assert (C := vset_comm v i j (pl a x) (pl b y) N).
    destruct (vset v i (pl a x)) as [v1|] eqn:E1; destruct (vset v j (pl b y)) as [v2|] eqn:E2.
    + rewrite (vget_vset_other _ _ _ _ _ E1), (vget_vset_other _ _ _ _ _ E2) by auto.
      rewrite Ei, Ej. exact C.
    + apply vset_none in E2. apply vget_some in Ej. lia.
    + apply vset_none in E1. apply vget_some in Ei. lia.
    + reflexivity.
  - destruct (vset v i (pl a x)) as [v1|] eqn:E1; [|reflexivity].
    rewrite (vget_vset_other _ _ _ _ _ E1) by auto. rewrite Ej. reflexivity.
  - destruct (vset v j (pl b y)) as [v1|] eqn:E1; [|reflexivity].
    rewrite (vget_vset_other _ _ _ _ _ E1) by auto. rewrite Ei. reflexivity.
  - reflexivity.
Qed.

Lemma upd_all_perm plus l l' :
  Permutation l l' -> NoDup (map fst l) -> forall v, upd_all plus v l = upd_all plus v l'.
Proof.
  unfold upd_all. induction 1; intros ND v; simpl.
  - reflexivity.
  - inversion ND; subst. destruct (upd plus v (fst x) (snd x)); auto.
  - inversion ND as [|? ? N1 ND']; subst.
    assert (Hne : fst y <> fst x) by (intros E; apply N1; rewrite E; left; reflexivity).
    assert (C := upd_comm plus v (fst y) (fst x) (snd y) (snd x) Hne).
    destruct (upd plus v (fst y) (snd y)) as [v1|], (upd plus v (fst x) (snd x)) as [v2|];
      simpl in *; rewrite ?C; try rewrite <- C; reflexivity.
  - rewrite IHPermutation1 by assumption. apply IHPermutation2.
    eapply Permutation_NoDup; [apply Permutation_map; eassumption|assumption].
Qed.

Lemma upd_all_defined plus l v :
  (forall a x, In (a, x) l -> a < length v) -> exists v', upd_all plus v l = Some v'.
Proof.
  intros H. unfold upd_all.
  destruct (foldM_total (fun v ax => upd plus v (fst ax) (snd ax))
              (fun u : list A => length u = length v) l v) as [v' [E _]]; eauto.
  intros [a x] b Hin Lb. simpl. assert (a < length b) by (rewrite Lb; eauto).
  assert (D : exists b', upd plus b a x = Some b').
  { unfold upd. destruct plus.
    - destruct (vget_defined b a H0) as [y ->]. apply vset_defined. assumption.
    - apply vset_defined. assumption. }
  destruct D as [b' E]. exists b'. split; auto. rewrite (upd_length _ _ _ _ _ E). assumption.
Qed.

Lemma store_flat plus w v i (f : nat -> nat -> A) :
  transpose_and_store n plus v (i * n) (map (fun k => k * n) (seq 0 w))
    (map (fun d => map (f d) (seq 0 w)) (seq 0 n)) =
  upd_all plus v (flat_map (fun d => map (fun k => ((i + k) * n + d, f d k)) (seq 0 w)) (seq 0 n)).
Proof.
  unfold transpose_and_store, upd_all. rewrite foldM_flat_map. apply foldM_ext.
  intros d b Hd. apply in_seq in Hd. rewrite (vget_map_seq (fun d => map (f d) (seq 0 w))) by lia.
  rewrite combine_seq_map, !foldM_map. apply foldM_ext.
  intros k b' Hk. apply in_seq in Hk. cbn [fst snd].
  rewrite (vget_map_seq (f d)) by lia. unfold upd.
  replace (i * n + k * n + d) with ((i + k) * n + d) by lia. reflexivity.
Qed.

Lemma lanes_flat plus w v i (f : nat -> nat -> A) :
  foldM (fun v k => foldM (fun v d => x <- vget (map (fun d => f d k) (seq 0 n)) d ;;
                                      upd plus v ((i + k) * n + d) x) v (seq 0 n)) v (seq 0 w) =
  upd_all plus v (flat_map (fun k => map (fun d => ((i + k) * n + d, f d k)) (seq 0 n)) (seq 0 w)).
Proof.
  unfold upd_all. rewrite foldM_flat_map. apply foldM_ext. intros k b Hk.
  rewrite foldM_map. apply foldM_ext. intros d b' Hd. apply in_seq in Hd.
  rewrite (vget_map_seq (fun d => f d k)) by lia. reflexivity.
Qed.

Lemma map_add_seq b z k : map (fun d => b + d) (seq z k) = seq (b + z) k.
Proof.
  revert z; induction k as [|k IH]; intros z; [reflexivity|].
  simpl. f_equal. rewrite IH. f_equal. lia.
Qed.

Lemma lanes_addr_nodup w i (f : nat -> nat -> A) :
  NoDup (map fst (flat_map (fun k => map (fun d => ((i + k) * n + d, f d k)) (seq 0 n)) (seq 0 w))).
Proof.
  assert (H : forall a, map fst (flat_map (fun k => map (fun d => ((i + k) * n + d, f d k)) (seq 0 n)) (seq a w))
     = seq ((i + a) * n) (w * n)).
  { induction w as [|w' IH]; intros a; [reflexivity|]. simpl seq. simpl flat_map.
    rewrite map_app, IH, map_map. simpl Nat.mul. rewrite seq_app. f_equal.
    - cbn [fst]. rewrite map_add_seq. f_equal. lia.
    - f_equal. lia. }
  rewrite H. apply seq_NoDup.
Qed.

Lemma vector_upd_spec plus w v i (f : nat -> nat -> A) :
  length v = m * n -> i + w <= m ->
  exists v',
    transpose_and_store n plus v (i * n) (map (fun k => k * n) (seq 0 w))
      (map (fun d => map (f d) (seq 0 w)) (seq 0 n)) = Some v' /\
    foldM (fun v k => foldM (fun v d => x <- vget (map (fun d => f d k) (seq 0 n)) d ;;
                             upd plus v ((i + k) * n + d) x) v (seq 0 n)) v (seq 0 w) = Some v'.
Proof.
  intros L Hi. rewrite store_flat, lanes_flat.
  rewrite <- (upd_all_perm plus _ _ (flat_map_swap (fun k d => ((i + k) * n + d, f d k)) (seq 0 w) (seq 0 n))
                (lanes_addr_nodup w i f)).
  destruct (upd_all_defined plus
     (flat_map (fun k => map (fun d => ((i + k) * n + d, f d k)) (seq 0 n)) (seq 0 w)) v) as [v' E].
  - intros a x H. apply in_flat_map in H as [k [Hk H]]. apply in_map_iff in H as [d [E Hd]].
    apply in_seq in Hk, Hd. inversion E; subst. rewrite L. nia.
  - eauto.
Qed.

Lemma vector_write_spec w v i (f : nat -> nat -> A) :
  length v = m * n -> i + w <= m ->
  exists v', mv_write_v n w v i (map (fun d => map (f d) (seq 0 w)) (seq 0 n)) = Some v' /\
    foldM (fun v kt => mv_write n v (i + fst kt) (snd kt)) v
      (map (fun k => (k, map (fun d => f d k) (seq 0 n))) (seq 0 w)) = Some v'.
Proof.
  intros L Hi. destruct (vector_upd_spec None w v i f L Hi) as [v' [E1 E2]].
  exists v'. split; [exact E1|]. rewrite foldM_map. exact E2.
Qed.

Lemma vector_add_spec w v i (f : nat -> nat -> A) plus :
  length v = m * n -> i + w <= m ->
  exists v', mv_add_v n plus w v i (map (fun d => map (f d) (seq 0 w)) (seq 0 n)) = Some v' /\
    foldM (fun v kt => mv_add n plus v (i + fst kt) (snd kt)) v
      (map (fun k => (k, map (fun d => f d k) (seq 0 n))) (seq 0 w)) = Some v'.
Proof.
  intros L Hi. destruct (vector_upd_spec (Some plus) w v i f L Hi) as [v' [E1 E2]].
  exists v'. split; [exact E1|]. rewrite foldM_map. exact E2.
Qed.

Lemma mv_add_is_write plus v i (t u : list A) :
  length v = m * n -> i < m -> length t = n -> mv_get n v i = Some u ->
  mv_add n plus v i t =
  mv_write n v i (map (fun yx => plus (fst yx) (snd yx)) (combine u t)).
Proof.
  intros L Hi Lt Eu. unfold mv_add, mv_write.
  assert (Lu : length u = n) by (apply mapM_some in Eu as [E _]; rewrite seq_length in E; exact E).
  assert (G : forall d, d < n -> vget v (i * n + d) = vget u d).
  { intros d Hd. destruct (mapM_some _ _ _ Eu) as [_ H].
    destruct (H d d (nth_error_seq0 _ _ Hd)) as [y [E1 E2]]. unfold vget in *. congruence. }
  assert (K : forall k b, k <= n -> (forall d, d < k -> k <= d -> True) ->
    (forall d, n - k <= d -> d < n -> vget b (i * n + d) = vget v (i * n + d)) ->
    foldM (fun v d => x <- vget t d ;; y <- vget v (i * n + d) ;; vset v (i * n + d) (plus y x)) b
      (seq (n - k) k) =
    foldM (fun v d => x <- vget (map (fun yx => plus (fst yx) (snd yx)) (combine u t)) d ;;
                      vset v (i * n + d) x) b (seq (n - k) k)).
  { induction k as [|k IH]; intros b Hk _ Hb; [reflexivity|].
    simpl seq. cbn [foldM].
    assert (Hd : n - S k < n) by lia. remember (n - S k) as d.
    destruct (vget_defined t d ltac:(lia)) as [x Ex]. destruct (vget_defined u d ltac:(lia)) as [y Ey].
    rewrite Ex, Hb, G, Ey by lia.
    assert (Ec : vget (map (fun yx => plus (fst yx) (snd yx)) (combine u t)) d = Some (plus y x)).
    { unfold vget. rewrite nth_error_map. rewrite (nth_error_combine _ _ _ y x) by assumption. reflexivity. }
    rewrite Ec. destruct (vset b (i * n + d) (plus y x)) as [b'|] eqn:E; [|reflexivity].
    replace (S d) with (n - k) by lia. apply IH; [lia|auto|]. intros d' H1 H2.
    rewrite (vget_vset_other _ _ _ _ _ E) by lia. apply Hb; lia. }
  specialize (K n v (le_n _) (fun _ _ _ => I)). rewrite Nat.sub_diag in K. apply K. auto.
Qed.
End MV.

(** ** Partitioner *)

Lemma expand_element n s g c : c < n -> (forall a b, In (a, b) s -> a < b) ->
  is_element (expand_intervals n s) (g * n + c) = is_element s g.
Proof.
  intros Hc. induction s as [|[a b] s IH]; intros H; [reflexivity|].
  change (((a * n <=? g * n + c) && (g * n + c <? (b - 1 + 1) * n)) ||
          is_element (expand_intervals n s) (g * n + c) =
          ((a <=? g) && (g <? b)) || is_element s g).
  rewrite IH by (intros; apply H; right; assumption). f_equal.
  assert (a < b) by (apply H; left; reflexivity). replace (b - 1 + 1) with b by lia.
  destruct (Nat.leb_spec (a * n) (g * n + c)); destruct (Nat.leb_spec a g);
    destruct (Nat.ltb_spec (g * n + c) (b * n)); destruct (Nat.ltb_spec g b); simpl;
    try reflexivity; nia.
Qed.

Lemma expand_count n s : (forall a b, In (a, b) s -> a < b) ->
  n_elements (expand_intervals n s) = n_elements s * n.
Proof.
  induction s as [|[a b] s IH]; intros H; [reflexivity|].
  change (((b - 1 + 1) * n - a * n) + n_elements (expand_intervals n s) =
          ((b - a) + n_elements s) * n). rewrite IH by (intros; apply H; right; assumption).
  assert (a < b) by (apply H; left; reflexivity). replace (b - 1 + 1) with b by lia. nia.
Qed.

Lemma expand_index_out n s g c : c < n -> (forall a b, In (a, b) s -> a < b) ->
  is_element s g = false ->
  index_within_set (expand_intervals n s) (g * n + c) = index_within_set s g * n.
Proof.
  intros Hc. induction s as [|[a b] s IH]; intros H E; [reflexivity|].
  simpl in E. apply orb_false_iff in E as [E1 E2].
  change (Nat.min (g * n + c - a * n) ((b - 1 + 1) * n - a * n) +
          index_within_set (expand_intervals n s) (g * n + c) =
          (Nat.min (g - a) (b - a) + index_within_set s g) * n). rewrite IH by (auto; intros; apply H; right; assumption).
  assert (a < b) by (apply H; left; reflexivity). replace (b - 1 + 1) with b by lia.
  rewrite Nat.mul_add_distr_r. f_equal.
  apply andb_false_iff in E1 as [E1|E1].
  - apply Nat.leb_gt in E1. replace (g * n + c - a * n) with 0 by nia. replace (g - a) with 0 by lia.
    reflexivity.
  - apply Nat.ltb_ge in E1. rewrite (Nat.min_r (g - a)) by lia.
    rewrite Nat.min_r by nia. nia.
Qed.

Lemma expand_index n s g c : c < n -> (forall a b, In (a, b) s -> a < b) ->
  disjoint_intervals s -> is_element s g = true ->
  index_within_set (expand_intervals n s) (g * n + c) = index_within_set s g * n + c.
Proof.
  intros Hc. induction s as [|[a b] s IH]; intros H D E; [discriminate|].
  simpl in E.
  change (Nat.min (g * n + c - a * n) ((b - 1 + 1) * n - a * n) +
          index_within_set (expand_intervals n s) (g * n + c) =
          (Nat.min (g - a) (b - a) + index_within_set s g) * n + c).
  assert (a < b) by (apply H; left; reflexivity). replace (b - 1 + 1) with b by lia.
  assert (Hs : forall a b, In (a, b) s -> a < b) by (intros; apply H; right; assumption).
  destruct ((a <=? g) && (g <? b)) eqn:E1.
  - apply andb_true_iff in E1 as [E1 E2]. apply Nat.leb_le in E1. apply Nat.ltb_lt in E2.
    rewrite expand_index_out; auto.
    + rewrite (Nat.min_l (g - a)) by lia. rewrite Nat.min_l by nia. nia.
    + destruct (is_element s g) eqn:Q; [|reflexivity]. exfalso.
      unfold is_element in Q. apply existsb_exists in Q as [[a' b'] [Hin Q]]. simpl in Q.
      apply andb_true_iff in Q as [Q1 Q2]. apply Nat.leb_le in Q1. apply Nat.ltb_lt in Q2.
      apply In_nth_error in Hin as [k Hk].
      assert (0 = S k) by (apply (D 0 (S k) g a b a' b'); auto; lia). discriminate.
  - simpl in E.
    rewrite IH; auto.
    + rewrite Nat.mul_add_distr_r, Nat.add_assoc. do 2 f_equal.
      apply andb_false_iff in E1 as [E1|E1].
      * apply Nat.leb_gt in E1. replace (g * n + c - a * n) with 0 by nia. replace (g - a) with 0 by lia.
        reflexivity.
      * apply Nat.ltb_ge in E1. rewrite (Nat.min_r (g - a)) by lia.
        rewrite Nat.min_r by nia. nia.
    + intros i j x a0 b0 a1 b1 E3 E4 B1 B2.
      assert (Q := D (S i) (S j) x a0 b0 a1 b1 E3 E4 B1 B2). lia.
Qed.

(** ** Statements of the property theorems *)

Lemma C04_write_read_proof :
  forall (A : Type) n m (v : list A) i t,
    length v = m * n -> i < m -> length t = n ->
    exists v', mv_write n v i t = Some v' /\ length v' = length v /\
      mv_get n v' i = Some t /\
      forall j, j < m -> j <> i ->
        exists u, mv_get n v j = Some u /\ mv_get n v' j = Some u.
Proof.
  intros A n m v i t Lv Hi Lt.
  destruct (mv_write_spec n m v i t Lv Hi Lt) as [v' [E [L [S O]]]].
  exists v'. split; [assumption|]. split; [assumption|]. split.
  - apply mv_get_intro; [assumption|]. intros d Hd. rewrite S by assumption. reflexivity.
  - intros j Hj N. destruct (mv_get_defined n m v j Lv Hj) as [u [Eu Lu]].
    exists u. split; [assumption|]. rewrite <- Eu. apply mapM_ext. intros d Hd.
    apply in_seq in Hd. apply O. intros d' Hd' Q. apply N. nia.
Qed.

Lemma C04_insert_extract_proof :
  forall (A : Type) n m (v : list A) local_size c s s0,
    length v = m * n -> local_size <= m -> c < n ->
    length s = local_size -> length s0 = local_size ->
    exists v', insert_component n v local_size s c = Some v' /\
      length v' = length v /\
      extract_component n v' local_size s0 c = Some s /\
      (forall c', c' < n -> c' <> c ->
         extract_component n v' local_size s0 c' = extract_component n v local_size s0 c') /\
      (forall i, local_size <= i -> i < m -> mv_get n v' i = mv_get n v i).
Proof.
  intros A n m v ls c s s0 Lv Hl Hc Ls Ls0.
  destruct (insert_spec n m v ls c s Lv Hl Hc Ls) as [v' [E [L [S O]]]].
  exists v'. split; [assumption|]. split; [assumption|]. split; [|split].
  - apply (extract_spec n m v' ls c s0 s); auto. lia.
  - intros c' Hc' N. unfold extract_component. apply foldM_ext. intros i b Hi. apply in_seq in Hi.
    rewrite O; [reflexivity|]. intros i' Hi' Q.
    assert (c' = c) by (apply (mod_unique_sum n i' i c c'); auto; lia). auto.
  - intros i Hi Hi'. apply mapM_ext. intros d Hd. apply in_seq in Hd. apply O.
    intros i' Hi2 Q. nia.
Qed.

Lemma C04_extract_is_tensor_component_proof :
  forall (A : Type) n m (v : list A) local_size c s0,
    length v = m * n -> local_size <= m -> c < n -> length s0 = local_size ->
    exists s, extract_component n v local_size s0 c = Some s /\ length s = local_size /\
      forall i, i < local_size ->
        exists t x, mv_get n v i = Some t /\ nth_error t c = Some x /\ nth_error s i = Some x.
Proof.
  intros A n m v ls c s0 Lv Hl Hc Ls0.
  assert (D : forall i, i < ls -> exists x, vget v (i * n + c) = Some x)
    by (intros i Hi; apply vget_defined; nia).
  destruct (mapM_total (fun i => vget v (i * n + c)) (seq 0 ls)) as [s Es].
  { intros i Hi. apply in_seq in Hi. apply D. lia. }
  destruct (mapM_some _ _ _ Es) as [L Hs]. rewrite seq_length in L.
  assert (G : forall i, i < ls -> vget v (i * n + c) = vget s i).
  { intros i Hi. destruct (Hs i i) as [y [E1 E2]].
    - rewrite (nth_error_nth' _ 0) by (rewrite seq_length; lia). rewrite seq_nth by lia. reflexivity.
    - unfold vget in *. congruence. }
  exists s. split; [|split].
  - apply extract_spec with (m := m); auto.
  - assumption.
  - intros i Hi. destruct (mv_get_defined n m v i Lv ltac:(lia)) as [t [Et Lt]].
    destruct (D i Hi) as [x Ex]. exists t, x. split; [assumption|]. split.
    + destruct (mapM_some _ _ _ Et) as [_ Ht]. destruct (Ht c c) as [y [E1 E2]].
      * rewrite (nth_error_nth' _ 0) by (rewrite seq_length; lia). rewrite seq_nth by lia. reflexivity.
      * congruence.
    + rewrite <- Ex. symmetry. apply G. assumption.
Qed.

Lemma C04_vector_read_proof :
  forall (A : Type) n m w (v : list A) i,
    length v = m * n -> i + w <= m ->
    exists regs, mv_get_v n w v i = Some regs /\ length regs = n /\
      forall d k, d < n -> k < w ->
        exists reg t x, nth_error regs d = Some reg /\ length reg = w /\
          nth_error reg k = Some x /\ mv_get n v (i + k) = Some t /\ nth_error t d = Some x.
Proof.
  intros A n m w v i Lv Hi.
  destruct (gather_spec n m v (map (fun k => i + k) (seq 0 w)) Lv) as [regs [E [Lr H]]].
  { intros j Hj. apply in_map_iff in Hj as [k [<- Hk]]. apply in_seq in Hk. lia. }
  exists regs. split; [|split; [assumption|]].
  - rewrite <- E. unfold mv_get_v, load_and_transpose. apply mapM_ext. intros d _.
    rewrite !mapM_map. apply mapM_ext. intros k _. f_equal. lia.
  - intros d k Hd Hk. rewrite map_length, seq_length in H.
    destruct (H d k (i + k) Hd) as [reg [t [x Q]]].
    + rewrite nth_error_map, (nth_error_nth' _ 0) by (rewrite seq_length; lia).
      rewrite seq_nth by lia. reflexivity.
    + exists reg, t, x. exact Q.
Qed.

Lemma C04_vector_gather_proof :
  forall (A : Type) n m w (v : list A) js,
    length v = m * n -> length js = w -> (forall j, In j js -> j < m) ->
    exists regs, mv_gather_v n w v js = Some regs /\ length regs = n /\
      forall d k j, d < n -> nth_error js k = Some j ->
        exists reg t x, nth_error regs d = Some reg /\ length reg = w /\
          nth_error reg k = Some x /\ mv_get n v j = Some t /\ nth_error t d = Some x.
Proof.
  intros A n m w v js Lv Lj Hj. subst w.
  destruct (gather_spec n m v js Lv Hj) as [regs [E [Lr H]]].
  exists regs. split; [|split; assumption]. rewrite <- E.
  unfold mv_gather_v. rewrite (mapM_nth js (fun j => j * n)). unfold load_and_transpose.
  apply mapM_ext. intros d _. rewrite mapM_map. reflexivity.
Qed.

Lemma C04_vector_write_proof :
  forall (A : Type) n m w (v : list A) i lanes,
    0 < n -> 0 < w -> length v = m * n -> i + w <= m ->
    length lanes = w -> (forall t, In t lanes -> length t = n) ->
    exists regs v', mapM (fun d => mapM (fun t => nth_error t d) lanes) (seq 0 n) = Some regs /\
      mv_write_v n w v i regs = Some v' /\
      foldM (fun v kt => mv_write n v (i + fst kt) (snd kt)) v (combine (seq 0 w) lanes) = Some v'.
Proof.
  intros A n m w v i lanes Hn Hw Lv Hi Ll Lt.
  destruct (lanes_as_map lanes w n Hw Hn Ll Lt) as [f ->].
  rewrite mapM_nth_lanes. eexists. rewrite combine_map_self.
  destruct (vector_write_spec n m w v i f Lv Hi) as [v' [E1 E2]].
  exists v'. split; [reflexivity|]. split; assumption.
Qed.

Lemma C04_vector_add_proof :
  forall (A : Type) (plus : A -> A -> A) n m w (v : list A) i lanes,
    0 < n -> 0 < w -> length v = m * n -> i + w <= m ->
    length lanes = w -> (forall t, In t lanes -> length t = n) ->
    exists regs v', mapM (fun d => mapM (fun t => nth_error t d) lanes) (seq 0 n) = Some regs /\
      mv_add_v n plus w v i regs = Some v' /\
      foldM (fun v kt => mv_add n plus v (i + fst kt) (snd kt)) v (combine (seq 0 w) lanes) = Some v'.
Proof.
  intros A plus n m w v i lanes Hn Hw Lv Hi Ll Lt.
  destruct (lanes_as_map lanes w n Hw Hn Ll Lt) as [f ->].
  rewrite mapM_nth_lanes. eexists. rewrite combine_map_self.
  destruct (vector_add_spec n m w v i f plus Lv Hi) as [v' [E1 E2]].
  exists v'. split; [reflexivity|]. split; assumption.
Qed.

Lemma C04_add_tensor_proof :
  forall (A : Type) (plus : A -> A -> A) n m (v : list A) i t,
    length v = m * n -> i < m -> length t = n ->
    exists u v', mv_get n v i = Some u /\ mv_add n plus v i t = Some v' /\
      mv_get n v' i = Some (map (fun yx => plus (fst yx) (snd yx)) (combine u t)) /\
      forall j, j < m -> j <> i -> mv_get n v' j = mv_get n v j.
Proof.
  intros A plus n m v i t Lv Hi Lt.
  destruct (mv_get_defined n m v i Lv Hi) as [u [Eu Lu]].
  set (t' := map (fun yx => plus (fst yx) (snd yx)) (combine u t)).
  assert (Lt' : length t' = n) by (unfold t'; rewrite map_length, combine_length; lia).
  destruct (mv_write_spec n m v i t' Lv Hi Lt') as [v' [E [L [S O]]]].
  exists u, v'. split; [assumption|]. split; [|split].
  - rewrite <- E. apply mv_add_is_write with (m := m) (u := u); auto.
  - apply mv_get_intro; [assumption|]. intros d Hd. rewrite S by assumption. reflexivity.
  - intros j Hj N. apply mapM_ext. intros d Hd.
    apply in_seq in Hd. apply O. intros d' Hd' Q. apply N. nia.
Qed.

Lemma C05_membership_proof :
  forall n p g c, c < n ->
    (forall a b, In (a, b) (part_owned p ++ part_ghost p) -> a < b) ->
    is_element (part_owned (create_vector_partitioner n p)) (g * n + c)
      = is_element (part_owned p) g /\
    is_element (part_ghost (create_vector_partitioner n p)) (g * n + c)
      = is_element (part_ghost p) g.
Proof.
  intros n p g c Hc Hne. split; apply expand_element; auto;
    intros a b Hin; apply (Hne a b); apply in_or_app; auto.
Qed.

Lemma C05_local_numbering_proof :
  forall n p g c, c < n ->
    (forall a b, In (a, b) (part_owned p ++ part_ghost p) -> a < b) ->
    disjoint_intervals (part_owned p) -> disjoint_intervals (part_ghost p) ->
    global_to_local (create_vector_partitioner n p) (g * n + c) =
      (l <- global_to_local p g ;; Some (l * n + c)).
Proof.
  intros n p g c Hc Hne D1 D2.
  assert (N1 : forall a b, In (a, b) (part_owned p) -> a < b) by (intros; eapply Hne; apply in_or_app; eauto).
  assert (N2 : forall a b, In (a, b) (part_ghost p) -> a < b) by (intros; eapply Hne; apply in_or_app; eauto).
  unfold global_to_local. simpl.
  rewrite !expand_element by auto. rewrite expand_count by auto.
  destruct (is_element (part_owned p) g) eqn:E1; [rewrite expand_index by auto; reflexivity|].
  destruct (is_element (part_ghost p) g) eqn:E2; [|reflexivity].
  rewrite expand_index by auto. f_equal. lia.
Qed.
