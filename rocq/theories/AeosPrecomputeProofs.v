(** * Proofs for the precomputation loop *)
From Coq Require Import Reals List Arith Bool Lia Lra.
From Verif Require Import RVec EulerSystem AeosSystem AeosPrecompute AeosPrecomputeSpec EosSpec Eos EosProofs.
Import ListNotations.
Local Open Scope R_scope.

Lemma C43_surrogate_proof e dim U p :
  interp_b e * a_density U <> 1 ->
  a_internal_energy dim U - a_density U * interp_q e - (1 - interp_b e * a_density U) * interp_pinf e <> 0 ->
  surrogate_pressure e dim U (surrogate_gamma e dim U p) = p.
Proof.
  intros H1 H2. unfold surrogate_pressure, surrogate_gamma.
  set (x := a_internal_energy dim U - a_density U * interp_q e) in *. set (c := 1 - interp_b e * a_density U) in *.
  assert (C : c <> 0) by (unfold c; lra). clearbody x c. field. split; assumption.
Qed.

(** ** Index sets *)

Lemma indices_In l r s i : (0 < s)%nat -> In i (indices l r s) <-> exists k, (i = l + k * s)%nat /\ (i < r)%nat.
Proof.
  intros H. unfold indices. rewrite in_map_iff. split.
  - intros (k & <- & Hk). apply in_seq in Hk. exists k. split; [reflexivity|].
    pose proof (Nat.mul_div_le (r - l + s - 1) s ltac:(lia)).
    assert (s * S k <= s * ((r - l + s - 1) / s))%nat by (apply Nat.mul_le_mono_l; lia). lia.
  - intros (k & -> & Hk). exists k. split; [reflexivity|]. apply in_seq. split; [lia|].
    apply Nat.div_le_lower_bound; lia.
Qed.

Lemma indices_sorted l r s a rest pre : (0 < s)%nat -> indices l r s = pre ++ a :: rest -> forall i, In i rest -> (a <= i)%nat.
Proof.
  intros H E i Hi. unfold indices in E.
  assert (G : forall n m pre, map (fun k => l + k * s)%nat (seq m n) = pre ++ a :: rest -> (a <= i)%nat).
  { clear E pre. induction n as [|n IH]; intros m pre E.
    - destruct pre; discriminate.
    - simpl in E. destruct pre as [|b pre].
      + simpl in E. injection E as <- <-. apply in_map_iff in Hi. destruct Hi as (k & <- & Hk). apply in_seq in Hk.
        apply Nat.add_le_mono_l, Nat.mul_le_mono_r. lia.
      + simpl in E. injection E as _ E. apply (IH _ _ E). }
  exact (G _ _ _ E).
Qed.

(** ** Effect of events *)

Lemma apply_app a b P : apply_events (a ++ b) P = apply_events b (apply_events a P).
Proof. unfold apply_events. apply fold_left_app. Qed.

Lemma apply_no_write ev P i : (forall v, ~ In (Write i v) ev) -> apply_events ev P i = P i.
Proof.
  revert P. induction ev as [|x ev IH]; intros P H; [reflexivity|]. simpl.
  unfold apply_events in *. simpl. rewrite IH by (intros v Q; apply (H v); right; exact Q).
  destruct x as [c|k v]; [reflexivity|]. destruct (Nat.eqb i k) eqn:E; [|reflexivity].
  apply Nat.eqb_eq in E. subst k. exfalso. apply (H v). left. reflexivity.
Qed.

Lemma apply_write ev P i v : In (Write i v) ev -> (forall v', In (Write i v') ev -> v' = v) -> apply_events ev P i = v.
Proof.
  revert P. induction ev as [|x ev IH]; intros P H U; [destruct H|].
  change (apply_events (x :: ev) P) with (apply_events ev (apply_events [x] P)).
  destruct (in_dec (fun a b : event => match a, b with
     | _, _ => ltac:(repeat decide equality; apply Req_EM_T) end) (Write i v) ev) as [I|I].
  - apply IH; [exact I|]. intros v' Q. apply U. right. exact Q.
  - destruct H as [->|H]; [|contradiction]. rewrite apply_no_write.
    + simpl. rewrite Nat.eqb_refl. reflexivity.
    + intros v' Q. assert (v' = v) by (apply U; right; exact Q). subst. contradiction.
Qed.

(** A prefix of a flat_map that contains an element with property [p] contains all blocks of the
    indices that come before. *)
Lemma prefix_blocks {A} (g : nat -> list A) (x : A) l ev1 ev2 :
  flat_map g l = ev1 ++ ev2 -> In x ev1 ->
  exists pre a post, l = pre ++ a :: post /\ In x (g a) /\ forall i, In i pre -> incl (g i) ev1.
Proof.
  revert ev1. induction l as [|a l IH]; intros ev1 E H; simpl in E.
  - destruct ev1; [destruct H|discriminate].
  - destruct (Nat.le_gt_cases (length ev1) (length (g a))) as [L|L].
    + exists [], a, l. split; [reflexivity|]. split; [|intros i []].
      assert (P : exists r, g a = ev1 ++ r).
      { exists (skipn (length ev1) (g a)).
        assert (Q : firstn (length ev1) (g a ++ flat_map g l) = ev1) by (rewrite E, firstn_app, Nat.sub_diag, firstn_all; simpl; apply app_nil_r).
        rewrite firstn_app in Q. replace (length ev1 - length (g a))%nat with 0%nat in Q by lia. simpl in Q. rewrite app_nil_r in Q.
        rewrite <- Q at 1. apply (eq_sym (firstn_skipn (length ev1) (g a))). }
      destruct P as [r ->]. apply in_or_app. left. exact H.
    + assert (P : exists r, ev1 = g a ++ r /\ flat_map g l = r ++ ev2).
      { exists (skipn (length (g a)) ev1).
        assert (Q : firstn (length (g a)) ev1 = g a).
        { assert (Q : firstn (length (g a)) (ev1 ++ ev2) = g a) by (rewrite <- E, firstn_app, Nat.sub_diag, firstn_all; simpl; apply app_nil_r).
          rewrite firstn_app in Q. replace (length (g a) - length ev1)%nat with 0%nat in Q by lia. simpl in Q. rewrite app_nil_r in Q. exact Q. }
        split; [rewrite <- Q at 1; symmetry; apply firstn_skipn|].
        apply (app_inv_head (g a)). rewrite app_assoc. rewrite <- Q at 2. rewrite firstn_skipn. exact E. }
      destruct P as (r & -> & E'). apply in_app_or in H. destruct H as [H|H].
      * exists [], a, l. split; [reflexivity|]. split; [exact H|intros i []].
      * destruct (IH r E' H) as (pre & b & post & -> & B & C). exists (a :: pre), b, post. split; [reflexivity|]. split; [exact B|].
        intros i [->|Hi]; [apply incl_appl, incl_refl|apply incl_appr, C, Hi].
Qed.

(** ** The loops of cycle 0 *)

Definition block (skip c : nat -> bool) (val : nat -> prec) (off s i : nat) : list event :=
  if skip i then [] else Check (c i) :: map (fun r => Write (off + r)%nat (val (off + r)%nat)) (seq i s).

Lemma block_write skip c val off s l k v :
  In (Write k v) (flat_map (block skip c val off s) l) <->
  v = val k /\ exists i r, In i l /\ skip i = false /\ (i <= r < i + s)%nat /\ (k = off + r)%nat.
Proof.
  rewrite in_flat_map. unfold block. split.
  - intros (i & Hi & H). destruct (skip i) eqn:E; [destruct H|]. destruct H as [H|H]; [discriminate|].
    apply in_map_iff in H. destruct H as (r & Q & Hr). injection Q as <- <-. apply in_seq in Hr.
    split; [reflexivity|]. exists i, r. repeat split; try assumption; lia.
  - intros (-> & i & r & Hi & E & Hr & ->). exists i. split; [exact Hi|]. rewrite E. right.
    apply in_map_iff. exists r. split; [reflexivity|]. apply in_seq. lia.
Qed.

Lemma block_check skip c val off s l : In (Check true) (flat_map (block skip c val off s) l) -> exists i, In i l /\ skip i = false /\ c i = true.
Proof.
  rewrite in_flat_map. intros (i & Hi & H). unfold block in H. destruct (skip i) eqn:E; [destruct H|].
  destruct H as [H|H]; [injection H as H; exists i; auto|]. apply in_map_iff in H. destruct H as (r & Q & _). discriminate.
Qed.

(** Two loops one after the other, the first one without a successful check, the second one in
    ascending order and with checks that succeed only from [n_export] on. *)
Section Dispatch.
Variables (skip1 c1 skip2 c2 : nat -> bool) (val : nat -> prec) (off n_export w n : nat) (l1 : list nat).
Hypothesis W : (0 < w)%nat.
Hypothesis first_silent : forall i, In i l1 -> skip1 i = false -> c1 i = false.
Hypothesis second_late : forall i, In i (indices 0 n w) -> c2 i = true -> (n_export <= i)%nat.
Let ev := flat_map (block skip1 c1 val off 1) l1 ++ flat_map (block skip2 c2 val 0 w) (indices 0 n w).

Lemma writes_value k v : In (Write k v) ev -> v = val k.
Proof. unfold ev. rewrite in_app_iff, !block_write. intros [[H _]|[H _]]; exact H. Qed.

Lemma observed P Q k : observable ev P Q ->
  (exists i, In i l1 /\ skip1 i = false /\ k = (off + i)%nat) \/
  (exists i, In i (indices 0 n w) /\ skip2 i = false /\ (i <= k < i + w)%nat /\ (k < n_export)%nat) -> Q k = val k.
Proof.
  intros (ev1 & ev2 & E & -> & L) K.
  assert (V : forall v', In (Write k v') ev1 -> v' = val k).
  { intros v' H. apply writes_value. rewrite E. apply in_or_app. left. exact H. }
  apply apply_write; [|exact V]. destruct L as [L|L].
  2:{ subst ev2. rewrite app_nil_r in E. subst ev1. unfold ev. rewrite in_app_iff, !block_write.
      destruct K as [(i & A & B & ->)|(i & A & B & C & _)].
      - left. split; [reflexivity|]. exists i, i. repeat split; try assumption; lia.
      - right. split; [reflexivity|]. exists i, k. repeat split; try assumption; lia. }
  (* the first loop is complete *)
  set (b1 := flat_map (block skip1 c1 val off 1) l1) in *. set (b2 := flat_map (block skip2 c2 val 0 w) (indices 0 n w)) in *.
  assert (S1 : ~ In (Check true) b1).
  { intros H. apply block_check in H. destruct H as (i & A & B & C). rewrite (first_silent i A B) in C. discriminate. }
  assert (X : exists r, ev1 = b1 ++ r /\ b2 = r ++ ev2).
  { unfold ev in E. destruct (Nat.le_gt_cases (length ev1) (length b1)) as [G|G].
    - exfalso. apply S1. assert (Q : firstn (length ev1) (b1 ++ b2) = ev1) by (rewrite E, firstn_app, Nat.sub_diag, firstn_all; simpl; apply app_nil_r).
      rewrite firstn_app in Q. replace (length ev1 - length b1)%nat with 0%nat in Q by lia. simpl in Q. rewrite app_nil_r in Q.
      rewrite <- (firstn_skipn (length ev1) b1). apply in_or_app. left. rewrite Q. exact L.
    - exists (skipn (length b1) ev1).
      assert (Q : firstn (length b1) ev1 = b1).
      { assert (Q : firstn (length b1) (ev1 ++ ev2) = b1) by (rewrite <- E, firstn_app, Nat.sub_diag, firstn_all; simpl; apply app_nil_r).
        rewrite firstn_app in Q. replace (length b1 - length ev1)%nat with 0%nat in Q by lia. simpl in Q. rewrite app_nil_r in Q. exact Q. }
      split; [rewrite <- Q at 1; symmetry; apply firstn_skipn|].
      apply (app_inv_head b1). rewrite app_assoc. rewrite <- Q at 2. rewrite firstn_skipn. exact E. }
  destruct X as (r & -> & E2). apply in_or_app.
  destruct K as [(i & A & B & ->)|(i & A & B & C & D)].
  - left. unfold b1. rewrite block_write. split; [reflexivity|]. exists i, i. repeat split; try assumption; lia.
  - right. assert (L' : In (Check true) r) by (apply in_app_or in L; destruct L as [L|L]; [contradiction|exact L]).
    unfold b2 in E2. destruct (prefix_blocks _ (Check true) _ _ _ E2 L') as (pre & a & post & El & Ca & Inc).
    assert (Ha : (n_export <= a)%nat).
    { apply second_late; [rewrite El; apply in_or_app; right; left; reflexivity|]. unfold block in Ca. destruct (skip2 a); [destruct Ca|].
      destruct Ca as [Ca|Ca]; [injection Ca as Ca; exact Ca|]. apply in_map_iff in Ca. destruct Ca as (x & Q & _). discriminate. }
    assert (Hi : In i pre).
    { rewrite El in A. apply in_app_or in A. destruct A as [A|[A|A]]; [exact A|lia|].
      pose proof (indices_sorted 0 n w a post pre W El i A). lia. }
    apply (Inc i Hi). unfold block. rewrite B. right. apply in_map_iff. exists k. split; [reflexivity|]. apply in_seq. lia.
Qed.

Lemma final_value P k :
  (exists i, In i l1 /\ skip1 i = false /\ k = (off + i)%nat) \/
  (exists i, In i (indices 0 n w) /\ skip2 i = false /\ (i <= k < i + w)%nat) -> apply_events ev P k = val k.
Proof.
  intros K. apply apply_write; [|intros v'; apply writes_value]. unfold ev. rewrite in_app_iff, !block_write.
  destruct K as [(i & A & B & ->)|(i & A & B & C)].
  - left. split; [reflexivity|]. exists i, i. repeat split; try assumption; lia.
  - right. split; [reflexivity|]. exists i, k. repeat split; try assumption; lia.
Qed.

Lemma unwritten P k :
  ~ (exists i, In i l1 /\ skip1 i = false /\ k = (off + i)%nat) ->
  ~ (exists i, In i (indices 0 n w) /\ skip2 i = false /\ (i <= k < i + w)%nat) -> apply_events ev P k = P k.
Proof.
  intros K1 K2. apply apply_no_write. intros v H. unfold ev in H. rewrite in_app_iff, !block_write in H.
  destruct H as [(_ & i & r & A & B & C & D)|(_ & i & r & A & B & C & D)].
  - apply K1. exists i. repeat split; try assumption. lia.
  - apply K2. exists i. repeat split; try assumption; lia.
Qed.
End Dispatch.

(** ** The two interfaces *)

Lemma group_of w k : (0 < w)%nat -> exists q l, (k = q * w + l)%nat /\ (l < w)%nat.
Proof. intros H. exists (k / w)%nat, (k mod w)%nat. split; [rewrite Nat.mul_comm; apply Nat.div_mod; lia|apply Nat.mod_upper_bound; lia]. Qed.

Section Cycle0.
Variables (n_export groups width n_owned : nat) (columns : nat -> list nat) (e : eos) (dim : nat) (U : nat -> vec).
Let n_internal := (groups * width)%nat.
Let constrained i := Nat.eqb (row_length columns i) 1.
Hypothesis W : (0 < width)%nat.
Hypothesis G : grouped (row_length columns) width groups.
Hypothesis O : (n_internal <= n_owned)%nat.
Let val k := first_values e dim (U k).

Lemma scalar_blocks l r s : cycle0_scalar n_export n_internal columns e dim U l r s =
  flat_map (block constrained (condition n_export n_internal) val 0 s) (indices l r s).
Proof. reflexivity. Qed.

Lemma in_group k : (k < n_internal)%nat ->
  exists i, In i (indices 0 n_internal width) /\ constrained i = constrained k /\ (i <= k < i + width)%nat.
Proof.
  intros H. destruct (group_of width k W) as (q & l & -> & L). exists (q * width)%nat.
  assert (Q : (q < groups)%nat).
  { destruct (Nat.lt_ge_cases q groups) as [Q|Q]; [exact Q|]. pose proof (Nat.mul_le_mono_r groups q width Q). unfold n_internal in H. lia. }
  repeat split; [|unfold constrained; rewrite (G q l Q L); reflexivity|lia|lia].
  apply indices_In; [exact W|]. exists q. split; [lia|].
  unfold n_internal. apply Nat.mul_lt_mono_pos_r; assumption.
Qed.

Lemma in_tail k : (n_internal <= k < n_owned)%nat -> In k (indices n_internal n_owned 1).
Proof. intros H. apply indices_In; [lia|]. exists (k - n_internal)%nat. lia. Qed.

Lemma group_rows i k : In i (indices 0 n_internal width) -> (i <= k < i + width)%nat -> (k < n_internal)%nat /\ constrained i = constrained k.
Proof.
  intros Hi Hk. apply indices_In in Hi; [|exact W]. destruct Hi as (q & E & L). rewrite Nat.add_0_l in E.
  assert (Q : (q < groups)%nat) by (unfold n_internal in L; rewrite E in L; apply Nat.mul_lt_mono_pos_r in L; assumption).
  assert (Q2 : (S q * width <= groups * width)%nat) by (apply Nat.mul_le_mono_r; lia). simpl in Q2.
  split; [unfold n_internal; lia|]. unfold constrained. rewrite E.
  replace k with (q * width + (k - i))%nat by lia. rewrite (G q (k - i)%nat Q ltac:(lia)). reflexivity.
Qed.

Lemma C43_cycle0_proof P k : 
  let result := apply_events (prepare_scalar n_export n_internal n_owned columns e dim U width) P in
  (length (columns k) <> 1%nat -> (k < n_owned)%nat -> result k = first_values e dim (U k)) /\
  (length (columns k) = 1%nat \/ (n_owned <= k)%nat -> result k = P k).
Proof.
  cbv zeta. unfold prepare_scalar. rewrite !scalar_blocks. split.
  - intros C H. apply final_value; try exact W. assert (Ck : constrained k = false) by (apply Nat.eqb_neq; exact C).
    destruct (Nat.lt_ge_cases k n_internal) as [L|L].
    + right. destruct (in_group k L) as (i & A & B & D). exists i. rewrite B. auto.
    + left. exists k. repeat split; [apply in_tail; lia|exact Ck].
  - intros C. apply unwritten; try exact W.
    + intros (i & A & B & ->). simpl in *. apply indices_In in A; [|lia]. destruct C as [C|C]; [apply Nat.eqb_neq in B; contradiction|].
      destruct A as (j & _ & A). lia.
    + intros (i & A & B & D). destruct (group_rows i k A D) as [X Y]. rewrite Y in B. destruct C as [C|C]; [apply Nat.eqb_neq in B; contradiction|lia].
Qed.

Lemma C43_exchange_proof P Q k :
  observable (prepare_scalar n_export n_internal n_owned columns e dim U width) P Q ->
  length (columns k) <> 1%nat -> (k < n_owned)%nat -> (k < n_export \/ n_internal <= k)%nat -> Q k = first_values e dim (U k).
Proof.
  intros Ob C H K. unfold prepare_scalar in Ob. rewrite !scalar_blocks in Ob.
  assert (Ck : constrained k = false) by (apply Nat.eqb_neq; exact C).
  eapply (observed _ _ _ _ val 0 n_export width n_internal _ W); [| |exact Ob|].
  - intros i Hi _. apply indices_In in Hi; [|lia]. destruct Hi as (j & -> & _). unfold condition.
    replace (n_internal + j * 1 <? n_internal)%nat with false by (symmetry; apply Nat.ltb_ge; lia). apply andb_false_r.
  - intros i _ Hc. unfold condition in Hc. apply andb_true_iff in Hc. destruct Hc as [Hc _]. apply Nat.leb_le in Hc. exact Hc.
  - destruct (Nat.lt_ge_cases k n_internal) as [L|L].
    + right. destruct (in_group k L) as (i & A & B & D). exists i. rewrite B. repeat split; try assumption; lia.
    + left. exists k. repeat split; [apply in_tail; lia|exact Ck].
Qed.

(** The interface with arrays. *)
Variable array_pressure : list R -> list R -> option (list R).
Hypothesis elementwise : forall rho en, length rho = length en -> exists p, array_pressure rho en = Some p /\ length p = length rho /\
  forall k d, (k < length rho)%nat -> nth k p d = eos_pressure e (nth k rho d) (nth k en d).

Lemma nth_map_seq (f : nat -> R) n k d : (k < n)%nat -> nth k (map f (seq 0 n)) d = f k.
Proof. intros H. rewrite (nth_indep _ d (f 0%nat)) by (rewrite map_length, seq_length; exact H). rewrite map_nth, seq_nth by exact H. reflexivity. Qed.

Lemma vector_blocks l r s : (0 < s)%nat -> ((r - l) mod s = 0)%nat ->
  cycle0_vector n_export n_internal columns e array_pressure dim U l r s =
  Some (flat_map (block constrained (condition n_export n_internal) val l s) (indices 0 (r - l) s)).
Proof.
  intros S0 D. unfold cycle0_vector. rewrite D. cbn [Nat.eqb negb].
  match goal with |- match array_pressure ?a ?b with _ => _ end = _ => destruct (elementwise a b) as (p & -> & L & N) end;
    [rewrite !map_length; reflexivity|].
  rewrite map_length, seq_length in *. f_equal.
  assert (X : forall li, (forall i, In i li -> In i (indices 0 (r - l) s)) ->
    flat_map (fun i => if Nat.eqb (row_length columns i) 1 then [] else Check (condition n_export n_internal i) ::
       map (fun x => Write (l + x)%nat (prec_of e dim (U (l + x)%nat) (nth x p 0))) (seq i s)) li =
    flat_map (block constrained (condition n_export n_internal) val l s) li).
  { induction li as [|a li IH]; intros H; [reflexivity|]. simpl. rewrite IH by (intros; apply H; right; assumption). f_equal.
    unfold block. fold (constrained a). destruct (constrained a); [reflexivity|]. f_equal. apply map_ext_in. intros x Hx. apply in_seq in Hx.
    f_equal. unfold val, first_values, prec_of, state_gamma.
    assert (B : (x < r - l)%nat).
    { specialize (H a (or_introl eq_refl)). apply indices_In in H; [|exact S0]. destruct H as (q & E & La). rewrite Nat.add_0_l in E.
      apply Nat.mod_divides in D; [|lia]. destruct D as [m Dm]. rewrite Dm, (Nat.mul_comm s) in *.
      rewrite E in La. apply Nat.mul_lt_mono_pos_r in La; [|exact S0].
      assert (S q * s <= m * s)%nat by (apply Nat.mul_le_mono_r; lia). simpl in *. lia. }
    rewrite N by exact B. rewrite !nth_map_seq by exact B. reflexivity. }
  apply X. auto.
Qed.

Lemma vector_total : exists ev, prepare_vector n_export n_internal n_owned columns e array_pressure dim U width = Some ev /\
  ev = flat_map (block constrained (condition n_export n_internal) val n_internal 1) (indices 0 (n_owned - n_internal) 1) ++
       flat_map (block constrained (condition n_export n_internal) val 0 width) (indices 0 n_internal width).
Proof.
  eexists. split; [|reflexivity]. unfold prepare_vector. rewrite (vector_blocks n_internal n_owned 1) by (try lia; apply Nat.mod_1_r).
  rewrite (vector_blocks 0 n_internal width); [|exact W|rewrite Nat.sub_0_r; unfold n_internal; apply Nat.mod_mul; lia].
  rewrite Nat.sub_0_r. reflexivity.
Qed.

(** The rows that the wrong index looks at. *)
Hypothesis lucky : forall i, (n_internal + i < n_owned)%nat -> (length (columns i) = 1%nat <-> length (columns (n_internal + i)%nat) = 1%nat).

Lemma lucky_skip i : (n_internal + i < n_owned)%nat -> constrained i = constrained (n_internal + i).
Proof.
  intros H. specialize (lucky i H). unfold constrained, row_length.
  destruct (Nat.eqb_spec (length (columns i)) 1), (Nat.eqb_spec (length (columns (n_internal + i)%nat)) 1); tauto.
Qed.

Lemma C43_vector_values_proof P k : exists ev,
  prepare_vector n_export n_internal n_owned columns e array_pressure dim U width = Some ev /\
  (length (columns k) <> 1%nat -> (k < n_owned)%nat -> apply_events ev P k = first_values e dim (U k)) /\
  (length (columns k) = 1%nat \/ (n_owned <= k)%nat -> apply_events ev P k = P k).
Proof.
  destruct vector_total as (ev & E & ->). eexists. split; [exact E|]. split.
  - intros C H. apply final_value; try exact W. assert (Ck : constrained k = false) by (apply Nat.eqb_neq; exact C).
    destruct (Nat.lt_ge_cases k n_internal) as [L|L].
    + right. destruct (in_group k L) as (i & A & B & D). exists i. rewrite B. auto.
    + left. exists (k - n_internal)%nat. repeat split; [|rewrite lucky_skip by lia; replace (n_internal + (k - n_internal))%nat with k by lia; exact Ck|lia].
      apply indices_In; [lia|]. exists (k - n_internal)%nat. lia.
  - intros C. apply unwritten; try exact W.
    + intros (i & A & B & ->). apply indices_In in A; [|lia]. destruct A as (j & -> & A). rewrite lucky_skip in B by lia.
      destruct C as [C|C]; [apply Nat.eqb_neq in B; contradiction|lia].
    + intros (i & A & B & D). destruct (group_rows i k A D) as [X Y]. rewrite Y in B. destruct C as [C|C]; [apply Nat.eqb_neq in B; contradiction|lia].
Qed.

Lemma C43_vector_exchange_proof ev P Q k : (n_owned <= n_internal + n_export)%nat ->
  prepare_vector n_export n_internal n_owned columns e array_pressure dim U width = Some ev ->
  observable ev P Q ->
  length (columns k) <> 1%nat -> (k < n_owned)%nat -> (k < n_export \/ n_internal <= k)%nat -> Q k = first_values e dim (U k).
Proof.
  intros Few E Ob C H K. destruct vector_total as (ev' & E' & Eq). rewrite E in E'. injection E' as <-. rewrite Eq in Ob.
  assert (Ck : constrained k = false) by (apply Nat.eqb_neq; exact C).
  eapply (observed _ _ _ _ val n_internal n_export width n_internal _ W); [| |exact Ob|].
  - intros i Hi _. apply indices_In in Hi; [|lia]. destruct Hi as (j & -> & Hj). unfold condition.
    replace (n_export <=? 0 + j * 1)%nat with false by (symmetry; apply Nat.leb_gt; lia). reflexivity.
  - intros i _ Hc. unfold condition in Hc. apply andb_true_iff in Hc. destruct Hc as [Hc _]. apply Nat.leb_le in Hc. exact Hc.
  - destruct (Nat.lt_ge_cases k n_internal) as [L|L].
    + right. destruct (in_group k L) as (i & A & B & D). exists i. rewrite B. repeat split; try assumption; lia.
    + left. exists (k - n_internal)%nat. repeat split; [|rewrite lucky_skip by lia; replace (n_internal + (k - n_internal))%nat with k by lia; exact Ck|lia].
      apply indices_In; [lia|]. exists (k - n_internal)%nat. lia.
Qed.
End Cycle0.

(** ** Cycle 1 *)

Lemma fold_min (f : nat -> R) l g : is_minimum (fun j => match j with O => g | S j => f j end) (0%nat :: map S l) (fold_left (fun g j => Rmin g (f j)) l g).
Proof.
  revert g. induction l as [|a l IH]; intros g; simpl.
  - split; [exists 0%nat; split; [left; reflexivity|reflexivity]|]. intros j [<-|[]]. lra.
  - destruct (IH (Rmin g (f a))) as [(j & Hj & Ej) B]. split.
    + destruct Hj as [<-|Hj].
      * rewrite Ej. unfold Rmin. destruct (Rle_dec g (f a)); [exists 0%nat; split; [left; reflexivity|reflexivity]|exists (S a); split; [right; left; reflexivity|reflexivity]].
      * exists j. split; [right; right; exact Hj|]. rewrite Ej. apply in_map_iff in Hj. destruct Hj as (x & <- & _). reflexivity.
    + intros j' [<-|[<-|Hj']].
      * apply Rle_trans with (Rmin g (f a)); [apply (B 0%nat); left; reflexivity|apply Rmin_l].
      * apply Rle_trans with (Rmin g (f a)); [apply (B 0%nat); left; reflexivity|apply Rmin_r].
      * specialize (B j' (or_intror Hj')). apply in_map_iff in Hj'. destruct Hj' as (x & <- & _). exact B.
Qed.

Section Cycle1.
Variables (columns : nat -> list nat) (e : eos) (dim : nat) (U : nat -> vec).

Lemma cycle1_p order P k : prec_p (cycle1 columns e dim U order P k) = prec_p (P k).
Proof.
  revert P. induction order as [|a order IH]; intros P; simpl; [reflexivity|]. unfold cycle1 in *. simpl. rewrite IH.
  destruct (Nat.eqb (row_length columns a) 1); [reflexivity|]. destruct (Nat.eqb k a) eqn:E; [|reflexivity].
  apply Nat.eqb_eq in E. subst. reflexivity.
Qed.

Lemma cycle1_other order P k : ~ In k order -> cycle1 columns e dim U order P k = P k.
Proof.
  revert P. induction order as [|a order IH]; intros P H; simpl; [reflexivity|]. unfold cycle1 in *. simpl.
  rewrite IH by (intros Q; apply H; right; exact Q). destruct (Nat.eqb (row_length columns a) 1); [reflexivity|].
  destruct (Nat.eqb k a) eqn:E; [|reflexivity]. apply Nat.eqb_eq in E. exfalso. apply H. left. congruence.
Qed.

Lemma cycle1_row_ext P P' i : (forall j, prec_p (P j) = prec_p (P' j)) -> prec_gamma (P i) = prec_gamma (P' i) ->
  cycle1_row columns e dim U P i = cycle1_row columns e dim U P' i.
Proof.
  intros H G. unfold cycle1_row. rewrite G, H.
  assert (X : forall l g, fold_left (fun g j => Rmin g (surrogate_gamma e dim (U j) (prec_p (P j)))) l g =
                          fold_left (fun g j => Rmin g (surrogate_gamma e dim (U j) (prec_p (P' j)))) l g).
  { induction l; intros g; [reflexivity|]. simpl. rewrite H. apply IHl. }
  rewrite X. reflexivity.
Qed.

Lemma cycle1_value order P i : NoDup order -> In i order -> length (columns i) <> 1%nat ->
  cycle1 columns e dim U order P i = cycle1_row columns e dim U P i.
Proof.
  revert P. induction order as [|a order IH]; intros P ND H C; [destruct H|]. inversion ND as [|? ? N1 N2]; subst.
  change (cycle1 columns e dim U (a :: order) P) with (cycle1 columns e dim U order (cycle1 columns e dim U [a] P)).
  destruct H as [->|H].
  - rewrite cycle1_other by exact N1. unfold cycle1. simpl. unfold row_length.
    rewrite (proj2 (Nat.eqb_neq _ _) C), Nat.eqb_refl. reflexivity.
  - rewrite IH by assumption. apply cycle1_row_ext; [intros j; apply cycle1_p|].
    rewrite cycle1_other; [reflexivity|]. intros [Q|[]]. subst. contradiction.
Qed.

Lemma C43_cycle1_proof order P i :
  NoDup order -> In i order -> length (columns i) <> 1%nat -> hd_error (columns i) = Some i ->
  (forall j, In j (columns i) -> prec_p (P j) = state_pressure e dim (U j)) ->
  prec_gamma (P i) = state_gamma e dim (U i) ->
  let r := cycle1 columns e dim U order P i in
  prec_p r = state_pressure e dim (U i) /\
  is_minimum (fun j => state_gamma e dim (U j)) (columns i) (prec_gamma r) /\
  prec_s r = surrogate_specific_entropy e dim (U i) (prec_gamma r) /\
  prec_eta r = surrogate_harten_entropy e dim (U i) (prec_gamma r).
Proof.
  intros ND Hi C Hd Hp Hg r. unfold r. rewrite cycle1_value by assumption. unfold cycle1_row. cbn [prec_p prec_gamma prec_s prec_eta].
  destruct (columns i) as [|x l] eqn:El; [discriminate|]. simpl in Hd. injection Hd as ->.
  split; [apply Hp; left; reflexivity|]. split; [|split; reflexivity]. cbn [tl]. rewrite Hg.
  assert (X : forall l' g, (forall j, In j l' -> In j (i :: l)) ->
    fold_left (fun g j => Rmin g (surrogate_gamma e dim (U j) (prec_p (P j)))) l' g =
    fold_left (fun g j => Rmin g (state_gamma e dim (U j))) l' g).
  { induction l' as [|a l' IH]; intros g H; [reflexivity|]. simpl. rewrite Hp by (apply H; left; reflexivity). apply IH. intros; apply H; right; assumption. }
  rewrite X by (intros; right; assumption).
  destruct (fold_min (fun j => state_gamma e dim (U j)) l (state_gamma e dim (U i))) as [(j & Hj & Ej) B]. split.
  - destruct Hj as [<-|Hj]; [exists i; split; [left; reflexivity|exact Ej]|]. apply in_map_iff in Hj. destruct Hj as (y & <- & Hy).
    exists y. split; [right; exact Hy|exact Ej].
  - intros j' [<-|Hj']; [apply (B 0%nat); left; reflexivity|]. apply (B (S j')). right. apply in_map. exact Hj'.
Qed.
End Cycle1.

(** ** The interface with arrays looks at the wrong rows *)

Definition ex_gas : eos := Eos.pg_eos (Eos.pg_construct).
Definition ex_still : vec := fun k => match k with O => 1 | 2%nat => 1 | _ => 0 end.
Definition ex_blank : prec := {| prec_p := 0; prec_gamma := 0; prec_s := 0; prec_eta := 0 |}.

Lemma ex_still_pressure : state_pressure ex_gas 1 ex_still = 2 / 5.
Proof.
  unfold state_pressure, ex_gas, a_internal_energy, a_total_energy, a_density, a_momentum, norm2, dot, rsum, ex_still. simpl.
  unfold Eos.pg_pressure. simpl. field.
Qed.

Lemma ex_blank_differs : ex_blank <> first_values ex_gas 1 ex_still.
Proof. intros H. apply (f_equal prec_p) in H. cbn [prec_p ex_blank first_values] in H. rewrite ex_still_pressure in H. lra. Qed.

Lemma ex_elementwise : forall rho en, length rho = length en ->
  exists p, Eos.base_pressure ex_gas rho en = Some p /\ length p = length rho /\
  forall k d, (k < length rho)%nat -> nth k p d = eos_pressure ex_gas (nth k rho d) (nth k en d).
Proof. intros. apply EosProofs.C76_base_proof. assumption. Qed.

(** Two constrained rows in the vectorized part, two coupled rows behind it. *)
Definition ex_hanging (i : nat) : list nat := match i with 0%nat => [0%nat] | 1%nat => [1%nat] | 2%nat => [2%nat; 3%nat] | _ => [i; 2%nat] end.

Lemma C43_vector_rows_refuted_proof : exists n_export groups width n_owned columns e array_pressure dim U ev P k,
  let n_internal := (groups * width)%nat in
  (0 < width)%nat /\ (n_internal <= n_owned)%nat /\ grouped (fun i => length (columns i)) width groups /\
  (forall rho en, length rho = length en -> exists p, array_pressure rho en = Some p /\ length p = length rho /\
    forall k d, (k < length rho)%nat -> nth k p d = eos_pressure e (nth k rho d) (nth k en d)) /\
  prepare_vector n_export n_internal n_owned columns e array_pressure dim U width = Some ev /\
  length (columns k) <> 1%nat /\ (k < n_owned)%nat /\ apply_events ev P k = P k /\ P k <> first_values e dim (U k).
Proof.
  exists 0%nat, 1%nat, 2%nat, 4%nat, ex_hanging, ex_gas, (Eos.base_pressure ex_gas), 1%nat, (fun _ => ex_still).
  assert (GR : grouped (row_length ex_hanging) 2 1) by (intros q l Hq Hl; destruct q; [|lia]; destruct l as [|[|l]]; [reflexivity|reflexivity|lia]).
  destruct (vector_total 0 1 2 4 ex_hanging ex_gas 1 (fun _ => ex_still) ltac:(lia) ltac:(simpl; lia) (Eos.base_pressure ex_gas) ex_elementwise) as (ev & E & Eq).
  exists ev, (fun _ => ex_blank), 2%nat. cbv zeta. split; [lia|]. split; [simpl; lia|]. split; [exact GR|]. split; [exact ex_elementwise|].
  split; [exact E|]. split; [simpl; lia|]. split; [lia|]. split; [|apply ex_blank_differs].
  subst ev. reflexivity.
Qed.

(** All rows coupled, four exported rows, eight vectorized rows and six more. *)
Lemma C43_vector_exchange_refuted_proof : exists n_export groups width n_owned columns e array_pressure dim U ev P Q k,
  let n_internal := (groups * width)%nat in
  (0 < width)%nat /\ (n_internal <= n_owned)%nat /\ grouped (fun i => length (columns i)) width groups /\
  (forall rho en, length rho = length en -> exists p, array_pressure rho en = Some p /\ length p = length rho /\
    forall k d, (k < length rho)%nat -> nth k p d = eos_pressure e (nth k rho d) (nth k en d)) /\
  (forall i, length (columns i) <> 1%nat) /\
  prepare_vector n_export n_internal n_owned columns e array_pressure dim U width = Some ev /\
  observable ev P Q /\ (k < n_export)%nat /\ Q k = P k /\ P k <> first_values e dim (U k).
Proof.
  set (cols := fun i : nat => [i; S i]).
  exists 4%nat, 2%nat, 4%nat, 14%nat, cols, ex_gas, (Eos.base_pressure ex_gas), 1%nat, (fun _ => ex_still).
  destruct (vector_total 4 2 4 14 cols ex_gas 1 (fun _ => ex_still) ltac:(lia) ltac:(simpl; lia) (Eos.base_pressure ex_gas) ex_elementwise) as (ev & E & Eq).
  match type of Eq with _ = ?a ++ ?b => set (b1 := a) in *; set (b2 := b) in * end.
  exists ev, (fun _ => ex_blank), (apply_events b1 (fun _ => ex_blank)), 0%nat. cbv zeta.
  split; [lia|]. split; [simpl; lia|]. split; [intros q l _ _; reflexivity|]. split; [exact ex_elementwise|].
  split; [intros i; unfold cols; simpl; lia|]. split; [exact E|]. split.
  { exists b1, b2. split; [exact Eq|]. split; [reflexivity|]. left. unfold b1.
    apply in_flat_map. exists 4%nat. split; [apply indices_In; [lia|]; exists 4%nat; simpl; lia|]. left. reflexivity. }
  split; [lia|]. split; [|apply ex_blank_differs]. unfold b1. reflexivity.
Qed.

(** ** Both cycles *)
Lemma C43_two_cycles_proof n_export groups width n_owned columns e dim U P ghosts order i :
  let n_internal := (groups * width)%nat in
  (0 < width)%nat -> (n_internal <= n_owned)%nat -> grouped (fun i => length (columns i)) width groups ->
  (forall i, (i < n_owned)%nat -> hd_error (columns i) = Some i) ->
  (forall i j, (i < n_owned)%nat -> length (columns i) <> 1%nat -> In j (columns i) -> (j < n_owned)%nat -> length (columns j) <> 1%nat) ->
  (forall k, (n_owned <= k)%nat -> prec_p (ghosts k) = state_pressure e dim (U k)) ->
  NoDup order -> In i order -> (i < n_owned)%nat -> length (columns i) <> 1%nat ->
  let first := apply_events (prepare_scalar n_export n_internal n_owned columns e dim U width) P in
  let exchanged := fun k => if Nat.ltb k n_owned then first k else ghosts k in
  let r := cycle1 columns e dim U order exchanged i in
  prec_p r = state_pressure e dim (U i) /\
  is_minimum (fun j => state_gamma e dim (U j)) (columns i) (prec_gamma r) /\
  prec_s r = surrogate_specific_entropy e dim (U i) (prec_gamma r) /\
  prec_eta r = surrogate_harten_entropy e dim (U i) (prec_gamma r).
Proof.
  intros n_internal W O G Hd Hc Hg ND Hi Li Ci first exchanged r. apply C43_cycle1_proof; try assumption; [apply Hd; exact Li| |].
  - intros j Hj. unfold exchanged. destruct (Nat.ltb_spec j n_owned) as [L|L]; [|apply Hg; exact L].
    unfold first, n_internal. destruct (C43_cycle0_proof n_export groups width n_owned columns e dim U W G O P j) as [A _].
    rewrite A; [reflexivity|apply (Hc i j Li Ci Hj L)|exact L].
  - unfold exchanged. rewrite (proj2 (Nat.ltb_lt _ _) Li).
    unfold first, n_internal. destruct (C43_cycle0_proof n_export groups width n_owned columns e dim U W G O P i) as [A _].
    rewrite A by assumption. reflexivity.
Qed.
