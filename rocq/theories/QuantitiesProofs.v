(** * Averages in time and space *)
From Coq Require Import Reals String List Bool Arith Lia Lra Psatz.
From Verif Require Import Quantities QuantitiesSpec.
Import ListNotations.
Local Open Scope R_scope.

Lemma fupd_same' {A} (f : string -> A) n a : fupd f n a n = a.
Proof. unfold fupd. rewrite String.eqb_refl. reflexivity. Qed.
Lemma fupd_other' {A} (f : string -> A) n m a : m <> n -> fupd f n a m = f m.
Proof. intros H. unfold fupd. destruct (String.eqb_spec m n); [congruence|reflexivity]. Qed.

Definition same_at (n : string) (q q' : qstate) : Prop := q_stats q n = q_stats q' n /\ q_series q n = q_series q' n.

Lemma same_refl n q : same_at n q q.
Proof. split; reflexivity. Qed.
Lemma same_trans n a b c : same_at n a b -> same_at n b c -> same_at n a c.
Proof. intros [A1 A2] [B1 B2]. split; congruence. Qed.

Lemma acc1_other t m prim q n : n <> m_name m -> same_at n (accumulate1 t m prim q) q.
Proof.
  intros H. unfold accumulate1. destruct (negb (m_time m) && negb (m_space m)); [apply same_refl|].
  destruct (internal_accumulate m prim) as [v a]. split; cbn [q_stats q_series]; apply fupd_other'; exact H.
Qed.

Lemma acc1_cong t m prim q q' : same_at (m_name m) q q' -> same_at (m_name m) (accumulate1 t m prim q) (accumulate1 t m prim q').
Proof.
  intros [H1 H2]. unfold accumulate1. destruct (negb (m_time m) && negb (m_space m)); [split; assumption|].
  destruct (internal_accumulate m prim) as [v a]. split; cbn [q_stats q_series]; rewrite !fupd_same'; [rewrite H1|rewrite H2]; reflexivity.
Qed.

Lemma acc_absent t sample ms : forall q n, ~ In n (map m_name ms) -> same_at n (q_accumulate ms sample t q) q.
Proof.
  unfold q_accumulate. induction ms as [|m ms IH]; intros q n H; [apply same_refl|]. cbn [fold_left]. cbn in H.
  eapply same_trans; [apply IH; tauto|]. apply acc1_other. intros E. apply H. left. symmetry. exact E.
Qed.

Lemma acc_at t sample ms m : forall q, NoDup (map m_name ms) -> In m ms ->
  same_at (m_name m) (q_accumulate ms sample t q) (accumulate1 t m (sample m) q).
Proof.
  induction ms as [|a ms IH]; intros q Hd Hin; [destruct Hin|]. cbn in Hd. apply NoDup_cons_iff in Hd. destruct Hd as [Hn Hd].
  unfold q_accumulate. cbn [fold_left]. fold (q_accumulate ms sample t (accumulate1 t a (sample a) q)).
  destruct Hin as [->|Hin].
  - apply acc_absent. exact Hn.
  - eapply same_trans; [apply IH; assumption|]. apply acc1_cong. apply acc1_other.
    intros E. apply Hn. rewrite <- E. apply in_map. exact Hin.
Qed.

(** ** write_out *)

Lemma out1_other t c m prim q f q' n : write_out1 t c m prim q = Some (f, q') -> n <> m_name m -> same_at n q' q /\ rows n f = [].
Proof.
  unfold write_out1. intros H Hn.
  match type of H with match ?X with _ => _ end = _ => destruct X as [[f1 q1]|] eqn:E1; [|discriminate] end.
  assert (A : same_at n q1 q /\ rows n f1 = []).
  { destruct (m_inst m); [|injection E1 as <- <-; split; [apply same_refl|reflexivity]].
    destruct (m_time m || m_space m).
    - destruct (Req_EM_T _ _); [|discriminate]. injection E1 as <- <-. split; [apply same_refl|reflexivity].
    - injection E1 as <- <-. split; [|reflexivity]. split; cbn [q_stats q_series]; [apply fupd_other'; exact Hn|reflexivity]. }
  destruct A as [A1 A2].
  assert (RA : forall a b, rows n (a ++ b) = rows n a ++ rows n b).
  { intros a b. induction a as [|[] a IH]; cbn; try assumption; try reflexivity. destruct (String.eqb s n); [rewrite IH, app_assoc; reflexivity|exact IH]. }
  assert (B : rows n (if m_time m then if Req_EM_T (t_sum (q_stats q1 (m_name m))) 0 then []
       else [QAverage (m_name m) c (t_new (q_stats q1 (m_name m)) - t_sum (q_stats q1 (m_name m))) (t_new (q_stats q1 (m_name m)))
               (map (vscale (1 / t_sum (q_stats q1 (m_name m)))) (val_sum (q_stats q1 (m_name m))))] else []) = []).
  { clear. destruct (m_time m); [|reflexivity]. destruct (Req_EM_T _ _); reflexivity. }
  destruct (m_space m); injection H as <- <-.
  - split.
    + eapply same_trans; [|exact A1]. split; cbn [q_stats q_series]; [reflexivity|apply fupd_other'; exact Hn].
    + rewrite !RA, A2, B. cbn. destruct (String.eqb_spec (m_name m) n); [congruence|reflexivity].
  - split; [exact A1|]. rewrite RA, A2, B. reflexivity.
Qed.

Lemma rows_app n a b : rows n (a ++ b) = rows n a ++ rows n b.
Proof. induction a as [|[] a IH]; cbn; try assumption; try reflexivity. destruct (String.eqb s n); [rewrite IH, app_assoc; reflexivity|exact IH]. Qed.

Lemma out_absent t c sample ms : forall q f q' n, write_all t c sample ms q = Some (f, q') -> ~ In n (map m_name ms) ->
  same_at n q' q /\ rows n f = [].
Proof.
  induction ms as [|m ms IH]; intros q f q' n H Hn; cbn [write_all] in H.
  - injection H as <- <-. split; [apply same_refl|reflexivity].
  - destruct (write_out1 t c m (sample m) q) as [[f1 q1]|] eqn:E1; [|discriminate].
    destruct (write_all t c sample ms q1) as [[f2 q2]|] eqn:E2; [|discriminate]. injection H as <- <-.
    cbn in Hn. destruct (IH _ _ _ n E2) as [A1 A2]; [tauto|].
    destruct (out1_other _ _ _ _ _ _ _ n E1) as [B1 B2]; [intros E; apply Hn; left; symmetry; exact E|].
    split; [eapply same_trans; eassumption|]. rewrite rows_app, A2, B2. reflexivity.
Qed.

(** What write_out does for one averaged manifold. *)
Lemma out1_at t c m prim q f q' : write_out1 t c m prim q = Some (f, q') -> m_time m = true \/ m_space m = true ->
  q_stats q' (m_name m) = q_stats q (m_name m) /\
  q_series q' (m_name m) = (if m_space m then [] else q_series q (m_name m)) /\
  rows (m_name m) f = (if m_space m then q_series q (m_name m) else []) /\
  (m_time m = true -> t_sum (q_stats q (m_name m)) <> 0 ->
     In (QAverage (m_name m) c (t_new (q_stats q (m_name m)) - t_sum (q_stats q (m_name m))) (t_new (q_stats q (m_name m)))
           (map (vscale (1 / t_sum (q_stats q (m_name m)))) (val_sum (q_stats q (m_name m))))) f).
Proof.
  unfold write_out1. intros H Ha.
  match type of H with match ?X with _ => _ end = _ => destruct X as [[f1 q1]|] eqn:E1; [|discriminate] end.
  assert (A : q1 = q /\ rows (m_name m) f1 = []).
  { destruct (m_inst m); [|injection E1 as <- <-; split; reflexivity].
    destruct (m_time m || m_space m) eqn:Eo.
    - destruct (Req_EM_T _ _); [|discriminate]. injection E1 as <- <-. split; reflexivity.
    - exfalso. apply orb_false_iff in Eo. destruct Eo. destruct Ha; congruence. }
  destruct A as [-> A2]. clear E1.
  set (f2 := if m_time m then _ else _) in H.
  assert (B : rows (m_name m) f2 = []) by (unfold f2; destruct (m_time m); [destruct (Req_EM_T _ _)|]; reflexivity).
  assert (D : m_time m = true -> t_sum (q_stats q (m_name m)) <> 0 ->
     In (QAverage (m_name m) c (t_new (q_stats q (m_name m)) - t_sum (q_stats q (m_name m))) (t_new (q_stats q (m_name m)))
           (map (vscale (1 / t_sum (q_stats q (m_name m)))) (val_sum (q_stats q (m_name m))))) f2).
  { intros Hm Ht. unfold f2. rewrite Hm. destruct (Req_EM_T _ _); [contradiction|]. left. reflexivity. }
  destruct (m_space m); injection H as <- <-.
  - cbn [q_stats q_series]. rewrite fupd_same'. repeat split.
    + rewrite !rows_app, A2, B. cbn. rewrite String.eqb_refl. apply app_nil_r.
    + intros Hm Ht. apply in_or_app. right. apply in_or_app. left. apply D; assumption.
  - repeat split.
    + rewrite rows_app, A2, B. reflexivity.
    + intros Hm Ht. apply in_or_app. right. apply D; assumption.
Qed.

Lemma out_at t c sample ms m : forall q f q', write_all t c sample ms q = Some (f, q') -> NoDup (map m_name ms) -> In m ms ->
  m_time m = true \/ m_space m = true ->
  q_stats q' (m_name m) = q_stats q (m_name m) /\
  q_series q' (m_name m) = (if m_space m then [] else q_series q (m_name m)) /\
  rows (m_name m) f = (if m_space m then q_series q (m_name m) else []) /\
  (m_time m = true -> t_sum (q_stats q (m_name m)) <> 0 ->
     In (QAverage (m_name m) c (t_new (q_stats q (m_name m)) - t_sum (q_stats q (m_name m))) (t_new (q_stats q (m_name m)))
           (map (vscale (1 / t_sum (q_stats q (m_name m)))) (val_sum (q_stats q (m_name m))))) f).
Proof.
  induction ms as [|a ms IH]; intros q f q' H Hd Hin Ha; [destruct Hin|]. cbn in Hd. apply NoDup_cons_iff in Hd. destruct Hd as [Hn Hd].
  cbn [write_all] in H. destruct (write_out1 t c a (sample a) q) as [[f1 q1]|] eqn:E1; [|discriminate].
  destruct (write_all t c sample ms q1) as [[f2 q2]|] eqn:E2; [|discriminate]. injection H as <- <-.
  destruct Hin as [->|Hin].
  - destruct (out1_at _ _ _ _ _ _ _ E1 Ha) as (A1 & A2 & A3 & A4). destruct (out_absent _ _ _ _ _ _ _ _ E2 Hn) as [[B1 B2] B3].
    rewrite B1, B2. split; [exact A1|]. split; [exact A2|]. split; [rewrite rows_app, A3, B3; apply app_nil_r|].
    intros Hm Ht. apply in_or_app. left. apply A4; assumption.
  - assert (Hne : m_name m <> m_name a) by (intros E; apply Hn; rewrite <- E; apply in_map; exact Hin).
    destruct (out1_other _ _ _ _ _ _ _ _ E1 Hne) as [[B1 B2] B3].
    destruct (IH _ _ _ E2 Hd Hin Ha) as (A1 & A2 & A3 & A4). rewrite B1, B2 in *.
    split; [exact A1|]. split; [exact A2|]. split; [rewrite rows_app, B3, A3; reflexivity|].
    intros Hm Ht. apply in_or_app. right. apply A4; assumption.
Qed.

Lemma clear_at ms m q : NoDup (map m_name ms) -> In m ms -> q_stats (clear_statistics ms q) (m_name m) = reset_statistics m /\ q_series (clear_statistics ms q) (m_name m) = [].
Proof.
  intros Hd Hin. split; [|reflexivity]. cbn [clear_statistics q_stats].
  enough (G : forall f, fold_left (fun f m => fupd f (m_name m) (reset_statistics m)) ms f (m_name m) = reset_statistics m) by apply G.
  revert Hd Hin. induction ms as [|a ms IH]; intros Hd Hin f; [destruct Hin|]. cbn in Hd. apply NoDup_cons_iff in Hd. destruct Hd as [Hn Hd].
  cbn [fold_left]. destruct Hin as [->|Hin]; [|apply IH; assumption].
  assert (G : forall ms f n, ~ In n (map m_name ms) -> fold_left (fun f m => fupd f (m_name m) (reset_statistics m)) ms f n = f n).
  { clear. induction ms as [|a ms IH]; intros f n Hn; [reflexivity|]. cbn [fold_left]. cbn in Hn. rewrite IH by tauto.
    apply fupd_other'. intros E. apply Hn. left. symmetry. exact E. }
  rewrite G by exact Hn. apply fupd_same'.
Qed.

(** ** The statistics of one manifold *)

Definition squares (v : list R) : list value := map (fun p => (p, p * p)) v.

Definition column (i : nat) (h : list (R * list R)) : list (R * R) := map (fun x => (fst x, nth i (snd x) 0)) h.
Definition column2 (i : nat) (h : list (R * list R)) : list (R * R) := map (fun x => (fst x, nth i (snd x) 0 * nth i (snd x) 0)) h.

Lemma trapezoid_snoc h t0 v0 t v : trapezoid (h ++ [(t0, v0); (t, v)]) = trapezoid (h ++ [(t0, v0)]) + (t - t0) * (v0 + v) / 2.
Proof.
  induction h as [|[a b] h IH]; cbn [app]; [cbn; lra|]. destruct h as [|[a' b'] h].
  - cbn. lra.
  - cbn [app] in *. change (trapezoid ((a, b) :: (a', b') :: h ++ [(t0, v0); (t, v)])) with ((a' - a) * (b + b') / 2 + trapezoid ((a', b') :: h ++ [(t0, v0); (t, v)])).
    rewrite IH. change (trapezoid ((a, b) :: (a', b') :: h ++ [(t0, v0)])) with ((a' - a) * (b + b') / 2 + trapezoid ((a', b') :: h ++ [(t0, v0)])). lra.
Qed.

Definition stat_inv (m : manifold) (h : list (R * list R)) (s : statistics) : Prop :=
  match h with
  | [] => s = reset_statistics m
  | (t0, _) :: _ => exists h' t v, h = h' ++ [(t, v)] /\ t_new s = t /\ val_new s = squares v /\ t_sum s = t - t0 /\ t_old s < t_new s /\
      length (val_sum s) = length (m_masses m) /\
      forall i, (i < length (m_masses m))%nat -> nth i (val_sum s) (0, 0) = (trapezoid (column i h), trapezoid (column2 i h))
  end.

Lemma nth_add_all tau : forall s o n i, (i < length s)%nat -> length o = length s -> length n = length s ->
  nth i (add_all tau s o n) (0, 0) = add_trapezoid tau (nth i s (0, 0)) (nth i o (0, 0)) (nth i n (0, 0)).
Proof.
  unfold add_all. induction s as [|a s IH]; intros o n i Hi Ho Hn; [cbn in Hi; lia|].
  destruct o as [|b o]; [discriminate|]. destruct n as [|c n]; [discriminate|]. destruct i as [|i]; [reflexivity|].
  cbn [combine map nth]. apply IH; cbn in *; lia.
Qed.

Lemma length_add_all tau s o n : length o = length s -> length n = length s -> length (add_all tau s o n) = length s.
Proof. intros Ho Hn. unfold add_all. rewrite map_length, combine_length, combine_length. lia. Qed.

Lemma nth_squares v i : (i < length v)%nat -> nth i (squares v) (0, 0) = (nth i v 0, nth i v 0 * nth i v 0).
Proof. revert i. induction v as [|x v IH]; intros i H; cbn in H; [lia|]. destruct i as [|i]; [reflexivity|]. cbn [squares map nth]. apply IH. lia. Qed.

Lemma acc1_inv t m v q h : m_time m = true \/ m_space m = true -> stat_inv m h (q_stats q (m_name m)) ->
  (forall x, In x h -> length (snd x) = length (m_masses m)) -> length v = length (m_masses m) ->
  (forall x, In x h -> fst x < t) ->
  stat_inv m (h ++ [(t, v)]) (q_stats (accumulate1 t m v q) (m_name m)).
Proof.
  intros Ha Hi Hl Hv Ht. unfold accumulate1.
  destruct (negb (m_time m) && negb (m_space m)) eqn:Eb.
  { exfalso. apply andb_true_iff in Eb. destruct Eb as [E1 E2]. apply negb_true_iff in E1, E2. destruct Ha; congruence. }
  destruct (internal_accumulate m v) as [v' a] eqn:Ea. unfold internal_accumulate in Ea. injection Ea as Ev _. fold (squares v) in Ev. subst v'.
  cbn [q_stats]. rewrite fupd_same'. destruct h as [|[t0 v0] h].
  - cbn [stat_inv] in Hi. rewrite Hi. cbn [app reset_statistics t_new t_old val_new val_sum t_sum].
    destruct (Req_EM_T 0 0) as [_|n]; [|contradiction]. cbn [andb stat_inv app].
    exists [], t, v. cbn [app t_new val_new t_sum t_old val_sum]. split; [reflexivity|]. split; [reflexivity|]. split; [reflexivity|].
    split; [lra|]. split; [lra|]. split; [apply repeat_length|]. intros i Hi'. rewrite nth_repeat. reflexivity.
  - destruct Hi as (h' & t1 & v1 & Eh & A1 & A2 & A3 & A4 & A5 & A6). set (s := q_stats q (m_name m)) in *.
    assert (E0 : (if Req_EM_T (t_new s) 0 then true else false) && (if Req_EM_T (t_old s) 0 then true else false) = false).
    { destruct (Req_EM_T (t_new s) 0); [|reflexivity]. destruct (Req_EM_T (t_old s) 0); [lra|reflexivity]. }
    rewrite E0. cbn [app stat_inv]. exists ((t0, v0) :: h), t, v. cbn [t_new val_new t_sum t_old val_sum].
    assert (Hv1 : length v1 = length (m_masses m)) by (apply (Hl (t1, v1)); rewrite Eh; apply in_or_app; right; left; reflexivity).
    assert (Ht1 : t1 < t) by (apply (Ht (t1, v1)); rewrite Eh; apply in_or_app; right; left; reflexivity).
    split; [reflexivity|]. split; [reflexivity|]. split; [reflexivity|]. split; [rewrite A3, A1; lra|]. split; [rewrite A1; exact Ht1|].
    assert (L1 : length (val_new s) = length (val_sum s)) by (rewrite A2, A5; unfold squares; rewrite map_length; exact Hv1).
    assert (L2 : length (squares v) = length (val_sum s)) by (rewrite A5; unfold squares; rewrite map_length; exact Hv).
    split; [rewrite length_add_all; assumption|]. intros i Hin.
    rewrite nth_add_all by (try assumption; lia). rewrite A6 by exact Hin. rewrite A2.
    rewrite !nth_squares by lia.
    assert (C1 : forall f : R * list R -> R * R, map f ((t0, v0) :: h ++ [(t, v)]) = map f h' ++ [f (t1, v1); f (t, v)]).
    { intros f. change ((t0, v0) :: h ++ [(t, v)]) with (((t0, v0) :: h) ++ [(t, v)]). rewrite Eh, <- app_assoc, map_app. reflexivity. }
    assert (C2 : forall f : R * list R -> R * R, map f ((t0, v0) :: h) = map f h' ++ [f (t1, v1)]).
    { intros f. rewrite Eh, map_app. reflexivity. }
    unfold column, column2. rewrite !C1, !C2. cbn [fst snd]. rewrite !trapezoid_snoc, A1. unfold add_trapezoid, vplus, vscale. cbn [fst snd].
    f_equal; field.
Qed.

(** ** Sequences of calls *)

Definition weighted (m : manifold) (v : list R) : option value := snd (internal_accumulate m v).

Lemma acc1_series t m v q : m_time m = true \/ m_space m = true ->
  q_series (accumulate1 t m v q) (m_name m) = q_series q (m_name m) ++ [(t, weighted m v)].
Proof.
  intros Ha. unfold accumulate1. destruct (negb (m_time m) && negb (m_space m)) eqn:Eb.
  { exfalso. apply andb_true_iff in Eb. destruct Eb as [E1 E2]. apply negb_true_iff in E1, E2. destruct Ha; congruence. }
  unfold weighted. destruct (internal_accumulate m v) as [v' a]. cbn [q_series snd]. apply fupd_same'.
Qed.

(** The times of the calls of accumulate. *)
Definition good (m : manifold) (h : list (R * list R)) : Prop :=
  increasing (map fst h) /\ forall x, In x h -> length (snd x) = length (m_masses m).

Lemma increasing_snoc h t : increasing (h ++ [t]) -> increasing h /\ forall x, In x h -> x < t.
Proof.
  induction h as [|a h IH]; intros H; [split; [exact I|intros x []]|]. destruct h as [|b h].
  - cbn in H. split; [exact I|]. intros x [<-|[]]. apply H.
  - cbn [app] in *. destruct H as [H1 H2]. destruct (IH H2) as [I1 I2]. split; [split; assumption|].
    intros x [<-|Hx]; [|apply I2, Hx]. specialize (I2 b (or_introl eq_refl)). lra.
Qed.

Lemma good_snoc m h x : good m (h ++ [x]) -> good m h /\ length (snd x) = length (m_masses m) /\ forall y, In y h -> fst y < fst x.
Proof.
  intros [G1 G2]. rewrite map_app in G1. cbn in G1. destruct (increasing_snoc _ _ G1) as [I1 I2]. split; [split; [exact I1|]|split].
  - intros y Hy. apply G2, in_or_app. left. exact Hy.
  - apply G2, in_or_app. right. left. reflexivity.
  - intros y Hy. apply I2, in_map, Hy.
Qed.

(** All histories that occur are good. *)
Fixpoint all_good (clear : bool) (m : manifold) (cs : list call) (h : list (R * list R)) : Prop :=
  good m h /\
  match cs with
  | [] => True
  | Acc t sample :: cs' => all_good clear m cs' (h ++ [(t, sample m)])
  | Out _ _ _ :: cs' => all_good clear m cs' (if clear then [] else h)
  end.

Lemma increasing_app_l a b : increasing (a ++ b) -> increasing a.
Proof.
  induction a as [|x a IH]; intros H; [exact I|]. destruct a as [|y a]; [exact I|]. cbn [app] in *. destruct H. split; [assumption|]. apply IH. assumption.
Qed.
Lemma increasing_app_r a b : increasing (a ++ b) -> increasing b.
Proof.
  induction a as [|x a IH]; intros H; [exact H|]. apply IH. cbn [app] in H. destruct (a ++ b); [exact I|apply H].
Qed.

Lemma all_good_intro clear m cs : forall h, good m (h ++ all_recorded m cs) -> all_good clear m cs h.
Proof.
  assert (GL : forall a b, good m (a ++ b) -> good m a).
  { intros a b [G1 G2]. rewrite map_app in G1. split; [apply (increasing_app_l _ _ G1)|]. intros x Hx. apply G2, in_or_app. left. exact Hx. }
  assert (GR : forall a b, good m (a ++ b) -> good m b).
  { intros a b [G1 G2]. rewrite map_app in G1. split; [apply (increasing_app_r _ _ G1)|]. intros x Hx. apply G2, in_or_app. right. exact Hx. }
  induction cs as [|[t sample|t c sample] cs IH]; intros h G; cbn [all_good all_recorded] in *; split; try (apply (GL _ _ G)); try exact I.
  - apply IH. rewrite <- app_assoc. exact G.
  - apply IH. destruct clear; [apply (GR _ _ G)|exact G].
Qed.

Lemma perform_inv clear ms m : NoDup (map m_name ms) -> In m ms -> m_time m = true \/ m_space m = true ->
  forall cs q f q' h, perform clear ms cs q = Some (f, q') -> all_good clear m cs h ->
  stat_inv m h (q_stats q (m_name m)) -> stat_inv m (recorded clear m cs h) (q_stats q' (m_name m)).
Proof.
  intros Hd Hin Ha. induction cs as [|[t sample|t c sample] cs IH]; intros q f q' h H G Hi; cbn [perform recorded] in *.
  - injection H as <- <-. exact Hi.
  - cbn [all_good] in G. destruct G as [G0 G]. apply (IH _ _ _ _ H G).
    destruct (acc_at t sample ms m q Hd Hin) as [E _]. rewrite E.
    assert (G1 : good m (h ++ [(t, sample m)])) by (destruct cs; apply G).
    destruct (good_snoc _ _ _ G1) as ((_ & B1) & B2 & B3). apply acc1_inv; assumption.
  - cbn [all_good] in G. destruct G as [G0 G]. destruct (q_write_out clear ms sample t c q) as [[f1 q1]|] eqn:E1; [|discriminate].
    destruct (perform clear ms cs q1) as [[f2 q2]|] eqn:E2; [|discriminate]. injection H as <- <-.
    apply (IH _ _ _ _ E2 G). unfold q_write_out in E1.
    destruct (write_all t c sample ms _) as [[f3 q3]|] eqn:E3; [|discriminate]. injection E1 as <- <-.
    destruct (out_at _ _ _ _ _ _ _ _ E3 Hd Hin Ha) as (A1 & _). cbn [q_stats] in A1. destruct clear.
    + apply (clear_at ms m q3 Hd Hin).
    + rewrite A1. exact Hi.
Qed.

Lemma perform_app clear ms a : forall b q, perform clear ms (a ++ b) q =
  match perform clear ms a q with
  | None => None
  | Some (f, q1) => match perform clear ms b q1 with None => None | Some (f', q2) => Some (f ++ f', q2) end
  end.
Proof.
  induction a as [|[t sample|t c sample] a IH]; intros b q; cbn [app perform].
  - destruct (perform clear ms b q) as [[f q2]|]; reflexivity.
  - apply IH.
  - destruct (q_write_out clear ms sample t c q) as [[f1 q1]|]; [|reflexivity]. rewrite IH.
    destruct (perform clear ms a q1) as [[f2 q2]|]; [|reflexivity]. destruct (perform clear ms b q2) as [[f3 q3]|]; [|reflexivity].
    rewrite app_assoc. reflexivity.
Qed.

Lemma prepare_inv ms m : NoDup (map m_name ms) -> In m ms -> stat_inv m [] (q_stats (q_prepare ms) (m_name m)).
Proof. intros Hd Hin. unfold q_prepare. cbn [stat_inv]. edestruct (clear_at ms m) as [E _]; [exact Hd|exact Hin|exact E]. Qed.

Lemma C51_average_proof clear ms m cs t cycle sample fs q' t0 v0 h :
  NoDup (map m_name ms) -> In m ms -> m_time m = true ->
  increasing (map fst (all_recorded m cs)) ->
  (forall x, In x (all_recorded m cs) -> length (snd x) = length (m_masses m)) ->
  perform clear ms (cs ++ [Out t cycle sample]) (q_prepare ms) = Some (fs, q') ->
  recorded clear m cs [] = (t0, v0) :: h -> h <> [] ->
  let t1 := last (map fst h) 0 in
  exists vals, In (QAverage (m_name m) cycle t0 t1 vals) fs /\ length vals = length (m_masses m) /\
  forall i, (i < length (m_masses m))%nat ->
    nth i vals (0, 0) = (trapezoid (map (fun x => (fst x, nth i (snd x) 0)) ((t0, v0) :: h)) / (t1 - t0),
                         trapezoid (map (fun x => (fst x, nth i (snd x) 0 * nth i (snd x) 0)) ((t0, v0) :: h)) / (t1 - t0)).
Proof.
  intros Hd Hin Hm G1 G2 H Hr Hne t1. rewrite perform_app in H.
  destruct (perform clear ms cs (q_prepare ms)) as [[f1 q1]|] eqn:E1; [|discriminate]. cbn [perform] in H.
  destruct (q_write_out clear ms sample t cycle q1) as [[f2 q2]|] eqn:E2; [|discriminate]. injection H as <- <-.
  assert (AG : all_good clear m cs []) by (apply all_good_intro; split; assumption).
  pose proof (perform_inv clear ms m Hd Hin (or_introl Hm) _ _ _ _ [] E1 AG (prepare_inv ms m Hd Hin)) as Hi. rewrite Hr in Hi.
  destruct Hi as (h' & tl & vl & Eh & A1 & A2 & A3 & A4 & A5 & A6).
  assert (Et : tl = t1).
  { unfold t1. destruct (exists_last Hne) as (h2 & [tz vz] & Ez). subst h. rewrite map_app. cbn. rewrite last_last.
    change ((t0, v0) :: h2 ++ [(tz, vz)]) with (((t0, v0) :: h2) ++ [(tz, vz)]) in Eh. apply app_inj_tail in Eh. destruct Eh as [_ Eh]. congruence. }
  assert (Hlt : t0 < t1).
  { assert (GG : forall cs h0, good m h0 -> all_good clear m cs h0 -> good m (recorded clear m cs h0)).
    { clear. induction cs as [|[t sample|t c sample] cs IH]; intros h0 G0 AG; cbn [recorded all_good] in *; [exact G0| |].
      - apply IH; [destruct cs; apply AG|apply AG].
      - apply IH; [destruct cs; apply AG|apply AG]. }
    specialize (GG cs [] (conj I (fun x (Hx : In x []) => match Hx with end)) AG). rewrite Hr in GG. destruct GG as [GG _].
    cbn [map fst] in GG. destruct (exists_last Hne) as (h2 & [tz vz] & Ez). unfold t1. subst h. rewrite map_app in *. cbn [map fst] in *. rewrite last_last.
    change (t0 :: map fst h2 ++ [tz]) with ((t0 :: map fst h2) ++ [tz]) in GG. apply increasing_snoc in GG. apply GG. left. reflexivity. }
  unfold q_write_out in E2. destruct (write_all t cycle sample ms _) as [[f3 q3]|] eqn:E3; [|discriminate]. injection E2 as <- <-.
  destruct (out_at _ _ _ _ _ _ _ _ E3 Hd Hin (or_introl Hm)) as (_ & _ & _ & A7). cbn [q_stats] in A7.
  specialize (A7 Hm). rewrite A3, A1, Et in A7. specialize (A7 ltac:(lra)).
  eexists. split; [apply in_or_app; right; apply in_or_app; left; apply in_or_app; right; replace t0 with (t1 - (t1 - t0)) at 1 by lra; exact A7|].
  split; [rewrite map_length; exact A5|]. intros i Hi'.
  rewrite (nth_indep _ _ (vscale (1 / (t1 - t0)) (0, 0))) by (rewrite map_length, A5; exact Hi'). rewrite map_nth, A6 by exact Hi'.
  unfold vscale, column, column2. cbn [fst snd]. f_equal; field; lra.
Qed.

(** ** Time series of spatial averages *)

Lemma perform_rows clear ms m : NoDup (map m_name ms) -> In m ms -> m_space m = true ->
  forall cs q f q', perform clear ms cs q = Some (f, q') ->
  rows (m_name m) f ++ q_series q' (m_name m) = q_series q (m_name m) ++ map (fun x => (fst x, weighted m (snd x))) (all_recorded m cs).
Proof.
  intros Hd Hin Hm. induction cs as [|[t sample|t c sample] cs IH]; intros q f q' H; cbn [perform all_recorded map] in *.
  - injection H as <- <-. cbn. rewrite app_nil_r. reflexivity.
  - rewrite (IH _ _ _ H). destruct (acc_at t sample ms m q Hd Hin) as [_ E]. rewrite E, acc1_series by (right; exact Hm).
    rewrite <- app_assoc. reflexivity.
  - destruct (q_write_out clear ms sample t c q) as [[f1 q1]|] eqn:E1; [|discriminate].
    destruct (perform clear ms cs q1) as [[f2 q2]|] eqn:E2; [|discriminate]. injection H as <- <-.
    rewrite rows_app, <- app_assoc, (IH _ _ _ E2). unfold q_write_out in E1.
    destruct (write_all t c sample ms _) as [[f3 q3]|] eqn:E3; [|discriminate]. injection E1 as <- <-.
    destruct (out_at _ _ _ _ _ _ _ _ E3 Hd Hin (or_intror Hm)) as (_ & A2 & A3 & _). rewrite Hm in A2, A3. cbn [q_series] in A3.
    assert (E4 : q_series (if clear then clear_statistics ms q3 else q3) (m_name m) = []) by (destruct clear; [reflexivity|exact A2]).
    rewrite E4. cbn [app]. rewrite rows_app, A3. f_equal. destruct (q_written q); reflexivity.
Qed.

Lemma total_fold l : forall a, fold_left Rplus l a = a + total l.
Proof. induction l as [|x l IH]; intros a; cbn; [lra|]. rewrite IH. unfold total. lra. Qed.

Lemma vsum_fold l : forall a, fold_left vplus l a = (fst a + total (map fst l), snd a + total (map snd l)).
Proof.
  induction l as [|x l IH]; intros [a b]; cbn; [f_equal; lra|]. rewrite IH. unfold vplus. cbn. f_equal; unfold total; lra.
Qed.

Lemma weighted_spec m v : 0 < total (m_masses m) ->
  weighted m v = Some (weighted_mean (m_masses m) v, weighted_mean (m_masses m) (map (fun x => x * x) v)).
Proof.
  intros H. unfold weighted, internal_accumulate. cbn [snd]. rewrite total_fold. destruct (Req_EM_T _ _) as [E|_]; [lra|].
  rewrite vsum_fold. cbn [fst snd]. unfold weighted_mean. f_equal. f_equal.
  - replace (0 + total (m_masses m)) with (total (m_masses m)) by lra. f_equal. rewrite Rplus_0_l. f_equal.
    generalize (m_masses m). induction v as [|x v IH]; intros [|a l]; cbn; try reflexivity. f_equal. apply IH.
  - replace (0 + total (m_masses m)) with (total (m_masses m)) by lra. f_equal. rewrite Rplus_0_l. f_equal.
    generalize (m_masses m). induction v as [|x v IH]; intros [|a l]; cbn; try reflexivity. f_equal. apply IH.
Qed.

Lemma C51_series_proof clear ms m cs t cycle sample fs q' :
  NoDup (map m_name ms) -> In m ms -> m_space m = true -> 0 < total (m_masses m) ->
  perform clear ms (cs ++ [Out t cycle sample]) (q_prepare ms) = Some (fs, q') ->
  rows (m_name m) fs = map (fun x => (fst x, Some (weighted_mean (m_masses m) (snd x),
                                                   weighted_mean (m_masses m) (map (fun y => y * y) (snd x))))) (all_recorded m cs).
Proof.
  intros Hd Hin Hm H0 H. pose proof (perform_rows clear ms m Hd Hin Hm _ _ _ _ H) as E.
  assert (E1 : q_series q' (m_name m) = []).
  { rewrite perform_app in H. destruct (perform clear ms cs (q_prepare ms)) as [[f1 q1]|]; [|discriminate]. cbn [perform] in H.
    destruct (q_write_out clear ms sample t cycle q1) as [[f2 q2]|] eqn:E2; [|discriminate]. injection H as <- <-.
    unfold q_write_out in E2. destruct (write_all t cycle sample ms _) as [[f3 q3]|] eqn:E3; [|discriminate]. injection E2 as <- <-.
    destruct (out_at _ _ _ _ _ _ _ _ E3 Hd Hin (or_intror Hm)) as (_ & A2 & _). rewrite Hm in A2. destruct clear; [reflexivity|exact A2]. }
  rewrite E1, app_nil_r in E. rewrite E. cbn [q_prepare clear_statistics q_series app].
  assert (E2 : forall cs t c s, all_recorded m (cs ++ [Out t c s]) = all_recorded m cs).
  { clear. induction cs as [|[t sample|t c sample] cs IH]; intros t' c' s'; cbn; [reflexivity| |]; rewrite IH; reflexivity. }
  rewrite E2. apply map_ext. intros x. rewrite weighted_spec by exact H0. reflexivity.
Qed.

Lemma C51_mean_bounds_proof mass v lo hi : (forall a, In a mass -> 0 <= a) -> 0 < total mass -> length v = length mass ->
  (forall x, In x v -> lo <= x <= hi) -> lo <= weighted_mean mass v <= hi.
Proof.
  intros Hm H0 Hl Hv.
  assert (G : lo * total mass <= total (map (fun x => fst x * snd x) (combine mass v)) <= hi * total mass).
  { clear H0. revert v Hl Hv. induction mass as [|a mass IH]; intros [|x v] Hl Hv; cbn in *; try discriminate; [lra|].
    destruct (IH (fun b Hb => Hm b (or_intror Hb)) v) as [I1 I2]; [lia|intros y Hy; apply Hv; right; exact Hy|].
    specialize (Hm a (or_introl eq_refl)). specialize (Hv x (or_introl eq_refl)). unfold total in *. split; nra. }
  unfold weighted_mean. destruct G as [G1 G2]. split.
  - apply (Rmult_le_reg_r (total mass)); [exact H0|]. unfold Rdiv. rewrite Rmult_assoc, Rinv_l, Rmult_1_r by lra. exact G1.
  - apply (Rmult_le_reg_r (total mass)); [exact H0|]. unfold Rdiv. rewrite Rmult_assoc, Rinv_l, Rmult_1_r by lra. exact G2.
Qed.

Lemma series_files_app a b : series_files (a ++ b) = series_files a ++ series_files b.
Proof. induction a as [|[] a IH]; cbn; try assumption; try reflexivity. rewrite IH. reflexivity. Qed.

Lemma acc_cycle t sample ms : forall q, q_cycle (q_accumulate ms sample t q) = q_cycle q.
Proof.
  induction ms as [|m ms IH]; intros q; [reflexivity|].
  change (q_cycle (q_accumulate ms sample t (accumulate1 t m (sample m) q)) = q_cycle q). rewrite IH. unfold accumulate1.
  destruct (_ && _); [reflexivity|]. destruct (internal_accumulate m (sample m)). reflexivity.
Qed.

(** The time series of one write-out continue what has been opened. *)
Definition continues (c : nat) (o o' : option nat) (l : list (nat * bool)) : Prop :=
  match o with
  | Some n => o' = Some n /\ exists k, l = repeat (n, true) k
  | None => (o' = None /\ l = []) \/ (o' = Some c /\ exists k, l = (c, false) :: repeat (c, true) k)
  end.

Lemma repeat_join {A} (a : A) i j : repeat a i ++ repeat a j = repeat a (i + j).
Proof. symmetry. apply repeat_app. Qed.

Lemma continues_trans c o o1 o2 l l' : continues c o o1 l -> continues c o1 o2 l' -> continues c o o2 (l ++ l').
Proof.
  destruct o as [n|]; cbn.
  - intros [-> [k ->]] [-> [k' ->]]. split; [reflexivity|]. exists (k + k')%nat. apply repeat_join.
  - intros [[-> ->]|[-> [k ->]]]; [intros H; exact H|]. intros [-> [k' ->]]. right. split; [reflexivity|].
    exists (k + k')%nat. cbn. rewrite repeat_join. reflexivity.
Qed.

Lemma out1_files t c m prim q f q' : write_out1 t c m prim q = Some (f, q') ->
  continues c (q_cycle q) (q_cycle q') (series_files f) /\ (m_space m = true -> q_cycle q' <> None).
Proof.
  unfold write_out1. intros H.
  match type of H with match ?X with _ => _ end = _ => destruct X as [[f1 q1]|] eqn:E1; [|discriminate] end.
  assert (A : q_cycle q1 = q_cycle q /\ series_files f1 = []).
  { destruct (m_inst m); [|injection E1 as <- <-; split; reflexivity].
    destruct (m_time m || m_space m).
    - destruct (Req_EM_T _ _); [|discriminate]. injection E1 as <- <-. split; reflexivity.
    - injection E1 as <- <-. split; reflexivity. }
  destruct A as [A1 A2].
  set (f2 := if m_time m then _ else []) in H.
  assert (B : series_files f2 = []) by (subst f2; clear; destruct (m_time m); [|reflexivity]; destruct (Req_EM_T _ _); reflexivity).
  clearbody f2. destruct (m_space m); injection H as <- <-.
  - rewrite !series_files_app, A2, B. cbn [series_files app q_cycle]. rewrite A1. split.
    + destruct (q_cycle q) as [n|]; cbn.
      * split; [reflexivity|]. exists 1%nat. reflexivity.
      * right. split; [reflexivity|]. exists 0%nat. reflexivity.
    + intros _. discriminate.
  - rewrite series_files_app, A2, B, A1. cbn. split; [|discriminate]. destruct (q_cycle q) as [n|]; cbn.
    + split; [reflexivity|]. exists 0%nat. reflexivity.
    + left. split; reflexivity.
Qed.

Lemma continues_some c o o' l : continues c o o' l -> o <> None -> o' <> None.
Proof. destruct o as [n|]; cbn; [intros [-> _] _; discriminate|]. intros _ H. contradiction. Qed.

Lemma all_files t c sample ms : forall q f q', write_all t c sample ms q = Some (f, q') ->
  continues c (q_cycle q) (q_cycle q') (series_files f) /\ ((exists m, In m ms /\ m_space m = true) -> q_cycle q' <> None).
Proof.
  induction ms as [|m ms IH]; intros q f q' H.
  - injection H as <- <-. split; [|intros [m [[] _]]]. cbn. destruct (q_cycle q) as [n|]; cbn.
    + split; [reflexivity|]. exists 0%nat. reflexivity.
    + left. split; reflexivity.
  - cbn [write_all] in H. destruct (write_out1 t c m (sample m) q) as [[f1 q1]|] eqn:E1; [|discriminate].
    destruct (write_all t c sample ms q1) as [[f2 q2]|] eqn:E2; [|discriminate]. injection H as <- <-.
    destruct (out1_files _ _ _ _ _ _ _ E1) as [C1 D1]. destruct (IH _ _ _ E2) as [C2 D2]. rewrite series_files_app.
    split; [eapply continues_trans; eassumption|]. intros [m' [[<-|H] Hs]].
    + exact (continues_some _ _ _ _ C2 (D1 Hs)).
    + apply D2. exists m'. auto.
Qed.

Lemma write_out_files clear ms sample t c q f q' : q_write_out clear ms sample t c q = Some (f, q') ->
  continues c (q_cycle q) (q_cycle q') (series_files f) /\ ((exists m, In m ms /\ m_space m = true) -> q_cycle q' <> None).
Proof.
  unfold q_write_out. destruct (write_all _ _ _ _ _) as [[f1 q1]|] eqn:E1; [|discriminate]. intros [= <- <-].
  apply all_files in E1. rewrite series_files_app.
  replace (series_files (if q_written q then [] else [QMesh c])) with (@nil (nat * bool)) by (destruct (q_written q); reflexivity).
  destruct clear; exact E1.
Qed.

Lemma perform_files clear ms : (exists m, In m ms /\ m_space m = true) -> forall cs q fs q',
  perform clear ms cs q = Some (fs, q') ->
  match q_cycle q with
  | Some n => exists k, series_files fs = repeat (n, true) k
  | None => match first_out cs with
            | None => series_files fs = []
            | Some c => exists k, series_files fs = (c, false) :: repeat (c, true) k
            end
  end.
Proof.
  intros Hs. induction cs as [|[t sample|t c sample] cs IH]; intros q fs q' H; cbn [perform first_out] in *.
  - injection H as <- <-. destruct (q_cycle q); [exists 0%nat|]; reflexivity.
  - apply IH in H. rewrite acc_cycle in H. exact H.
  - destruct (q_write_out clear ms sample t c q) as [[f1 q1]|] eqn:E1; [|discriminate].
    destruct (perform clear ms cs q1) as [[f2 q2]|] eqn:E2; [|discriminate]. injection H as <- <-.
    apply write_out_files in E1. destruct E1 as [E1 D]. apply IH in E2. rewrite series_files_app.
    destruct (q_cycle q) as [n|]; cbn in E1.
    + destruct E1 as [E3 [k ->]]. rewrite E3 in E2. destruct E2 as [k' ->]. exists (k + k')%nat. apply repeat_join.
    + destruct E1 as [[E3 _]|[E3 [k ->]]]; [exfalso; exact (D Hs E3)|]. rewrite E3 in E2. destruct E2 as [k' ->].
      exists (k + k')%nat. cbn. rewrite repeat_join. reflexivity.
Qed.

Lemma C51_one_file_proof clear ms cs fs q' c :
  (exists m, In m ms /\ m_space m = true) -> first_out cs = Some c ->
  perform clear ms cs (q_prepare ms) = Some (fs, q') ->
  exists k, series_files fs = (c, false) :: repeat (c, true) k.
Proof. intros Hs F H. apply (perform_files clear ms Hs) in H. cbn in H. rewrite F in H. exact H. Qed.
