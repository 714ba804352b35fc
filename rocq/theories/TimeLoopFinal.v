(** * Termination, mesh adaptation, resumed runs *)
From Coq Require Import Reals List Bool Arith Lia Lra Psatz Sorted String.
From Verif Require Import Quantities TimeLoop TimeLoopSpec TimeLoopProofs.
Import ListNotations.
Local Open Scope R_scope.

(** ** The assertion of write_out never fails *)

Definition averaging (m : manifold) : Prop := m_time m = true \/ m_space m = true.
Definition current (t : R) (m : manifold) (q : qstate) : Prop := averaging m -> t_new (q_stats q (m_name m)) = t.

Lemma fupd_same {A} (f : string -> A) n a : fupd f n a n = a.
Proof. unfold fupd. rewrite String.eqb_refl. reflexivity. Qed.
Lemma fupd_other {A} (f : string -> A) n m a : m <> n -> fupd f n a m = f m.
Proof. intros H. unfold fupd. destruct (String.eqb_spec m n); [congruence|reflexivity]. Qed.

Lemma accumulate1_new t m prim q : averaging m -> t_new (q_stats (accumulate1 t m prim q) (m_name m)) = t.
Proof.
  intros H. unfold accumulate1. destruct (negb (m_time m) && negb (m_space m)) eqn:Eb.
  - exfalso. apply andb_true_iff in Eb. destruct Eb as [E1 E2]. apply negb_true_iff in E1, E2. destruct H; congruence.
  - destruct (internal_accumulate m prim) as [v a]. cbn [q_stats]. rewrite fupd_same.
    destruct (Req_EM_T (t_new (q_stats q (m_name m))) 0), (Req_EM_T (t_old (q_stats q (m_name m))) 0); reflexivity.
Qed.

Lemma accumulate1_other t m prim q n : n <> m_name m -> q_stats (accumulate1 t m prim q) n = q_stats q n.
Proof.
  intros H. unfold accumulate1. destruct (_ && _); [reflexivity|]. destruct (internal_accumulate m prim) as [v a]. cbn [q_stats].
  apply fupd_other. exact H.
Qed.

Lemma accumulate1_keeps t m prim q n : t_new (q_stats q n) = t -> t_new (q_stats (accumulate1 t m prim q) n) = t.
Proof.
  intros H. destruct (string_dec n (m_name m)) as [->|Hn]; [|rewrite accumulate1_other by exact Hn; exact H].
  destruct (m_time m) eqn:E1; [apply accumulate1_new; left; exact E1|].
  destruct (m_space m) eqn:E2; [apply accumulate1_new; right; exact E2|].
  unfold accumulate1. rewrite E1, E2. exact H.
Qed.

Lemma accumulate_keeps t sample ms : forall q n, t_new (q_stats q n) = t -> t_new (q_stats (q_accumulate ms sample t q) n) = t.
Proof.
  unfold q_accumulate. induction ms as [|m ms IH]; intros q n H; [exact H|]. cbn [fold_left]. apply IH, accumulate1_keeps, H.
Qed.

Lemma accumulate_current t sample ms : forall q m, In m ms -> current t m (q_accumulate ms sample t q).
Proof.
  unfold q_accumulate. induction ms as [|m0 ms IH]; intros q m Hin; [destruct Hin|]. cbn [fold_left].
  destruct Hin as [->|Hin]; [|apply IH, Hin]. intros Ha. apply accumulate_keeps. apply accumulate1_new. exact Ha.
Qed.

Lemma write_out1_total t n m prim q : current t m q -> exists r, write_out1 t n m prim q = Some r /\
  forall k, t_new (q_stats (snd r) k) = t_new (q_stats q k).
Proof.
  intros H. unfold write_out1.
  assert (A : exists f1 q1, (if m_inst m then
       if m_time m || m_space m then
         if Req_EM_T (t_new (q_stats q (m_name m))) t then
           Some ([QInstant (m_name m) n t (val_new (q_stats q (m_name m)))], q)
         else None
       else
         Some ([QInstant (m_name m) n t (fst (internal_accumulate m prim))],
               {| q_stats := fupd (q_stats q) (m_name m)
                    {| val_old := val_old (q_stats q (m_name m)); val_new := fst (internal_accumulate m prim); val_sum := val_sum (q_stats q (m_name m));
                       t_old := t_old (q_stats q (m_name m)); t_new := t_new (q_stats q (m_name m)); t_sum := t_sum (q_stats q (m_name m)) |};
                  q_series := q_series q; q_written := q_written q; q_cycle := q_cycle q |})
     else Some ([], q)) = Some (f1, q1) /\ forall k, t_new (q_stats q1 k) = t_new (q_stats q k)).
  { destruct (m_inst m); [|exists [], q; split; reflexivity].
    destruct (m_time m || m_space m) eqn:Ea.
    - destruct (Req_EM_T _ t) as [Et|Et]; [eexists; exists q; split; reflexivity|].
      exfalso. apply Et, H. unfold averaging. apply orb_true_iff in Ea. exact Ea.
    - eexists. eexists. split; [reflexivity|]. intros k. cbn [q_stats]. unfold fupd.
      destruct (String.eqb_spec k (m_name m)) as [->|]; reflexivity. }
  destruct A as (f1 & q1 & -> & Hk). destruct (m_space m); eexists; split; try reflexivity; exact Hk.
Qed.

Lemma write_all_total t n sample ms : forall q, (forall m, In m ms -> current t m q) -> exists r, write_all t n sample ms q = Some r.
Proof.
  induction ms as [|m ms IH]; intros q H; cbn [write_all]; [eauto|].
  destruct (write_out1_total t n m (sample m) q (H m (or_introl eq_refl))) as ([f q1] & -> & Hk). cbn [snd] in Hk.
  destruct (IH q1) as [[f' q2] ->]; [|eauto]. intros m' Hm' Ha. rewrite Hk. apply (H m' (or_intror Hm') Ha).
Qed.

Lemma write_out_total clear ms sample t n q sample' :
  exists r, q_write_out clear ms sample' t n (q_accumulate ms sample t q) = Some r.
Proof.
  unfold q_write_out.
  destruct (write_all_total t n sample' ms {| q_stats := q_stats (q_accumulate ms sample t q); q_series := q_series (q_accumulate ms sample t q); q_written := true; q_cycle := q_cycle (q_accumulate ms sample t q) |}) as [[f q1] E1].
  - intros m Hm Ha. cbn [q_stats]. apply accumulate_current; assumption.
  - rewrite E1. eauto.
Qed.

Lemma nat_above x : exists k, x <= INR k.
Proof.
  exists (Z.to_nat (up x)). rewrite INR_IZR_INZ. destruct (archimed x) as [A _].
  destruct (Z_le_gt_dec 0 (up x)) as [H|H].
  - rewrite Z2Nat.id by exact H. lra.
  - replace (Z.to_nat (up x)) with 0%nat by lia. cbn. apply Z.gt_lt, IZR_lt in H. lra.
Qed.

Section Final.
Context {St B : Type}.
Variable E : environment St B.
Variable C : config.
Hypothesis Hv : valid_multipliers C.

Lemma divides_total m n : (0 < m)%nat -> divides m n = Some (Nat.eqb (n mod m) 0).
Proof using Type. destruct m; [lia|reflexivity]. Qed.

Lemma output_total s f t n b : exists r, output St B E C s f t n b = Some r.
Proof.
  destruct Hv as (H1 & H2 & H3 & H4). unfold output. rewrite !divides_total by assumption. cbn [obind].
  destruct (negb _); [eauto|]. destruct ((_ && _) || (_ && _)); cbn; eauto.
Qed.

Lemma iteration_total L : exists r, iteration St B E C L = Some r.
Proof.
  unfold iteration. set (L1 := if enable_compute_quantities C then _ else L).
  assert (T : exists r, tick St B E C L1 = Some r).
  { unfold tick. destruct (output_total (l_state _ _ L1) Solution (l_t _ _ L1) (l_cycle _ _ L1) (l_bounds _ _ L1)) as [[[ev1 s1] b1] ->].
    cbn [obind].
    assert (A : exists r, (if enable_compute_error C
         then obind (output St B E C (analytic _ _ E s1 (l_t _ _ L1)) Analytic (l_t _ _ L1) (l_cycle _ _ L1) b1) (fun '(ev, _, b) => Some (ev, b))
         else Some ([], b1)) = Some r).
    { destruct (enable_compute_error C); [|eauto].
      destruct (output_total (analytic _ _ E s1 (l_t _ _ L1)) Analytic (l_t _ _ L1) (l_cycle _ _ L1) b1) as [[[ev s2] b2] ->]. cbn. eauto. }
    destruct A as [[ev2 b2] ->]. cbn [obind].
    assert (A : exists r, (if enable_compute_quantities C
         then obind (divides (quantities_multiplier C) (l_cycle _ _ L1)) (fun d =>
                if d then obind (q_write_out (clear_on_writeout C) (manifolds C) (sample _ _ E s1) (l_t _ _ L1) (l_cycle _ _ L1) (l_q _ _ L1))
                            (fun '(files, q) => Some ([QFiles St B files], q))
                else Some ([], l_q _ _ L1))
         else Some ([], l_q _ _ L1)) = Some r).
    { unfold L1. clear L1. destruct (enable_compute_quantities C); [|eauto]. rewrite divides_total by apply Hv. cbn [obind l_q l_cycle l_t].
      destruct (Nat.eqb _ 0); [|eauto].
      destruct (write_out_total (clear_on_writeout C) (manifolds C) (sample _ _ E (l_state St B L)) (l_t St B L) (l_cycle St B L) (l_q St B L) (sample _ _ E s1)) as [[f q] ->].
      cbn. eauto. }
    destruct A as [[ev3 q] ->]. cbn [obind]. eauto. }
  assert (T2 : exists r, (if Rge_dec (l_t _ _ L1) (INR (l_cycle _ _ L1) * granularity C) then tick St B E C L1 else Some ([], L1)) = Some r).
  { destruct (Rge_dec _ _); [exact T|eauto]. }
  destruct T2 as [[ev1 L2] ->]. cbn [obind]. destruct (Rge_dec _ _); [eauto|].
  destruct (adaptation St B E C L2) as [ev2 L3]. destruct (integrate _ _ _ _ _ _) as [s tau]. eauto.
Qed.

Lemma loop_terminates delta : 0 < delta -> relax C * t_final C <= te C ->
  (forall s t, t < relax C * t_final C -> Rmin delta (te C - t) <= snd (integrate _ _ E s t (te C))) ->
  forall k L, relax C * t_final C - l_t _ _ L <= INR k * delta ->
  exists evs L', main_loop St B E C (S k) L = Some (evs, L', true).
Proof.
  intros Hd Hte Hi. induction k as [|k IH]; intros L H.
  - destruct (iteration_total L) as [[[ev L1] stop] H1]. pose proof (iteration_spec _ _ _ _ _ _ H1) as (_ & _ & _ & T). cbn zeta in T.
    cbn [main_loop]. rewrite H1. cbn [obind]. destruct stop; [eauto|]. cbn in H. destruct T as [T _]. lra.
  - destruct (iteration_total L) as [[[ev L1] stop] H1]. pose proof (iteration_spec _ _ _ _ _ _ H1) as (_ & _ & _ & T). cbn zeta in T.
    remember (S k) as k'. cbn [main_loop]. rewrite H1. cbn [obind]. destruct stop; [eauto|]. subst k'.
    destruct T as (T1 & (s & _ & T2) & _). destruct (IH L1) as (evs & L' & H2).
    + rewrite T2. fold (te C). specialize (Hi s _ T1). rewrite S_INR in H. unfold Rmin in Hi. pose proof (pos_INR k).
      pose proof (Rmult_le_pos (INR k) delta ltac:(lra) ltac:(lra)).
      destruct (Rle_dec delta (te C - l_t St B L)) in Hi; [|lra].
      nra.
    + rewrite H2. cbn [obind]. eauto.
Qed.

End Final.

Section More.
Context {St B : Type}.
Variable E : environment St B.
Variable C : config.

Lemma C47_terminates_proof delta s0 :
  valid_multipliers C -> 0 < delta -> 0 <= eps C -> 0 <= t_final C <= big C ->
  (forall s t, t < te C -> Rmin delta (te C - t) <= snd (integrate _ _ E s t (te C)) <= te C - t) ->
  exists fuel evs L', main_loop St B E C fuel (start St B C s0) = Some (evs, L', true) /\
    relax C * t_final C <= l_t _ _ L' /\ l_t _ _ L' <= te C.
Proof.
  intros Hv Hd He Hf Hi.
  assert (Hte : relax C * t_final C <= te C) by (unfold relax, te; destruct (enforce_t_final C); nra).
  assert (H0 : 0 <= te C) by (unfold te; destruct (enforce_t_final C); lra).
  destruct (nat_above (relax C * t_final C / delta)) as [k Hk].
  apply (Rmult_le_compat_r delta) in Hk; [|lra]. unfold Rdiv in Hk. rewrite Rmult_assoc, Rinv_l, Rmult_1_r in Hk by lra.
  destruct (loop_terminates E C Hv delta Hd Hte) with (k := k) (L := start St B C s0) as (evs & L' & H).
  - intros s t Ht. apply Hi. lra.
  - cbn [l_t start]. lra.
  - exists (S k), evs, L'. split; [exact H|].
    destruct (loop_levels E C _ _ _ _ _ H) as (_ & _ & R1). split; [apply R1; reflexivity|].
    (* no level passes the end point *)
    assert (G : forall fuel L evs L' r, main_loop St B E C fuel L = Some (evs, L', r) -> l_t _ _ L <= te C -> l_t _ _ L' <= te C).
    { clear - Hi Hte. induction fuel as [|fuel IH]; intros L evs L' r H HL; [injection H as <- <- <-; exact HL|].
      apply main_loop_inv in H. destruct H as (ev1 & L1 & stop & H1 & H).
      pose proof (iteration_spec _ _ _ _ _ _ H1) as (_ & _ & _ & T). cbn zeta in T.
      destruct H as [(-> & _ & -> & _)|(-> & ev2 & H2 & _)]; [destruct T as (_ & _ & T & _); lra|].
      apply (IH _ _ _ _ H2). destruct T as (T1 & (s & _ & T2) & _). rewrite T2. fold (te C).
      destruct (Hi s (l_t St B L) ltac:(lra)). lra. }
    apply (G _ _ _ _ _ H). exact H0.
Qed.

(** ** Mesh adaptation *)

(** The adaptations at a list of levels (the last level excluded). *)
Fixpoint expected (points : list R) (l : list R) : list R :=
  match l with
  | t :: ((_ :: _) as l') =>
      (if existsb (fun p => negb (if Rlt_dec t p then true else false)) points then [t] else []) ++
      expected (filter (fun p => if Rlt_dec t p then true else false) points) l'
  | _ => []
  end.

Lemma expected_cons2 points t b l : expected points (t :: b :: l) =
  (if existsb (fun p => negb (if Rlt_dec t p then true else false)) points then [t] else []) ++
  expected (filter (fun p => if Rlt_dec t p then true else false) points) (b :: l).
Proof using Type. reflexivity. Qed.

Lemma loop_nonempty fuel L evs L' : main_loop St B E C fuel L = Some (evs, L', true) -> levels evs <> [].
Proof.
  destruct fuel; [discriminate|]. intros H. apply main_loop_inv in H. destruct H as (ev1 & L1 & stop & H1 & H).
  pose proof (iteration_spec _ _ _ _ _ _ H1) as (V & _). destruct H as [(_ & -> & _)|(_ & ev2 & _ & ->)].
  - rewrite V. discriminate.
  - rewrite levels_app, V. discriminate.
Qed.

Lemma loop_adaptations fuel : forall L evs L', main_loop St B E C fuel L = Some (evs, L', true) -> enable_mesh_adaptivity C = true ->
  adaptations evs = expected (l_points _ _ L) (levels evs).
Proof.
  induction fuel as [|fuel IH]; intros L evs L' H Hm; [discriminate|].
  apply main_loop_inv in H. destruct H as (ev1 & L1 & stop & H1 & H).
  pose proof (iteration_spec _ _ _ _ _ _ H1) as (V & _ & _ & T). cbn zeta in *.
  destruct H as [(-> & -> & -> & _)|(-> & ev2 & H2 & ->)].
  - destruct T as (_ & T & _). rewrite V, T. reflexivity.
  - destruct T as (_ & _ & _ & T). destruct (T Hm) as [T1 T2]. rewrite adaptations_app, levels_app, V, T1. cbn [app].
    pose proof (loop_nonempty _ _ _ _ H2) as Hne. rewrite (IH _ _ _ H2 Hm), T2.
    destruct (levels ev2) as [|t' l']; [congruence|]. reflexivity.
Qed.

Lemma linked_sorted l : forall t0 st, linked t0 l st -> (forall t tau, In (t, tau) st -> 0 < tau) ->
  StronglySorted Rlt l /\ forall x, In x l -> t0 <= x.
Proof.
  induction l as [|a l IH]; intros t0 st H Hp; [split; [constructor|intros x []]|].
  destruct st as [|[t tau] st]; cbn in H.
  - destruct H as [H|[= -> ->]]; [discriminate|]. split; [repeat constructor|]. intros x [<-|[]]. lra.
  - destruct H as (-> & l' & [= -> <-] & H). assert (0 < tau) by (apply (Hp t0); left; reflexivity).
    destruct (IH _ _ H) as [I1 I2]; [intros t tau' Hin; apply (Hp t); right; exact Hin|].
    split.
    + constructor; [exact I1|]. rewrite Forall_forall. intros x Hx. specialize (I2 x Hx). lra.
    + intros x [<-|Hx]; [lra|]. specialize (I2 x Hx). lra.
Qed.

Lemma expected_in l : forall points t, In t (expected points l) -> In t l.
Proof.
  induction l as [|a l IH]; intros points t H; [destruct H|]. destruct l as [|b l]; [destruct H|].
  rewrite expected_cons2 in H. apply in_app_or in H. destruct H as [H|H].
  - destruct (existsb _ _); [|destruct H]. destruct H as [<-|[]]. left. reflexivity.
  - right. apply (IH _ _ H).
Qed.

Lemma expected_sorted l : forall points, StronglySorted Rlt l -> StronglySorted Rlt (expected points l).
Proof.
  induction l as [|a l IH]; intros points H; [constructor|]. inversion H as [|? ? H1 H2]; subst.
  destruct l as [|b l]; [constructor|]. rewrite expected_cons2. specialize (IH (filter (fun p => if Rlt_dec a p then true else false) points) H1).
  destruct (existsb _ _); [|exact IH]. cbn [app]. constructor; [exact IH|]. rewrite Forall_forall in *. intros x Hx. apply H2, (expected_in _ _ _ Hx).
Qed.

Lemma expected_spec l : forall points t, In t (expected points l) <->
  exists p l1 l2, In p points /\ l = l1 ++ t :: l2 /\ l2 <> [] /\ p <= t /\ (forall s, In s l1 -> s < p) /\
    In t (expected points l).
Proof.
  induction l as [|a l IH]; intros points t.
  - split; [intros []|]. intros (? & ? & ? & _ & _ & _ & _ & _ & H). exact H.
  - split; [|intros (? & ? & ? & _ & _ & _ & _ & _ & H); exact H]. intros H. pose proof H as H0.
    destruct l as [|b l]; [destruct H|]. rewrite expected_cons2 in H. remember (b :: l) as l'.
    apply in_app_or in H. destruct H as [H|H].
    + destruct (existsb _ points) eqn:Ex; [|destruct H]. destruct H as [<-|[]].
      apply existsb_exists in Ex. destruct Ex as (p & Hp & Hb). destruct (Rlt_dec a p) as [|Hn]; [discriminate|].
      exists p, [], l'. split; [exact Hp|]. split; [reflexivity|]. split; [subst; discriminate|]. split; [lra|]. split; [intros s []|exact H0].
    + apply IH in H. destruct H as (p & l1 & l2 & H1 & H2 & H3 & H4 & H5 & _). apply filter_In in H1. destruct H1 as [H1 H6].
      destruct (Rlt_dec a p) as [Hap|]; [|discriminate].
      exists p, (a :: l1), l2. split; [exact H1|]. split; [rewrite H2; reflexivity|]. split; [exact H3|]. split; [exact H4|].
      split; [|exact H0]. intros s [<-|Hs]; [exact Hap|apply H5, Hs].
Qed.

Lemma expected_complete l : forall points p l1 t l2, In p points -> l = l1 ++ t :: l2 -> l2 <> [] -> p <= t ->
  (forall s, In s l1 -> s < p) -> In t (expected points l).
Proof.
  induction l as [|a l IH]; intros points p l1 t l2 Hp El Hne Hpt Hl1; [destruct l1; discriminate|].
  destruct l1 as [|a1 l1]; cbn [app] in El; injection El as -> El.
  - subst l. destruct l2 as [|b l2]; [congruence|]. rewrite expected_cons2. apply in_or_app. left.
    assert (Ex : existsb (fun p0 => negb (if Rlt_dec t p0 then true else false)) points = true).
    { apply existsb_exists. exists p. split; [exact Hp|]. destruct (Rlt_dec t p); [lra|reflexivity]. }
    rewrite Ex. left. reflexivity.
  - assert (Hin : In t (expected (filter (fun p0 => if Rlt_dec a1 p0 then true else false) points) l)).
    { apply (IH _ p l1 t l2); auto.
      - apply filter_In. split; [exact Hp|]. specialize (Hl1 a1 (or_introl eq_refl)). destruct (Rlt_dec a1 p); [reflexivity|lra].
      - intros s Hs. apply Hl1. right. exact Hs. }
    destruct l as [|b l]; [destruct l1; discriminate|]. rewrite expected_cons2. apply in_or_app. right. exact Hin.
Qed.

Lemma C50_exactly_once_proof fuel s0 evs L' :
  main_loop St B E C fuel (start St B C s0) = Some (evs, L', true) -> enable_mesh_adaptivity C = true ->
  (forall t tau, In (t, tau) (steps evs) -> 0 < tau) ->
  StronglySorted Rlt (adaptations evs) /\
  forall t, In t (adaptations evs) <->
    (t <> l_t _ _ L' /\ exists p, In p (adaptation_points C) /\ 0 <= p /\ first_reaching (levels evs) p t).
Proof.
  intros H Hm Hs. destruct (loop_levels E C _ _ _ _ _ H) as (HL & _ & HR). destruct (HR eq_refl) as (_ & lz & Hz).
  destruct (linked_sorted _ _ _ HL Hs) as [S1 _].
  rewrite (loop_adaptations _ _ _ _ H Hm). split; [apply expected_sorted, S1|]. intros t.
  assert (Last : forall l1 l2, levels evs = l1 ++ t :: l2 -> (l2 = [] <-> t = l_t _ _ L')).
  { intros l1 l2 El. split.
    - intros ->. rewrite Hz in El. apply app_inj_tail in El. symmetry. apply El.
    - intros ->. destruct l2 as [|b l2]; [reflexivity|exfalso].
      assert (Hin : In (l_t St B L') (b :: l2)).
      { rewrite Hz in El. assert (Hr : rev (lz ++ [l_t St B L']) = rev (l1 ++ l_t St B L' :: b :: l2)) by (rewrite El; reflexivity).
        rewrite rev_app_distr in Hr. cbn [rev app] in Hr. rewrite rev_app_distr in Hr. cbn [rev] in Hr.
        apply in_rev. destruct (rev (b :: l2)) as [|z zs] eqn:Er; [apply (f_equal (@rev R)) in Er; rewrite rev_involutive in Er; discriminate|].
        cbn [rev] in Er. rewrite Er in Hr. cbn in Hr. injection Hr as Hr _. rewrite Hr. left. reflexivity. }
      rewrite El in S1. clear -S1 Hin. induction l1 as [|x l1 IH]; cbn [app] in S1; inversion S1 as [|? ? A1 A2]; subst; [|apply IH, A1].
      rewrite Forall_forall in A2. specialize (A2 _ Hin). lra. }
  assert (P : forall p, In p (l_points St B (start St B C s0)) <-> In p (adaptation_points C) /\ 0 <= p).
  { intros p. cbn [l_points start]. unfold adaptor_prepare. rewrite filter_In. destruct (Rgt_dec 0 p); cbn; split; intros [A1 A2]; split; auto; try discriminate; lra. }
  split.
  - intros Hin. apply expected_spec in Hin. destruct Hin as (p & l1 & l2 & Hp & El & Hne & Hpt & Hl1 & _).
    split; [intros Et; apply Hne, (Last _ _ El), Et|]. exists p. apply P in Hp. split; [apply Hp|]. split; [apply Hp|].
    exists l1, l2. auto.
  - intros (Hne & p & Hp & Hp0 & l1 & l2 & El & Hpt & Hl1).
    apply (expected_complete _ _ p l1 t l2); auto; [apply P; auto|]. intros E2. apply Hne, (Last _ _ El), E2.
Qed.

(** ** Resumed runs *)

Definition sim (L L' : loop_state St B) : Prop :=
  l_t _ _ L = l_t _ _ L' /\ l_cycle _ _ L = l_cycle _ _ L' /\ l_state _ _ L = l_state _ _ L' /\ l_points _ _ L = l_points _ _ L'.

Hypothesis Hp : no_history C.

Lemma output_sim s s' f t n b b' ev s1 b1 :
  (s = s' \/ (prepare_state _ _ E s' t = prepare_state _ _ E s t /\ exists m t' x, In (Checkpoint St B m t' x) ev)) ->
  output St B E C s f t n b = Some (ev, s1, b1) ->
  exists b1', output St B E C s' f t n b' = Some (ev, s1, b1').
Proof.
  intros Hs. unfold output. intros H.
  apply obind_some in H. destruct H as (df & -> & H). apply obind_some in H. destruct H as (dl & -> & H).
  apply obind_some in H. destruct H as (dc & -> & H). cbn [obind].
  destruct (negb (df && enable_output_full C || dl && enable_output_levelsets C || dc && enable_checkpointing C)).
  - injection H as <- <- <-. destruct Hs as [->|[_ (? & ? & ? & [])]]. eauto.
  - assert (Ep : prepare_state St B E s' t = prepare_state St B E s t) by (destruct Hs as [->|[Ep _]]; [reflexivity|exact Ep]).
    rewrite Ep. destruct Hp as (_ & _ & [Hr|[H1 H2]]).
    + rewrite Hr in *. destruct (df && enable_output_full C || dl && enable_output_levelsets C); injection H as <- <- <-; eauto.
    + rewrite H1, H2, !andb_false_r in *. cbn [orb] in *. injection H as <- <- <-. eauto.
Qed.

Lemma iteration_sim L L' ev L1 stop :
  (sim L L' \/
   (l_t _ _ L = l_t _ _ L' /\ l_cycle _ _ L = l_cycle _ _ L' /\ l_points _ _ L = l_points _ _ L' /\
    prepare_state _ _ E (l_state _ _ L') (l_t _ _ L) = prepare_state _ _ E (l_state _ _ L) (l_t _ _ L) /\
    exists m t' x, In (Checkpoint St B m t' x) ev)) ->
  iteration St B E C L = Some (ev, L1, stop) ->
  exists L1', iteration St B E C L' = Some (ev, L1', stop) /\ sim L1 L1'.
Proof.
  intros HS. unfold iteration. pose proof Hp as (He & Hq & _). rewrite Hq. intros H.
  assert (Et : l_t _ _ L' = l_t _ _ L) by (destruct HS as [HS|HS]; symmetry; apply HS).
  assert (Ec : l_cycle _ _ L' = l_cycle _ _ L) by (destruct HS as [HS|HS]; symmetry; apply HS).
  assert (Epts : l_points _ _ L' = l_points _ _ L) by (destruct HS as [HS|HS]; symmetry; apply HS).
  rewrite Et, Ec.
  apply obind_some in H. destruct H as ((ev1 & L2) & H1 & H).
  assert (T : exists L2', (if Rge_dec (l_t _ _ L) (INR (l_cycle _ _ L) * granularity C) then tick St B E C L' else Some ([], L')) = Some (ev1, L2') /\
     sim L2 L2').
  { destruct (Rge_dec (l_t _ _ L) (INR (l_cycle _ _ L) * granularity C)).
    - unfold tick in *. rewrite He, Hq, Et, Ec in *. apply obind_some in H1. destruct H1 as (((e1 & s1) & b1) & H1 & H2).
      cbn [obind] in H2. injection H2 as <- <-.
      assert (HO : exists b1', output St B E C (l_state _ _ L') Solution (l_t _ _ L) (l_cycle _ _ L) (l_bounds _ _ L') = Some (e1, s1, b1')).
      { eapply output_sim; [|exact H1]. destruct HS as [HS|(_ & _ & _ & HP & m & t' & x & Hin)].
        - left. apply HS.
        - right. split; [exact HP|]. exists m, t', x.
          assert (Hin1 : In (Checkpoint St B m t' x) ((e1 ++ [] ++ []) : list (event St B))).
          { clear - H Hin. cbn [l_t] in H. destruct (Rge_dec _ _).
            - injection H as <- _ _. destruct Hin as [Hin|Hin]; [discriminate|exact Hin].
            - destruct (adaptation St B E C _) as [ev2 L3] eqn:EA. destruct (integrate _ _ _ _ _ _) as [s tau].
              injection H as <- _ _. destruct Hin as [Hin|Hin]; [discriminate|]. apply in_app_or in Hin.
              destruct Hin as [Hin|Hin]; [exact Hin|]. exfalso. apply in_app_or in Hin. destruct Hin as [Hin|[Hin|[]]]; [|discriminate].
              unfold adaptation in EA. destruct (enable_mesh_adaptivity C); [|injection EA as <- _; destruct Hin].
              destruct (adaptor_analyze _ _) as [ps []]; injection EA as <- _; [destruct Hin as [Hin|[]]; discriminate|destruct Hin]. }
          rewrite app_nil_r in Hin1. exact Hin1. }
      destruct HO as [b1' ->]. cbn [obind]. eexists. split; [reflexivity|]. repeat split. cbn [l_points]. symmetry. exact Epts.
    - injection H1 as <- <-. exists L'. split; [reflexivity|]. destruct HS as [HS|(A1 & A2 & A3 & A4 & m & t' & x & Hin)]; [exact HS|].
      exfalso. clear - H Hin. destruct (Rge_dec _ _).
      + injection H as <- _ _. destruct Hin as [Hin|[]]; discriminate.
      + destruct (adaptation St B E C _) as [ev2 L3] eqn:EA. destruct (integrate _ _ _ _ _ _) as [s tau].
        injection H as <- _ _. destruct Hin as [Hin|Hin]; [discriminate|]. cbn [app] in Hin. apply in_app_or in Hin. destruct Hin as [Hin|[Hin|[]]]; [|discriminate].
        unfold adaptation in EA. destruct (enable_mesh_adaptivity C); [|injection EA as <- _; destruct Hin].
        destruct (adaptor_analyze _ _) as [ps []]; injection EA as <- _; [destruct Hin as [Hin|[]]; discriminate|destruct Hin]. }
  destruct T as (L2' & -> & S2). cbn [obind]. destruct S2 as (T2 & C2 & St2 & P2). rewrite <- T2.
  destruct (Rge_dec (l_t St B L2) (relax C * t_final C)).
  - injection H as <- <- <-. eexists. split; [reflexivity|]. repeat split; assumption.
  - unfold adaptation in *. destruct (enable_mesh_adaptivity C).
    + rewrite <- T2, <- P2. destruct (adaptor_analyze (l_t St B L2) (l_points St B L2)) as [ps need]. destruct need.
      * cbn [l_state l_t l_cycle l_points] in *. rewrite <- ?T2, <- ?St2. destruct (integrate _ _ _ _ _ _) as [s tau].
        injection H as <- <- <-. eexists. split; [reflexivity|]. cbn. rewrite <- C2. repeat split; reflexivity.
      * cbn [l_state l_t l_cycle l_points] in *. rewrite <- ?T2, <- ?St2. destruct (integrate _ _ _ _ _ _) as [s tau].
        injection H as <- <- <-. eexists. split; [reflexivity|]. cbn. rewrite <- C2. repeat split; reflexivity.
    + rewrite <- St2, <- T2. destruct (integrate _ _ _ _ _ _) as [s tau]. injection H as <- <- <-.
      eexists. split; [reflexivity|]. cbn. repeat split; assumption.
Qed.

Lemma loop_sim fuel : forall L L' ev L1 r, sim L L' -> main_loop St B E C fuel L = Some (ev, L1, r) ->
  exists L1', main_loop St B E C fuel L' = Some (ev, L1', r) /\ sim L1 L1'.
Proof.
  induction fuel as [|fuel IH]; intros L L' ev L1 r HS H.
  - injection H as <- <- <-. exists L'. split; [reflexivity|exact HS].
  - apply main_loop_inv in H. destruct H as (ev1 & L2 & stop & H1 & H).
    destruct (iteration_sim _ _ _ _ _ (or_introl HS) H1) as (L2' & H1' & S2).
    destruct H as [(-> & -> & -> & ->)|(-> & ev2 & H2 & ->)].
    + exists L2'. split; [|exact S2]. cbn [main_loop]. rewrite H1'. reflexivity.
    + destruct (IH _ _ _ _ _ S2 H2) as (L3 & H3 & S3). exists L3. split; [|exact S3].
      cbn [main_loop]. rewrite H1'. cbn [obind]. rewrite H3. reflexivity.
Qed.

Lemma checkpoint_content L ev L1 stop m t' x : iteration St B E C L = Some (ev, L1, stop) -> In (Checkpoint St B m t' x) ev ->
  m = l_cycle _ _ L /\ t' = l_t _ _ L /\ x = prepare_state _ _ E (l_state _ _ L) (l_t _ _ L).
Proof.
  intros H Hin. pose proof Hp as (He & Hq & _). unfold iteration in H. rewrite Hq in H.
  apply obind_some in H. destruct H as ((ev1 & L2) & H1 & H).
  assert (Hin1 : In (Checkpoint St B m t' x) ev1).
  { destruct (Rge_dec (l_t _ _ L2) _).
    - injection H as <- _ _. destruct Hin as [Hin|Hin]; [discriminate|exact Hin].
    - destruct (adaptation St B E C _) as [ev2 L3] eqn:EA. destruct (integrate _ _ _ _ _ _) as [s tau].
      injection H as <- _ _. destruct Hin as [Hin|Hin]; [discriminate|]. apply in_app_or in Hin.
      destruct Hin as [Hin|Hin]; [exact Hin|]. exfalso. apply in_app_or in Hin. destruct Hin as [Hin|[Hin|[]]]; [|discriminate].
      unfold adaptation in EA. destruct (enable_mesh_adaptivity C); [|injection EA as <- _; destruct Hin].
      destruct (adaptor_analyze _ _) as [ps []]; injection EA as <- _; [destruct Hin as [Hin|[]]; discriminate|destruct Hin]. }
  destruct (Rge_dec _ _); [|injection H1 as <- <-; destruct Hin1].
  unfold tick in H1. rewrite He, Hq in H1. apply obind_some in H1. destruct H1 as (((e1 & s1) & b1) & H1 & H2).
  cbn [obind] in H2. injection H2 as <- <-. rewrite app_nil_r in Hin1.
  unfold output in H1. apply obind_some in H1. destruct H1 as (df & _ & H1). apply obind_some in H1. destruct H1 as (dl & _ & H1).
  apply obind_some in H1. destruct H1 as (dc & _ & H1).
  destruct (df && enable_output_full C), (dl && enable_output_levelsets C), (dc && enable_checkpointing C); cbn in H1;
    injection H1 as <- _ _; cbn in Hin1; repeat (destruct Hin1 as [Hin1|Hin1]; [try discriminate; injection Hin1 as <- <- <-; auto|]); try contradiction.
Qed.

(** Points that lie behind the current level are still listed. *)
Lemma prefix_points k : forall L evs L', main_loop St B E C k L = Some (evs, L', false) ->
  (forall t tau, In (t, tau) (steps evs) -> 0 <= tau) ->
  l_t _ _ L <= l_t _ _ L' /\
  ((forall p, In p (l_points _ _ L) -> l_t _ _ L' < p) -> l_points _ _ L' = l_points _ _ L) .
Proof.
  induction k as [|k IH]; intros L evs L' H Hs.
  - injection H as <- <-. split; [lra|reflexivity].
  - apply main_loop_inv in H. destruct H as (ev1 & L1 & stop & H1 & H).
    pose proof (iteration_spec _ _ _ _ _ _ H1) as (_ & _ & _ & T). cbn zeta in T.
    destruct H as [(_ & _ & _ & H)|(-> & ev2 & H2 & ->)]; [discriminate|].
    destruct T as (T1 & (s & T3 & T2) & T4 & T5). rewrite steps_app, T3 in Hs.
    assert (H0 : 0 <= snd (integrate _ _ E s (l_t _ _ L) (if enforce_t_final C then t_final C else big C))) by (apply (Hs (l_t _ _ L)); left; reflexivity).
    destruct (IH _ _ _ H2) as [I1 I2]; [intros t tau Hin; apply (Hs t); right; exact Hin|].
    split; [lra|]. intros Hpts.
    assert (EL : l_points _ _ L1 = l_points _ _ L).
    { destruct (enable_mesh_adaptivity C) eqn:Em.
      - destruct (T5 eq_refl) as [_ ->]. assert (Hpts' : forall p, In p (l_points _ _ L) -> l_t _ _ L < p) by (intros p Hin; specialize (Hpts p Hin); lra).
        clear -Hpts'. induction (l_points St B L) as [|p l IHl]; [reflexivity|]. cbn [filter].
        destruct (Rlt_dec (l_t St B L) p) as [|Hn]; [|exfalso; apply Hn, Hpts'; left; reflexivity].
        f_equal. apply IHl. intros q Hq. apply Hpts'. right. exact Hq.
      - clear -H1 Em Hp. unfold iteration in H1. pose proof Hp as (He & Hq & _). rewrite Hq in H1. apply obind_some in H1. destruct H1 as ((e1 & L2) & A & H1).
        destruct (Rge_dec (l_t St B L2) (relax C * t_final C)); [discriminate|]. unfold adaptation in H1. rewrite Em in H1. destruct (integrate _ _ _ _ _ _). injection H1 as <- <-.
        cbn [l_points]. destruct (Rge_dec _ _); [apply tick_spec in A; apply A|injection A as _ <-; reflexivity]. }
    rewrite <- EL. apply I2. rewrite EL. exact Hpts.
Qed.

Lemma C48_resume_proof k s0 evs1 Lk ev L1 stop fuel evs2 Lend r n t s :
  main_loop St B E C k (start St B C s0) = Some (evs1, Lk, false) ->
  iteration St B E C Lk = Some (ev, L1, stop) -> In (Checkpoint St B n t s) ev ->
  main_loop St B E C fuel Lk = Some (evs2, Lend, r) ->
  (forall x u, prepare_state _ _ E (reload _ _ E (prepare_state _ _ E x u)) u = prepare_state _ _ E x u) ->
  (forall t tau, In (t, tau) (steps evs1) -> 0 <= tau) ->
  (enable_mesh_adaptivity C = true -> forall p, In p (adaptation_points C) -> t < p) ->
  exists Lend', main_loop St B E C fuel (resume St B E C s t n false) = Some (evs2, Lend', r) /\
    (fuel <> 0%nat -> l_t _ _ Lend' = l_t _ _ Lend /\ l_cycle _ _ Lend' = l_cycle _ _ Lend /\ l_state _ _ Lend' = l_state _ _ Lend).
Proof.
  intros H0 H1 Hin H2 Hi Hs Hpts.
  destruct (checkpoint_content _ _ _ _ _ _ _ H1 Hin) as (-> & -> & ->).
  destruct (enable_mesh_adaptivity C) eqn:Em.
  - assert (Epts : l_points _ _ Lk = adaptor_prepare 0 (adaptation_points C)).
    { destruct (prefix_points _ _ _ _ H0 Hs) as [_ A]. cbn [l_points start] in A. apply A. intros p Hq.
      unfold adaptor_prepare in Hq. apply filter_In in Hq. apply (Hpts eq_refl), Hq. }
    destruct fuel as [|fuel]; [injection H2 as <- <- <-; eexists; split; [reflexivity|congruence]|].
    destruct (iteration_sim Lk (resume St B E C (prepare_state St B E (l_state St B Lk) (l_t St B Lk)) (l_t St B Lk) (l_cycle St B Lk) false) ev L1 stop)
      as (L1' & H1' & S1); [|exact H1|].
    { right. cbn [resume l_t l_cycle l_points l_state]. repeat split; auto. eauto. }
    apply main_loop_inv in H2. destruct H2 as (ev' & L1'' & stop' & H1'' & H2). rewrite H1 in H1''. injection H1'' as <- <- <-.
    destruct H2 as [(-> & -> & -> & ->)|(-> & ev2 & H2 & ->)].
    + exists L1'. cbn [main_loop]. rewrite H1'. split; [reflexivity|]. intros _. destruct S1 as (A1 & A2 & A3 & _). auto.
    + destruct (loop_sim _ _ _ _ _ _ S1 H2) as (L2' & H2' & S2). exists L2'. cbn [main_loop]. rewrite H1'. cbn [obind]. rewrite H2'.
      split; [reflexivity|]. intros _. destruct S2 as (A1 & A2 & A3 & _). auto.
  - (* the time points are not used *)
    destruct fuel as [|fuel]; [injection H2 as <- <- <-; eexists; split; [reflexivity|congruence]|].
    set (Lr := resume St B E C (prepare_state St B E (l_state St B Lk) (l_t St B Lk)) (l_t St B Lk) (l_cycle St B Lk) false).
    set (Lr2 := {| l_t := l_t _ _ Lr; l_cycle := l_cycle _ _ Lr; l_state := l_state _ _ Lr; l_points := l_points _ _ Lk; l_bounds := l_bounds _ _ Lr; l_q := l_q _ _ Lr |}).
    destruct (iteration_sim Lk Lr2 ev L1 stop) as (L1' & H1' & S1); [|exact H1|].
    { right. cbn [Lr2 Lr resume l_t l_cycle l_points l_state]. repeat split; auto. eauto. }
    assert (IT : forall La Lb e Lc st, l_t _ _ La = l_t _ _ Lb -> l_cycle _ _ La = l_cycle _ _ Lb -> l_state _ _ La = l_state _ _ Lb ->
       l_bounds _ _ La = l_bounds _ _ Lb -> l_q _ _ La = l_q _ _ Lb ->
       iteration St B E C La = Some (e, Lc, st) -> exists Ld, iteration St B E C Lb = Some (e, Ld, st) /\
       l_t _ _ Lc = l_t _ _ Ld /\ l_cycle _ _ Lc = l_cycle _ _ Ld /\ l_state _ _ Lc = l_state _ _ Ld /\
       l_bounds _ _ Lc = l_bounds _ _ Ld /\ l_q _ _ Lc = l_q _ _ Ld).
    { clear -Hp Em. intros La Lb e Lc st A1 A2 A3 A4 A5 H. unfold iteration in *. pose proof Hp as (He & Hq & _). rewrite Hq in *.
      rewrite A1, A2 in H. apply obind_some in H. destruct H as ((e1 & L2) & H1 & H).
      assert (T : exists L2', (if Rge_dec (l_t _ _ Lb) (INR (l_cycle _ _ Lb) * granularity C) then tick St B E C Lb else Some ([], Lb)) = Some (e1, L2') /\
        l_t _ _ L2 = l_t _ _ L2' /\ l_cycle _ _ L2 = l_cycle _ _ L2' /\ l_state _ _ L2 = l_state _ _ L2' /\ l_bounds _ _ L2 = l_bounds _ _ L2' /\ l_q _ _ L2 = l_q _ _ L2').
      { destruct (Rge_dec _ _).
        - unfold tick in *. rewrite A1, A2, A3, A4, A5 in H1. rewrite He, Hq in *. apply obind_some in H1. destruct H1 as (((e2 & s1) & b1) & H1 & H2).
          rewrite H1. cbn [obind] in *. injection H2 as <- <-. eexists. split; [reflexivity|]. repeat split.
        - injection H1 as <- <-. exists Lb. repeat split; assumption. }
      destruct T as (L2' & -> & B1 & B2 & B3 & B4 & B5). cbn [obind]. unfold adaptation in *. rewrite Em in *. rewrite B1 in H.
      destruct (Rge_dec (l_t St B L2') (relax C * t_final C)).
      - injection H as <- <- <-. eexists. split; [reflexivity|]. repeat split; assumption.
      - rewrite B3 in H. destruct (integrate _ _ _ _ _ _) as [s tau]. injection H as <- <- <-. eexists. split; [reflexivity|]. cbn. repeat split; assumption. }
    assert (LT : forall fuel La Lb e Lc st, l_t _ _ La = l_t _ _ Lb -> l_cycle _ _ La = l_cycle _ _ Lb -> l_state _ _ La = l_state _ _ Lb ->
       l_bounds _ _ La = l_bounds _ _ Lb -> l_q _ _ La = l_q _ _ Lb ->
       main_loop St B E C fuel La = Some (e, Lc, st) -> exists Ld, main_loop St B E C fuel Lb = Some (e, Ld, st) /\
       l_t _ _ Lc = l_t _ _ Ld /\ l_cycle _ _ Lc = l_cycle _ _ Ld /\ l_state _ _ Lc = l_state _ _ Ld).
    { clear -IT. induction fuel as [|fuel IH]; intros La Lb e Lc st A1 A2 A3 A4 A5 H.
      - injection H as <- <- <-. exists Lb. repeat split; assumption.
      - apply main_loop_inv in H. destruct H as (e1 & L2 & stop & H1 & H).
        destruct (IT _ _ _ _ _ A1 A2 A3 A4 A5 H1) as (L2' & H1' & B1 & B2 & B3 & B4 & B5).
        cbn [main_loop]. rewrite H1'. cbn [obind]. destruct H as [(-> & -> & -> & ->)|(-> & e2 & H2 & ->)].
        + exists L2'. repeat split; assumption.
        + destruct (IH _ _ _ _ _ B1 B2 B3 B4 B5 H2) as (L3' & -> & D). exists L3'. split; [reflexivity|exact D]. }
    assert (HR : exists L2', main_loop St B E C (S fuel) Lr2 = Some (evs2, L2', r) /\ l_t _ _ L2' = l_t _ _ Lend /\ l_cycle _ _ L2' = l_cycle _ _ Lend /\ l_state _ _ L2' = l_state _ _ Lend).
    { apply main_loop_inv in H2. destruct H2 as (ev' & L1'' & stop' & H1'' & H2). rewrite H1 in H1''. injection H1'' as <- <- <-.
      destruct H2 as [(-> & -> & -> & ->)|(-> & ev2 & H2 & ->)].
      + exists L1'. cbn [main_loop]. rewrite H1'. destruct S1 as (A1 & A2 & A3 & _). auto.
      + destruct (loop_sim _ _ _ _ _ _ S1 H2) as (L2' & H2' & S2). exists L2'. cbn [main_loop]. rewrite H1'. cbn [obind]. rewrite H2'.
        destruct S2 as (A1 & A2 & A3 & _). auto. }
    destruct HR as (L2' & HR & A1 & A2 & A3).
    destruct (LT _ Lr2 Lr _ _ _ eq_refl eq_refl eq_refl eq_refl eq_refl HR) as (Ld & HD & D1 & D2 & D3).
    exists Ld. split; [exact HD|]. intros _. split; [congruence|]. split; congruence.
Qed.

Lemma output_state s f t n b ev s' b' : output St B E C s f t n b = Some (ev, s', b') -> s' = s \/ s' = prepare_state _ _ E s t.
Proof using Type.
  unfold output. intros H. apply obind_some in H. destruct H as (df & _ & H). apply obind_some in H. destruct H as (dl & _ & H).
  apply obind_some in H. destruct H as (dc & _ & H). destruct (negb _); [injection H as _ <- _; auto|].
  destruct (if _ || _ then _ else _) as [e b1]. injection H as _ <- _. auto.
Qed.

Lemma tick_state L ev L' : tick St B E C L = Some (ev, L') ->
  l_state _ _ L' = l_state _ _ L \/ l_state _ _ L' = prepare_state _ _ E (l_state _ _ L) (l_t _ _ L).
Proof using Type.
  unfold tick. intros H. apply obind_some in H. destruct H as (((ev1 & s1) & b1) & H1 & H).
  apply obind_some in H. destruct H as ((ev2 & b2) & _ & H). apply obind_some in H. destruct H as ((ev3 & q) & _ & H).
  injection H as _ <-. cbn. exact (output_state _ _ _ _ _ _ _ _ H1).
Qed.

Lemma C50_adapted_proof L ev L' :
  iteration St B E C L = Some (ev, L', false) ->
  let t := l_t _ _ L in
  exists s, (s = l_state _ _ L \/ s = prepare_state _ _ E (l_state _ _ L) t) /\
    l_state _ _ L' = fst (integrate _ _ E (if adaptations ev then s else adapt _ _ E (prepare_state _ _ E s t)) t (end_point C)).
Proof using Type.
  intros H t. unfold iteration in H. set (L1 := if enable_compute_quantities C then _ else L) in H.
  assert (E1 : l_t _ _ L1 = t /\ l_state _ _ L1 = l_state _ _ L) by (unfold L1; destruct (enable_compute_quantities C); split; reflexivity).
  clearbody L1. destruct E1 as [T1 S1]. apply obind_some in H. destruct H as ((ev1 & L2) & H1 & H).
  assert (X : l_t _ _ L2 = t /\ adaptations ev1 = [] /\ (l_state _ _ L2 = l_state _ _ L \/ l_state _ _ L2 = prepare_state _ _ E (l_state _ _ L) t)).
  { destruct (Rge_dec (l_t St B L1) _).
    - pose proof (tick_state _ _ _ H1) as S2. apply tick_spec in H1. destruct H1 as ((_ & _ & Q) & T2 & _). rewrite T1, S1 in S2.
      split; [congruence|]. split; [exact Q|exact S2].
    - injection H1 as <- <-. split; [exact T1|]. split; [reflexivity|left; exact S1]. }
  destruct X as (T2 & Q & S2). rewrite T2 in H. destruct (Rge_dec t (relax C * t_final C)); [discriminate|].
  exists (l_state _ _ L2). split; [exact S2|].
  destruct (adaptation St B E C L2) as [ev2 L3] eqn:EA.
  destruct (integrate St B E (l_state St B L3) (l_t St B L3) _) as [s tau] eqn:EI. injection H as <- <-.
  cbn [l_state adaptations]. rewrite adaptations_app, adaptations_app, Q. cbn [app adaptations]. rewrite app_nil_r.
  unfold adaptation in EA. destruct (enable_mesh_adaptivity C).
  - unfold adaptor_analyze in EA. destruct (existsb _ _); injection EA as <- <-; cbn [l_state l_t adaptations] in *;
      rewrite T2 in EI; unfold end_point; rewrite EI; reflexivity.
  - injection EA as <- <-. cbn [adaptations]. rewrite T2 in EI. unfold end_point. rewrite EI. reflexivity.
Qed.

Lemma C48_time_zero_proof s t n fuel :
  main_loop St B E C fuel (resume St B E C s t n true) = main_loop St B E C fuel (start St B C (reload _ _ E s)).
Proof using Type. reflexivity. Qed.
End More.
