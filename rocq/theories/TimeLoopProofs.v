(** * Proofs for the time loop *)
From Coq Require Import Reals List Bool Arith Lia Lra Psatz Sorted.
From Verif Require Import Quantities TimeLoop TimeLoopSpec.
Import ListNotations.
Local Open Scope R_scope.

(** The ticks handled at a list of time levels, starting with number [n]. *)
Fixpoint ticks (g : R) (n : nat) (l : list R) : list (nat * R) :=
  match l with
  | [] => []
  | t :: l' => if Rge_dec t (INR n * g) then (n, t) :: ticks g (S n) l' else ticks g n l'
  end.

Section Proofs.
Context {St B : Type}.
Variable E : environment St B.
Variable C : config.

Lemma levels_app (a b : list (event St B)) : levels (a ++ b) = levels a ++ levels b.
Proof. induction a as [|[] a IH]; cbn; congruence. Qed.
Lemma steps_app (a b : list (event St B)) : steps (a ++ b) = steps a ++ steps b.
Proof. induction a as [|[] a IH]; cbn; congruence. Qed.
Lemma adaptations_app (a b : list (event St B)) : adaptations (a ++ b) = adaptations a ++ adaptations b.
Proof. induction a as [|[] a IH]; cbn; congruence. Qed.
Lemma records_app k (a b : list (event St B)) : records k (a ++ b) = records k a ++ records k b.
Proof.
  induction a as [|e a IH]; [reflexivity|]. destruct e as [ |[] | | | | ]; cbn; try assumption.
  - destruct k, b0, b1; cbn; congruence.
  - destruct k; cbn; congruence.
Qed.

Lemma divides_some m n d : divides m n = Some d -> (0 < m)%nat /\ d = Nat.eqb (n mod m) 0.
Proof. destruct m; cbn [divides]; [discriminate|]. intros [= <-]. split; [lia|reflexivity]. Qed.

Lemma obind_some {A A'} (o : option A) (f : A -> option A') b : obind o f = Some b -> exists a, o = Some a /\ f a = Some b.
Proof. destruct o; cbn; [eauto|discriminate]. Qed.

Definition quiet (ev : list (event St B)) : Prop := levels ev = [] /\ steps ev = [] /\ adaptations ev = [].

Lemma quiet_app a b : quiet a -> quiet b -> quiet (a ++ b).
Proof. intros (A1 & A2 & A3) (B1 & B2 & B3). unfold quiet. rewrite levels_app, steps_app, adaptations_app. rewrite A1, A2, A3, B1, B2, B3. auto. Qed.

Lemma quiet_nil : quiet [].
Proof. repeat split. Qed.

Lemma output_spec s f t n b ev s' b' : output St B E C s f t n b = Some (ev, s', b') ->
  quiet ev /\ valid_multipliers {| t_final := t_final C; enforce_t_final := enforce_t_final C; granularity := granularity C;
     enable_checkpointing := enable_checkpointing C; enable_output_full := enable_output_full C;
     enable_output_levelsets := enable_output_levelsets C; enable_compute_error := enable_compute_error C;
     enable_compute_quantities := enable_compute_quantities C; enable_mesh_adaptivity := enable_mesh_adaptivity C;
     checkpoint_multiplier := checkpoint_multiplier C; output_full_multiplier := output_full_multiplier C;
     output_levelsets_multiplier := output_levelsets_multiplier C; quantities_multiplier := 1;
     adaptation_points := adaptation_points C; recompute_bounds := recompute_bounds C; clear_on_writeout := clear_on_writeout C;
     manifolds := manifolds C; eps := eps C; big := big C |} /\
  forall k, (f = Solution -> records k ev = if Nat.eqb (n mod multiplier C k) 0 && enabled C k then [(n, t)] else []) /\
            (f = Analytic -> k <> Check -> records k ev = []).
Proof.
  unfold output. intros H.
  apply obind_some in H. destruct H as (df & Hf & H). apply divides_some in Hf. destruct Hf as [Mf Hf].
  apply obind_some in H. destruct H as (dl & Hl & H). apply divides_some in Hl. destruct Hl as [Ml Hl].
  apply obind_some in H. destruct H as (dc & Hc & H). apply divides_some in Hc. destruct Hc as [Mc Hc].
  split; [|split].
  - destruct (df && enable_output_full C), (dl && enable_output_levelsets C), (dc && enable_checkpointing C); cbn in H;
      injection H as <- _ _; repeat split.
  - unfold valid_multipliers. cbn. repeat split; auto with arith.
  - intros k. split; intros ->.
    + assert (Ek : Nat.eqb (n mod multiplier C k) 0 && enabled C k =
                   match k with Full => df && enable_output_full C | Levelsets => dl && enable_output_levelsets C | Check => dc && enable_checkpointing C end).
      { destruct k; cbn [multiplier enabled]; subst; reflexivity. }
      rewrite Ek. clear Ek Hf Hl Hc.
      destruct (df && enable_output_full C), (dl && enable_output_levelsets C), (dc && enable_checkpointing C); cbn in H;
        injection H as <- _ _; destruct k; reflexivity.
    + intros Hk. destruct (df && enable_output_full C), (dl && enable_output_levelsets C), (dc && enable_checkpointing C); cbn in H;
        injection H as <- _ _; destruct k; try reflexivity; congruence.
Qed.

Lemma tick_spec L ev L' : tick St B E C L = Some (ev, L') ->
  quiet ev /\ l_t _ _ L' = l_t _ _ L /\ l_cycle _ _ L' = S (l_cycle _ _ L) /\ l_points _ _ L' = l_points _ _ L /\
  forall k, (k = Check -> enable_compute_error C = false) ->
    records k ev = if Nat.eqb (l_cycle _ _ L mod multiplier C k) 0 && enabled C k then [(l_cycle _ _ L, l_t _ _ L)] else [].
Proof.
  unfold tick. intros H.
  apply obind_some in H. destruct H as (((ev1 & s1) & b1) & H1 & H). apply output_spec in H1. destruct H1 as (Q1 & _ & R1).
  apply obind_some in H. destruct H as ((ev2 & b2) & H2 & H).
  apply obind_some in H. destruct H as ((ev3 & q) & H3 & H). injection H as <- <-.
  assert (Q2 : quiet ev2 /\ forall k, (k = Check -> enable_compute_error C = false) -> records k ev2 = []).
  { destruct (enable_compute_error C).
    - apply obind_some in H2. destruct H2 as (((e & s2) & b3) & H2 & H4). injection H4 as <- <-.
      apply output_spec in H2. destruct H2 as (Q2 & _ & R2). split; [exact Q2|]. intros k Hk.
      apply (R2 k); [reflexivity|]. intros ->. specialize (Hk eq_refl). discriminate.
    - injection H2 as <- <-. split; [apply quiet_nil|reflexivity]. }
  assert (Q3 : quiet ev3 /\ forall k, records k ev3 = []).
  { destruct (enable_compute_quantities C).
    - apply obind_some in H3. destruct H3 as (d & _ & H3). destruct d.
      + apply obind_some in H3. destruct H3 as ((fs & q') & _ & H3). injection H3 as <- <-. split; [repeat split|reflexivity].
      + injection H3 as <- <-. split; [apply quiet_nil|reflexivity].
    - injection H3 as <- <-. split; [apply quiet_nil|reflexivity]. }
  split; [apply quiet_app; [exact Q1|apply quiet_app; [apply Q2|apply Q3]]|].
  repeat split. intros k Hk. rewrite !records_app. rewrite (proj2 Q3). rewrite (proj2 Q2 k Hk).
  rewrite !app_nil_r. apply (proj1 (R1 k)). reflexivity.
Qed.

Lemma adaptation_spec L ev L' : adaptation St B E C L = (ev, L') ->
  levels ev = [] /\ steps ev = [] /\ (forall k, records k ev = []) /\ l_t _ _ L' = l_t _ _ L /\ l_cycle _ _ L' = l_cycle _ _ L /\
  (enable_mesh_adaptivity C = false -> adaptations ev = [] /\ L' = L) /\
  (enable_mesh_adaptivity C = true ->
     adaptations ev = (if existsb (fun p => negb (if Rlt_dec (l_t _ _ L) p then true else false)) (l_points _ _ L) then [l_t _ _ L] else []) /\
     l_points _ _ L' = filter (fun p => if Rlt_dec (l_t _ _ L) p then true else false) (l_points _ _ L)).
Proof.
  unfold adaptation. destruct (enable_mesh_adaptivity C).
  - unfold adaptor_analyze. destruct (existsb _ _) eqn:Ex; intros [= <- <-]; repeat split; try discriminate; try reflexivity.
    cbn [l_points]. unfold adaptor_prepare. induction (l_points St B L) as [|p l IH] in |- *; [reflexivity|].
    cbn [filter]. destruct (Rlt_dec (l_t St B L) p) as [Hlt|Hlt]; [|exact IH].
    cbn [filter]. destruct (Rgt_dec (l_t St B L) p); [lra|]. cbn. f_equal. exact IH.
  - intros [= <- <-]. repeat split; try discriminate.
Qed.

Lemma iteration_spec L ev L' stop : iteration St B E C L = Some (ev, L', stop) ->
  let t := l_t _ _ L in let n := l_cycle _ _ L in
  levels ev = [t] /\
  l_cycle _ _ L' = (if Rge_dec t (INR n * granularity C) then S n else n) /\
  (forall k, (k = Check -> enable_compute_error C = false) ->
     records k ev = if Rge_dec t (INR n * granularity C)
                    then if Nat.eqb (n mod multiplier C k) 0 && enabled C k then [(n, t)] else [] else []) /\
  (if stop then steps ev = [] /\ adaptations ev = [] /\ l_t _ _ L' = t /\ relax C * t_final C <= t
   else t < relax C * t_final C /\ (exists s, steps ev = [(t, snd (integrate _ _ E s t (if enforce_t_final C then t_final C else big C)))] /\
        l_t _ _ L' = t + snd (integrate _ _ E s t (if enforce_t_final C then t_final C else big C))) /\
        (enable_mesh_adaptivity C = false -> adaptations ev = []) /\
        (enable_mesh_adaptivity C = true ->
         adaptations ev = (if existsb (fun p => negb (if Rlt_dec t p then true else false)) (l_points _ _ L) then [t] else []) /\
         l_points _ _ L' = filter (fun p => if Rlt_dec t p then true else false) (l_points _ _ L))).
Proof.
  intros H t n. unfold iteration in H.
  set (L1 := if enable_compute_quantities C then _ else L) in H.
  assert (E1 : l_t _ _ L1 = t /\ l_cycle _ _ L1 = n /\ l_points _ _ L1 = l_points _ _ L)
    by (unfold L1; destruct (enable_compute_quantities C); repeat split).
  clearbody L1. destruct E1 as (T1 & N1 & P1).
  apply obind_some in H. destruct H as ((ev1 & L2) & H1 & H).
  assert (S1 : quiet ev1 /\ l_t _ _ L2 = t /\ l_points _ _ L2 = l_points _ _ L /\
     l_cycle _ _ L2 = (if Rge_dec t (INR n * granularity C) then S n else n) /\
     forall k, (k = Check -> enable_compute_error C = false) ->
       records k ev1 = if Rge_dec t (INR n * granularity C)
                    then if Nat.eqb (n mod multiplier C k) 0 && enabled C k then [(n, t)] else [] else []).
  { rewrite T1, N1 in H1. destruct (Rge_dec t (INR n * granularity C)).
    - apply tick_spec in H1. destruct H1 as (Q & T2 & N2 & P2 & R2).
      split; [exact Q|]. split; [congruence|]. split; [congruence|]. split; [congruence|].
      intros k Hk. rewrite (R2 k Hk), N1, T1. reflexivity.
    - injection H1 as <- <-. split; [apply quiet_nil|]. repeat split; auto. }
  destruct S1 as ((Q1 & Q2 & Q3) & T2 & P2 & N2 & R2). clear H1.
  rewrite T2 in H. destruct (Rge_dec t (relax C * t_final C)) as [Hge|Hge].
  - injection H as <- <- <-. cbn [levels records steps adaptations]. rewrite Q1.
    split; [reflexivity|]. split; [exact N2|]. split; [exact R2|]. repeat split; auto; lra.
  - destruct (adaptation St B E C L2) as [ev2 L3] eqn:EA. apply adaptation_spec in EA.
    destruct EA as (A1 & A2 & A3 & T3 & N3 & A4 & A5).
    rewrite T3, T2 in H.
    set (te := if enforce_t_final C then t_final C else big C) in *.
    destruct (integrate St B E (l_state St B L3) t te) as [s tau] eqn:EI.
    injection H as <- <- <-. cbn [levels records steps adaptations l_t l_cycle l_points].
    rewrite levels_app, steps_app, adaptations_app, levels_app, steps_app, adaptations_app. cbn [levels steps adaptations].
    rewrite Q1, Q2, Q3, A1, A2. rewrite ?app_nil_r, ?app_nil_l.
    split; [reflexivity|]. split; [congruence|]. split.
    { intros k Hk. rewrite !records_app. rewrite (R2 k Hk), A3. cbn. rewrite app_nil_r. reflexivity. }
    split; [lra|]. split; [exists (l_state St B L3); rewrite EI; cbn; split; reflexivity|].
    split; [intros HE; destruct (A4 HE) as [X _]; exact X|].
    intros HE. destruct (A5 HE) as [X Y]. rewrite X, Y, T2, P2. split; reflexivity.
Qed.

Definition te : R := if enforce_t_final C then t_final C else big C.

(** Inversion of the main loop. *)
Lemma main_loop_inv fuel L evs L' r : main_loop St B E C (S fuel) L = Some (evs, L', r) ->
  exists ev1 L1 stop, iteration St B E C L = Some (ev1, L1, stop) /\
    ((stop = true /\ evs = ev1 /\ L' = L1 /\ r = true) \/
     (stop = false /\ exists ev2, main_loop St B E C fuel L1 = Some (ev2, L', r) /\ evs = ev1 ++ ev2)).
Proof.
  cbn [main_loop]. intros H. apply obind_some in H. destruct H as (((ev1 & L1) & stop) & H1 & H).
  exists ev1, L1, stop. split; [exact H1|]. destruct stop.
  - injection H as <- <- <-. left. auto.
  - right. split; [reflexivity|]. apply obind_some in H. destruct H as (((ev2 & L2) & r') & H2 & H).
    injection H as <- <- <-. exists ev2. auto.
Qed.

(** Steps between consecutive time levels. *)
Fixpoint linked (t0 : R) (l : list R) (st : list (R * R)) : Prop :=
  match st with
  | [] => l = [] \/ l = [t0]
  | (t, tau) :: st' => t = t0 /\ exists l', l = t0 :: l' /\ linked (t0 + tau) l' st'
  end.

Lemma loop_levels fuel : forall L evs L' r, main_loop St B E C fuel L = Some (evs, L', r) ->
  linked (l_t _ _ L) (levels evs) (steps evs) /\
  (forall t tau, In (t, tau) (steps evs) -> t < relax C * t_final C /\ exists s, tau = snd (integrate _ _ E s t te)) /\
  (r = true -> relax C * t_final C <= l_t _ _ L' /\ exists l, levels evs = l ++ [l_t _ _ L']).
Proof.
  induction fuel as [|fuel IH]; intros L evs L' r H.
  - injection H as <- <- <-. cbn. split; [auto|]. split; [intros ? ? []|discriminate].
  - apply main_loop_inv in H. destruct H as (ev1 & L1 & stop & H1 & H).
    pose proof (iteration_spec _ _ _ _ H1) as (V & N & R0 & T). cbn zeta in *.
    destruct H as [(-> & -> & -> & ->)|(-> & ev2 & H2 & ->)].
    + destruct T as (S1 & _ & T1 & T2). rewrite V, S1. cbn. split; [auto|]. split; [intros ? ? []|].
      intros _. rewrite T1. split; [exact T2|]. exists []. reflexivity.
    + destruct T as (T1 & (s & S1 & T2) & _). specialize (IH _ _ _ _ H2). destruct IH as (I1 & I2 & I3).
      rewrite levels_app, steps_app, V, S1. cbn [app]. split.
      * cbn [linked]. split; [reflexivity|]. eexists. split; [reflexivity|]. rewrite <- T2. exact I1.
      * split.
        -- intros t tau [[= <- <-]|Hin]; [|apply I2, Hin]. split; [exact T1|]. exists s. reflexivity.
        -- intros Hr. destruct (I3 Hr) as (J1 & l & J2). split; [exact J1|]. exists (l_t St B L :: l). rewrite J2. reflexivity.
Qed.

Lemma loop_records fuel : forall L evs L' r k, main_loop St B E C fuel L = Some (evs, L', r) ->
  (k = Check -> enable_compute_error C = false) ->
  records k evs = filter (fun x => Nat.eqb (fst x mod multiplier C k) 0 && enabled C k) (ticks (granularity C) (l_cycle _ _ L) (levels evs)).
Proof.
  induction fuel as [|fuel IH]; intros L evs L' r k H Hk.
  - injection H as <- <- <-. reflexivity.
  - apply main_loop_inv in H. destruct H as (ev1 & L1 & stop & H1 & H).
    pose proof (iteration_spec _ _ _ _ H1) as (V & N & R0 & T). cbn zeta in *.
    destruct H as [(-> & -> & -> & ->)|(-> & ev2 & H2 & ->)].
    + rewrite V, (R0 k Hk). cbn [ticks]. destruct (Rge_dec _ _); [|reflexivity]. cbn [filter fst].
      destruct (Nat.eqb _ 0 && _); reflexivity.
    + rewrite levels_app, records_app, V, (R0 k Hk), (IH _ _ _ _ k H2 Hk), N. cbn [app ticks].
      destruct (Rge_dec _ _); [|reflexivity]. cbn [filter fst]. destruct (Nat.eqb _ 0 && _); reflexivity.
Qed.

(** ** Ticks *)

Lemma ticks_above g l : forall n m t, In (m, t) (ticks g n l) -> (n <= m)%nat /\ INR m * g <= t /\ In t l.
Proof.
  induction l as [|a l IH]; intros n m t H; [destruct H|]. cbn [ticks] in H.
  destruct (Rge_dec a (INR n * g)) as [Hg|Hg].
  - destruct H as [[= <- <-]|H]; [split; [lia|split; [lra|left; reflexivity]]|].
    apply IH in H. destruct H as (H1 & H2 & H3). split; [lia|]. split; [exact H2|right; exact H3].
  - apply IH in H. destruct H as (H1 & H2 & H3). split; [exact H1|]. split; [exact H2|right; exact H3].
Qed.

Lemma ticks_sorted g l : forall n, StronglySorted (fun a b => (fst a < fst b)%nat) (ticks g n l).
Proof.
  induction l as [|a l IH]; intros n; cbn [ticks]; [constructor|].
  destruct (Rge_dec a (INR n * g)); [|apply IH]. constructor; [apply IH|]. rewrite Forall_forall.
  intros [m t] H. apply ticks_above in H. cbn. lia.
Qed.

Lemma sorted_filter {A} (P : A -> A -> Prop) (f : A -> bool) l : StronglySorted P l -> StronglySorted P (filter f l).
Proof.
  induction 1 as [|a l H IH HF]; cbn [filter]; [constructor|]. destruct (f a); [|exact IH]. constructor; [exact IH|].
  rewrite Forall_forall in *. intros x Hx. apply filter_In in Hx. apply HF, Hx.
Qed.

(** With steps of at most the granularity a tick is handled at the first level
    that reaches it. *)
Lemma ticks_first g l : forall t0 st n, linked t0 l st -> (forall t tau, In (t, tau) st -> 0 <= tau <= g) -> 0 < g ->
  t0 < (INR n + 1) * g -> forall m x, (n <= m)%nat -> In x l -> INR m * g <= x ->
  exists t, In (m, t) (ticks g n l) /\ first_reaching l (INR m * g) t.
Proof.
  induction l as [|a l IH]; intros t0 st n HL Hst Hg Ht m x Hm Hx Hmx; [destruct Hx|].
  assert (Ea : a = t0) by (destruct st as [|[t tau] st]; cbn in HL; [destruct HL as [HL|HL]; congruence|destruct HL as (_ & l' & HL & _); congruence]).
  subst a.
  assert (Hl : l = [] \/ exists tau st', 0 <= tau <= g /\ linked (t0 + tau) l st' /\ (forall t tau, In (t, tau) st' -> 0 <= tau <= g)).
  { destruct st as [|[t tau] st]; cbn in HL.
    - left. destruct HL as [HL|HL]; congruence.
    - right. destruct HL as (-> & l' & [= <-] & HL). exists tau, st. split; [apply (Hst t0); left; reflexivity|]. split; [exact HL|].
      intros t tau' Hin. apply (Hst t). right. exact Hin. }
  destruct (Req_dec (INR m * g) (INR n * g)) as [Emn|Emn].
  - (* m = n *)
    assert (m = n) by (apply INR_eq; apply (Rmult_eq_reg_r g); lra). subst m. clear Emn.
    cbn [ticks]. destruct (Rge_dec t0 (INR n * g)) as [H0|H0].
    + exists t0. split; [left; reflexivity|]. exists [], l. split; [reflexivity|]. split; [lra|intros s []].
    + destruct Hx as [<-|Hx]; [lra|]. destruct Hl as [->|(tau & st' & Ht1 & Hl & Hs')]; [destruct Hx|].
      destruct (IH (t0 + tau) st' n Hl Hs' Hg ltac:(lra) n x (le_n _) Hx Hmx) as (t & T1 & l1 & l2 & T2 & T3 & T4).
      exists t. split; [exact T1|]. exists (t0 :: l1), l2. rewrite T2. split; [reflexivity|]. split; [exact T3|].
      intros s [<-|Hs]; [lra|apply T4, Hs].
  - (* m > n *)
    assert (Hlt : (n < m)%nat) by (destruct (Nat.eq_dec n m) as [->|]; [congruence|lia]).
    assert (HSm : (INR n + 1) * g <= INR m * g).
    { apply Rmult_le_compat_r; [lra|]. rewrite <- S_INR. apply le_INR. lia. }
    destruct Hx as [<-|Hx]; [lra|]. destruct Hl as [->|(tau & st' & Ht1 & Hl & Hs')]; [destruct Hx|].
    cbn [ticks]. destruct (Rge_dec t0 (INR n * g)) as [H0|H0].
    + destruct (IH (t0 + tau) st' (S n) Hl Hs' Hg ltac:(rewrite S_INR; lra) m x ltac:(lia) Hx Hmx) as (t & T1 & l1 & l2 & T2 & T3 & T4).
      exists t. split; [right; exact T1|]. exists (t0 :: l1), l2. rewrite T2. split; [reflexivity|]. split; [exact T3|].
      intros s [<-|Hs]; [lra|apply T4, Hs].
    + destruct (IH (t0 + tau) st' n Hl Hs' Hg ltac:(lra) m x ltac:(lia) Hx Hmx) as (t & T1 & l1 & l2 & T2 & T3 & T4).
      exists t. split; [exact T1|]. exists (t0 :: l1), l2. rewrite T2. split; [reflexivity|]. split; [exact T3|].
      intros s [<-|Hs]; [lra|apply T4, Hs].
Qed.

Lemma C47_once_proof fuel s0 evs L' r k :
  main_loop St B E C fuel (start St B C s0) = Some (evs, L', r) ->
  (k = Check -> enable_compute_error C = false) ->
  StronglySorted (fun a b => (fst a < fst b)%nat) (records k evs) /\
  forall n t, In (n, t) (records k evs) ->
    enabled C k = true /\ (n mod multiplier C k = 0)%nat /\ INR n * granularity C <= t /\ In t (levels evs).
Proof.
  intros H Hk. rewrite (loop_records _ _ _ _ _ k H Hk). split; [apply sorted_filter, ticks_sorted|].
  intros n t Hin. apply filter_In in Hin. destruct Hin as [Hin Hb]. apply andb_true_iff in Hb. destruct Hb as [Hb He].
  apply ticks_above in Hin. cbn [fst] in Hb. apply Nat.eqb_eq in Hb. tauto.
Qed.

Lemma C47_first_level_proof fuel s0 evs L' r k :
  main_loop St B E C fuel (start St B C s0) = Some (evs, L', r) ->
  (k = Check -> enable_compute_error C = false) -> enabled C k = true -> 0 < granularity C ->
  (forall t tau, In (t, tau) (steps evs) -> 0 <= tau <= granularity C) ->
  forall n x, (n mod multiplier C k = 0)%nat -> In x (levels evs) -> INR n * granularity C <= x ->
  exists t, In (n, t) (records k evs) /\ first_reaching (levels evs) (INR n * granularity C) t.
Proof.
  intros H Hk He Hg Hs n x Hm Hx Hn. rewrite (loop_records _ _ _ _ _ k H Hk).
  destruct (loop_levels _ _ _ _ _ H) as (HL & _ & _).
  destruct (ticks_first (granularity C) (levels evs) 0 (steps evs) 0 HL Hs Hg ltac:(cbn; lra) n x (Nat.le_0_l _) Hx Hn) as (t & T1 & T2).
  exists t. split; [|exact T2]. apply filter_In. split; [exact T1|]. cbn [fst]. rewrite Hm, He. reflexivity.
Qed.
End Proofs.
