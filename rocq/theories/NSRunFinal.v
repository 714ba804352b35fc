From Coq Require Import Reals List Arith Bool Lia Lra FunctionalExtensionality.
From Verif Require Import RVec BoundaryMap EulerSystem EulerLimiter EulerLimiterBounds EulerScheme EulerSchemeSpec SchemeSpec SchemeProofs SchemeLimit SchemeFinal ScalarSchemeProofs EulerSchemeProofs EulerSchemeFinal EulerSchemeBounds
  PhysSpec EulerPhysProofs EulerMinEntropySpec EulerMinEntropyFinal TimeInt TimeIntSpec TimeIntProofs EulerRun EulerRunSpec EulerRunProofs EulerRunFinal AeosSchemeFinal.
From Verif Require Import Scheme.
From Verif Require Import Assembly AssemblySpec AssemblyProofs AssemblyFinal AssemblyMesh AssemblyExamples Parabolic ParabolicSpec ParabolicProofs ParabolicRows ParabolicFinal ParabolicMore NSRun NSRunSpec NSRunProofs.
Import ListNotations.
Local Open Scope R_scope.

(** ** The first order scheme *)
Section Imex.
Variable SV : Type.
Variable prep : R -> SV -> SV.
Variable rows : R -> SV -> list R.
Variable hyp : SV -> list (SV * R) -> R -> SV * bool.
Variable para : SV -> R -> R -> option (SV * bool).
Variable sadd : SV -> R -> R -> SV -> SV.
Local Notation istep := (TimeInt.step SV prep rows hyp para sadd).
Local Notation sstep := (single_step SV prep rows hyp para sadd).

Lemma hstep_config old st tau tm s r s1 : hyperbolic_step SV rows hyp old st tau tm s = (Ok r, s1) -> st_para _ s1 = st_para _ s /\ st_cfl _ s1 = st_cfl _ s.
Proof using Type.
  unfold hyperbolic_step. destruct (select_tau _ _ _); try discriminate. destruct (hyp old st a) as [n []]; [destruct (st_hyp SV s)|]; intros Q; inversion Q; subst; split; reflexivity.
Qed.

Lemma imex_inv t tm s h s' : sstep imex_11 t tm s = (Ok h, s') ->
  let U := prep t (st_vector _ s) in
  h = fold_right Rmin tm (rows (st_cfl _ s) U) /\ 0 < h /\
  (exists r, para (fst (hyp U [] h)) t (1 * h) = Some (st_vector _ s', r) /\ (st_para _ s = raise_exception -> r = false)) /\
  st_para _ s' = st_para _ s /\ st_cfl _ s' = st_cfl _ s.
Proof using Type.
  intros H U. cbn [single_step] in H. unfold step_imex_11 in H. apply bind_ok in H. destruct H as (? & ? & X & H). rewrite prepare_argument_eq in X. injection X as <- <-.
  apply bind_ok in H. destruct H as (r0 & s0 & H1 & H). pose proof (hstep_config _ _ _ _ _ _ _ H1) as [C1 C2]. apply hstep_ok_zero in H1. destruct H1 as (A1 & [A2 _] & A3). cbn [prepared st_cfl] in A1.
  cbv zeta in H. apply bind_ok in H. destruct H as (w & s1 & H1 & H). unfold bind, set_vector, ret in H. injection H as <- <-. cbn [st_vector st_para st_cfl].
  unfold parabolic_step in H1. destruct (para (fst r0) t (1 * snd r0)) as [[v b]|] eqn:E; [|discriminate H1].
  split; [exact A1|]. split; [exact A2|]. change (prep t (st_vector SV s)) with U in A3. rewrite <- A3.
  cbn [prepared st_para st_cfl] in C1, C2. destruct b.
  - destruct (st_para SV s0) eqn:Q; [|discriminate H1]. injection H1 as <- <-.
    split; [exists true; split; [exact E|intros Z; congruence]|]. cbn. split; congruence.
  - injection H1 as <- <-. split; [exists false; split; [exact E|reflexivity]|]. split; [exact C1|exact C2].
Qed.

Lemma imex_total t tm s w : let U := prep t (st_vector _ s) in let h := fold_right Rmin tm (rows (st_cfl _ s) U) in
  st_hyp _ s = warn -> 0 < h -> para (fst (hyp U [] h)) t (1 * h) = Some (w, false) -> exists s', sstep imex_11 t tm s = (Ok h, s').
Proof using Type.
  intros U h Hw Ph Hq. cbn [single_step]. unfold step_imex_11, bind at 1. rewrite prepare_argument_eq.
  unfold bind at 1. unfold hyperbolic_step at 1, select_tau. cbn [prepared st_cfl st_hyp]. fold U. fold h. rewrite Hw.
  destruct (Rlt_dec 0 h) as [_|X]; [|contradiction]. destruct (Req_EM_T 0 0) as [_|X]; [|contradiction X; reflexivity].
  destruct (hyp U [] h) as [v b]. cbn [fst] in Hq. destruct b; unfold bind at 1; unfold parabolic_step; cbn [fst snd]; rewrite Hq; eexists; reflexivity.
Qed.

Variable A : SV -> Prop.
Variable F : R -> SV -> Prop.
Hypothesis AP : forall t v, A v -> A (prep t v).
Hypothesis AN : forall m cfl t v, A v -> F t v -> 0 < cfl <= 1 -> let tau := fold_right Rmin m (rows cfl (prep t v)) in 0 < tau -> A (fst (hyp (prep t v) [] tau)).

Section Always.
Hypothesis AQ : forall t tau v w r, 0 < tau -> A v -> para v t tau = Some (w, r) -> A w.

Lemma imex_single t tm s h s' : sstep imex_11 t tm s = (Ok h, s') -> 0 < st_cfl _ s <= 1 -> F t (st_vector _ s) -> A (st_vector _ s) ->
  A (st_vector _ s') /\ st_cfl _ s' = st_cfl _ s /\ 0 < h.
Proof using AN AQ.
  intros H Hc Hf Av. apply imex_inv in H. cbv zeta in H. destruct H as (E & Ph & (r & Q & _) & _ & C). split; [|split; assumption].
  eapply AQ; [|apply (AN tm (st_cfl _ s) t (st_vector _ s) Av Hf Hc); rewrite <- E; exact Ph|]; [|rewrite <- E; exact Q]. lra.
Qed.

Lemma imex_steps rec c0 c1 tf t s t' s' : 0 < c0 <= 1 -> 0 < c1 <= 1 -> 0 < st_cfl _ s <= 1 ->
  steps (fun t => istep imex_11 rec c0 c1 t tf) (fun t s => F t (st_vector _ s) /\ F t (prep t (st_vector _ s))) t s t' s' ->
  A (st_vector _ s) -> A (st_vector _ s') /\ t <= t'.
Proof using AP AN AQ.
  intros H0 H1 Hc H. induction H as [t s|t s h s1 t' s' [F1 F2] Hstep _ IH]; intros Av; [split; [exact Av|lra]|].
  assert (K : A (st_vector _ s1) /\ 0 < st_cfl _ s1 <= 1 /\ 0 < h).
  { destruct rec.
    - rewrite step_none in Hstep. destruct (sstep imex_11 t (tf - t) s) as [[x| |] s2] eqn:E; try discriminate.
      injection Hstep as <- <-. apply imex_single in E; try assumption. destruct E as (E1 & E2 & E3). rewrite E2. auto.
    - apply step_bang_cases in Hstep. destruct Hstep as [_ [[Q _]|(s2 & Q1 & E1 & _ & _ & Q & _)]].
      + apply imex_single in Q; try assumption. destruct Q as (E1 & E2 & E3). rewrite E2. auto.
      + apply imex_single in Q; [|exact H0|change (F t (st_vector _ s2)); rewrite E1; exact F2|change (A (st_vector _ s2)); rewrite E1; apply AP, Av].
        destruct Q as (E2 & E3 & E4). rewrite E3. auto. }
  destruct K as (K1 & K2 & K3). destruct (IH K2 K1). split; [assumption|lra].
Qed.
End Always.

(** With the exception strategy and without a second attempt. *)
Section Checked.
Hypothesis AQ : forall t tau v w, 0 < tau -> A v -> para v t tau = Some (w, false) -> A w.

Lemma imex_checked c0 c1 tf t s t' s' : 0 < st_cfl _ s <= 1 -> st_para _ s = raise_exception ->
  steps (fun t => istep imex_11 recovery_none c0 c1 t tf) (fun t s => F t (st_vector _ s) /\ F t (prep t (st_vector _ s))) t s t' s' ->
  A (st_vector _ s) -> A (st_vector _ s') /\ t <= t'.
Proof using AP AN AQ.
  intros Hc Hp H. induction H as [t s|t s h s1 t' s' [F1 _] Hstep _ IH]; intros Av; [split; [exact Av|lra]|].
  rewrite step_none in Hstep. destruct (sstep imex_11 t (tf - t) s) as [[x| |] s2] eqn:Q; try discriminate. injection Hstep as <- <-.
  apply imex_inv in Q. cbv zeta in Q. destruct Q as (E & Ph & (r & Q & R1) & C1 & C2). rewrite (R1 Hp) in Q.
  destruct IH as [I1 I2]; [rewrite C2; exact Hc|rewrite C1; exact Hp| |split; [exact I1|lra]].
  eapply AQ; [|apply (AN (tf - t) (st_cfl _ s) t (st_vector _ s) Av F1 Hc); rewrite <- E; exact Ph|]; [|rewrite <- E; exact Q]. lra.
Qed.
End Checked.
End Imex.

(** ** Positivity *)
Lemma common_bound n (P : nat -> Prop) (f : nat -> R) : (forall I, (I < n)%nat -> P I \/ ~ P I) -> (forall I, (I < n)%nat -> P I -> 0 < f I) ->
  exists low, 0 < low /\ forall I, (I < n)%nat -> P I -> low <= f I.
Proof.
  induction n as [|n IH]; intros D H; [exists 1; split; [lra|intros; lia]|].
  destruct IH as (low & L1 & L2); [intros; apply D; lia|intros; apply H; [lia|assumption]|].
  destruct (D n ltac:(lia)) as [Pn|Pn].
  - exists (Rmin low (f n)). split; [apply Rmin_glb_lt; [exact L1|apply H; [lia|exact Pn]]|].
    intros I LI PI. destruct (Nat.eq_dec I n) as [->|N]; [apply Rmin_r|]. eapply Rle_trans; [apply Rmin_l|]. apply L2; [lia|exact PI].
  - exists low. split; [exact L1|]. intros I LI PI. destruct (Nat.eq_dec I n) as [->|N]; [contradiction|]. apply L2; [lia|exact PI].
Qed.

Lemma common_entry (l : list description) (P : description -> Prop) (f : description -> R) : (forall e, P e \/ ~ P e) -> (forall e, In e l -> P e -> 0 < f e) ->
  exists low, 0 < low /\ forall e, In e l -> P e -> low <= f e.
Proof.
  intros D. induction l as [|x l IH]; intros H; [exists 1; split; [lra|intros e []]|].
  destruct IH as (low & L1 & L2); [intros; apply H; [right|]; assumption|].
  destruct (D x) as [Px|Px].
  - exists (Rmin low (f x)). split; [apply Rmin_glb_lt; [exact L1|apply H; [left; reflexivity|exact Px]]|].
    intros e [<-|He] Pe; [apply Rmin_r|]. eapply Rle_trans; [apply Rmin_l|]. apply L2; assumption.
  - exists low. split; [exact L1|]. intros e [<-|He] Pe; [contradiction|]. apply L2; assumption.
Qed.

Lemma positive_specific dim u : positive_gas dim u <-> 0 < u 0%nat /\ 0 < specific_energy dim u.
Proof.
  rewrite positive_gas_eq.
  assert (E : u 0%nat <> 0 -> specific_energy dim u = internal_energy dim u / u 0%nat).
  { intros N. unfold specific_energy, internal_energy, norm2, RVec.dot, density, momentum, total_energy. cbv zeta. unfold Rdiv. ring. }
  split; intros [A B]; (split; [exact A|]); unfold density in A; [rewrite E by lra; apply Rdiv_lt_0_compat; assumption|].
  rewrite E in B by lra. apply (Rmult_lt_compat_r (u 0%nat)) in B; [|exact A]. field_simplify in B; [|lra]. lra.
Qed.

Section Positive.
Variables (p : eparameters) (G : geometry) (par : viscosity) (nm : R) (bm : list description) (data : RVec.vec -> R -> state nat) (order : list nat) (n : nat)
  (tmp : euler_vector -> temporaries) (sv : solver field) (se : solver (nat -> R)).
Hypothesis HD : discretized p G.
Hypothesis HR : regular_run p (g_dim G) (ns_mesh p G) nm 0 (ns_entries bm) data order n.
Local Notation M := (ns_mesh p G).

Lemma all_gas_above U : all_gas G U <-> gas_above (ep_system p) (g_dim G) M 0 U.
Proof using HD.
  split; intros H i Hi.
  - apply (d_free p G HD) in Hi. pose proof (H i Hi) as Q. apply at_least_eq. split; [exact Q|]. apply positive_gas_eq in Q. lra.
  - apply (d_free p G HD) in Hi. apply H, Hi.
Qed.

Lemma pos_prep t v : all_gas G (fst v) -> all_gas G (fst (ns_prepare p G bm data t v)).
Proof using HD HR. rewrite !all_gas_above. apply (above_prep p (g_dim G) M nm 0 (ns_entries bm) data order n HR). Qed.

Lemma pos_update m cfl t v : all_gas G (fst v) -> fast_waves p G nm bm data tmp t v -> 0 < cfl <= 1 ->
  let tau := fold_right Rmin m (ns_rows p G nm tmp cfl (ns_prepare p G bm data t v)) in 0 < tau ->
  all_gas G (fst (fst (ns_update p G nm order n tmp (ns_prepare p G bm data t v) [] tau))).
Proof using HD HR.
  intros Hv Hf Hc tau Ht. rewrite all_gas_above in *.
  apply (above_new p (g_dim G) M nm 0 (ns_entries bm) data order n HR tmp tau t v [] Ht Hv). split.
  - intros i Hi. apply Hf. apply (d_free p G HD), Hi.
  - intros x Hx. destruct HR as ((Hpat & Hmass & _) & Hnm & _).
    assert (Q : 0 < x) by (eapply (row_tau_positive (euler_scheme p (g_dim G)) M nm 1 (ns_prepare p G bm data t v)); [exact Hpat|exact Hmass|exact Hnm|lra|exact Hx]).
    assert (In (cfl * x) (ns_rows p G nm tmp cfl (ns_prepare p G bm data t v))).
    { change (ns_prepare p G bm data t v) with (euler_prepare p (g_dim G) M (ns_entries bm) data t v). set (o' := euler_prepare _ _ _ _ _ t v) in *.
      unfold ns_rows, euler_rows, row_tau in *. apply in_map_iff in Hx. destruct Hx as (i & <- & Hi). apply in_map_iff. exists i. split; [|exact Hi]. unfold Rdiv. ring. }
    apply Rle_trans with (cfl * x); [apply fold_Rmin_in; assumption|]. nra.
Qed.

Lemma calm_data t e : In e bm -> d_id e = 4%nat -> 0 < specific_energy (g_dim G) (data (d_position e) t).
Proof using HR.
  intros He Ei. destruct HR as (_ & _ & _ & _ & _ & _ & _ & _ & _ & _ & Hcalm). rewrite Forall_forall in Hcalm.
  specialize (Hcalm (hyperbolic_entry e) (in_map _ _ _ He)). unfold calm_entry, hyperbolic_entry, boundary_kind in Hcalm. cbn [be_id be_position] in Hcalm. rewrite Ei in Hcalm.
  apply positive_specific. apply Hcalm.
Qed.

Lemma low_bound U t : all_gas G U -> exists low, 0 < low /\ (forall I, free G I -> low <= specific_energy (g_dim G) (U I)) /\
  (forall I e, free G I -> In e (entries bm I) -> d_id e = 4%nat -> low <= specific_energy (g_dim G) (data (d_position e) t)).
Proof using HR.
  intros HU.
  destruct (common_bound (g_n_dofs G) (free G) (fun I => specific_energy (g_dim G) (U I))) as (l1 & A1 & A2).
  - intros I L. destruct (dec_free G I L) as [F|X]; [left; exact F|right]. intros F. rewrite (free_not_constrained G I F) in X. discriminate.
  - intros I _ F. apply positive_specific, HU, F.
  - destruct (common_entry bm (fun e => d_id e = 4%nat) (fun e => specific_energy (g_dim G) (data (d_position e) t))) as (l2 & B1 & B2).
    + intros e. destruct (Nat.eq_dec (d_id e) 4); auto.
    + intros e He Ei. apply calm_data; assumption.
    + exists (Rmin l1 l2). split; [apply Rmin_glb_lt; assumption|]. split.
      * intros I F. eapply Rle_trans; [apply Rmin_l|]. apply A2; [apply F|exact F].
      * intros I e F He Ei. eapply Rle_trans; [apply Rmin_r|]. apply B2; [|exact Ei]. apply filter_In in He. apply He.
Qed.

Lemma pos_gas U : all_gas G U -> gas G U.
Proof using Type. intros H I F. apply (proj1 (positive_specific _ _) (H I F)). Qed.

Lemma para_inv v t tau w r : ns_parabolic p G par bm data tmp sv se v t tau = Some (w, r) ->
  backward_euler_step G par bm data (ep_eps p) sv se (fst v) t tau = Some (fst w, r).
Proof using Type.
  intros H. unfold ns_parabolic in H. match type of H with (if ?b then _ else _) = _ => destruct b eqn:Ed end; [discriminate H|].
  destruct (backward_euler_step _ _ _ _ _ _ _ _ _ _) as [[U b]|] eqn:E; [|discriminate H]. injection H as <- <-. reflexivity.
Qed.

Lemma back_gas low U U' t tau r : 0 < low -> all_gas G U -> backward_euler_step G par bm data (ep_eps p) sv se U t tau = Some (U', r) ->
  (forall I, free G I -> low <= specific_energy (g_dim G) (U' I)) -> all_gas G U'.
Proof using Type.
  intros Pl HU H HL I F. apply positive_specific. split; [|pose proof (HL I F); lra].
  rewrite (C107_density_proof G par bm data _ _ _ _ _ _ _ _ I H). apply (pos_gas U HU I F).
Qed.

Lemma pos_parabolic t tau v w r : monotone_elements G -> physical par (g_dim G) -> accurate (g_n_dofs G) 0 se ->
  0 < tau -> all_gas G (fst v) -> ns_parabolic p G par bm data tmp sv se v t tau = Some (w, r) -> all_gas G (fst w).
Proof using HD HR.
  intros (W & B & Lap) Ph Ae Ht Hv H. apply para_inv in H.
  destruct (low_bound (fst v) (t + tau) Hv) as (low & L0 & L1 & L2).
  apply (back_gas low (fst v) (fst w) t tau r L0 Hv H).
  apply (C110_minimum_proof G par bm data (ep_eps p) sv se (fst v) t tau (fst w) r low); try assumption; [apply (d_proper p G HD)|apply pos_gas, Hv| |lra].
  intros I F. destruct (d_mesh p G HD) as (_ & HM & _). destruct (proj2 (d_free p G HD I) F) as [LI NI].
  rewrite <- (mass_nodal G I (d_proper p G HD) (proj1 F)). 
  destruct HD as (Co & _). destruct (C106_mesh_proof G (ep_eps p) Co) as (_ & _ & _ & _ & _ & _ & X7 & _). apply (X7 I). split; assumption.
Qed.

Lemma pos_checked t tau v w : (forall I, (I < g_n_dofs G)%nat -> free G I) ->
  all_gas G (fst v) -> ns_parabolic p G par bm data tmp sv se v t tau = Some (w, false) -> all_gas G (fst w).
Proof using HD HR.
  intros Hf Hv H. apply para_inv in H.
  destruct (low_bound (fst v) (t + tau) Hv) as (low & L0 & L1 & L2).
  apply (back_gas low (fst v) (fst w) t tau false L0 Hv H).
  assert (E : ep_eps p = 0) by (destruct HR as (_ & _ & E & _); exact E).
  intros I F. replace low with (low * (1 - 1000 * ep_eps p)) by (rewrite E; ring).
  revert I F. apply (C110_flag_proof G par bm data (ep_eps p) sv se (fst v) t tau (fst w) low); try assumption; [apply pos_gas, Hv|rewrite E; lra].
Qed.
End Positive.

Lemma C136_positivity_proof : forall p G par num_min bm data order n tmp sv se rec cfl_min cfl_max t_final t s t' s',
  discretized p G -> regular_run p (g_dim G) (ns_mesh p G) num_min 0 (ns_entries bm) data order n ->
  monotone_elements G -> physical par (g_dim G) -> accurate (g_n_dofs G) 0 se ->
  0 < cfl_min <= 1 -> 0 < cfl_max <= 1 -> 0 < st_cfl _ s <= 1 ->
  all_gas G (fst (st_vector _ s)) ->
  steps (fun t => ns_step p G par num_min bm data order n tmp sv se imex_11 rec cfl_min cfl_max t t_final)
    (fast_start p G num_min bm data tmp) t s t' s' ->
  all_gas G (fst (st_vector _ s')) /\ t <= t'.
Proof.
  intros p G par nm bm data order n tmp sv se rec c0 c1 tf t s t' s' HD HR Hm Hph Ae H0 H1 Hc Hv H.
  exact (imex_steps euler_vector (ns_prepare p G bm data) (ns_rows p G nm tmp) (ns_update p G nm order n tmp) (ns_parabolic p G par bm data tmp sv se) euler_sadd
    (fun v => all_gas G (fst v)) (fast_waves p G nm bm data tmp)
    (pos_prep p G nm bm data order n HD HR) (pos_update p G nm bm data order n tmp HD HR)
    (fun t tau v w r => pos_parabolic p G par nm bm data order n tmp sv se HD HR t tau v w r Hm Hph Ae) rec c0 c1 tf t s t' s' H0 H1 Hc H Hv).
Qed.

Lemma C136_checked_proof : forall p G par num_min bm data order n tmp sv se cfl_min cfl_max t_final t s t' s',
  discretized p G -> regular_run p (g_dim G) (ns_mesh p G) num_min 0 (ns_entries bm) data order n ->
  (forall I, (I < g_n_dofs G)%nat -> free G I) ->
  0 < st_cfl _ s <= 1 -> st_para _ s = raise_exception ->
  all_gas G (fst (st_vector _ s)) ->
  steps (fun t => ns_step p G par num_min bm data order n tmp sv se imex_11 recovery_none cfl_min cfl_max t t_final)
    (fast_start p G num_min bm data tmp) t s t' s' ->
  all_gas G (fst (st_vector _ s')) /\ t <= t'.
Proof.
  intros p G par nm bm data order n tmp sv se c0 c1 tf t s t' s' HD HR Hf Hc Hp Hv H.
  exact (imex_checked euler_vector (ns_prepare p G bm data) (ns_rows p G nm tmp) (ns_update p G nm order n tmp) (ns_parabolic p G par bm data tmp sv se) euler_sadd
    (fun v => all_gas G (fst v)) (fast_waves p G nm bm data tmp)
    (pos_prep p G nm bm data order n HD HR) (pos_update p G nm bm data order n tmp HD HR)
    (fun t tau v w _ => pos_checked p G par nm bm data order n tmp sv se HD HR t tau v w Hf) c0 c1 tf t s t' s' Hc Hp H Hv).
Qed.

(** ** Conservation along such runs on any number of ranks *)
Section Ranks.
Variables (p : eparameters) (G : geometry) (par : viscosity) (nm : R) (data : RVec.vec -> R -> state nat) (order : list nat) (n : nat)
  (tmp : euler_vector -> temporaries) (sv : solver field) (se : solver (nat -> R)).
Hypothesis HD : discretized p G.
Hypothesis HR : regular_run p (g_dim G) (ns_mesh p G) nm 0 [] data order n.
Hypothesis Hnb : no_boundary G.
Variable T : nat -> R.
Variable K : nat -> Prop.
Hypothesis HK : forall k, K k -> k = 0%nat \/ ((0 < k <= g_dim G)%nat /\ accurate_block (g_n_dofs G) (g_dim G) 0 sv) \/
  (k = Datatypes.S (g_dim G) /\ accurate_block (g_n_dofs G) (g_dim G) 0 sv /\ accurate (g_n_dofs G) 0 se).
Local Notation M := (ns_mesh p G).
Local Notation kept v := (all_gas G (fst v) /\ forall k, K k -> ParabolicSpec.total G (fst v) k = T k).

Lemma ranks_update m cfl t v : kept v -> fast_waves p G nm [] data tmp t v -> 0 < cfl <= 1 ->
  let tau := fold_right Rmin m (ns_rows p G nm tmp cfl (ns_prepare p G [] data t v)) in 0 < tau ->
  kept (fst (ns_update p G nm order n tmp (ns_prepare p G [] data t v) [] tau)).
Proof using HD HR Hnb.
  intros [A B] Hf Hc tau Ht. split; [exact (pos_update p G nm [] data order n tmp HD HR m cfl t v A Hf Hc Ht)|].
  intros k Kk. rewrite <- (B k Kk). rewrite !(d_total p G HD). unfold ns_update, euler_update. cbv zeta. cbn [fst].
  destruct (d_mesh p G HD) as (_ & _ & HSM & _ & _ & _ & Hsk). specialize (Hsk Hnb).
  destruct HR as ((Hpat & Hmass & Hnum & Hpairs & Hdim & Hrows & Hpos) & Hnm & Heps & Hbig & Hrel & Hmod & Hg & _).
  refine (C81_conservation_proof p (g_dim G) M nm order n _ _ _ _ _ (ns_prepare p G [] data t v) [] tau k Hpat Hmass Hnum HSM Hdim (proj1 Hg) _ Hsk).
  intros i Hi. apply A. apply (d_free p G HD), Hi.
Qed.

Lemma ranks_parabolic t tau v w r : monotone_elements G -> physical par (g_dim G) -> accurate (g_n_dofs G) 0 se ->
  0 < tau -> kept v -> ns_parabolic p G par [] data tmp sv se v t tau = Some (w, r) -> kept w.
Proof using HD HR HK.
  intros Hm Hph Ae Ht [A B] H. split; [exact (pos_parabolic p G par nm [] data order n tmp sv se HD HR t tau v w r Hm Hph Ae Ht A H)|].
  intros k Kk. exact (cons_parabolic p G HD par data tmp sv se k (HK k Kk) (T k) t tau v w r (B k Kk) H).
Qed.
End Ranks.

Lemma C136_ranks_proof : forall p G par num_min data order n tmp sv se rec cfl_min cfl_max t_final t s t' s',
  discretized p G -> no_boundary G -> regular_run p (g_dim G) (ns_mesh p G) num_min 0 [] data order n ->
  monotone_elements G -> physical par (g_dim G) ->
  accurate_block (g_n_dofs G) (g_dim G) 0 sv -> accurate (g_n_dofs G) 0 se ->
  0 < cfl_min <= 1 -> 0 < cfl_max <= 1 -> 0 < st_cfl _ s <= 1 ->
  all_gas G (fst (st_vector _ s)) ->
  steps (fun t => ns_step p G par num_min [] data order n tmp sv se imex_11 rec cfl_min cfl_max t t_final)
    (fast_start p G num_min [] data tmp) t s t' s' ->
  forall k, (k < g_dim G + 2)%nat -> ParabolicSpec.total G (fst (st_vector _ s')) k = ParabolicSpec.total G (fst (st_vector _ s)) k.
Proof.
  intros p G par nm data order n tmp sv se rec c0 c1 tf t s t' s' HD Hnb HR Hm Hph Av Ae H0 H1 Hc Hv H.
  set (T := fun k => ParabolicSpec.total G (fst (st_vector _ s)) k). set (K := fun k => (k < g_dim G + 2)%nat).
  assert (HK : forall k, K k -> k = 0%nat \/ ((0 < k <= g_dim G)%nat /\ accurate_block (g_n_dofs G) (g_dim G) 0 sv) \/
    (k = Datatypes.S (g_dim G) /\ accurate_block (g_n_dofs G) (g_dim G) 0 sv /\ accurate (g_n_dofs G) 0 se)).
  { intros k Kk. unfold K in Kk. destruct (Nat.eq_dec k 0); [left; assumption|right]. destruct (Nat.eq_dec k (Datatypes.S (g_dim G))); [right|left]; repeat split; try assumption; lia. }
  destruct (imex_steps euler_vector (ns_prepare p G [] data) (ns_rows p G nm tmp) (ns_update p G nm order n tmp) (ns_parabolic p G par [] data tmp sv se) euler_sadd
    (fun v => all_gas G (fst v) /\ forall k, K k -> ParabolicSpec.total G (fst v) k = T k) (fast_waves p G nm [] data tmp)
    (fun t v Q => conj (pos_prep p G nm [] data order n HD HR t v (proj1 Q)) (proj2 Q))
    (ranks_update p G nm data order n tmp HD HR Hnb T K)
    (fun t tau v w r => ranks_parabolic p G par nm data order n tmp sv se HD HR T K HK t tau v w r Hm Hph Ae) rec c0 c1 tf t s t' s' H0 H1 Hc H) as [[_ Q] _].
  - split; [exact Hv|reflexivity].
  - exact Q.
Qed.

(** ** Uniform flow *)
Lemma C136_uniform_proof : forall p G par num_min data order n tmp sv se sch rec cfl_min cfl_max t_final t s t' s' u,
  discretized p G -> viscous_scheme sch -> physical par (g_dim G) -> positive_weights G ->
  accurate_block (g_n_dofs G) (g_dim G) 0 sv -> accurate (g_n_dofs G) 0 se ->
  0 < u 0%nat -> (forall I, free G I -> fst (st_vector _ s) I = u) ->
  steps (fun t => ns_step p G par num_min [] data order n tmp sv se sch rec cfl_min cfl_max t t_final) (fun _ _ => True) t s t' s' ->
  forall I, free G I -> fst (st_vector _ s') I = u.
Proof.
  intros p G par nm data order n tmp sv se sch rec c0 c1 tf t s t' s' u HD Hs Hph Hw Av Ae Pu Hu H.
  assert (Pm : ParabolicSpec.positive_masses G).
  { intros I F. destruct (proj2 (d_free p G HD I) F) as [LI NI]. rewrite <- (mass_nodal G I (d_proper p G HD) (proj1 F)).
    destruct HD as (Co & _). destruct (C106_mesh_proof G (ep_eps p) Co) as (_ & _ & _ & _ & _ & _ & X7 & _). apply (X7 I). split; assumption. }
  refine (vsteps_kept euler_vector (ns_prepare p G [] data) (ns_rows p G nm tmp) (ns_update p G nm order n tmp) (ns_parabolic p G par [] data tmp sv se) euler_sadd
    (fun v => forall I, free G I -> fst v I = u) _ _ _ _ _ sch rec c0 c1 tf t s t' s' Hs H Hu).
  - intros t0 v Hv. exact Hv.
  - intros a b v w E Hv Hw' I F. unfold euler_sadd. cbn [fst]. rewrite (Hv I F), (Hw' I F). apply functional_extensionality. intros k.
    unfold splus, smult. rewrite <- Rmult_plus_distr_r, E. ring.
  - intros tau t0 v st Hv Hst I F. unfold ns_update, euler_update. cbv zeta. cbn [fst]. apply (d_free p G HD) in F. destruct HD as (Co & _).
    refine (C106_uniform_proof nat (euler_scheme p (g_dim G)) G (ep_eps p) nm (e_F p (g_dim G)) u (EulerSystem.flux (ep_system p) (g_dim G) u) order n _ _ _ _ _ (ns_prepare p G [] data t0 v) st tau I
      Co (euler_plain p (g_dim G)) eq_refl (euler_central p (g_dim G)) _ F).
    intros w W j Hj. apply active_free in Hj. split; [|reflexivity]. destruct W as [->|W]; [apply Hv, Hj|].
    apply in_map_iff in W. destruct W as (x & <- & Hx). rewrite Forall_forall in Hst. apply (Hst x Hx j Hj).
  - intros t0 tau v w r Pt Hv Q I F. apply para_inv in Q. apply functional_extensionality. intros k. rewrite <- (Hv I F).
    refine (C112_rigid_proof G par [] data (ep_eps p) sv se (fst v) t0 tau (fst w) r (specific_energy (g_dim G) u)
      (d_proper p G HD) _ Hph Hw Pm (Rlt_le _ _ Pt) _ Av Ae _ _ _ Q I k F).
    + intros J FJ. rewrite (Hv J FJ). exact Pu.
    + intros J FJ. right. split; [intros x []|constructor].
    + assert (Z : forall c q a b, (c < g_n_cells G)%nat -> (q < g_n_points G)%nat -> velocity_gradient G (fun I => vel (fst v I)) c q a b = 0).
      { intros c q a b Lc Lq. unfold velocity_gradient. rewrite (slope_ext G _ (fun _ => vel u a)); try assumption; [|apply (d_proper p G HD)|intros J FJ; rewrite (Hv J FJ); reflexivity].
        unfold slope. rewrite rsum_scal, grad_sum; [ring|apply (d_proper p G HD)|assumption|assumption]. }
      intros c q a b Lc Lq La Lb. rewrite !Z by assumption. ring.
    + intros J FJ. rewrite (Hv J FJ). reflexivity.
    + intros J FJ e [].
Qed.

(** ** Walls *)
Lemma apply_boundary_last p dim pre e post data t U :
  (forall e', In e' post -> be_row e' <> be_row e) -> be_id e <> do_nothing ->
  apply_boundary p dim (pre ++ e :: post) data t U (be_row e) =
  apply_boundary_conditions (ep_system p) dim (be_id e) (apply_boundary p dim pre data t U (be_row e)) (be_normal e) (data (be_position e) t).
Proof.
  intros Hp Hn. unfold apply_boundary. rewrite fold_left_app. cbn [fold_left]. match goal with |- context [fold_left ?g pre U] => set (W := fold_left g pre U) end.
  match goal with |- fold_left ?g post ?V _ = _ => assert (K : forall l V', (forall e', In e' l -> be_row e' <> be_row e) -> fold_left g l V' (be_row e) = V' (be_row e)) end.
  { induction l as [|b l IH]; intros V' Hl; [reflexivity|]. cbn [fold_left]. rewrite IH by (intros; apply Hl; right; assumption).
    specialize (Hl b (or_introl eq_refl)). assert (N : Nat.eqb (be_row e) (be_row b) = false) by (apply Nat.eqb_neq; auto).
    destruct (be_id b); try reflexivity; unfold Scheme.upd; rewrite N; reflexivity. }
  rewrite K by exact Hp. destruct (be_id e); try (unfold Scheme.upd; rewrite Nat.eqb_refl; reflexivity). contradiction.
Qed.

Lemma apply_boundary_free p dim l data t U i :
  (forall e, In e l -> be_row e = i -> be_id e = do_nothing \/ be_id e = periodic \/ be_id e = dirichlet_momentum) ->
  apply_boundary p dim l data t U i = U i.
Proof.
  unfold apply_boundary. revert U. induction l as [|b l IH]; intros U H; [reflexivity|]. cbn [fold_left].
  rewrite IH by (intros; apply H; [right|]; assumption). specialize (H b (or_introl eq_refl)).
  destruct (Nat.eq_dec (be_row b) i) as [<-|N].
  - destruct (H eq_refl) as [-> | [-> | ->]]; [reflexivity| |]; unfold Scheme.upd; rewrite Nat.eqb_refl; reflexivity.
  - assert (E : Nat.eqb i (be_row b) = false) by (apply Nat.eqb_neq; auto). destruct (be_id b); try reflexivity; unfold Scheme.upd; rewrite E; reflexivity.
Qed.

Lemma C136_walls_proof : forall p G pre e post data t v,
  (forall e', In e' post -> d_index e' <> d_index e) ->
  let V := fst (ns_prepare p G (pre ++ e :: post) data t v) (d_index e) in
  (d_id e = 2%nat -> RVec.dot (g_dim G) (d_normal e) (d_normal e) = 1 ->
     RVec.dot (g_dim G) (fun a => V (Datatypes.S a)) (d_normal e) = 0) /\
  (d_id e = 3%nat -> forall a, (a < g_dim G)%nat -> V (Datatypes.S a) = 0) /\
  (d_id e = 4%nat -> V = data (d_position e) t).
Proof.
  intros p G pre e post data t v Hp. cbv zeta.
  assert (L : d_id e = 2%nat \/ d_id e = 3%nat \/ d_id e = 4%nat ->
    fst (ns_prepare p G (pre ++ e :: post) data t v) (d_index e) =
    apply_boundary_conditions (ep_system p) (g_dim G) (boundary_kind (d_id e))
      (apply_boundary p (g_dim G) (ns_entries pre) data t (fst v) (d_index e)) (d_normal e) (data (d_position e) t)).
  { intros Hk. unfold ns_prepare, euler_prepare, ns_entries. cbn [fst]. rewrite map_app. cbn [map].
    apply (apply_boundary_last p (g_dim G) (map hyperbolic_entry pre) (hyperbolic_entry e) (map hyperbolic_entry post)).
    - intros e' I. apply in_map_iff in I. destruct I as (d & <- & I). exact (Hp d I).
    - cbn. destruct Hk as [-> | [-> | ->]]; discriminate. }
  split; [|split].
  - intros E N. rewrite L by auto. rewrite E. cbn [boundary_kind apply_boundary_conditions]. set (U := apply_boundary _ _ _ _ _ _ _).
    cbv zeta. unfold RVec.dot in *. rewrite (rsum_ext _ _ (fun a => momentum U a * d_normal e a + (- rsum (g_dim G) (fun k => momentum U k * d_normal e k)) * (d_normal e a * d_normal e a))).
    + rewrite rsum_plus, rsum_scal, N. ring.
    + intros a Ha. cbn [Nat.eqb]. replace (Nat.leb (Datatypes.S a) (g_dim G)) with true by (symmetry; apply Nat.leb_le; lia).
      rewrite Nat.sub_succ, Nat.sub_0_r. unfold vsub, vscal. unfold RVec.vscal. ring.
  - intros E a Ha. rewrite L by auto. rewrite E. cbn [boundary_kind apply_boundary_conditions Nat.eqb].
    replace (Nat.leb (Datatypes.S a) (g_dim G)) with true by (symmetry; apply Nat.leb_le; lia). reflexivity.
  - intros E. rewrite L by auto. rewrite E. reflexivity.
Qed.

Lemma C136_untouched_proof : forall p G bm data t v i,
  (forall e, In e bm -> d_index e = i -> d_id e = 0%nat \/ d_id e = 1%nat \/ d_id e = 6%nat) ->
  fst (ns_prepare p G bm data t v) i = fst v i.
Proof.
  intros p G bm data t v i H. unfold ns_prepare, euler_prepare, ns_entries. cbn [fst]. apply apply_boundary_free.
  intros e I E. apply in_map_iff in I. destruct I as (d & <- & I). cbn in *. destruct (H d I E) as [-> | [-> | ->]]; cbn; auto.
Qed.

(** A row at the corner of a slip wall (first entry) and a no-slip wall (last entry), and a row
    that the outflow leaves alone. *)
Lemma walls_case :
  let slip_entry := Description 3 (fun a => if Nat.eqb a 0 then 1 else 0) 1 1 2 (fun _ => 0) in
  let no_slip_entry := Description 3 (fun a => if Nat.eqb a 0 then 0 else 1) 1 1 3 (fun _ => 0) in
  let inflow := Description 4 (fun a => if Nat.eqb a 0 then 1 else 0) 1 1 4 (fun _ => 0) in
  let outflow := Description 5 (fun a => if Nat.eqb a 0 then 1 else 0) 1 1 0 (fun _ => 0) in
  (forall e', In e' [inflow; outflow] -> d_index e' <> d_index no_slip_entry) /\
  (forall e', In e' [no_slip_entry] -> d_index e' <> d_index inflow) /\
  RVec.dot 2 (d_normal slip_entry) (d_normal slip_entry) = 1 /\
  (forall e, In e [slip_entry; no_slip_entry; inflow; outflow] -> d_index e = 5%nat -> d_id e = 0%nat \/ d_id e = 1%nat \/ d_id e = 6%nat).
Proof.
  cbv zeta. cbn [d_index d_normal d_id]. split; [intros e' [<- | [<- | []]]; discriminate|]. split; [intros e' [<- | []]; discriminate|].
  split; [unfold RVec.dot; cbn; ring|]. intros e [<- | [<- | [<- | [<- | []]]]]; try discriminate. auto.
Qed.
