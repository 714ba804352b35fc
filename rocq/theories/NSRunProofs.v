From Coq Require Import Reals List Arith Bool Lia Lra FunctionalExtensionality.
From Verif Require Import RVec BoundaryMap EulerSystem EulerLimiter EulerLimiterBounds EulerScheme EulerSchemeSpec SchemeSpec SchemeProofs SchemeLimit SchemeFinal ScalarSchemeProofs EulerSchemeProofs EulerSchemeFinal EulerSchemeBounds
  PhysSpec EulerPhysProofs EulerMinEntropySpec EulerMinEntropyFinal TimeInt TimeIntSpec TimeIntProofs EulerRun EulerRunSpec EulerRunProofs EulerRunFinal AeosSchemeFinal.
From Verif Require Import Scheme.
From Verif Require Import Assembly AssemblySpec AssemblyProofs AssemblyFinal AssemblyMesh Parabolic ParabolicSpec ParabolicProofs ParabolicRows ParabolicFinal ParabolicMore NSRun NSRunSpec.
Import ListNotations.
Local Open Scope R_scope.

(** ** A property kept by all modules, whatever the verdicts *)
Section Kept.
Variable SV : Type.
Variable prep : R -> SV -> SV.
Variable rows : R -> SV -> list R.
Variable hyp : SV -> list (SV * R) -> R -> SV * bool.
Variable para : SV -> R -> R -> option (SV * bool).
Variable sadd : SV -> R -> R -> SV -> SV.
Variable A : SV -> Prop.
Hypothesis AP : forall t v, A v -> A (prep t v).
Hypothesis AC : forall a b v w, a + b = 1 -> A v -> A w -> A (sadd v a b w).
Hypothesis AN : forall tau t v st, A v -> Forall (fun x => A (fst x)) st -> A (fst (hyp (prep t v) st tau)).
Hypothesis AQ : forall t tau v w r, 0 < tau -> A v -> para v t tau = Some (w, r) -> A w.
Local Notation istep := (TimeInt.step SV prep rows hyp para sadd).
Local Notation sstep := (single_step SV prep rows hyp para sadd).

Ltac vkept_tac := first
  [ match goal with X : A ?v |- A ?v => exact X end
  | match goal with X : para _ _ _ = Some (?v, _) |- A ?v => eapply AQ; [|clear X|exact X]; [lra|vkept_tac] end
  | match goal with |- A (sadd _ _ _ _) => apply AC; [lra|vkept_tac|vkept_tac] end
  | match goal with |- A (prep _ _) => apply AP; vkept_tac end
  | match goal with |- A (fst (hyp (prep _ _) _ _)) => apply AN; [vkept_tac|repeat apply Forall_cons; try apply Forall_nil; cbn [fst]; vkept_tac] end ].

Lemma vsingle_kept sch t tm s h s' : viscous_scheme sch ->
  sstep sch t tm s = (Ok h, s') -> A (st_vector _ s) -> A (st_vector _ s').
Proof using AP AC AN AQ.
  intros [->|[->|[->| ->]]] H Av; start H; run_ok; cbn [st_vector fst snd] in *;
  repeat match goal with X : fst ?r = fst (hyp _ _ _) |- _ => rewrite X in *; clear X end;
  vkept_tac.
Qed.

Lemma vstep_kept sch rec c0 c1 t tf s h s' : viscous_scheme sch ->
  istep sch rec c0 c1 t tf s = (Ok h, s') -> A (st_vector _ s) -> A (st_vector _ s').
Proof using AP AC AN AQ.
  intros Hs H Av. destruct rec.
  - rewrite step_none in H. destruct (sstep sch t (tf - t) s) as [[x| |] s1] eqn:E; try discriminate.
    injection H as <- <-. eapply vsingle_kept; eassumption.
  - apply step_bang_cases in H. destruct H as [_ [[H _]|(s1 & H1 & E1 & _ & _ & H & _)]].
    + eapply vsingle_kept in H; [exact H|exact Hs|exact Av].
    + eapply vsingle_kept in H; [exact H|exact Hs|].
      change (A (st_vector _ s1)). rewrite E1. apply AP, Av.
Qed.

Lemma vsteps_kept P sch rec c0 c1 tf t s t' s' : viscous_scheme sch ->
  steps (fun t => istep sch rec c0 c1 t tf) P t s t' s' -> A (st_vector _ s) -> A (st_vector _ s').
Proof using AP AC AN AQ.
  intros Hs H. induction H as [t s|t s h s1 t' s' _ Hstep _ IH]; intros Av; [exact Av|].
  apply IH. eapply vstep_kept; eassumption.
Qed.
End Kept.

(** ** Conservation *)
Section Conservation.
Variables (p : eparameters) (G : geometry).
Hypothesis HD : discretized p G.
Local Notation M := (ns_mesh p G).

Lemma d_proper : proper G.
Proof using HD. destruct HD as (((A & B & C & _) & _) & _). split; [exact A|]. split; assumption. Qed.

Lemma d_free i : active M i <-> free G i.
Proof using HD. destruct HD as (_ & _ & F). split; [apply active_free|apply F]. Qed.

Lemma d_total U k : ParabolicSpec.total G U k = SchemeSpec.total M (active_rows M) U k.
Proof using HD.
  unfold SchemeSpec.total, ParabolicSpec.total, active_rows. rewrite lsum_filter, <- rsum_lsum. cbn [n_rows ns_mesh assembled_mesh].
  apply rsum_ext. intros I L. destruct (constrained M I) eqn:C; cbn [negb].
  - destruct (dec_free G I L) as [F|X]; [|rewrite mass_constrained by exact X; ring].
    exfalso. apply d_free in F. destruct F as [_ N]. apply N, Nat.eqb_eq. exact C.
  - f_equal. change (nodal_mass G I = lumped G (mass_entry G) I). symmetry. apply (mass_nodal G I d_proper L).
Qed.

Lemma d_mesh : symmetric_pattern M /\ SchemeSpec.positive_masses M /\ symmetric_matrices M /\ mesh_dimension M (g_dim G) /\ pairs_listed M /\
  (forall i, active M i -> zero_row_sum M i) /\ (no_boundary G -> forall i j, active M i -> In j (columns M i) -> skew_at M i j).
Proof using HD.
  destruct HD as (C & _). destruct (C106_mesh_proof G (ep_eps p) C) as (X1 & X2 & X3 & X4 & X5 & X6 & X7 & X8).
  exact (conj X1 (conj X2 (conj X3 (conj X4 (conj X5 (conj X6 X8)))))).
Qed.

Variables (par : viscosity) (nm : R) (data : RVec.vec -> R -> state nat) (order : list nat) (n : nat) (tmp : euler_vector -> temporaries)
  (sv : solver field) (se : solver (nat -> R)).
Hypothesis Hnb : no_boundary G.
Hypothesis Hor : one_rank G.
Variable k : nat.
Hypothesis Hk : k = 0%nat \/ ((0 < k <= g_dim G)%nat /\ accurate_block (g_n_dofs G) (g_dim G) 0 sv) \/
  (k = Datatypes.S (g_dim G) /\ accurate_block (g_n_dofs G) (g_dim G) 0 sv /\ accurate (g_n_dofs G) 0 se).
Variable T : R.
Local Notation kept v := (ParabolicSpec.total G (fst v) k = T).

Lemma cons_prep t v : kept v -> kept (ns_prepare p G [] data t v).
Proof using Type. intros H. exact H. Qed.

Lemma total_affine a b (U V : nat -> RVec.vec) : ParabolicSpec.total G (fun i => splus (smult a (U i)) (smult b (V i))) k = a * ParabolicSpec.total G U k + b * ParabolicSpec.total G V k.
Proof using HD. rewrite !d_total. apply total_linear. Qed.

Lemma cons_sadd a b (v w : euler_vector) : a + b = 1 -> kept v -> kept w -> kept (euler_sadd v a b w).
Proof using HD. intros E Hv Hw. unfold euler_sadd. cbn [fst]. rewrite total_affine, Hv, Hw, <- Rmult_plus_distr_r, E. ring. Qed.

Lemma cons_update tau v st : kept v -> kept (fst (ns_update p G nm order n tmp v st tau)).
Proof using HD Hnb Hor.
  intros Hv. rewrite d_total in *. rewrite <- Hv. destruct d_mesh as (H & HM & HSM & _ & _ & _ & Hsk). specialize (Hsk Hnb).
  unfold ns_update, euler_update. cbv zeta. cbn [fst].
  apply (conservation_symmetric nat (euler_scheme p (g_dim G)) M nm order n _ _ _ _ _ v st tau (g_dim G) (e_F p (g_dim G)) k H HM HSM
    (euler_plain p (g_dim G)) (euler_central p (g_dim G)) eq_refl Hsk).
  intros i j Hi Hj. apply one_rank_symmetric; try assumption; apply HD.
Qed.

Lemma not_vanishing U : vanishing_density G U = false -> dense G U.
Proof using Type.
  intros E I F Z. clear Hk. unfold vanishing_density in E. apply Bool.not_true_iff_false in E. apply E.
  apply existsb_exists. exists I. split; [apply in_seq; split; [lia|]; cbn; apply F|].
  rewrite (free_not_constrained G I F). cbn. destruct (Req_EM_T _ _); [reflexivity|contradiction].
Qed.

Lemma cons_parabolic t tau v w r : kept v -> ns_parabolic p G par [] data tmp sv se v t tau = Some (w, r) -> kept w.
Proof using HD Hk.
  intros Hv H. unfold ns_parabolic in H. match type of H with (if ?b then _ else _) = _ => destruct b eqn:Ed end; [discriminate H|]. apply not_vanishing in Ed.
  destruct (backward_euler_step _ _ _ _ _ _ _ _ _ _) as [[U b]|] eqn:E; [|discriminate H]. injection H as <- <-. cbn [fst]. rewrite <- Hv.
  destruct Hk as [->|[[Lk Av]|(-> & Av & Ae)]].
  - eapply C109_mass_proof; eassumption.
  - destruct k as [|a]; [lia|]. eapply (C109_momentum_proof G par [] data); try eassumption; [apply d_proper|intros I _ e []|lia].
  - eapply (C109_energy_proof G par [] data); try eassumption; [apply d_proper|].
    intros I _. split; [intros e []|right]. split; [intros x []|constructor].
Qed.
End Conservation.

Lemma C136_conservation_proof : forall p G par num_min data order n tmp sv se sch rec cfl_min cfl_max t_final t s t' s',
  discretized p G -> no_boundary G -> one_rank G -> viscous_scheme sch ->
  steps (fun t => ns_step p G par num_min [] data order n tmp sv se sch rec cfl_min cfl_max t t_final) (fun _ _ => True) t s t' s' ->
  let U := fst (st_vector _ s) in let U' := fst (st_vector _ s') in
  ParabolicSpec.total G U' 0 = ParabolicSpec.total G U 0 /\
  (accurate_block (g_n_dofs G) (g_dim G) 0 sv ->
     (forall a, (a < g_dim G)%nat -> ParabolicSpec.total G U' (Datatypes.S a) = ParabolicSpec.total G U (Datatypes.S a)) /\
     (accurate (g_n_dofs G) 0 se -> ParabolicSpec.total G U' (Datatypes.S (g_dim G)) = ParabolicSpec.total G U (Datatypes.S (g_dim G)))).
Proof.
  intros p G par nm data order n tmp sv se sch rec c0 c1 tf t s t' s' HD Hnb Hor Hs H U U'.
  assert (K : forall k, (k = 0%nat \/ ((0 < k <= g_dim G)%nat /\ accurate_block (g_n_dofs G) (g_dim G) 0 sv) \/
    (k = Datatypes.S (g_dim G) /\ accurate_block (g_n_dofs G) (g_dim G) 0 sv /\ accurate (g_n_dofs G) 0 se)) -> ParabolicSpec.total G U' k = ParabolicSpec.total G U k).
  { intros k Hk.
    exact (vsteps_kept euler_vector (ns_prepare p G [] data) (ns_rows p G nm tmp) (ns_update p G nm order n tmp) (ns_parabolic p G par [] data tmp sv se) euler_sadd
      (fun v => ParabolicSpec.total G (fst v) k = ParabolicSpec.total G U k) (cons_prep p G data k _) (cons_sadd p G HD k _)
      (fun tau t v st Hv _ => cons_update p G HD nm order n tmp Hnb Hor k _ tau _ st (cons_prep p G data k _ t v Hv))
      (fun t tau v w r _ => cons_parabolic p G HD par data tmp sv se k Hk _ t tau v w r) _ sch rec c0 c1 tf t s t' s' Hs H eq_refl). }
  split; [apply K; left; reflexivity|]. intros Av. split.
  - intros a La. apply K. right. left. split; [lia|exact Av].
  - intros Ae. apply K. right. right. auto.
Qed.
