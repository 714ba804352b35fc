From Coq Require Import Reals List Arith Bool Lia Lra FunctionalExtensionality.
From Verif Require Import RVec EulerSystem EulerLimiter EulerLimiterBounds EulerRiemann EulerScheme EulerSchemeSpec SchemeSpec SchemeProofs SchemeLimit SchemeFinal EulerSchemeProofs EulerSchemeFinal EulerSchemeBounds EulerSchemeExamples
  PhysSpec EulerPhysProofs EulerMinEntropySpec EulerMinEntropyFinal EulerMinEntropyExamples TimeInt TimeIntSpec TimeIntProofs EulerRun EulerRunSpec EulerRunProofs.
From Verif Require Import Scheme.
Import ListNotations.
Local Open Scope R_scope.

Lemma C131_trace_proof : forall (SV : Type) (prep : R -> SV -> SV) rows hyp para sadd sch t tau_max s,
  explicit_scheme sch = true ->
  let tau := fold_right Rmin (tau_max / efficiency sch) (rows (st_cfl _ s) (prep t (st_vector _ s))) in
  let tr := trace prep (fun o st => fst (hyp o st tau)) sadd sch t tau (st_vector _ s) in
  0 < tau ->
  (forall o st, In (o, st) (fst tr) ->
     rows (st_cfl _ s) o <> [] /\ Forall (fun x => 0 < x) (rows (st_cfl _ s) o) /\ snd (hyp o st tau) = false) ->
  exists s', single_step SV prep rows hyp para sadd sch t tau_max s = (Ok (efficiency sch * tau), s') /\
    st_vector _ s' = snd tr /\ same_config s s' /\ counters_eq s s'.
Proof.
  intros SV prep rows hyp para sadd sch t tm s Hs tau tr Hp H. eexists. split; [apply trace_step; assumption|].
  split; [reflexivity|]. split; repeat split; reflexivity.
Qed.

Lemma fold_Rmin_in l m x : In x l -> fold_right Rmin m l <= x.
Proof.
  induction l as [|y l IH]; intros []; cbn; [subst; apply Rmin_l|]. eapply Rle_trans; [apply Rmin_r|auto].
Qed.
Lemma efficiency_pos sch : 0 < efficiency sch. Proof. destruct sch; cbn; lra. Qed.

Section Run.
Variables (p : eparameters) (dim : nat) (M : mesh) (nm s0 : R) (entries : list bentry) (data : RVec.vec -> R -> state nat) (order : list nat) (n : nat).
Hypothesis HR : regular_run p dim M nm s0 entries data order n.
Variable tmp : euler_vector -> temporaries.

Lemma rows_ok cfl v : 0 < cfl -> euler_rows p dim M nm tmp cfl v <> [] /\ Forall (fun x => 0 < x) (euler_rows p dim M nm tmp cfl v).
Proof using HR.
  intros Hc. destruct HR as ((Hpat & Hmass & Hnum & Hpairs & Hdim & Hrows & Hpos) & Hnm & _). split.
  - intros E. unfold euler_rows, row_tau in E. apply map_eq_nil in E.
    destruct Hpos as [r0 Hpos]. apply active_spec in Hpos. rewrite E in Hpos. destruct Hpos.
  - apply Forall_forall. intros x Hx. eapply (row_tau_positive (euler_scheme p dim) M nm cfl v); eassumption.
Qed.

Lemma rows_min cfl m v : 0 < cfl -> 0 < m -> 0 < fold_right Rmin m (euler_rows p dim M nm tmp cfl v).
Proof using HR. intros Hc Hm. apply fold_Rmin_pos; [exact Hm|]. apply rows_ok, Hc. Qed.

Lemma with_vector_eq (v : euler_vector) x : st_vector _ (with_vector _ v x) = v. Proof using Type. reflexivity. Qed.

(** The single step, with an additional property kept. *)
Lemma run_single (A : euler_vector -> Prop) sch cfl t t_final x :
  explicit_scheme sch = true -> 0 < cfl -> st_cfl _ x = cfl -> t < t_final ->
  (forall t v, A v -> A (euler_prepare p dim M entries data t v)) ->
  (forall tau t v st, 0 < tau -> A v -> suitable p dim M nm tmp tau (euler_prepare p dim M entries data t v) -> Forall (fun x => A (fst x)) st ->
     A (fst (euler_update p dim M nm order n tmp (euler_prepare p dim M entries data t v) st tau))) ->
  (forall a b v w, 0 <= a -> 0 <= b -> a + b = 1 -> A v -> A w -> A (euler_sadd v a b w)) ->
  (forall v, A v -> gas_above (ep_system p) dim M s0 (fst v)) ->
  A (st_vector _ x) ->
  let h := step_size p dim M nm entries data tmp sch cfl t t_final (st_vector _ x) in
  cautious p dim M nm entries data order n tmp sch t (st_vector _ x) h ->
  exists x', single_step _ (euler_prepare p dim M entries data) (euler_rows p dim M nm tmp) (euler_update p dim M nm order n tmp) no_parabolic euler_sadd sch t (t_final - t) x = (Ok h, x') /\
    0 < h /\ counters_eq x x' /\ st_cfl _ x' = cfl /\ A (st_vector _ x').
Proof using HR.
  intros Hs Hc E Ht AP AN AC AG Av h Hcau. pose proof (efficiency_pos sch) as He.
  set (tau := fold_right Rmin ((t_final - t) / efficiency sch) (euler_rows p dim M nm tmp (st_cfl _ x) (euler_prepare p dim M entries data t (st_vector _ x)))).
  assert (Eh : h = efficiency sch * tau) by (unfold h, step_size, tau; rewrite E; reflexivity).
  assert (Et : h / efficiency sch = tau) by (rewrite Eh; field; lra).
  assert (Hp : 0 < tau) by (apply rows_min; [rewrite E; exact Hc|apply Rdiv_lt_0_compat; lra]).
  unfold cautious in Hcau. rewrite Et in Hcau. cbv zeta in Hcau.
  destruct HR as (Hmesh & Hnm & Heps & Hbig & Hrel & Hmod & Hg & Hs0 & Horder & Hn & Hcalm).
  assert (K : Forall (fun y => exists t v, fst y = euler_prepare p dim M entries data t v /\ A v)
      (fst (trace (euler_prepare p dim M entries data) (fun o st => fst (euler_update p dim M nm order n tmp o st tau)) euler_sadd sch t tau (st_vector _ x))) /\
    A (snd (trace (euler_prepare p dim M entries data) (fun o st => fst (euler_update p dim M nm order n tmp o st tau)) euler_sadd sch t tau (st_vector _ x)))).
  { apply (trace_keep (euler_prepare p dim M entries data) (fun o st => fst (euler_update p dim M nm order n tmp o st tau)) euler_sadd A (suitable p dim M nm tmp tau) AP);
    [intros; apply AN; assumption|exact AC|exact Av|].
    apply Forall_forall. intros [o st] Hi. exact (Hcau o st Hi). }
  destruct K as [K1 K2]. rewrite Forall_forall in K1.
  eexists. split.
  - rewrite Eh. apply (trace_step _ (euler_prepare p dim M entries data) (euler_rows p dim M nm tmp) (euler_update p dim M nm order n tmp)); [exact Hs|exact Hp|].
    intros o st Hi. fold tau in Hi. destruct (rows_ok (st_cfl _ x) o) as [R1 R2]; [rewrite E; exact Hc|]. split; [exact R1|]. split; [exact R2|].
    fold tau. destruct (K1 (o, st) Hi) as (t1 & v1 & E1 & Hv1). cbn [fst] in E1. pose proof (Hcau o st Hi) as Q. rewrite E1 in *.
    eapply (new_unflagged p dim M nm); try eassumption. apply AG, Hv1.
  - split; [rewrite Eh; apply Rmult_lt_0_compat; assumption|]. split; [repeat split; reflexivity|]. split; [exact E|]. exact K2.
Qed.

Lemma run_step (A : euler_vector -> Prop) sch rec cfl_min cfl_max t t_final x :
  explicit_scheme sch = true -> 0 < cfl_max -> (rec = bang_bang_control \/ st_cfl _ x = cfl_max) -> t < t_final ->
  (forall t v, A v -> A (euler_prepare p dim M entries data t v)) ->
  (forall tau t v st, 0 < tau -> A v -> suitable p dim M nm tmp tau (euler_prepare p dim M entries data t v) -> Forall (fun x => A (fst x)) st ->
     A (fst (euler_update p dim M nm order n tmp (euler_prepare p dim M entries data t v) st tau))) ->
  (forall a b v w, 0 <= a -> 0 <= b -> a + b = 1 -> A v -> A w -> A (euler_sadd v a b w)) ->
  (forall v, A v -> gas_above (ep_system p) dim M s0 (fst v)) ->
  A (st_vector _ x) ->
  let h := step_size p dim M nm entries data tmp sch cfl_max t t_final (st_vector _ x) in
  cautious p dim M nm entries data order n tmp sch t (st_vector _ x) h ->
  exists x', euler_step p dim M nm entries data order n tmp sch rec cfl_min cfl_max t t_final x = (Ok h, x') /\
    0 < h /\ counters_eq x x' /\ st_cfl _ x' = cfl_max /\ A (st_vector _ x').
Proof using HR.
  intros Hs Hc E Ht AP AN AC AG Av h Hcau. unfold euler_step. destruct rec.
  - destruct E as [E|E]; [discriminate|]. rewrite step_none.
    destruct (run_single A sch cfl_max t t_final x Hs Hc E Ht AP AN AC AG Av Hcau) as (x' & Q & Z). exists x'. rewrite Q. split; [reflexivity|exact Z].
  - rewrite step_bang. set (y := configured raise_exception raise_exception cfl_max x).
    destruct (run_single A sch cfl_max t t_final y Hs Hc eq_refl Ht AP AN AC AG Av Hcau) as (x' & Q & Z). exists x'. rewrite Q. split; [reflexivity|exact Z].
Qed.

Lemma step_time A sch rec cfl_min cfl_max t t_final x h x' : 
  TimeInt.step euler_vector A (euler_rows p dim M nm tmp) (euler_update p dim M nm order n tmp) no_parabolic euler_sadd sch rec cfl_min cfl_max t t_final x = (Ok h, x') -> t < t_final.
Proof using Type. intros H. apply step_tau in H. lra. Qed.

(** Runs. *)
Lemma run_steps (A : euler_vector -> Prop) sch rec cfl_min cfl_max t_final t x t' x' :
  explicit_scheme sch = true -> 0 < cfl_max -> (rec = bang_bang_control \/ st_cfl _ x = cfl_max) ->
  (forall t v, A v -> A (euler_prepare p dim M entries data t v)) ->
  (forall tau t v st, 0 < tau -> A v -> suitable p dim M nm tmp tau (euler_prepare p dim M entries data t v) -> Forall (fun x => A (fst x)) st ->
     A (fst (euler_update p dim M nm order n tmp (euler_prepare p dim M entries data t v) st tau))) ->
  (forall a b v w, 0 <= a -> 0 <= b -> a + b = 1 -> A v -> A w -> A (euler_sadd v a b w)) ->
  (forall v, A v -> gas_above (ep_system p) dim M s0 (fst v)) ->
  steps (fun t => euler_step p dim M nm entries data order n tmp sch rec cfl_min cfl_max t t_final)
    (fun t y => cautious p dim M nm entries data order n tmp sch t (st_vector _ y) (step_size p dim M nm entries data tmp sch cfl_max t t_final (st_vector _ y))) t x t' x' ->
  A (st_vector _ x) ->
  A (st_vector _ x') /\ counters_eq x x' /\ t <= t'.
Proof using HR.
  intros Hs Hc E AP AN AC AG H. induction H as [t x|t x h x1 t' x' HP Hstep Hrest IH]; intros Av.
  - split; [exact Av|]. split; [repeat split; reflexivity|lra].
  - pose proof Hstep as Ht. unfold euler_step in Ht. apply step_time in Ht.
    destruct (run_step A sch rec cfl_min cfl_max t t_final x Hs Hc E Ht AP AN AC AG Av HP) as (y & Q & Hh & Hq & Hcf & Ay).
    rewrite Hstep in Q. injection Q as Q1 Q2. subst y. rewrite <- Q1 in Hh.
    destruct (IH (or_intror Hcf) Ay) as (B1 & B2 & B3). split; [exact B1|]. split; [|lra].
    unfold counters_eq in *. intuition congruence.
Qed.

Local Notation above v := (gas_above (ep_system p) dim M s0 (fst v)).
Lemma above_prep t v : above v -> above (euler_prepare p dim M entries data t v).
Proof using HR. destruct HR as (Hmesh & Hnm & Heps & Hbig & Hrel & Hmod & Hg & Hs0 & Horder & Hn & Hcalm). apply prepare_above; assumption. Qed.
Lemma above_new tau t v st : 0 < tau -> above v -> suitable p dim M nm tmp tau (euler_prepare p dim M entries data t v) ->
     above (fst (euler_update p dim M nm order n tmp (euler_prepare p dim M entries data t v) st tau)).
Proof using HR.
  destruct HR as (Hmesh & Hnm & Heps & Hbig & Hrel & Hmod & Hg & Hs0 & Horder & Hn & Hcalm). intros Hp Hv Hsu.
  eapply (new_above p dim M nm); eassumption.
Qed.
Lemma above_sadd a b v w : 0 <= a -> 0 <= b -> a + b = 1 -> above v -> above w -> above (euler_sadd v a b w).
Proof using HR. destruct HR as (Hmesh & Hnm & Heps & Hbig & Hrel & Hmod & Hg & Hs0 & Horder & Hn & Hcalm). apply sadd_above; assumption. Qed.
End Run.

Lemma C131_step_proof : forall p dim M num_min s0 entries data order n tmp sch rec cfl_min cfl_max t t_final s,
  regular_run p dim M num_min s0 entries data order n ->
  explicit_scheme sch = true -> 0 < cfl_max ->
  (rec = bang_bang_control \/ st_cfl _ s = cfl_max) -> t < t_final ->
  gas_above (ep_system p) dim M s0 (fst (st_vector _ s)) ->
  let h := step_size p dim M num_min entries data tmp sch cfl_max t t_final (st_vector _ s) in
  cautious p dim M num_min entries data order n tmp sch t (st_vector _ s) h ->
  exists s', euler_step p dim M num_min entries data order n tmp sch rec cfl_min cfl_max t t_final s = (Ok h, s') /\
    0 < h /\ counters_eq s s' /\ gas_above (ep_system p) dim M s0 (fst (st_vector _ s')).
Proof.
  intros p dim M nm s0 entries data order n tmp sch rec c0 c1 t tf s HR Hs Hc E Ht Hv h Hcau.
  destruct (run_step p dim M nm s0 entries data order n HR tmp (fun v => gas_above (ep_system p) dim M s0 (fst v)) sch rec c0 c1 t tf s Hs Hc E Ht) as (s' & Q & A & B & _ & C).
  - exact (above_prep p dim M nm s0 entries data order n HR).
  - intros; eapply above_new; eassumption.
  - exact (above_sadd p dim M nm s0 entries data order n HR).
  - auto.
  - exact Hv.
  - exact Hcau.
  - exists s'. auto.
Qed.

Lemma C131_run_proof : forall p dim M num_min s0 entries data order n tmp sch rec cfl_min cfl_max t_final t s t' s',
  regular_run p dim M num_min s0 entries data order n ->
  explicit_scheme sch = true -> 0 < cfl_max ->
  (rec = bang_bang_control \/ st_cfl _ s = cfl_max) ->
  gas_above (ep_system p) dim M s0 (fst (st_vector _ s)) ->
  steps (fun t => euler_step p dim M num_min entries data order n tmp sch rec cfl_min cfl_max t t_final)
    (fun t s => cautious p dim M num_min entries data order n tmp sch t (st_vector _ s)
                  (step_size p dim M num_min entries data tmp sch cfl_max t t_final (st_vector _ s))) t s t' s' ->
  gas_above (ep_system p) dim M s0 (fst (st_vector _ s')) /\ counters_eq s s' /\ t <= t'.
Proof.
  intros p dim M nm s0 entries data order n tmp sch rec c0 c1 tf t s t' s' HR Hs Hc E Hv H.
  apply (run_steps p dim M nm s0 entries data order n HR tmp (fun v => gas_above (ep_system p) dim M s0 (fst v)) sch rec c0 c1 tf t s t' s' Hs Hc E); auto.
  - exact (above_prep p dim M nm s0 entries data order n HR).
  - intros; eapply above_new; eassumption.
  - exact (above_sadd p dim M nm s0 entries data order n HR).
Qed.

Lemma C131_forward_euler_proof : forall p dim M num_min entries data order n tmp cfl t t_final v,
  0 < cfl <= 1 -> proper_mesh M dim -> 0 < num_min ->
  (forall i, active M i -> e_fast p dim M num_min (euler_prepare p dim M entries data t v) (tmp_d (tmp (euler_prepare p dim M entries data t v))) i) ->
  cautious p dim M num_min entries data order n tmp erk_11 t v
    (step_size p dim M num_min entries data tmp erk_11 cfl t t_final v).
Proof.
  intros p dim M nm entries data order n tmp cfl t tf v Hc Hmesh Hnm Hf o st Hi. unfold step_size, trace in Hi |- *. cbn [efficiency fst] in Hi |- *.
  destruct Hi as [Hi|[]]. injection Hi as E1 E2. rewrite <- E1. clear E1. split; [exact Hf|]. intros x Hx. set (o' := euler_prepare p dim M entries data t v) in *.
  replace (1 * fold_right Rmin ((tf - t) / 1) (euler_rows p dim M nm tmp cfl o') / 1) with (fold_right Rmin ((tf - t) / 1) (euler_rows p dim M nm tmp cfl o')) by field.
  assert (Q : 0 < x).
  { destruct Hmesh as (Hpat & Hmass & _). eapply (row_tau_positive (euler_scheme p dim) M nm 1 o'); try eassumption. lra. }
  assert (In (cfl * x) (euler_rows p dim M nm tmp cfl o')).
  { unfold euler_rows, row_tau in *. apply in_map_iff in Hx. destruct Hx as (i & <- & Hi). apply in_map_iff. exists i. split; [|exact Hi]. unfold Rdiv. ring. }
  apply Rle_trans with (cfl * x); [apply fold_Rmin_in; assumption|]. nra.
Qed.

Lemma total_linear M l (U V : nat -> state nat) a b k : total M l (fun i => splus (smult a (U i)) (smult b (V i))) k = a * total M l U k + b * total M l V k.
Proof. unfold total. induction l as [|i l IH]; cbn; [ring|]. cbn in IH. rewrite IH. unfold splus, smult. ring. Qed.

Lemma C131_conservation_proof : forall p dim M num_min s0 data order n tmp sch rec cfl_min cfl_max t_final t s t' s',
  regular_run p dim M num_min s0 [] data order n ->
  symmetric_matrices M -> (forall i j, active M i -> In j (columns M i) -> skew_at M i j) ->
  explicit_scheme sch = true -> 0 < cfl_max ->
  (rec = bang_bang_control \/ st_cfl _ s = cfl_max) ->
  gas_above (ep_system p) dim M s0 (fst (st_vector _ s)) ->
  steps (fun t => euler_step p dim M num_min [] data order n tmp sch rec cfl_min cfl_max t t_final)
    (fun t s => cautious p dim M num_min [] data order n tmp sch t (st_vector _ s)
                  (step_size p dim M num_min [] data tmp sch cfl_max t t_final (st_vector _ s))) t s t' s' ->
  forall k, total M (active_rows M) (fst (st_vector _ s')) k = total M (active_rows M) (fst (st_vector _ s)) k.
Proof.
  intros p dim M nm s0 data order n tmp sch rec c0 c1 tf t s t' s' HR Hsym Hskew Hs Hc E Hv H.
  set (T := fun k => total M (active_rows M) (fst (st_vector _ s)) k).
  destruct (run_steps p dim M nm s0 [] data order n HR tmp (fun v => gas_above (ep_system p) dim M s0 (fst v) /\ forall k, total M (active_rows M) (fst v) k = T k)
    sch rec c0 c1 tf t s t' s' Hs Hc E) as [[_ Q] _].
  - intros t0 v [A B]. split; [exact (above_prep p dim M nm s0 [] data order n HR t0 v A)|exact B].
  - intros tau t0 v st Hp [A B] Hsu. split; [eapply above_new; eassumption|]. intros k. rewrite <- B.
    unfold euler_update. cbv zeta. cbn [fst].
    destruct HR as ((Hpat & Hmass & Hnum & Hpairs & Hdim & Hrows & Hpos) & Hnm & Heps & Hbig & Hrel & Hmod & Hg & _).
    refine (C81_conservation_proof p dim M nm order n _ _ _ _ _ (euler_prepare p dim M [] data t0 v) st tau k Hpat Hmass Hnum Hsym Hdim (proj1 Hg) _ Hskew).
    intros i Hi. apply A, Hi.
  - intros a b v w Pa Pb Eab [A1 B1] [A2 B2]. split; [apply (above_sadd p dim M nm s0 [] data order n HR); assumption|].
    intros k. unfold euler_sadd. cbn [fst]. rewrite total_linear, B1, B2, <- Rmult_plus_distr_r, Eab. ring.
  - intros v [A _]. exact A.
  - exact H.
  - split; [exact Hv|reflexivity].
  - exact Q.
Qed.
