From Coq Require Import Reals List Arith Bool Lia Lra FunctionalExtensionality.
From Verif Require Import RVec EulerSystem EulerLimiter EulerLimiterBounds EulerRiemann EulerScheme EulerSchemeSpec SchemeSpec SchemeProofs SchemeLimit SchemeFinal EulerSchemeProofs EulerSchemeFinal EulerSchemeBounds EulerSchemeExamples
  PhysSpec EulerPhysProofs EulerMinEntropySpec EulerMinEntropyFinal EulerMinEntropyExamples TimeInt TimeIntSpec TimeIntProofs EulerRun EulerRunSpec.
From Verif Require Import Scheme.
Import ListNotations.
Local Open Scope R_scope.

(** ** The integrator without violations *)
Section Generic.
Variable SV : Type.
Variable prep : R -> SV -> SV.
Variable rows : R -> SV -> list R.
Variable hyp : SV -> list (SV * R) -> R -> SV * bool.
Variable para : SV -> R -> R -> option (SV * bool).
Variable sadd : SV -> R -> R -> SV -> SV.

Lemma hstep_first U m s tau : tau = fold_right Rmin m (rows (st_cfl _ s) U) -> 0 < tau -> snd (hyp U [] tau) = false ->
  hyperbolic_step SV rows hyp U [] 0 (Some m) s = (Ok (fst (hyp U [] tau), tau), s).
Proof using Type.
  intros E P F. unfold hyperbolic_step, select_tau. rewrite <- E. destruct (Rlt_dec 0 tau); [|lra].
  destruct (Req_EM_T 0 0); [|lra]. destruct (hyp U [] tau) as [x b]. cbn [snd] in F. subst b. reflexivity.
Qed.

Lemma hstep_later U st s tau : 0 < tau -> rows (st_cfl _ s) U <> [] -> Forall (fun x => 0 < x) (rows (st_cfl _ s) U) -> snd (hyp U st tau) = false ->
  hyperbolic_step SV rows hyp U st tau None s = (Ok (fst (hyp U st tau), tau), s).
Proof using Type.
  intros P N Q F. unfold hyperbolic_step, select_tau. destruct (rows (st_cfl _ s) U) as [|x l]; [congruence|].
  inversion Q; subst. destruct (Rlt_dec 0 (fold_right Rmin x l)) as [_|C].
  - destruct (Req_EM_T tau 0); [lra|]. destruct (hyp U st tau) as [y b]. cbn [snd] in F. subst b. reflexivity.
  - exfalso. apply C, fold_Rmin_pos; assumption.
Qed.

Definition with_vector (v : SV) (s : mstate SV) : mstate SV := snd (set_vector SV v s).

Lemma trace_step sch t tau_max s :
  explicit_scheme sch = true ->
  let tau := fold_right Rmin (tau_max / efficiency sch) (rows (st_cfl _ s) (prep t (st_vector _ s))) in
  let tr := trace prep (fun o st => fst (hyp o st tau)) sadd sch t tau (st_vector _ s) in
  0 < tau ->
  (forall o st, In (o, st) (fst tr) ->
     rows (st_cfl _ s) o <> [] /\ Forall (fun x => 0 < x) (rows (st_cfl _ s) o) /\ snd (hyp o st tau) = false) ->
  single_step SV prep rows hyp para sadd sch t tau_max s = (Ok (efficiency sch * tau), with_vector (snd tr) s).
Proof using Type.
  intros Hs tau tr Hp H. set (s1 := with_vector (prep t (st_vector _ s)) s).
  assert (Ec : st_cfl _ s1 = st_cfl _ s) by reflexivity.
  assert (L : forall o st, In (o, st) (fst tr) -> hyperbolic_step SV rows hyp o st tau None s1 = (Ok (fst (hyp o st tau), tau), s1)).
  { intros o st Hi. destruct (H o st Hi) as (A & B & C). apply hstep_later; assumption. }
  assert (F : forall m, m = tau_max / efficiency sch -> hyperbolic_step SV rows hyp (prep t (st_vector _ s)) [] 0 (Some m) s1 =
    (Ok (fst (hyp (prep t (st_vector _ s)) [] tau), tau), s1)).
  { intros m ->. apply hstep_first; [reflexivity|exact Hp|]. apply (H (prep t (st_vector _ s)) []). unfold tr. destruct sch; try discriminate Hs; left; reflexivity. }
  destruct sch; try discriminate Hs; cbn [efficiency] in *;
  unfold single_step, step_ssprk_22, step_ssprk_33, step_erk_11, step_erk_22, step_erk_33, step_erk_43, step_erk_54;
  unfold bind at 1; rewrite prepare_argument_eq;
  change (snd (set_vector SV (prep t (st_vector SV s)) s)) with s1;
  cbv zeta; unfold bind at 1;
  (rewrite F by (first [reflexivity|field])); cbn [fst snd];
  repeat (unfold bind at 1; rewrite L by (unfold tr, trace; cbv zeta; cbn [fst]; repeat (first [left; reflexivity|right])); cbn [fst snd]);
  unfold bind, set_vector, ret; (apply f_equal2; [f_equal; ring|reflexivity]).
Qed.
End Generic.

(** A property kept by preparation, suitable substeps and convex combinations. *)
Section Keep.
Context {SV : Type}.
Variable prep : R -> SV -> SV.
Variable new : SV -> list (SV * R) -> SV.
Variable sadd : SV -> R -> R -> SV -> SV.
Variables A S : SV -> Prop.
Hypothesis HP : forall t v, A v -> A (prep t v).
Hypothesis HN : forall t v st, A v -> S (prep t v) -> Forall (fun x => A (fst x)) st -> A (new (prep t v) st).
Hypothesis HC : forall a b v w, 0 <= a -> 0 <= b -> a + b = 1 -> A v -> A w -> A (sadd v a b w).

Ltac keep_tac := first
  [ match goal with X : A ?v |- A ?v => exact X end
  | match goal with |- A (sadd _ _ _ _) => apply HC; [lra|lra|lra|keep_tac|keep_tac] end
  | match goal with |- A (prep _ _) => apply HP; keep_tac end
  | match goal with |- A (new _ _) => apply HN; [keep_tac|match goal with X : S ?v |- S ?v => exact X end|
      repeat (apply Forall_cons; [cbn [fst]; keep_tac|]); apply Forall_nil] end ].

Lemma trace_keep sch t tau v : A v ->
  let tr := trace prep new sadd sch t tau v in
  Forall (fun x => S (fst x)) (fst tr) ->
  Forall (fun x => exists t v, fst x = prep t v /\ A v) (fst tr) /\ A (snd tr).
Proof using HP HN HC.
  intros Hv tr H. unfold tr in *. clear tr.
  destruct sch; unfold trace in *; cbv zeta in *; cbn [fst snd] in *;
  (repeat match goal with X : Forall _ (_ :: _) |- _ => inversion X; subst; clear X; cbn [fst] in * end);
  (split; [repeat (apply Forall_cons; [eexists _, _; split; [reflexivity|keep_tac]|]); apply Forall_nil|keep_tac]).
Qed.
End Keep.

(** ** Boundary conditions *)
Lemma at_least_energy s dim s0 u v : 0 <= s0 -> at_least s dim s0 u -> density v = density u -> internal_energy dim u <= internal_energy dim v ->
  at_least s dim s0 v.
Proof.
  intros Hs [A B] Er Ei. apply positive_gas_eq in A. split.
  - apply positive_gas_eq. rewrite Er. split; [apply A|lra].
  - rewrite Er. lra.
Qed.

Lemma boundary_above s dim s0 data e t u : 0 <= s0 -> calm_entry s dim s0 data e -> at_least s dim s0 u ->
  at_least s dim s0 (apply_boundary_conditions s dim (be_id e) u (be_normal e) (data (be_position e) t)).
Proof.
  intros Hs Hc Hu. pose proof (proj1 (positive_gas_eq dim u) (proj1 Hu)) as [Hr _].
  unfold calm_entry in Hc. destruct (be_id e) eqn:E; try exact Hu.
  - destruct (slip_spec s dim u (be_normal e) (data (be_position e) t) Hc) as (A1 & _ & _ & _ & A2 & _).
    eapply at_least_energy; [exact Hs|exact Hu|exact A1|apply A2, Hr].
  - destruct (no_slip_spec s dim u (be_normal e) (data (be_position e) t)) as (A1 & _ & _ & A2 & _).
    eapply at_least_energy; [exact Hs|exact Hu|exact A1|apply A2, Hr].
  - apply at_least_eq. apply Hc.
  - destruct Hc.
Qed.

Lemma gas_above_eq s dim M s0 U : gas_above s dim M s0 U <-> forall i, active M i -> at_least s dim s0 (U i).
Proof. split; intros H i Hi; apply at_least_eq; apply H, Hi. Qed.

Lemma apply_boundary_above p dim M s0 data entries t U : 0 <= s0 -> Forall (calm_entry (ep_system p) dim s0 data) entries ->
  gas_above (ep_system p) dim M s0 U -> gas_above (ep_system p) dim M s0 (apply_boundary p dim entries data t U).
Proof.
  intros Hs Hc HU. unfold apply_boundary. revert U HU. induction Hc as [|e l He Hl IH]; intros U HU; [exact HU|].
  cbn [fold_left]. apply IH. rewrite gas_above_eq in *. intros i Hi.
  assert (Q : at_least (ep_system p) dim s0 (upd U (be_row e) (apply_boundary_conditions (ep_system p) dim (be_id e) (U (be_row e)) (be_normal e) (data (be_position e) t)) i)).
  { unfold upd. destruct (Nat.eqb_spec i (be_row e)) as [E|E]; [|apply HU, Hi]. apply boundary_above; try assumption. rewrite <- E. apply HU, Hi. }
  destruct (be_id e); try exact Q. apply HU, Hi.
Qed.

(** ** The lower bounds of the entropy *)
Lemma extend_keep p dim M (P : ebounds -> Prop) :
  symmetric_pattern M ->
  (forall a b, P a -> P b -> P (EulerLimiter.combine_bounds a b)) ->
  forall ord, (forall i, In i ord -> (i < n_rows M)%nat) -> forall b0 : nat -> ebounds,
  (forall i, active M i -> P (b0 i)) -> forall i, active M i -> P (extend_bounds (euler_scheme p dim) M ord b0 i).
Proof.
  intros Hpat HP ord Ho b0 Hb0. unfold extend_bounds.
  assert (G : forall b : nat -> ebounds, (forall i, active M i -> P (b i)) -> forall i, active M i ->
    P (fold_left (fun b i => if constrained M i then b
       else upd b i (fold_left (fun acc j => combine_bounds nat (euler_scheme p dim) acc (if owner M j =? owner M i then b j else b0 j)%nat)
              (neighbours M i) (b i))) ord b i)); [|apply G, Hb0].
  induction ord as [|r ord IH]; intros b Hb i Ha; [apply Hb, Ha|].
  cbn [fold_left]. apply IH; [intros k Hk; apply Ho; right; exact Hk| |exact Ha].
  intros k Hk. destruct (constrained M r) eqn:Ec; [apply Hb, Hk|]. unfold upd.
  destruct (k =? r)%nat; [|apply Hb, Hk].
  assert (Hr : (r < n_rows M)%nat) by (apply Ho; left; reflexivity).
  assert (Har : active M r) by (apply active_constrained; auto).
  assert (N : forall l, (forall j, In j l -> active M j) -> forall x : ebounds, P x ->
     P (fold_left (fun acc j => combine_bounds nat (euler_scheme p dim) acc (if owner M j =? owner M r then b j else b0 j)%nat) l x)).
  { induction l as [|j l IHl]; intros Hl x Hx; [exact Hx|]. cbn [fold_left]. apply IHl; [intros; apply Hl; right; assumption|].
    assert (active M j) by (apply Hl; left; reflexivity). cbn [combine_bounds euler_scheme]. apply HP; [exact Hx|].
    destruct (owner M j =? owner M r)%nat; auto. }
  apply N; [|apply Hb, Har]. intros j Hj. apply active_constrained.
  split; [apply (neighbours_bound M r j Hpat Hr Hj)|apply (neighbour_active M r j Hpat Hr Hj)].
Qed.

Section Step.
Variables (p : eparameters) (dim : nat) (M : mesh) (nm : R).
Local Notation s := (ep_system p).
Local Notation SY := (euler_scheme p dim).
Hypothesis Hmesh : proper_mesh M dim.
Hypothesis Hnm : 0 < nm.
Hypothesis Heps : ep_eps p = 0.
Hypothesis Hbig : 0 < ep_big p.
Hypothesis Hrel : 0 <= ep_relaxation p.
Hypothesis Hmod : moderate_relaxation p dim M.
Hypothesis Hg : 1 < gamma s <= 5 / 3.
Variable s0 : R.
Hypothesis Hs0 : s0 = 0 \/ (ep_relaxation p = 0 /\ 0 <= s0 <= ep_big p).
Variable order : list nat.
Hypothesis Horder : forall i, In i order -> (i < n_rows M)%nat.
Variable n : nat.
Hypothesis Hn : (n <= 2)%nat.
Variable tmp : euler_vector -> temporaries.

Lemma s0_nonneg : 0 <= s0. Proof using Hs0. destruct Hs0 as [H|[_ [H _]]]; lra. Qed.

Lemma entropy_above u : positive_gas dim u -> s0 <= entropy_of_gas s dim u -> s0 <= specific_entropy s dim u.
Proof using Type.
  intros G H. apply positive_gas_eq in G. destruct G as [R1 R2]. apply (entropy_of_gas_eq s dim u s0 R1) in H.
  pose proof (powr_gt0 (density u) (gamma s) R1) as P. rewrite <- (specific_entropy_bound s dim u R1) in H.
  apply Rmult_le_reg_r in H; assumption.
Qed.

(** A substep of suitable size. *)
Lemma run_substep (old : euler_vector) pc0 st tau :
  snd old = euler_precomputed p dim M (fst old) pc0 -> gas_above s dim M s0 (fst old) -> 0 < tau ->
  suitable p dim M nm tmp tau old ->
  gas_above s dim M s0 (fst (fst (euler_update p dim M nm order n tmp old st tau))) /\ snd (euler_update p dim M nm order n tmp old st tau) = false.
Proof using Hmesh Hnm Heps Hbig Hrel Hmod Hg Hs0 Horder Hn.
  intros Hpc Hgas Htau [Hfast Hfits]. destruct Hmesh as (Hpat & Hmass & Hnum & Hpairs & Hdim & Hrows & Hpos).
  pose proof s0_nonneg as Hs.
  assert (HG : forall i, active M i -> positive_gas dim (fst old i)) by (intros i Hi; apply Hgas, Hi).
  set (d0 := tmp_d (tmp old)) in *. unfold euler_rows in Hfits. fold d0 in Hfits.
  destruct (C129_step_proof p dim M nm old pc0 d0 tau 1 Hpat Hmass Hnum Hpairs Hdim Hnm Heps Hbig Hrel Hmod Hg HG Hpc ltac:(lra) ltac:(lra) Hfits
    Hrows Hfast order Horder n (tmp_a (tmp old)) (tmp_l (tmp old)) (tmp_ln (tmp old)) (tmp_new (tmp old)) st Hn) as [A B].
  unfold euler_update. cbv zeta. cbn [fst snd]. fold d0. split.
  - intros i Ha. destruct (A i Ha) as [A1 A2]. split; [exact A1|].
    set (V := fst (hyperbolic_update _ _ _ _ _ _ _ _ _ _ _ _ _) i) in *.
    destruct A2 as (_ & _ & A3). apply at_least_eq. split; [exact A1|].
    pose proof (proj1 (positive_gas_eq dim V) A1) as [R1 _].
    assert (E : internal_energy dim V = V (Datatypes.S dim) - lsum (fun k => V (Datatypes.S k) * V (Datatypes.S k)) (seq 0 dim) / (2 * V 0%nat)).
    { rewrite lsum_seq. transitivity (V (Datatypes.S dim) - 1 / 2 * rsum dim (fun k => V (Datatypes.S k) * V (Datatypes.S k)) * (1 / V 0%nat)); [reflexivity|].
      unfold density in R1. field. lra. }
    rewrite E. eapply Rle_trans; [|exact A3]. apply Rmult_le_compat_r; [apply Rlt_le, powr_gt0, R1|].
    assert (B4 : forall k, active M k -> s0 <= s_min (bounds_step4 SY M nm old (dij_matrix SY M nm old d0) tau k)).
    { intros k Hk. destruct (proj1 (active_constrained M k) Hk) as [Hkb Hkc].
      destruct Hs0 as [Z|(Z & _ & Zb)].
      - rewrite Z. apply Rlt_le. eapply (e_bounds_positive p dim M nm old pc0 d0 tau); try eassumption; [lra|apply Hfast; exact Hk].
      - rewrite e_bounds_stencil. set (l := lim_stencil _ _ _ _ _).
        assert (F := fold_bounds s dim (map (e_contribution p dim M nm old d0 tau k) (columns M k)) (lim_reset (ep_big p) (fst old k))). cbv zeta in F.
        change (fold_left (lim_step s dim) (map (e_contribution p dim M nm old d0 tau k) (columns M k)) (lim_reset (ep_big p) (fst old k))) with l in F.
        destruct F as (_ & _ & _ & D).
        assert (P2 : s0 <= s_min (lim_bounds l)).
        { apply (D (fun x => s0 <= x)); [exact Zb|]. intros c Hcin. apply in_map_iff in Hcin. destruct Hcin as (j & <- & Hj).
          change (entropy_of (e_contribution p dim M nm old d0 tau k j)) with (fst (snd old j)).
          destruct (e_entropy_pos p dim M old pc0 Hpat HG Hpc k j Hkb Hkc Hj) as [QE _].
          pose proof (cols_active M k j Hpat Hk Hj) as Hjb.
          eapply Rle_trans; [|right; symmetry; exact QE]. apply entropy_above; apply Hgas; exact Hjb. }
        unfold lim_get_bounds. cbv zeta. cbn [s_min]. rewrite Z. eapply Rle_trans; [|apply Rmax_l]. rewrite Rmult_0_r. lra. }
    unfold limiter_bounds_i. destruct (discontinuous M); [|apply B4, Ha].
    apply (extend_keep p dim M (fun b => s0 <= s_min b) Hpat); [|exact Horder|exact B4|exact Ha].
    intros a b Qa Qb. unfold EulerLimiter.combine_bounds. cbn [s_min]. apply Rmin_glb; assumption.
  - destruct (snd (hyperbolic_update _ _ _ _ _ _ _ _ _ _ _ _ _)) eqn:E; [|reflexivity]. exfalso. apply B.
    unfold hyperbolic_update, update in E. cbn [snd] in E. apply restart_spec in E. destruct E as [E1 (i & j & Hi & Hj & E2)].
    split; [exact E1|]. exists i, j. split; [exact Hi|]. destruct (neighbours_columns M i j Hpat (proj1 Hi) Hj) as [Q1 Q2]. auto.
Qed.

Variable entries : list bentry.
Variable data : RVec.vec -> R -> state nat.
Hypothesis Hcalm : Forall (calm_entry s dim s0 data) entries.
Local Notation prep := (euler_prepare p dim M entries data).
Local Notation above v := (gas_above s dim M s0 (fst v)).

Lemma prepare_above t v : above v -> above (prep t v).
Proof using Hs0 Hcalm. intros H. unfold euler_prepare. cbv zeta. cbn [fst]. apply apply_boundary_above; [apply s0_nonneg|exact Hcalm|exact H]. Qed.

Lemma sadd_above a b v w : 0 <= a -> 0 <= b -> a + b = 1 -> above v -> above w -> above (euler_sadd v a b w).
Proof using Hs0 Hg.
  intros Pa Pb E Hv Hw. rewrite gas_above_eq in *. intros i Hi. unfold euler_sadd. cbn [fst].
  assert (Ha : 0 <= a <= 1) by lra. replace b with (1 - a) by lra.
  apply (at_least_convex s dim s0 ltac:(lra) s0_nonneg (fst v i) (fst w i) a (Hv i Hi) (Hw i Hi) Ha).
Qed.

Section Trace.
Variable tau : R.
Hypothesis Htau : 0 < tau.
Local Notation new := (fun o st => fst (euler_update p dim M nm order n tmp o st tau)).

Lemma new_above t v st : above v -> suitable p dim M nm tmp tau (prep t v) -> above (new (prep t v) st).
Proof using Hmesh Hnm Heps Hbig Hrel Hmod Hg Hs0 Horder Hn Hcalm Htau.
  intros Hv Hs. eapply run_substep; [reflexivity|apply prepare_above, Hv|exact Htau|exact Hs].
Qed.
Lemma new_unflagged t v st : above v -> suitable p dim M nm tmp tau (prep t v) -> snd (euler_update p dim M nm order n tmp (prep t v) st tau) = false.
Proof using Hmesh Hnm Heps Hbig Hrel Hmod Hg Hs0 Horder Hn Hcalm Htau.
  intros Hv Hs. eapply run_substep; [reflexivity|apply prepare_above, Hv|exact Htau|exact Hs].
Qed.

Lemma trace_above sch t v : above v ->
  let tr := trace prep new euler_sadd sch t tau v in
  (forall o st, In (o, st) (fst tr) -> suitable p dim M nm tmp tau o) ->
  (forall o st, In (o, st) (fst tr) -> above o /\ snd (euler_update p dim M nm order n tmp o st tau) = false) /\ above (snd tr).
Proof using Hmesh Hnm Heps Hbig Hrel Hmod Hg Hs0 Horder Hn Hcalm Htau.
  intros Hv tr H.
  destruct (trace_keep prep new euler_sadd (fun v => above v) (suitable p dim M nm tmp tau) prepare_above (fun t v st a b _ => new_above t v st a b) sadd_above sch t tau v Hv) as [A B].
  - apply Forall_forall. intros [o st] Hi. exact (H o st Hi).
  - split; [|exact B]. intros o st Hi. rewrite Forall_forall in A. destruct (A (o, st) Hi) as (t1 & v1 & E & Hv1). cbn [fst] in E.
    pose proof (H o st Hi) as Hs. rewrite E in *. split; [apply prepare_above, Hv1|apply new_unflagged; assumption].
Qed.
End Trace.
End Step.
