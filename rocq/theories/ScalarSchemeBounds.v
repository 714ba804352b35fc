(** * Scalar scheme: bounds of the limiter, complete step, runs *)
From Coq Require Import Reals List Arith Bool Lia Lra Psatz FunctionalExtensionality.
From Verif Require Import RVec Simd Newton EulerSystem EulerLimiter EulerLimiterBounds Scalar ScalarSpec ScalarProofs Indicator SWScheme
  EulerSchemeProofs ScalarScheme ScalarSchemeSpec ScalarSchemeProofs SchemeSpec SchemeProofs SchemeUpdate SchemeLimit SchemeFinal.
From Verif Require Import Scheme.
Import ListNotations.
Local Open Scope R_scope.

(** ** Relaxed bounds *)

Lemma sc_fold_denominator dim cs : forall l,
  u_relaxation_denominator (fold_left (sc_step dim) cs l) = u_relaxation_denominator l + INR (length cs).
Proof.
  induction cs as [|c cs IH]; intros l; [cbn; ring|]. cbn [fold_left length]. rewrite IH, S_INR.
  cbn [u_relaxation_denominator sc_step sc_accumulate]. unfold sc_step, sc_accumulate. cbn [u_relaxation_denominator].
  rewrite Rabs_R1. ring.
Qed.

Lemma sc_fold_hull dim a b cs : forall l,
  a <= u_min (sl_bounds l) -> u_max (sl_bounds l) <= b ->
  (forall x, In x cs -> a <= sc_bar_of dim (sl_u_i l) (sl_flux_i l) x <= b) ->
  let r := fold_left (sc_step dim) cs l in a <= u_min (sl_bounds r) /\ u_max (sl_bounds r) <= b.
Proof.
  induction cs as [|c cs IH]; intros l H1 H2 H3; cbv zeta; [split; assumption|]. cbn [fold_left].
  apply IH.
  - change (u_min (sl_bounds (sc_step dim l c))) with (Rmin (u_min (sl_bounds l)) (sc_bar_of dim (sl_u_i l) (sl_flux_i l) c)).
    apply Rmin_glb; [exact H1|]. apply H3. left. reflexivity.
  - change (u_max (sl_bounds (sc_step dim l c))) with (Rmax (u_max (sl_bounds l)) (sc_bar_of dim (sl_u_i l) (sl_flux_i l) c)).
    apply Rmax_lub; [exact H2|]. apply H3. left. reflexivity.
  - intros x Hx. apply (H3 x). right. exact Hx.
Qed.

Lemma quotient_nonneg eps l : 0 <= eps -> 0 < u_relaxation_denominator l ->
  0 <= Rabs (u_relaxation_numerator l) / (Rabs (u_relaxation_denominator l) + eps).
Proof.
  intros He Hd. apply Rmult_le_pos; [apply Rabs_pos|]. left. apply Rinv_0_lt_compat.
  rewrite Rabs_right by lra. lra.
Qed.

Lemma sc_relaxed0 eps factor dim l hd : 0 <= eps -> 0 <= factor -> 0 < u_relaxation_denominator l ->
  let r := sc_get_bounds eps factor dim l hd in
  u_min r <= u_min (sl_bounds l) /\ u_max (sl_bounds l) <= u_max r.
Proof.
  intros He Hf Hd r.
  assert (R0 := relaxation_radius_nonneg dim hd).
  assert (Hr : 0 <= relaxation_radius dim hd * factor) by (apply Rmult_le_pos; lra).
  unfold r, sc_get_bounds; cbn [u_min u_max]. set (ri := relaxation_radius dim hd * factor) in *. clearbody ri.
  pose proof (quotient_nonneg eps l He Hd) as Hx. set (x := Rabs _ / _) in *. clearbody x. split.
  - apply Rmax_lub; [|lra].
    destruct (Rle_lt_dec 0 (u_min (sl_bounds l))).
    + eapply Rle_trans; [apply Rmin_l|nra].
    + eapply Rle_trans; [apply Rmin_r|nra].
  - apply Rmin_glb; [|lra].
    destruct (Rle_lt_dec 0 (u_max (sl_bounds l))).
    + eapply Rle_trans; [|apply Rmax_l]. nra.
    + eapply Rle_trans; [|apply Rmax_r]. nra.
Qed.

Lemma sc_unrelaxed eps dim l hd : 0 <= eps -> 0 < u_relaxation_denominator l ->
  let r := sc_get_bounds eps 0 dim l hd in u_min r = u_min (sl_bounds l) /\ u_max r = u_max (sl_bounds l).
Proof.
  intros He Hd r. unfold r, sc_get_bounds; cbn [u_min u_max].
  pose proof (quotient_nonneg eps l He Hd) as Hx. set (x := Rabs _ / _) in *. clearbody x.
  rewrite Rmult_0_r, Rminus_0_r, Rplus_0_r, !Rmult_1_l. rewrite Rmin_left by lra. rewrite (Rmax_left (u_max _)) by lra.
  rewrite Rmax_left by lra. rewrite Rmin_left by lra. split; reflexivity.
Qed.

Lemma sc_relaxed_window eps factor dim l hd a b : 0 <= factor ->
  let r := relaxation_radius dim hd * factor in r <= 1 ->
  a <= u_min (sl_bounds l) -> u_max (sl_bounds l) <= b ->
  a - r * Rabs a <= u_min (sc_get_bounds eps factor dim l hd) /\ u_max (sc_get_bounds eps factor dim l hd) <= b + r * Rabs b.
Proof.
  intros Hf r Hr Ha Hb. assert (R0 := relaxation_radius_nonneg dim hd).
  assert (H0 : 0 <= r) by (apply Rmult_le_pos; lra).
  unfold sc_get_bounds; cbn [u_min u_max]. fold r. clearbody r. set (x := Rabs _ / _). clearbody x. split.
  - eapply Rle_trans; [|apply Rmax_l]. apply Rmin_glb; unfold Rabs; destruct (Rcase_abs a); nra.
  - eapply Rle_trans; [apply Rmin_l|]. apply Rmax_lub; unfold Rabs; destruct (Rcase_abs b); nra.
Qed.

Section Bounds.
Variables (p : sparameters) (dim : nat) (M : mesh) (nm : R).
Local Notation F := (sp_flux p).
Local Notation SY := (scalar_scheme p dim).
Variables (old : (nat -> state unit) * PC unit SY) (pc0 : nat -> vec) (d0 : nat -> nat -> R) (cfl tau : R).
Local Notation U := (fst old).
Local Notation d := (dij_matrix SY M nm old d0).
Hypothesis Hpat : symmetric_pattern M.
Hypothesis Hnum : valid_numbering M.
Hypothesis Hpairs : pairs_listed M.
Hypothesis Hpc : snd old = scalar_precomputed p dim M U pc0.
Hypothesis Hest : well_estimated p dim M U.
Hypothesis Hmass : positive_masses M.
Hypothesis Hnm : 0 < nm.
Hypothesis Hcfl : 0 < cfl <= 1.
Hypothesis Htau : 0 <= tau.
Hypothesis Hstep : forall t, In t (row_tau SY M nm cfl old d0) -> tau <= t.
Hypothesis Hsum : forall i, active M i -> zero_row_sum M i.
Hypothesis Heps : 0 <= sp_eps p.
Hypothesis Hrel : 0 <= sp_relaxation p.
Hypothesis Hfast : zero_or_fast p dim M nm old d0.

Definition s_contribution (i j : nat) : scontrib :=
  {| sc_u := U j tt; sc_f := Scheme.flux SY old j; sc_c := vec_of (cdiv (c_ij M i j) (Rmax (d i j) (100 * nm)));
     sc_shift := affine_shift_i SY M old d tau i tt |}.

Lemma s_shift i : affine_shift_i SY M old d tau i tt = 0.
Proof. unfold affine_shift_i, source. cbn [shallow_water have_source_terms scalar_scheme]. unfold splus, smult, szero. ring. Qed.

Lemma s_bounds_stencil i :
  bounds_step4 SY M nm old d tau i =
  sc_get_bounds (sp_eps p) (sp_relaxation p) dim
    (sc_stencil dim (sp_big p) (U i tt) (Scheme.flux SY old i) (map (s_contribution i) (columns M i))) (mass M i * (1 / measure_of_omega M)).
Proof.
  unfold bounds_step4. cbn [limiter_bounds limiter_reset shallow_water scalar_scheme].
  f_equal. unfold sc_stencil.
  generalize (sc_reset (sp_big p) (U i tt) (Scheme.flux SY old i)). induction (columns M i) as [|j l IH]; intros x; [reflexivity|].
  cbn [map fold_left]. rewrite IH. reflexivity.
Qed.

Lemma s_flux_dot i c : active M i -> dot dim (Scheme.flux SY old i) (vec_of c) = flux_n F dim (vec_of c) (U i tt).
Proof.
  intros Ha. pose proof (s_flux_value p dim M old pc0 Hpc i c Ha) as E. rewrite dotp_dot in E. exact E.
Qed.

(** The bar states of the limiter. *)
Lemma s_bar_of i j : active M i -> In j (neighbours M i) ->
  sc_bar_of dim (U i tt) (Scheme.flux SY old i) (s_contribution i j) =
  (U i tt + U j tt) / 2 - (flux_n F dim (vec_of (c_ij M i j)) (U j tt) - flux_n F dim (vec_of (c_ij M i j)) (U i tt)) / (2 * Rmax (d i j) (100 * nm)).
Proof.
  intros Ha Hj. pose proof (col_active M i j Hpat (proj1 Ha) Hj) as Hb.
  unfold sc_bar_of, sc_bar_state, s_contribution. cbn [sc_u sc_f sc_c sc_shift]. rewrite s_shift, dot_sub_l.
  assert (E : forall k, active M k -> dot dim (Scheme.flux SY old k) (vec_of (cdiv (c_ij M i j) (Rmax (d i j) (100 * nm)))) =
     flux_n F dim (vec_of (c_ij M i j)) (U k tt) / Rmax (d i j) (100 * nm)).
  { intros k Hk. rewrite <- (s_flux_dot k (c_ij M i j) Hk). rewrite <- !dotp_dot, dotp_cdiv. reflexivity. }
  rewrite (E i Ha), (E j Hb). pose proof (Rmax_r (d i j) (100 * nm)). field. lra.
Qed.

Lemma s_bar_pos i j : active M i -> In j (neighbours M i) -> 0 < d i j ->
  sc_bar_of dim (U i tt) (Scheme.flux SY old i) (s_contribution i j) = bar_state SY M dim (s_F p dim) old (d i j) i j tt.
Proof.
  intros Ha Hj Hd. pose proof (col_active M i j Hpat (proj1 Ha) Hj) as Hb.
  rewrite (s_bar_of i j Ha Hj). unfold bar_state. cbv zeta.
  rewrite (s_flux_value p dim M old pc0 Hpc i _ Ha), (s_flux_value p dim M old pc0 Hpc j _ Hb).
  destruct (Hfast i j Ha Hj) as [Z|L]; [lra|]. rewrite Rmax_left by exact L. reflexivity.
Qed.

Lemma s_bar_diag i : sc_bar_of dim (U i tt) (Scheme.flux SY old i) (s_contribution i i) = U i tt.
Proof.
  unfold sc_bar_of, sc_bar_state, s_contribution. cbn [sc_u sc_f sc_c sc_shift]. rewrite s_shift, dot_sub_l. field.
Qed.

Lemma s_bar_hull i j : active M i -> In j (columns M i) ->
  Rmin (U i tt) (U j tt) <= sc_bar_of dim (U i tt) (Scheme.flux SY old i) (s_contribution i j) <= Rmax (U i tt) (U j tt).
Proof.
  intros Ha Hj. pose proof (proj1 Ha) as Hi. rewrite (columns_split M i Hpat Hi) in Hj. destruct Hj as [<-|Hj].
  - rewrite s_bar_diag. split; [apply Rmin_l|apply Rmax_l].
  - destruct (dij_lipschitz p dim M nm old pc0 d0 Hpat Hnum Hpairs Hpc Hest i j Ha Hj) as [D0 _].
    destruct (Rle_lt_or_eq_dec 0 _ D0) as [P|Z].
    + rewrite (s_bar_pos i j Ha Hj P). apply (s_bar p dim M nm old pc0 d0 Hpat Hnum Hpairs Hpc Hest i j Ha Hj P).
    + rewrite (s_bar_of i j Ha Hj).
      rewrite (s_flat p dim M nm old pc0 d0 Hpat Hnum Hpairs Hpc Hest i j Ha Hj (eq_sym Z)), Rminus_eq_0.
      unfold Rdiv at 2 4. rewrite Rmult_0_l, Rminus_0_r.
      pose proof (Rmin_l (U i tt) (U j tt)). pose proof (Rmin_r (U i tt) (U j tt)).
      pose proof (Rmax_l (U i tt) (U j tt)). pose proof (Rmax_r (U i tt) (U j tt)). lra.
Qed.

Lemma s_denominator i : active M i ->
  0 < u_relaxation_denominator (sc_stencil dim (sp_big p) (U i tt) (Scheme.flux SY old i) (map (s_contribution i) (columns M i))).
Proof.
  intros Ha. unfold sc_stencil. rewrite sc_fold_denominator, map_length. cbn [u_relaxation_denominator sc_reset].
  rewrite (columns_split M i Hpat (proj1 Ha)). cbn [length]. rewrite S_INR. pose proof (pos_INR (length (neighbours M i))). lra.
Qed.

Lemma s_contains i j : active M i -> In j (columns M i) ->
  value_inside (bounds_step4 SY M nm old d tau i) (fun _ => sc_bar_of dim (U i tt) (Scheme.flux SY old i) (s_contribution i j)).
Proof.
  intros Ha Hj. unfold value_inside. rewrite s_bounds_stencil.
  destruct (sc_fold dim (map (s_contribution i) (columns M i)) (sc_reset (sp_big p) (U i tt) (Scheme.flux SY old i))) as (_ & _ & D & _).
  specialize (D (s_contribution i j) (in_map _ _ _ Hj)). cbn [sl_u_i sl_flux_i sc_reset] in D.
  pose proof (sc_relaxed0 (sp_eps p) (sp_relaxation p) dim _ (mass M i * (1 / measure_of_omega M)) Heps Hrel (s_denominator i Ha)) as K.
  cbv zeta in K. unfold sc_stencil in *. lra.
Qed.

Lemma s_low_inside order a0 l0 ln0 new0 stages i : active M i ->
  value_inside (bounds_step4 SY M nm old d tau i) (fst (hyperbolic_update SY M nm order 0 a0 d0 l0 ln0 new0 old stages tau) i).
Proof.
  intros Ha. assert (Hii : In i (columns M i)) by (rewrite (columns_split M i Hpat (proj1 Ha)); left; reflexivity).
  apply (s_low_convex p dim M nm old pc0 d0 Hpat Hnum Hpairs Hpc Hest cfl tau Hmass Hnm Hcfl Htau Hstep Hsum); [exact Ha| |].
  - pose proof (s_contains i i Ha Hii) as C. rewrite s_bar_diag in C. exact C.
  - intros j Hj P. rewrite <- (s_bar_pos i j Ha Hj P).
    assert (Hjc : In j (columns M i)) by (rewrite (columns_split M i Hpat (proj1 Ha)); right; exact Hj).
    exact (s_contains i j Ha Hjc).
Qed.

(** After the extension over the stencil (discontinuous ansatz). *)
Lemma s_wider order i u : value_inside (bounds_step4 SY M nm old d tau i) u ->
  value_inside (limiter_bounds_i SY M nm old d tau order i) u.
Proof.
  intros H. unfold limiter_bounds_i. destruct (discontinuous M); [|exact H].
  apply (proj1 (C20_extended_bounds_proof SY M value_inside
        ltac:(idtac; intros a b v Q; unfold value_inside in *; cbn [combine_bounds scalar_scheme]; unfold sc_combine_bounds; cbn [u_min u_max];
          pose proof (Rmin_l (u_min a) (u_min b)); pose proof (Rmin_r (u_min a) (u_min b));
          pose proof (Rmax_l (u_max a) (u_max b)); pose proof (Rmax_r (u_max a) (u_max b)); destruct Q; lra)
        order _ i u) H).
Qed.

Definition s_inside (b : sbounds) (u : state unit) : Prop := value_inside b u /\ (sp_eps p = 0 \/ 0 <= u_max b).

Lemma s_guarantee : 0 < sp_tiny p -> limiter_guarantee SY s_inside.
Proof.
  intros Ht b u P [HI HE]. cbn [limiter_limit scalar_scheme]. unfold scalar_limit, sc_limit. cbn [map fst hd].
  set (L := {| sl_b := b; sl_U := u tt; sl_P := P tt; sl_tmin := 0; sl_tmax := 1 |}).
  pose proof (sc_limit_range (sp_eps p) (sp_tiny p) L ltac:(cbn; lra)) as Rg. cbn [sl_tmin sl_tmax L] in Rg.
  assert (HC : scalar_call L).
  { unfold scalar_call, value_within, value_at, value_inside in *. cbn. lra. }
  pose proof (sc_limit_bounds (sp_eps p) (sp_tiny p) L Heps Ht HC) as B. unfold value_within, value_at in B. cbn [L sl_b sl_U sl_P sl_tmax] in B.
  assert (Z : 1 * (sp_eps p * Rmax 0 (- u_max b)) = 0).
  { destruct HE as [->|Hu]; [ring|]. rewrite Rmax_left by lra. ring. }
  rewrite Z in B. fold L in B. set (l := sc_limit1 _ _ L) in *. clearbody l.
  split; [exact Rg|]. intros s Hs. split; [|exact HE]. unfold value_inside in *.
  destruct (Rle_lt_dec 0 (P tt)); nra.
Qed.

Lemma s_final order n a0 l0 ln0 new0 stages : 0 < sp_tiny p -> (n <= 2)%nat ->
  let bounds := limiter_bounds_i SY M nm old d tau order in
  (sp_eps p = 0 \/ forall i, active M i -> 0 <= u_max (bounds i)) ->
  forall i, active M i ->
  value_inside (bounds i) (fst (hyperbolic_update SY M nm order n a0 d0 l0 ln0 new0 old stages tau) i).
Proof.
  intros Ht Hn bounds HE i Ha.
  assert (Q : s_inside (bounds i) (fst (hyperbolic_update SY M nm order n a0 d0 l0 ln0 new0 old stages tau) i)); [|apply Q].
  revert i Ha. apply (C20_inside_bounds_proof unit SY M nm s_inside); try assumption.
  - intros b u v x [H1 H2] [H3 _] Hx. split; [|exact H2]. apply (interval_set (u_min b) (u_max b)); assumption.
  - apply s_guarantee, Ht.
  - intros i Ha. split; [apply s_wider, s_low_inside, Ha|]. destruct HE as [E|E]; [left; exact E|right; apply E, Ha].
Qed.

Lemma s_verdict order n a0 new0 stages :
  ~ violation SY M nm order n (compute_alpha SY M old a0) d new0 old stages tau.
Proof.
  intros [_ (i & j & Ha & _ & _ & E)].
  pose proof (s_wider order i _ (s_low_inside order a0 (fun _ _ => 0) (fun _ _ => 0) new0 stages i Ha)) as Q.
  cbn [limiter_limit scalar_scheme] in E. unfold scalar_limit in E. cbn [snd] in E.
  match type of E with snd (sc_limit ?e ?t ?l) = _ => pose proof (sc_limit_success e t l (fst (sc_limit e t l)) (snd (sc_limit e t l)) Heps) as G end.
  rewrite G in E; [discriminate| |apply surjective_pairing].
  constructor; [|constructor]. unfold value_within, value_at. cbn.
  change (fst (hyperbolic_update SY M nm order 0 a0 d0 (fun _ _ => 0) (fun _ _ => 0) new0 old stages tau)) with (low_order_update SY M old d tau new0) in Q.
  unfold value_inside in Q. lra.
Qed.

Lemma s_step4_window a b i : relaxation_radius dim (mass M i * (1 / measure_of_omega M)) * sp_relaxation p <= 1 ->
  - sp_big p <= b -> a <= sp_big p -> active M i ->
  (forall j, In j (columns M i) -> a <= U j tt <= b) ->
  let r := relaxation_radius dim (mass M i * (1 / measure_of_omega M)) * sp_relaxation p in
  a - r * Rabs a <= u_min (bounds_step4 SY M nm old d tau i) /\ u_max (bounds_step4 SY M nm old d tau i) <= b + r * Rabs b.
Proof.
  intros Hz H1 H2 Ha HU r. rewrite s_bounds_stencil. 
  assert (Hh : a <= u_min (sl_bounds (sc_stencil dim (sp_big p) (U i tt) (Scheme.flux SY old i) (map (s_contribution i) (columns M i)))) /\
    u_max (sl_bounds (sc_stencil dim (sp_big p) (U i tt) (Scheme.flux SY old i) (map (s_contribution i) (columns M i)))) <= b).
  { unfold sc_stencil. apply sc_fold_hull; cbn [sl_bounds sc_reset u_min u_max sl_u_i sl_flux_i]; [exact H2|exact H1|].
    intros x Hx. apply in_map_iff in Hx. destruct Hx as (j & <- & Hj).
    destruct (s_bar_hull i j Ha Hj) as [B1 B2].
    assert (Hii : In i (columns M i)) by (rewrite (columns_split M i Hpat (proj1 Ha)); left; reflexivity).
    pose proof (HU i Hii). pose proof (HU j Hj).
    split; [eapply Rle_trans; [|exact B1]; apply Rmin_glb; lra|eapply Rle_trans; [exact B2|]; apply Rmax_lub; lra]. }
  destruct Hh as [L1 L2].
  exact (sc_relaxed_window (sp_eps p) (sp_relaxation p) dim _ (mass M i * (1 / measure_of_omega M)) a b Hrel Hz L1 L2).
Qed.

(** ** Maximum principle without relaxation *)

Lemma s_step4_hull a b i : sp_relaxation p = 0 -> - sp_big p <= b -> a <= sp_big p -> active M i ->
  (forall j, In j (columns M i) -> a <= U j tt <= b) ->
  a <= u_min (bounds_step4 SY M nm old d tau i) /\ u_max (bounds_step4 SY M nm old d tau i) <= b.
Proof.
  intros Hz H1 H2 Ha HU. rewrite s_bounds_stencil, Hz.
  destruct (sc_unrelaxed (sp_eps p) dim _ (mass M i * (1 / measure_of_omega M)) Heps (s_denominator i Ha)) as [-> ->].
  unfold sc_stencil. apply sc_fold_hull; cbn [sl_bounds sc_reset u_min u_max sl_u_i sl_flux_i]; [exact H2|exact H1|].
  intros x Hx. apply in_map_iff in Hx. destruct Hx as (j & <- & Hj).
  destruct (s_bar_hull i j Ha Hj) as [B1 B2].
  assert (Hii : In i (columns M i)) by (rewrite (columns_split M i Hpat (proj1 Ha)); left; reflexivity).
  pose proof (HU i Hii). pose proof (HU j Hj).
  split; [eapply Rle_trans; [|exact B1]; apply Rmin_glb; lra|eapply Rle_trans; [exact B2|]; apply Rmax_lub; lra].
Qed.

Lemma s_limiter_hull a b order i : sp_relaxation p = 0 -> - sp_big p <= b -> a <= sp_big p ->
  (forall i, In i order -> (i < n_rows M)%nat) -> values_in M a b U -> active M i ->
  a <= u_min (limiter_bounds_i SY M nm old d tau order i) /\ u_max (limiter_bounds_i SY M nm old d tau order i) <= b.
Proof.
  intros Hz H1 H2 Ho HU Ha.
  assert (H4 : forall k, active M k -> a <= u_min (bounds_step4 SY M nm old d tau k) /\ u_max (bounds_step4 SY M nm old d tau k) <= b).
  { intros k Hk. apply s_step4_hull; try assumption. intros j Hj. apply HU. apply (cols_active M k j Hpat Hk Hj). }
  unfold limiter_bounds_i. destruct (discontinuous M); [|apply H4; exact Ha].
  revert i Ha. unfold extend_bounds. revert Ho.
  assert (G : forall ord, (forall i, In i ord -> (i < n_rows M)%nat) -> forall b0 bb : nat -> sbounds,
    (forall i, active M i -> a <= u_min (b0 i) /\ u_max (b0 i) <= b) ->
    (forall i, active M i -> a <= u_min (bb i) /\ u_max (bb i) <= b) -> forall i, active M i ->
    a <= u_min (fold_left (fun b i => if constrained M i then b
       else upd b i (fold_left (fun acc j => combine_bounds unit SY acc (if owner M j =? owner M i then b j else b0 j)%nat)
              (neighbours M i) (b i))) ord bb i) /\
    u_max (fold_left (fun b i => if constrained M i then b
       else upd b i (fold_left (fun acc j => combine_bounds unit SY acc (if owner M j =? owner M i then b j else b0 j)%nat)
              (neighbours M i) (b i))) ord bb i) <= b).
  { induction ord as [|r ord IH]; intros Ho b0 bb Hb0 Hb i Ha; [apply Hb, Ha|].
    cbn [fold_left]. apply IH; [intros k Hk; apply Ho; right; exact Hk|exact Hb0| |exact Ha].
    intros k Hk. destruct (constrained M r) eqn:Ec; [apply Hb, Hk|]. unfold upd.
    destruct (k =? r)%nat; [|apply Hb, Hk].
    assert (Hr : (r < n_rows M)%nat) by (apply Ho; left; reflexivity).
    assert (Har : active M r) by (apply active_constrained; auto).
    assert (N : forall l, (forall j, In j l -> active M j) -> forall x : sbounds, a <= u_min x /\ u_max x <= b ->
       a <= u_min (fold_left (fun acc j => combine_bounds unit SY acc (if owner M j =? owner M r then bb j else b0 j)%nat) l x) /\
       u_max (fold_left (fun acc j => combine_bounds unit SY acc (if owner M j =? owner M r then bb j else b0 j)%nat) l x) <= b).
    { induction l as [|j l IHl]; intros Hl x Hx; [exact Hx|]. cbn [fold_left]. apply IHl; [intros; apply Hl; right; assumption|].
      assert (active M j) by (apply Hl; left; reflexivity).
      cbn [combine_bounds scalar_scheme]. unfold sc_combine_bounds. cbn [u_min u_max].
      assert (Hy : a <= u_min (if owner M j =? owner M r then bb j else b0 j)%nat /\ u_max (if owner M j =? owner M r then bb j else b0 j)%nat <= b)
        by (destruct (owner M j =? owner M r)%nat; auto).
      split; [apply Rmin_glb; tauto|apply Rmax_lub; tauto]. }
    apply N; [|apply Hb, Har]. intros j Hj. apply (col_active M r j Hpat Hr Hj). }
  intros Ho. apply (G order Ho); exact H4.
Qed.

(** The complete step keeps the values in an interval. *)
Lemma s_interval a b order n a0 l0 ln0 new0 stages : 0 < sp_tiny p -> (n <= 2)%nat ->
  sp_relaxation p = 0 -> - sp_big p <= b -> a <= sp_big p -> (sp_eps p = 0 \/ 0 <= a) ->
  (forall i, In i order -> (i < n_rows M)%nat) -> values_in M a b U ->
  values_in M a b (fst (hyperbolic_update SY M nm order n a0 d0 l0 ln0 new0 old stages tau)).
Proof.
  intros Ht Hn Hz H1 H2 HE Ho HU i Ha.
  destruct (s_limiter_hull a b order i Hz H1 H2 Ho HU Ha) as [L1 L2].
  assert (HE' : sp_eps p = 0 \/ forall i, active M i -> 0 <= u_max (limiter_bounds_i SY M nm old d tau order i)).
  { destruct HE as [E|E]; [left; exact E|right]. intros k Hk.
    assert (Hkk : In k (columns M k)) by (rewrite (columns_split M k Hpat (proj1 Hk)); left; reflexivity).
    pose proof (s_wider order k _ (s_contains k k Hk Hkk)) as W. rewrite s_bar_diag in W. unfold value_inside in W.
    pose proof (HU k Hk). lra. }
  pose proof (s_final order n a0 l0 ln0 new0 stages Ht Hn HE' i Ha) as Q. unfold value_inside in Q. lra.
Qed.

(** Continuous ansatz: the values of the stencil bound the new value. *)
Lemma s_local a b order n a0 l0 ln0 new0 stages i : 0 < sp_tiny p -> (n <= 2)%nat ->
  sp_relaxation p = 0 -> - sp_big p <= b -> a <= sp_big p -> discontinuous M = false ->
  (sp_eps p = 0 \/ forall k, active M k -> 0 <= U k tt) -> active M i ->
  (forall j, In j (columns M i) -> a <= U j tt <= b) ->
  a <= fst (hyperbolic_update SY M nm order n a0 d0 l0 ln0 new0 old stages tau) i tt <= b.
Proof.
  intros Ht Hn Hz H1 H2 Hdg HE Ha HU.
  assert (HE' : sp_eps p = 0 \/ forall i, active M i -> 0 <= u_max (limiter_bounds_i SY M nm old d tau order i)).
  { destruct HE as [E|E]; [left; exact E|right]. intros k Hk.
    assert (Hkk : In k (columns M k)) by (rewrite (columns_split M k Hpat (proj1 Hk)); left; reflexivity).
    pose proof (s_wider order k _ (s_contains k k Hk Hkk)) as W. rewrite s_bar_diag in W. unfold value_inside in W.
    pose proof (E k Hk). lra. }
  pose proof (s_final order n a0 l0 ln0 new0 stages Ht Hn HE' i Ha) as Q. unfold value_inside in Q.
  unfold limiter_bounds_i in Q. rewrite Hdg in Q.
  destruct (s_step4_hull a b i Hz H1 H2 Ha HU). lra.
Qed.

(** The same with relaxation. *)
Lemma s_window a b order n a0 l0 ln0 new0 stages i : 0 < sp_tiny p -> (n <= 2)%nat ->
  let r := relaxation_radius dim (mass M i * (1 / measure_of_omega M)) * sp_relaxation p in
  r <= 1 -> - sp_big p <= b -> a <= sp_big p -> discontinuous M = false ->
  (sp_eps p = 0 \/ forall k, active M k -> 0 <= U k tt) -> active M i ->
  (forall j, In j (columns M i) -> a <= U j tt <= b) ->
  a - r * Rabs a <= fst (hyperbolic_update SY M nm order n a0 d0 l0 ln0 new0 old stages tau) i tt <= b + r * Rabs b.
Proof.
  intros Ht Hn r Hz H1 H2 Hdg HE Ha HU.
  assert (HE' : sp_eps p = 0 \/ forall i, active M i -> 0 <= u_max (limiter_bounds_i SY M nm old d tau order i)).
  { destruct HE as [E|E]; [left; exact E|right]. intros k Hk.
    assert (Hkk : In k (columns M k)) by (rewrite (columns_split M k Hpat (proj1 Hk)); left; reflexivity).
    pose proof (s_wider order k _ (s_contains k k Hk Hkk)) as W. rewrite s_bar_diag in W. unfold value_inside in W.
    pose proof (E k Hk). lra. }
  pose proof (s_final order n a0 l0 ln0 new0 stages Ht Hn HE' i Ha) as Q. unfold value_inside in Q.
  unfold limiter_bounds_i in Q. rewrite Hdg in Q.
  destruct (s_step4_window a b i Hz H1 H2 Ha HU) as [W1 W2]. fold r in W1, W2. lra.
Qed.
End Bounds.
