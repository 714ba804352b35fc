(** * Euler scheme: the low-order update is within the bounds of the density *)
From Coq Require Import Reals List Arith Bool Lia Lra Psatz FunctionalExtensionality.
From Verif Require Import RVec Simd Newton EulerSystem EulerLimiter EulerLimiterSpec EulerLimiterProofs EulerLimiterEntropy EulerLimiterBounds EulerLimiterFinal
  PhysSpec PhysLib EulerRiemann EulerRiemannSpec EulerRiemannProofs EulerRiemannFinal EulerSpeed Indicator SWScheme
  EulerScheme EulerSchemeSpec SchemeSpec SchemeProofs SchemeUpdate SchemeLimit SchemeFinal SWSchemeFinal EulerSchemeProofs EulerSchemeFinal.
From Verif Require Import Scheme.
Import ListNotations.
Local Open Scope R_scope.

(** eps = 0 is fine when there is something in the stencil *)
Lemma relaxed_contains0 eps factor dim l hd :
  0 <= eps -> 0 <= factor ->
  0 <= rho_min (lim_bounds l) -> 0 <= rho_max (lim_bounds l) -> 0 <= s_min (lim_bounds l) ->
  s_min (lim_bounds l) <= s_interp_max l ->
  let b := lim_bounds l in let b' := lim_get_bounds eps factor dim l hd in
  rho_min b' <= rho_min b /\ rho_max b <= rho_max b' /\ s_min b' <= s_min b.
Proof.
  intros He Hf H1 H2 H3 H4. cbv zeta. unfold lim_get_bounds. cbv zeta.
  cbn [rho_min rho_max s_min].
  assert (R0 : 0 <= relaxation_radius dim hd * factor)
    by (apply Rmult_le_pos; [apply relaxation_radius_nonneg|exact Hf]).
  set (r := relaxation_radius dim hd * factor) in *.
  assert (Q0 : 0 <= 2 * factor * (Rabs (rho_relaxation_numerator l) / (Rabs (rho_relaxation_denominator l) + eps))).
  { assert (A := Rabs_pos (rho_relaxation_numerator l)). assert (B := Rabs_pos (rho_relaxation_denominator l)).
    apply Rmult_le_pos; [lra|]. apply Rmult_le_pos; [lra|].
    destruct (Req_dec (Rabs (rho_relaxation_denominator l) + eps) 0) as [Z|Z].
    - rewrite Z, Rinv_0. lra.
    - left. apply Rinv_0_lt_compat. lra. }
  set (q := 2 * factor * _) in *.
  assert (0 <= factor * (s_interp_max l - s_min (lim_bounds l))) by (apply Rmult_le_pos; lra).
  set (er := factor * _) in *.
  split; [|split].
  - apply Rmax_lub; nra.
  - apply Rmin_glb; nra.
  - apply Rmax_lub; nra.
Qed.

Lemma stencil_contains0 s dim big eps factor hd U_i cs :
  0 <= eps -> 0 <= factor -> 0 <= big ->
  (forall c, In c cs -> 0 <= bar_density dim U_i c /\ 0 <= entropy_of c) ->
  (exists c, In c cs /\ state_of c = U_i /\ entropy_of c = specific_entropy s dim U_i) ->
  let b := lim_get_bounds eps factor dim (lim_stencil s dim big U_i cs) hd in
  forall c, In c cs ->
    rho_min b <= bar_density dim U_i c <= rho_max b /\ s_min b <= entropy_of c.
Proof.
  intros He Hf Hb Hpos (c0 & Hc0 & Hs0 & He0). cbv zeta. intros c Hc.
  assert (F := fold_bounds s dim cs (lim_reset big U_i)). cbv zeta in F.
  change (fold_left (lim_step s dim) cs (lim_reset big U_i)) with (lim_stencil s dim big U_i cs) in F.
  set (l := lim_stencil s dim big U_i cs) in *.
  change (lim_U_i (lim_reset big U_i)) with U_i in F.
  destruct F as ((A1 & A2 & A3 & A4) & B & C & D).
  assert (X := relaxed_contains0 eps factor dim l hd He Hf).
  assert (P1 : 0 <= rho_min (lim_bounds l)).
  { apply C; [exact Hb|]. intros c' Hc'. apply (Hpos c' Hc'). }
  assert (P2 : 0 <= s_min (lim_bounds l)).
  { apply D; [exact Hb|]. intros c' Hc'. apply (Hpos c' Hc'). }
  assert (P3 : 0 <= rho_max (lim_bounds l)) by (simpl in A2; exact A2).
  destruct (B c0 Hc0) as (B1 & B2 & B3).
  rewrite Hs0, vhalf_self in B3. rewrite He0 in B2.
  specialize (X P1 P3 P2 ltac:(lra)). cbv zeta in X.
  destruct (B c Hc) as (G1 & G2 & _). destruct X as (X1 & X2 & X3). split; [split|]; lra.
Qed.

Section Bars.
Variables (p : eparameters) (dim : nat) (M : mesh) (nm : R).
Local Notation s := (ep_system p).
Local Notation SY := (euler_scheme p dim).
Variables (old : (nat -> state nat) * PC nat SY) (pc0 : nat -> R * R) (d0 : nat -> nat -> R) (tau : R).
Local Notation U := (fst old).
Local Notation d := (dij_matrix SY M nm old d0).
Hypothesis Hpat : symmetric_pattern M.
Hypothesis Hmass : positive_masses M.
Hypothesis Hnum : valid_numbering M.
Hypothesis Hpairs : pairs_listed M.
Hypothesis Hdim : mesh_dimension M dim.
Hypothesis Hnm : 0 < nm.
Hypothesis Heps : 0 <= ep_eps p.
Hypothesis Hbig : 0 < ep_big p.
Hypothesis Hrel : 0 <= ep_relaxation p.
Hypothesis Hmod : moderate_relaxation p dim M.
Hypothesis Hg : 1 < gamma s.
Hypothesis Hgas : forall i, active M i -> positive_gas dim (U i).
Hypothesis Hpc : snd old = euler_precomputed p dim M U pc0.

Definition e_contribution (i j : nat) : EulerLimiterBounds.contribution :=
  (fst (snd old j), U j, vec_of (cdiv (c_ij M i j) (Rmax (d i j) (100 * nm))), affine_shift_i SY M old d tau i).

Lemma e_bounds_stencil i :
  bounds_step4 SY M nm old d tau i =
  lim_get_bounds (ep_eps p) (ep_relaxation p) dim
    (lim_stencil s dim (ep_big p) (U i) (map (e_contribution i) (columns M i))) (mass M i * (1 / measure_of_omega M)).
Proof.
  unfold bounds_step4. cbn [limiter_bounds limiter_reset shallow_water euler_scheme].
  f_equal. unfold lim_stencil.
  generalize (lim_reset (ep_big p) (U i)). induction (columns M i) as [|j l IH]; intros x; [reflexivity|].
  cbn [map fold_left]. rewrite IH. reflexivity.
Qed.

Lemma e_shift i k : affine_shift_i SY M old d tau i k = 0.
Proof. unfold affine_shift_i, source. cbn [shallow_water have_source_terms euler_scheme]. unfold splus, smult, szero. ring. Qed.

Lemma e_entropy_pos i j : (i < n_rows M)%nat -> constrained M i = false -> In j (columns M i) ->
  fst (snd old j) = specific_entropy s dim (U j) /\ 0 < fst (snd old j).
Proof.
  intros Hi Hc Hj. assert (Hjc : (j < n_rows M)%nat /\ constrained M j = false).
  { rewrite (columns_split M i Hpat Hi) in Hj. destruct Hj as [<-|Hj]; [auto|].
    split; [apply (neighbours_bound M i j Hpat Hi Hj)|apply (neighbour_active M i j Hpat Hi Hj)]. }
  destruct Hjc as [Hjb Hjc]. rewrite Hpc. unfold euler_precomputed. rewrite Hjc. cbn [fst]. split; [reflexivity|].
  pose proof (Hgas j (proj2 (active_constrained M j) (conj Hjb Hjc))) as HG. apply positive_gas_eq in HG. destruct HG as [A B]. unfold specific_entropy.
  apply Rmult_lt_0_compat; [exact B|]. apply powr_gt0. apply Rdiv_lt_0_compat; lra.
Qed.

(** The flux of the density is the momentum. *)
Lemma e_F_0 j v c : dotp dim (e_F p dim (flux_contribution nat SY (snd old) j v) 0%nat) c = dot dim (momentum v) (vec_of c).
Proof. rewrite dotp_dot. unfold e_F. cbn [flux_contribution euler_scheme]. unfold EulerSystem.flux. reflexivity. Qed.

Lemma e_bar_density i j : (i < n_rows M)%nat -> In j (neighbours M i) -> 100 * nm <= d i j ->
  bar_density dim (U i) (e_contribution i j) = bar_state SY M dim (e_F p dim) old (d i j) i j 0%nat.
Proof.
  intros Hi Hj Hd. unfold bar_density, e_contribution, bar_state. cbv zeta. rewrite !e_F_0.
  unfold density at 3. rewrite e_shift. rewrite Rmax_left by exact Hd.
  assert (E : dot dim (vsub (momentum (U i)) (momentum (U j))) (vec_of (cdiv (c_ij M i j) (d i j))) =
              (dot dim (momentum (U i)) (vec_of (c_ij M i j)) - dot dim (momentum (U j)) (vec_of (c_ij M i j))) / d i j).
  { rewrite <- !dotp_dot, dotp_cdiv, !dotp_dot, dot_sub_l. reflexivity. }
  rewrite E. unfold density. field. lra.
Qed.

Lemma e_bar_diag i : bar_density dim (U i) (e_contribution i i) = U i 0%nat.
Proof.
  unfold bar_density, e_contribution. unfold density at 3. rewrite e_shift.
  assert (E : forall c, dot dim (vsub (momentum (U i)) (momentum (U i))) c = 0).
  { intros c. rewrite dot_sub_l. ring. }
  rewrite E. unfold density. field.
Qed.

Lemma e_bar_gas i j : (i < n_rows M)%nat -> In j (neighbours M i) -> 100 * nm <= d i j ->
  positive_gas dim (bar_state SY M dim (e_F p dim) old (d i j) i j).
Proof.
  intros Hi Hj Hd. destruct (neighbours_columns M i j Hpat Hi Hj) as [Hjc Hne].
  assert (Hia : active M i) by (eapply row_active; eassumption).
  assert (Hjb : active M j) by exact (col_active M i j Hpat Hi Hj).
  pose proof (euler_symmetric p dim M old Hg Hpat Hdim Hgas) as HR.
  pose proof (dij_value SY M nm old d0 i j Hpat Hnum Hpairs HR Hi Hj) as E.
  set (c := c_ij M i j). set (a := cnorm c). set (D := d i j) in *. assert (HD : 0 < D) by lra.
  assert (Ha0 : 0 <= a) by apply cnorm_nonneg.
  destruct (Rle_lt_or_eq_dec 0 a Ha0) as [Hap|Haz].
  - set (n := cdiv c a).
    assert (Hn : unit_vector dim n).
    { split; [apply cnorm_cdiv; exact Hap|]. unfold n, cdiv. rewrite map_length. apply Hdim; assumption. }
    assert (Hlam : er_wavespeed s (ep_eps p) (ep_riemann_tol p) (ep_riemann_iterations p) dim (U i) (U j) (vec_of n) <= D / a).
    { apply Rmult_le_reg_l with a; [exact Hap|].
      replace (a * (D / a)) with D by (field; lra). rewrite E. eapply Rle_trans; [|apply Rmax_l].
      unfold wave_viscosity. cbn [riemann_compute euler_scheme]. fold c. fold a. fold n. lra. }
    pose proof (bar_positive p dim (U i) (U j) n (D / a) Hg (Hgas i Hia) (Hgas j Hjb) Hn ltac:(apply Rdiv_lt_0_compat; assumption) Hlam) as Q.
    match goal with |- positive_gas dim ?g => match type of Q with positive_gas dim ?h => replace g with h; [exact Q|] end end.
    apply functional_extensionality. intros k.
    transitivity ((U i k + U j k) / 2 - (dotp dim (EulerSystem.flux s dim (U j) k) c - dotp dim (EulerSystem.flux s dim (U i) k) c) / (2 * D)); [|reflexivity].
    rewrite <- !dotp_dot. unfold n. rewrite !dotp_cdiv. field. lra.
  - pose proof (positive_convex dim _ _ (1 / 2) (Hgas i Hia) (Hgas j Hjb) ltac:(lra)) as Q.
    match goal with |- positive_gas dim ?g => match type of Q with positive_gas dim ?h => replace g with h; [exact Q|] end end.
    apply functional_extensionality. intros k. unfold bar_state. fold c.
    assert (Hf : forall f, dotp dim f c = 0).
    { intros f. unfold dotp. apply lsum_zero. intros x _. rewrite (cnorm_zero c (eq_sym Haz) x). ring. }
    rewrite !Hf. field. lra.
Qed.

Lemma e_bar_pos i j : (i < n_rows M)%nat -> constrained M i = false -> In j (columns M i) -> e_fast p dim M nm old d0 i ->
  0 < bar_density dim (U i) (e_contribution i j).
Proof.
  intros Hi Hc Hj Hf. rewrite (columns_split M i Hpat Hi) in Hj. destruct Hj as [<-|Hj].
  - rewrite e_bar_diag. apply (Hgas i (proj2 (active_constrained M i) (conj Hi Hc))).
  - rewrite e_bar_density by auto. apply (e_bar_gas i j Hi Hj (Hf j Hj)).
Qed.

Lemma e_bounds_contain i j : (i < n_rows M)%nat -> constrained M i = false -> In j (columns M i) -> e_fast p dim M nm old d0 i ->
  let b := bounds_step4 SY M nm old d tau i in
  rho_min b <= bar_density dim (U i) (e_contribution i j) <= rho_max b /\ s_min b <= specific_entropy s dim (U j).
Proof.
  intros Hi Hc Hj Hf b. unfold b. rewrite e_bounds_stencil.
  destruct (e_entropy_pos i j Hi Hc Hj) as [<- _].
  change (fst (snd old j)) with (entropy_of (e_contribution i j)).
  apply stencil_contains0; try assumption; try lra.
  - intros c Hcin. apply in_map_iff in Hcin. destruct Hcin as (k & <- & Hk).
    split; [apply Rlt_le, e_bar_pos; assumption|]. apply Rlt_le. apply (e_entropy_pos i k Hi Hc Hk).
  - assert (Hii : In i (columns M i)) by (rewrite (columns_split M i Hpat Hi); left; reflexivity).
    exists (e_contribution i i). split; [apply in_map; exact Hii|]. split; [reflexivity|].
    apply (e_entropy_pos i i Hi Hc Hii).
  - apply in_map. exact Hj.
Qed.

Lemma e_bounds_positive i : (i < n_rows M)%nat -> constrained M i = false -> e_fast p dim M nm old d0 i ->
  0 < rho_min (bounds_step4 SY M nm old d tau i) /\ 0 < s_min (bounds_step4 SY M nm old d tau i).
Proof.
  intros Hi Hc Hf. rewrite e_bounds_stencil. set (l := lim_stencil _ _ _ _ _).
  pose proof (Hmod i Hi) as Hr.
  assert (F := fold_bounds s dim (map (e_contribution i) (columns M i)) (lim_reset (ep_big p) (U i))). cbv zeta in F.
  change (fold_left (lim_step s dim) (map (e_contribution i) (columns M i)) (lim_reset (ep_big p) (U i))) with l in F.
  destruct F as (_ & _ & C & D).
  assert (P1 : 0 < rho_min (lim_bounds l)).
  { apply (C (fun x => 0 < x)); [exact Hbig|]. intros c Hcin. apply in_map_iff in Hcin. destruct Hcin as (k & <- & Hk).
    apply e_bar_pos; assumption. }
  assert (P2 : 0 < s_min (lim_bounds l)).
  { apply (D (fun x => 0 < x)); [exact Hbig|]. intros c Hcin. apply in_map_iff in Hcin. destruct Hcin as (k & <- & Hk).
    apply (e_entropy_pos i k Hi Hc Hk). }
  unfold lim_get_bounds. cbv zeta. cbn [rho_min s_min].
  split; (eapply Rlt_le_trans; [|apply Rmax_l]); apply Rmult_lt_0_compat; lra.
Qed.

Variable cfl : R.
Hypothesis Hcfl : 0 < cfl <= 1.
Hypothesis Htau : 0 <= tau.
Hypothesis Hstep : forall t, In t (row_tau SY M nm cfl old d0) -> tau <= t.
Hypothesis Hsum : forall i, active M i -> zero_row_sum M i.
Hypothesis Hfast : forall i, active M i -> e_fast p dim M nm old d0 i.

Lemma e_low_convex X order a0 l0 ln0 new0 stages i : active M i -> convex_set X -> X (U i) ->
  (forall j, In j (neighbours M i) -> X (bar_state SY M dim (e_F p dim) old (d i j) i j)) ->
  X (fst (hyperbolic_update SY M nm order 0 a0 d0 l0 ln0 new0 old stages tau) i).
Proof.
  intros Ha HX Hi0 Hb. destruct (proj1 (active_constrained M i) Ha) as [Hi Hc].
  apply (C18_convex_combination_proof nat SY M nm cfl dim (e_F p dim) X); try assumption; auto.
  - apply euler_plain.
  - apply euler_central.
  - intros j Hj Hne. left. pose proof (columns_neighbours M i j Hpat Hi Hj Hne) as Hn.
    pose proof (Hfast i Ha j Hn). split; [lra|]. apply Hb. exact Hn.
Qed.

Lemma e_low_mass order a0 l0 ln0 new0 stages i : active M i ->
  mass_inside (bounds_step4 SY M nm old d tau i) (fst (hyperbolic_update SY M nm order 0 a0 d0 l0 ln0 new0 old stages tau) i).
Proof.
  intros Ha. destruct (proj1 (active_constrained M i) Ha) as [Hi Hc]. pose proof (Hfast i Ha) as Hf.
  apply (e_low_convex (mass_inside (bounds_step4 SY M nm old d tau i))); [exact Ha|apply mass_convex| |].
  - split; [apply e_bounds_positive; assumption|]. rewrite <- e_bar_diag.
    apply (e_bounds_contain i i); try assumption. rewrite (columns_split M i Hpat Hi). left. reflexivity.
  - intros j Hj. split; [apply e_bounds_positive; assumption|]. rewrite <- e_bar_density by auto.
    apply (e_bounds_contain i j); try assumption. rewrite (columns_split M i Hpat Hi). right. exact Hj.
Qed.

Lemma e_low_gas order a0 l0 ln0 new0 stages i : active M i ->
  positive_gas dim (fst (hyperbolic_update SY M nm order 0 a0 d0 l0 ln0 new0 old stages tau) i).
Proof.
  intros Ha. destruct (proj1 (active_constrained M i) Ha) as [Hi Hc].
  apply (e_low_convex (positive_gas dim)); [exact Ha|apply positive_convex|apply Hgas, Ha|].
  intros j Hj. apply e_bar_gas; [exact Hi|exact Hj|]. apply (Hfast i Ha j Hj).
Qed.

Variable order : list nat.
Hypothesis Horder : forall i, In i order -> (i < n_rows M)%nat.

(** After the extension over the stencil (discontinuous ansatz). *)
Lemma e_limiter_bounds_positive i : active M i ->
  0 < rho_min (limiter_bounds_i SY M nm old d tau order i) /\ 0 < s_min (limiter_bounds_i SY M nm old d tau order i).
Proof.
  intros Ha. destruct (proj1 (active_constrained M i) Ha) as [Hi Hc].
  unfold limiter_bounds_i. destruct (discontinuous M); [|apply e_bounds_positive; auto].
  assert (G : forall ord, (forall i, In i ord -> (i < n_rows M)%nat) -> forall (b0 b : nat -> ebounds),
    (forall i, active M i -> 0 < rho_min (b0 i) /\ 0 < s_min (b0 i)) ->
    (forall i, active M i -> 0 < rho_min (b i) /\ 0 < s_min (b i)) -> forall i, active M i ->
    0 < rho_min (fold_left (fun b i => if constrained M i then b
       else upd b i (fold_left (fun acc j => combine_bounds nat SY acc (if owner M j =? owner M i then b j else b0 j)%nat)
              (neighbours M i) (b i))) ord b i) /\
    0 < s_min (fold_left (fun b i => if constrained M i then b
       else upd b i (fold_left (fun acc j => combine_bounds nat SY acc (if owner M j =? owner M i then b j else b0 j)%nat)
              (neighbours M i) (b i))) ord b i)).
  { clear i Ha Hi Hc. induction ord as [|r ord IH]; intros Ho b0 b Hb0 Hb i Ha; [apply Hb, Ha|].
    cbn [fold_left]. apply IH; [intros k Hk; apply Ho; right; exact Hk|exact Hb0| |exact Ha].
    intros k Hk. destruct (constrained M r) eqn:Ec; [apply Hb, Hk|]. unfold upd.
    destruct (k =? r)%nat; [|apply Hb, Hk].
    assert (Hr : (r < n_rows M)%nat) by (apply Ho; left; reflexivity).
    assert (Har : active M r) by (apply active_constrained; auto).
    assert (N : forall l, (forall j, In j l -> active M j) -> forall x : ebounds, 0 < rho_min x /\ 0 < s_min x ->
       0 < rho_min (fold_left (fun acc j => combine_bounds nat SY acc (if owner M j =? owner M r then b j else b0 j)%nat) l x) /\
       0 < s_min (fold_left (fun acc j => combine_bounds nat SY acc (if owner M j =? owner M r then b j else b0 j)%nat) l x)).
    { induction l as [|j l IHl]; intros Hl x Hx; [exact Hx|]. cbn [fold_left]. apply IHl; [intros; apply Hl; right; assumption|].
      assert (active M j) by (apply Hl; left; reflexivity).
      cbn [combine_bounds euler_scheme]. unfold EulerLimiter.combine_bounds. cbn [rho_min s_min].
      assert (Hy : 0 < rho_min (if owner M j =? owner M r then b j else b0 j)%nat /\ 0 < s_min (if owner M j =? owner M r then b j else b0 j)%nat)
        by (destruct (owner M j =? owner M r)%nat; auto).
      split; apply Rmin_glb_lt; tauto. }
    apply N; [|apply Hb, Har]. intros j Hj. apply active_constrained.
    split; [apply (neighbours_bound M r j Hpat Hr Hj)|apply (neighbour_active M r j Hpat Hr Hj)]. }
  apply (G order Horder); [| |exact Ha]; intros k Hk; destruct (proj1 (active_constrained M k) Hk); apply e_bounds_positive; auto.
Qed.

Lemma e_limiter_bounds_wider i u : rho_min (bounds_step4 SY M nm old d tau i) <= u <= rho_max (bounds_step4 SY M nm old d tau i) ->
  rho_min (limiter_bounds_i SY M nm old d tau order i) <= u <= rho_max (limiter_bounds_i SY M nm old d tau order i).
Proof.
  intros H. unfold limiter_bounds_i. destruct (discontinuous M); [|exact H].
  apply (proj1 (C20_extended_bounds_proof SY M (fun b (v : state nat) => rho_min b <= v 0%nat <= rho_max b)
        ltac:(idtac; intros a b v Q; cbn [combine_bounds euler_scheme]; unfold EulerLimiter.combine_bounds; cbn [rho_min rho_max];
          pose proof (Rmin_l (rho_min a) (rho_min b)); pose proof (Rmin_r (rho_min a) (rho_min b));
          pose proof (Rmax_l (rho_max a) (rho_max b)); pose proof (Rmax_r (rho_max a) (rho_max b)); destruct Q; lra)
        order _ i (fun _ => u)) H).
Qed.

Lemma e_low_inside a0 l0 ln0 new0 stages i : active M i ->
  mass_inside (limiter_bounds_i SY M nm old d tau order i) (fst (hyperbolic_update SY M nm order 0 a0 d0 l0 ln0 new0 old stages tau) i).
Proof.
  intros Ha. split; [apply e_limiter_bounds_positive, Ha|]. apply e_limiter_bounds_wider.
  apply (e_low_mass order a0 l0 ln0 new0 stages i Ha).
Qed.

Lemma e_final_mass n a0 l0 ln0 new0 stages i : (n <= 2)%nat -> active M i ->
  mass_inside (limiter_bounds_i SY M nm old d tau order i) (fst (hyperbolic_update SY M nm order n a0 d0 l0 ln0 new0 old stages tau) i).
Proof.
  intros Hn. apply C20_inside_bounds_proof; try assumption.
  - exact mass_convex.
  - intros b u P H. apply (euler_mass_call p dim b u P H Heps).
  - intros j Hj. apply e_low_inside, Hj.
Qed.

Lemma e_final_gas a0 l0 ln0 new0 stages : ep_eps p = 0 ->
  ~ violation SY M nm order 1 (compute_alpha SY M old a0) d new0 old stages tau ->
  forall i, active M i ->
  positive_gas dim (fst (hyperbolic_update SY M nm order 1 a0 d0 l0 ln0 new0 old stages tau) i).
Proof.
  intros He Hv i Ha. destruct (proj1 (active_constrained M i) Ha) as [Hi Hc].
  unfold hyperbolic_update, update. cbn [fst passes Nat.eqb andb].
  set (alpha := compute_alpha SY M old a0) in *.
  assert (K : forall i j, (i < n_rows M)%nat -> In j (neighbours M i) ->
     let l := fst (limit_first SY M nm old stages alpha d tau order new0 i j) in
     0 <= l <= 1 /\ forall q, 0 <= q <= l ->
       positive_gas dim (fun k => low_order_update SY M old d tau new0 i k + q * pij SY M old stages alpha d tau i j k)).
  { clear i Ha Hi Hc. intros i j Hi Hj. pose proof (proj1 (neighbour_active M i j Hpat Hi Hj)) as Hc.
    assert (Ha : active M i) by (apply active_constrained; auto).
    unfold limit_first. cbn [limiter_limit euler_scheme]. apply euler_unflagged_call; try assumption.
    - apply (e_low_inside a0 l0 ln0 new0 stages i Ha).
    - apply (e_low_gas order a0 l0 ln0 new0 stages i Ha).
    - apply e_limiter_bounds_positive, Ha.
    - destruct (snd _) eqn:E; [reflexivity|]. exfalso. apply Hv. split; [discriminate|].
      destruct (neighbours_columns M i j Hpat Hi Hj) as [Hjc Hne].
      exists i, j. split; [exact Ha|]. split; [exact Hjc|]. split; [exact Hne|]. exact E. }
  apply high_order_inside; try assumption; [apply positive_convex|].
  intros j Hj. destruct (neighbours_bound M i j Hpat Hi Hj) as [Hjb [Hji _]].
  rewrite (proj1 (neighbour_active M i j Hpat Hi Hj)), (proj2 (neighbour_active M i j Hpat Hi Hj)).
  destruct (K i j Hi Hj) as [K1 K2]. destruct (K j i Hjb Hji) as [K3 _].
  split; [lra|]. split; [lra|]. exact K2.
Qed.
End Bars.

(** ** Complete statements *)

Lemma C81_conservation_proof : forall p dim M nm order n a0 d0 l0 ln0 new0
    (old : (nat -> state nat) * PC nat (euler_scheme p dim)) stages tau k,
  symmetric_pattern M -> positive_masses M -> valid_numbering M -> symmetric_matrices M -> mesh_dimension M dim ->
  1 < gamma (ep_system p) -> (forall i, active M i -> positive_gas dim (fst old i)) ->
  (forall i j, active M i -> In j (columns M i) -> skew_at M i j) ->
  let rows := active_rows M in
  total M rows (fst (hyperbolic_update (euler_scheme p dim) M nm order n a0 d0 l0 ln0 new0 old stages tau)) k =
  total M rows (fst old) k.
Proof.
  intros p dim M nm order n a0 d0 l0 ln0 new0 old stages tau k Hpat Hmass Hnum Hsym Hdim Hg Hgas Hskew.
  apply (C19_exact_proof nat (euler_scheme p dim) M nm dim (e_F p dim)); try assumption.
  - apply euler_symmetric; assumption.
  - apply euler_nonneg.
  - apply euler_plain.
  - apply euler_central.
  - reflexivity.
Qed.

Lemma C82_positivity_proof : forall p dim M nm cfl order a0 d0 l0 ln0 new0
    (old : (nat -> state nat) * PC nat (euler_scheme p dim)) stages tau,
  symmetric_pattern M -> positive_masses M -> valid_numbering M -> pairs_listed M -> mesh_dimension M dim ->
  0 < nm -> 1 < gamma (ep_system p) <= 5 / 3 -> ep_riemann_iterations p = 0%nat ->
  0 < cfl <= 1 -> 0 <= tau ->
  (forall t, In t (row_tau (euler_scheme p dim) M nm cfl old d0) -> tau <= t) ->
  (forall i, active M i -> zero_row_sum M i) ->
  (forall i, active M i -> positive_gas dim (fst old i)) ->
  forall i, active M i ->
  positive_gas dim (fst (hyperbolic_update (euler_scheme p dim) M nm order 0 a0 d0 l0 ln0 new0 old stages tau) i).
Proof.
  intros p dim M nm cfl order a0 d0 l0 ln0 new0 old stages tau Hpat Hmass Hnum Hpairs Hdim Hnm Hg HN Hcfl Htau Hstep Hsum Hgas.
  apply (C18_invariant_domain_proof nat (euler_scheme p dim) M nm cfl dim (e_F p dim) (positive_gas dim)); try assumption.
  - apply euler_plain.
  - apply euler_central.
  - apply euler_symmetric; [lra|assumption..].
  - apply euler_nonneg.
  - apply positive_convex.
  - apply euler_wave_bound; assumption.
Qed.

Lemma C84_entropy_proof : forall p dim M nm order n a0 d0 l0 ln0 new0
    (old : (nat -> state nat) * PC nat (euler_scheme p dim)) stages tau,
  symmetric_pattern M -> 1 < gamma (ep_system p) -> ep_eps p = 0 -> (n <= 2)%nat ->
  let bounds := limiter_bounds_i (euler_scheme p dim) M nm old (dij_matrix (euler_scheme p dim) M nm old d0) tau order in
  let result n := fst (hyperbolic_update (euler_scheme p dim) M nm order n a0 d0 l0 ln0 new0 old stages tau) in
  (forall i, active M i -> entropy_inside (ep_system p) dim (bounds i) (result 0%nat i)) ->
  forall i, active M i ->
  entropy_inside (ep_system p) dim (bounds i) (result n i) /\ positive_gas dim (result n i).
Proof.
  intros p dim M nm order n a0 d0 l0 ln0 new0 old stages tau Hpat Hg He Hn bounds result H i Ha.
  assert (Q : entropy_inside (ep_system p) dim (bounds i) (result n i)).
  { revert i Ha. apply (C20_inside_bounds_proof nat (euler_scheme p dim) M nm (entropy_inside (ep_system p) dim)); try assumption.
    - intros b. apply entropy_convex. lra.
    - intros b u P Hu. apply euler_entropy_call; assumption. }
  split; [exact Q|]. apply (entropy_positive _ _ _ _ Q).
Qed.
