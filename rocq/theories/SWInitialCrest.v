(** * Lemmas: the flow over a bump at the crest *)
From Coq Require Import Reals Arith Lia Lra Psatz List.
From Verif Require Import RVec EulerSystem EulerInitialStates BalanceSpec BalanceProofs EulerInitialProofs
  WaterProofs SWInitialStates SWInitialSpec SWInitialProofs SWInitialBump SWInitialFlow.
Import ListNotations.
Local Open Scope R_scope.

(** A function with a continuous difference quotient is differentiable. *)
Lemma D_quotient f G x : (forall s, Rabs (s - x) < 1 -> f s = f x + (s - x) * G s) -> continuity_pt G x -> derivable_pt_lim f x (G x).
Proof.
  intros H C eps He. destruct (C eps He) as (a & Ha & B). unfold R_dist in B. simpl in B. unfold R_dist, D_x, no_cond in B.
  assert (Hm : 0 < Rmin a 1) by (apply Rmin_pos; lra).
  exists (mkposreal _ Hm). intros h Hh Hl. cbn in Hl.
  pose proof (Rmin_l a 1). pose proof (Rmin_r a 1).
  rewrite (H (x + h)) by (replace (x + h - x) with h by ring; lra).
  replace ((f x + (x + h - x) * G (x + h) - f x) / h - G x) with (G (x + h) - G x) by (field; exact Hh).
  apply B. split; [split; [exact I|lra]|]. replace (x + h - x) with h by ring. lra.
Qed.

Lemma lipschitz_continuous f x K : (forall s, Rabs (s - x) < 1 -> Rabs (f s - f x) <= K * Rabs (s - x)) -> 0 < K -> continuity_pt f x.
Proof.
  intros H HK eps He. assert (Hm : 0 < Rmin 1 (eps / K)) by (apply Rmin_pos; [lra|apply Rdiv_lt_0_compat; lra]).
  exists (Rmin 1 (eps / K)). split; [exact Hm|]. intros s [_ L]. simpl in *. unfold R_dist in *.
  pose proof (Rmin_l 1 (eps / K)). pose proof (Rmin_r 1 (eps / K)).
  eapply Rle_lt_trans; [apply H; lra|]. apply Rlt_le_trans with (K * (eps / K)); [apply Rmult_lt_compat_l; lra|]. right. field. lra.
Qed.

(** The state depends on the first coordinate only, and not on the time. *)
Lemma flow_coordinate g sub p p' t t' : p 0%nat = p' 0%nat -> 1 / 10 ^ 12 <= t -> 1 / 10 ^ 12 <= t' ->
  flow_over_bump g sub p t = flow_over_bump g sub p' t'.
Proof.
  intros E T T'. assert (B : bump_bathymetry p = bump_bathymetry p') by (rewrite !bump_eq, E; reflexivity).
  unfold flow_over_bump. rewrite B, E. destruct (Rlt_dec t (1 / 10 ^ 12)); [lra|]. destruct (Rlt_dec t' (1 / 10 ^ 12)); [lra|]. reflexivity.
Qed.

Lemma flow_discharge g p t : flow_over_bump g false p t = tensor [flow_over_bump g false p t 0%nat; 18 / 100].
Proof. unfold flow_over_bump. destruct (Rlt_dec t (1 / 10 ^ 12)); reflexivity. Qed.

Lemma bz_crest y : Rabs (y - 10) < 1 -> 2 / 10 - bz y = (y - 10) * (y - 10) * ((48 - 12 * ((y - 10) * (y - 10)) + (y - 10) ^ 4) / 320).
Proof.
  intros H. apply Rabs_def2 in H. unfold bz. rewrite Rmax_right by nra. field.
Qed.

Section Crest.
Variables g hc : R.
Hypothesis Hg : 0 < g.
Hypothesis Hc : 0 < hc.
Hypothesis Ec : g * hc ^ 3 = 18 / 100 * (18 / 100).
Variable h : R -> R.
Hypothesis H10 : h 10 = hc.
Hypothesis Hh : forall y, y <> 10 -> Rabs (y - 10) < 1 ->
  0 < h y /\ h y + bz y + 18 / 100 * (18 / 100) / (2 * g * (h y * h y)) = hc + 2 / 10 + 18 / 100 * (18 / 100) / (2 * g * (hc * hc)) /\
  (y < 10 -> 18 / 100 * (18 / 100) < g * h y ^ 3) /\ (10 < y -> g * h y ^ 3 < 18 / 100 * (18 / 100)).

Let k (y : R) : R := (48 - 12 * ((y - 10) * (y - 10)) + (y - 10) ^ 4) / 160.
Let G (y : R) : R := - h y * sqrt (k y / (2 * h y + hc)).

Lemma k_bound y : Rabs (y - 10) < 1 -> 0 < k y <= 3 / 10.
Proof.
  intros H. apply Rabs_def2 in H. unfold k. simpl. set (s := y - 10) in *.
  assert (Q : 0 <= s * s < 1) by nra. split; nra.
Qed.

Lemma h_pos y : Rabs (y - 10) < 1 -> 0 < h y.
Proof. intros H. destruct (Req_dec y 10) as [->|N]; [rewrite H10; exact Hc|apply (Hh y N H)]. Qed.

Lemma cube_lt a b : 0 < a -> 0 < b -> a ^ 3 < b ^ 3 -> a < b.
Proof.
  intros A B H. destruct (Rlt_dec a b) as [L|L]; [exact L|]. exfalso. apply Rnot_lt_le in L.
  assert (b * b <= a * a) by nra. assert (b * (b * b) <= a * (a * a)) by (apply Rmult_le_compat; nra). simpl in H. lra.
Qed.

Lemma h_sign y : y <> 10 -> Rabs (y - 10) < 1 -> (y < 10 -> hc < h y) /\ (10 < y -> h y < hc).
Proof.
  intros N H. destruct (Hh y N H) as (P & _ & A & B). rewrite <- Ec in A, B. split; intros L.
  - apply cube_lt; [exact Hc|exact P|]. apply (Rmult_lt_reg_l g); [exact Hg|exact (A L)].
  - apply cube_lt; [exact P|exact Hc|]. apply (Rmult_lt_reg_l g); [exact Hg|exact (B L)].
Qed.

(** The head equation with the double root at the critical depth split off. *)
Lemma h_square y : Rabs (y - 10) < 1 -> (h y - hc) * (h y - hc) * (2 * h y + hc) = (y - 10) * (y - 10) * k y * (h y * h y).
Proof.
  intros H. destruct (Req_dec y 10) as [->|N]; [rewrite H10; ring|].
  destruct (Hh y N H) as (P & B & _). rewrite <- Ec in B.
  assert (B' : h y + g * hc ^ 3 / (2 * g * (h y * h y)) = 3 / 2 * hc + (2 / 10 - bz y)).
  { transitivity (hc + 2 / 10 + g * hc ^ 3 / (2 * g * (hc * hc)) - bz y); [lra|]. field. lra. }
  rewrite (bz_crest y H) in B'.
  assert (M : (h y + g * hc ^ 3 / (2 * g * (h y * h y))) * (2 * (h y * h y)) = 2 * h y ^ 3 + hc ^ 3) by (field; lra).
  rewrite B' in M. unfold k. simpl in *. nra.
Qed.

Lemma h_quotient y : Rabs (y - 10) < 1 -> h y = h 10 + (y - 10) * G y.
Proof.
  intros H. destruct (Req_dec y 10) as [->|N]; [ring|].
  pose proof (h_square y H) as Q. pose proof (h_pos y H) as P. pose proof (k_bound y H) as K. destruct (h_sign y N H) as [A B].
  rewrite H10. unfold G. set (r := k y / (2 * h y + hc)) in *.
  assert (Pr : 0 < r) by (apply Rdiv_lt_0_compat; lra).
  assert (S : sqrt r * sqrt r = r) by (apply sqrt_sqrt; lra). pose proof (sqrt_lt_R0 r Pr) as Ps.
  assert (E : (h y - hc) * (h y - hc) = (y - 10) * (y - 10) * (h y * h y) * (sqrt r * sqrt r)).
  { rewrite S. unfold r. apply (Rmult_eq_reg_r (2 * h y + hc)); [|lra]. rewrite Q. field. lra. }
  set (w := sqrt r) in *.
  assert (Z : (h y - hc - (y - 10) * (- h y * w)) * (h y - hc + (y - 10) * (- h y * w)) = 0) by (ring_simplify; ring_simplify in E; lra).
  apply Rmult_integral in Z. destruct Z as [Z|Z]; [lra|]. exfalso.
  assert (Pw : 0 < h y * w) by (apply Rmult_lt_0_compat; assumption).
  destruct (Rlt_dec y 10) as [L|L]; [specialize (A L); nra|]. assert (L' : 10 < y) by lra. specialize (B L'). nra.
Qed.

Lemma h_upper y : Rabs (y - 10) < 1 -> h y <= 2 / 10 + 3 / 2 * hc.
Proof.
  intros H. destruct (Req_dec y 10) as [->|N]; [rewrite H10; lra|]. destruct (Hh y N H) as (P & B & _).
  pose proof (bz_bound y) as Z. rewrite <- Ec in B.
  assert (E : g * hc ^ 3 / (2 * g * (hc * hc)) = hc / 2) by (field; lra). rewrite E in B.
  assert (0 < g * hc ^ 3 / (2 * g * (h y * h y))).
  { apply Rdiv_lt_0_compat; [apply Rmult_lt_0_compat; [exact Hg|apply pow_lt; exact Hc]|]. apply Rmult_lt_0_compat; nra. }
  lra.
Qed.

Lemma h_continuous : continuity_pt h 10.
Proof.
  set (K := (2 / 10 + 3 / 2 * hc) * sqrt (3 / 10 / hc)).
  assert (PK : 0 < K) by (unfold K; apply Rmult_lt_0_compat; [lra|apply sqrt_lt_R0, Rdiv_lt_0_compat; lra]).
  apply (lipschitz_continuous h 10 K); [|exact PK]. intros y H. rewrite (h_quotient y H).
  replace (h 10 + (y - 10) * G y - h 10) with (G y * (y - 10)) by ring. rewrite Rabs_mult. apply Rmult_le_compat_r; [apply Rabs_pos|].
  pose proof (h_pos y H) as P. pose proof (k_bound y H) as Kb.
  unfold G. rewrite <- Ropp_mult_distr_l, Rabs_Ropp, Rabs_mult, (Rabs_pos_eq (h y)), (Rabs_pos_eq (sqrt _)) by (apply sqrt_pos || lra).
  unfold K. apply Rmult_le_compat; [lra|apply sqrt_pos|apply h_upper; exact H|]. apply sqrt_le_1_alt.
  unfold Rdiv at 1 3. apply Rmult_le_compat; [lra|left; apply Rinv_0_lt_compat; lra|lra|]. apply Rinv_le_contravar; lra.
Qed.

Lemma G_continuous : continuity_pt G 10.
Proof.
  assert (Cy : continuity_pt (fun y : R => y - 10) 10) by (apply derivable_continuous_pt; exists 1; eapply D_eq; [apply D_minus; [apply D_id|apply D_const]|ring]).
  assert (Ck : continuity_pt k 10).
  { apply derivable_continuous_pt. eexists. unfold k. apply D_div; [lra| |apply D_const]. apply D_plus.
    - apply D_minus; [apply D_const|]. apply D_scal. apply D_mult; apply D_minus; try apply D_id; apply D_const.
    - apply D_pow. apply D_minus; [apply D_id|apply D_const]. }
  unfold G.
  apply (continuity_pt_mult (fun y => - h y) (fun y => sqrt (k y / (2 * h y + hc)))).
  - apply (continuity_pt_opp h 10 h_continuous).
  - apply (continuity_pt_comp (fun y => k y / (2 * h y + hc)) sqrt).
    + apply (continuity_pt_div k (fun y => 2 * h y + hc)); [exact Ck| |rewrite H10; lra].
      apply (continuity_pt_plus (fun y => 2 * h y) (fun _ => hc)).
      * apply (continuity_pt_scal h 2 10 h_continuous).
      * apply continuity_pt_const. intros a b. reflexivity.
    + apply continuity_pt_sqrt. rewrite H10. assert (Z : Rabs (10 - 10) < 1) by (rewrite Rminus_diag_eq, Rabs_R0; lra).
      pose proof (k_bound 10 Z). left. apply Rdiv_lt_0_compat; lra.
Qed.

(** The slope of the water at the crest. *)
Lemma D_crest : derivable_pt_lim h 10 (- sqrt (hc / 10)).
Proof.
  assert (E : G 10 = - sqrt (hc / 10)).
  { unfold G, k. rewrite H10. replace ((48 - 12 * ((10 - 10) * (10 - 10)) + (10 - 10) ^ 4) / 160 / (2 * hc + hc)) with (/ (10 * hc)) by (simpl; field; lra).
    assert (S : hc * sqrt (/ (10 * hc)) = sqrt (hc / 10)).
    { rewrite <- (sqrt_square hc) at 1 by lra. rewrite <- sqrt_mult_alt by nra. f_equal. field. lra. }
    rewrite <- S. ring. }
  rewrite <- E. apply D_quotient; [exact h_quotient|exact G_continuous].
Qed.
End Crest.

Lemma crest_depth g p t : 0 < g -> 1 / 10 ^ 12 <= t -> p 0%nat = 10 ->
  let hc := powr (18 / 100 * (18 / 100) / g) (1 / 3) in flow_over_bump g false p t 0%nat = hc.
Proof.
  intros Hg Ht Hp hc. set (q := 18 / 100 : R).
  assert (PQ : 0 < q * q / g) by (unfold q; apply Rdiv_lt_0_compat; lra).
  assert (Ph : 0 < hc) by (apply powr_gt; exact PQ).
  assert (H3 : hc ^ 3 = q * q / g).
  { unfold hc. fold q. rewrite powr_pos by exact PQ. rewrite <- Rpower_pow by apply exp_pos. rewrite Rpower_mult.
    replace (1 / 3 * INR 3) with 1 by (simpl; field). apply Rpower_1; exact PQ. }
  assert (Bz : bz 10 = 2 / 10) by (unfold bz; rewrite Rmax_right by lra; lra).
  assert (Ec : bump_bernoulli g false = 2 / 10 + 15 / 10 * hc) by reflexivity.
  assert (Eb : cb (bump_bernoulli g false) 10 = hc / 2) by (unfold cb; rewrite Bz, Ec; field).
  assert (CP : 0 < cb (bump_bernoulli g false) (p 0%nat)) by (rewrite Hp, Eb; lra).
  rewrite (proj2 (bump_root g false p t Hg Ht CP) eq_refl) by lra. rewrite Hp. cbn [tensor nth].
  change (croot g (bump_discharge false) (bump_bernoulli g false) (4 * PI) 10 = hc). change (bump_discharge false) with q.
  unfold croot. rewrite Eb.
  assert (Ea : carg g q (bump_bernoulli g false) 10 = Ropp 1).
  { unfold carg, cd. rewrite Eb. replace (q * q / (2 * g)) with (hc ^ 3 / 2) by (rewrite H3; field; lra). field. lra. }
  rewrite Ea. rewrite acos_opp, acos_1.
  replace ((4 * PI + (PI - 0)) / 3) with (- (PI / 3) + 2 * INR 1 * PI) by (simpl; field). rewrite cos_period, cos_neg, cos_PI3. field.
Qed.

Lemma C101_crest_proof g dim : 0 < g -> (1 <= dim)%nat ->
  let W := fun t x => flow_over_bump g false x t in
  exists hc, 0 < hc /\ g * hc ^ 3 = 18 / 100 * (18 / 100) /\
  forall t x, 1 / 10 ^ 12 < t -> x 0%nat = 10 ->
    W t x 0%nat = hc /\ derivable_pt_lim (fun y => W t (fun _ => y) 0%nat) 10 (- sqrt (hc / 10)) /\
    solves_shallow_water g dim bump_bathymetry no_friction W t x.
Proof.
  intros Hg Hdim W. set (q := 18 / 100 : R). set (hc := powr (q * q / g) (1 / 3)).
  assert (Cd : forall p t, 1 / 10 ^ 12 <= t -> p 0%nat = 10 -> W t p 0%nat = hc) by (intros p t Ht Hp; exact (crest_depth g p t Hg Ht Hp)).
  assert (PQ : 0 < q * q / g) by (unfold q; apply Rdiv_lt_0_compat; lra).
  assert (Ph : 0 < hc) by (apply powr_gt; exact PQ).
  assert (H3 : hc ^ 3 = q * q / g).
  { unfold hc. rewrite powr_pos by exact PQ. rewrite <- Rpower_pow by apply exp_pos. rewrite Rpower_mult.
    replace (1 / 3 * INR 3) with 1 by (simpl; field). apply Rpower_1; exact PQ. }
  assert (Ec : g * hc ^ 3 = q * q) by (rewrite H3; field; lra).
  exists hc. split; [exact Ph|]. split; [exact Ec|]. intros t x Ht Hx.
  destruct (C101_transcritical_proof g dim Hg Hdim) as (hc' & Ph' & Ec' & A).
  assert (hc' = hc).
  { assert (E3 : hc' ^ 3 = hc ^ 3) by (apply (Rmult_eq_reg_l g); [rewrite Ec'; symmetry; exact Ec|lra]).
    assert (Mono : forall a b, 0 < a -> a < b -> a ^ 3 < b ^ 3).
    { intros a b Pa L. assert (a * a < b * b) by nra. simpl. rewrite !Rmult_1_r. apply Rmult_gt_0_lt_compat; nra. }
    destruct (Rtotal_order hc' hc) as [L|[E|L]]; [|exact E|]; exfalso.
    - pose proof (Mono _ _ Ph' L). lra.
    - pose proof (Mono _ _ Ph L). lra. }
  subst hc'.
  set (h := fun y : R => W t (fun _ => y) 0%nat).
  assert (H10 : h 10 = hc) by (apply Cd; [lra|reflexivity]).
  assert (Hh : forall y, y <> 10 -> Rabs (y - 10) < 1 ->
    0 < h y /\ h y + bz y + 18 / 100 * (18 / 100) / (2 * g * (h y * h y)) = hc + 2 / 10 + 18 / 100 * (18 / 100) / (2 * g * (hc * hc)) /\
    (y < 10 -> 18 / 100 * (18 / 100) < g * h y ^ 3) /\ (10 < y -> g * h y ^ 3 < 18 / 100 * (18 / 100))).
  { intros y N L. apply Rabs_def2 in L. destruct (A t (fun _ => y) Ht) as (_ & B & _).
    assert (R : y < 10 \/ 10 < y < 117 / 10) by lra. destruct (B R) as (_ & P & Be & S1 & S2).
    rewrite bump_eq in Be. exact (conj P (conj Be (conj S1 S2))). }
  assert (D : derivable_pt_lim h 10 (- sqrt (hc / 10))) by (exact (D_crest g hc Hg Ph Ec h H10 Hh)).
  split; [apply Cd; lra|]. split; [exact D|].
  assert (Pos : forall y, Rabs (y - 10) < 1 -> 0 < h y) by (exact (h_pos g hc Ph h H10 Hh)).
  assert (Wp : forall s p, 1 / 10 ^ 12 <= s -> W s p = tensor [h (p 0%nat); q]).
  { intros s p Hs. unfold W. rewrite flow_discharge. fold q. f_equal. f_equal. unfold h, W.
    rewrite (flow_coordinate g false p (fun _ => p 0%nat) s t); [reflexivity|reflexivity|exact Hs|lra]. }
  assert (SV : forall y, 0 < h y -> veq (dim + 1) (tensor [h y; q]) (water_state (h y) (vel0 (q / h y)))).
  { intros y P k Hk. unfold tensor, water_state, vel0. destruct k as [|[|k]]; cbn [nth Nat.eqb Nat.sub]; [reflexivity|field; lra|].
    rewrite Rmult_0_r. destruct k; reflexivity. }
  set (l := - sqrt (hc / 10)) in *.
  assert (Dx : derivable_pt_lim h (x 0%nat) l) by (rewrite Hx; exact D).
  assert (Hhx : h (x 0%nat) = hc) by (rewrite Hx; exact H10).
  assert (Dv : derivable_pt_lim (fun s => q / h s) (x 0%nat) (- (q * l) / (h (x 0%nat) * h (x 0%nat)))).
  { eapply D_eq; [apply D_div; [lra|apply D_const|exact Dx]|]. cbv beta. field. lra. }
  apply (water_line g dim bump_bathymetry no_friction (fun _ s => h s) (fun _ s => q / h s) bz W t x 0 l 0 _ (bz' (x 0%nat)) Hdim) with (7 := Dv).
  - apply bump_eq.
  - eapply near_mp; [apply near_time; exact Ht|]. cbv beta. intros s Hs. rewrite (Wp s x Hs). apply SV. rewrite Hhx. exact Ph.
  - exists 1. split; [lra|]. intros y Hy. rewrite Hx in Hy. pose proof (Pos y Hy) as P. split; [lra|].
    intros p Hp. rewrite (Wp t p) by lra. rewrite Hp. apply SV. exact P.
  - apply D_const.
  - apply D_const.
  - exact Dx.
  - apply D_bz.
  - field. lra.
  - unfold no_friction. rewrite Hhx.
    assert (Z : bz' (x 0%nat) = 0) by (rewrite Hx; unfold bz'; ring). rewrite Z.
    transitivity ((g * hc ^ 3 - q * q) * l / (hc * hc)); [field; lra|]. rewrite Ec. unfold Rminus. rewrite Rplus_opp_r. unfold Rdiv. ring.
  - reflexivity.
Qed.
