(** * ScalarConservation: proofs *)
From Coq Require Import Reals List Bool Arith Lia Lra Psatz Permutation.
From Verif Require Import RVec Newton NewtonProofs EulerSystem EulerLimiter EulerLimiterBounds Scalar ScalarSpec.
Import ListNotations.
Local Open Scope R_scope.

(** ** Bounds *)

Lemma sc_step_comm dim l x y : sc_step dim (sc_step dim l x) y = sc_step dim (sc_step dim l y) x.
Proof.
  unfold sc_step, sc_accumulate; cbn [sl_u_i sl_flux_i sl_bounds u_min u_max
    u_relaxation_numerator u_relaxation_denominator].
  f_equal; try apply Rplus_swap.
  f_equal; solve [apply Rmin_swap|apply Rmax_swap].
Qed.

Lemma sc_stencil_perm dim big u_i f_i cs cs' : Permutation cs cs' ->
  sc_stencil dim big u_i f_i cs = sc_stencil dim big u_i f_i cs'.
Proof. intros H. apply fold_left_perm; [intros; apply sc_step_comm|exact H]. Qed.

Lemma sc_fold dim cs : forall l,
  let r := fold_left (sc_step dim) cs l in
  (sl_u_i r = sl_u_i l /\ sl_flux_i r = sl_flux_i l) /\
  (u_min (sl_bounds r) <= u_min (sl_bounds l) /\ u_max (sl_bounds l) <= u_max (sl_bounds r)) /\
  (forall x, In x cs -> u_min (sl_bounds r) <= sc_bar_of dim (sl_u_i l) (sl_flux_i l) x <= u_max (sl_bounds r)) /\
  (0 <= u_relaxation_denominator l -> 0 <= u_relaxation_denominator r).
Proof.
  induction cs as [|c cs IH]; intros l; cbv zeta; simpl.
  - repeat split; try lra; contradiction.
  - destruct (IH (sc_step dim l c)) as ((A & A') & (B & C) & D & E). clear IH.
    change (sl_u_i (sc_step dim l c)) with (sl_u_i l) in *.
    change (sl_flux_i (sc_step dim l c)) with (sl_flux_i l) in *.
    change (u_min (sl_bounds (sc_step dim l c))) with
      (Rmin (u_min (sl_bounds l)) (sc_bar_of dim (sl_u_i l) (sl_flux_i l) c)) in B.
    change (u_max (sl_bounds (sc_step dim l c))) with
      (Rmax (u_max (sl_bounds l)) (sc_bar_of dim (sl_u_i l) (sl_flux_i l) c)) in C.
    assert (M1 := Rmin_l (u_min (sl_bounds l)) (sc_bar_of dim (sl_u_i l) (sl_flux_i l) c)).
    assert (M2 := Rmin_r (u_min (sl_bounds l)) (sc_bar_of dim (sl_u_i l) (sl_flux_i l) c)).
    assert (M3 := Rmax_l (u_max (sl_bounds l)) (sc_bar_of dim (sl_u_i l) (sl_flux_i l) c)).
    assert (M4 := Rmax_r (u_max (sl_bounds l)) (sc_bar_of dim (sl_u_i l) (sl_flux_i l) c)).
    repeat split; try assumption; try lra.
    + destruct H as [<-|H]; [lra|]. apply D in H. lra.
    + destruct H as [<-|H]; [lra|]. apply D in H. lra.
    + intros H. apply E. simpl. assert (X := Rabs_pos 1). lra.
Qed.

Lemma sc_relaxed eps factor dim l hd : 0 < eps -> 0 <= factor ->
  let r := sc_get_bounds eps factor dim l hd in
  u_min r <= u_min (sl_bounds l) /\ u_max (sl_bounds l) <= u_max r.
Proof.
  intros He Hf r.
  assert (R0 := relaxation_radius_nonneg dim hd).
  assert (Hr : 0 <= relaxation_radius dim hd * factor) by (apply Rmult_le_pos; lra).
  unfold r, sc_get_bounds; cbn [u_min u_max]. set (ri := relaxation_radius dim hd * factor) in *. clearbody ri.
  set (x := Rabs (u_relaxation_numerator l) / (Rabs (u_relaxation_denominator l) + eps)).
  assert (Hx : 0 <= x).
  { unfold x. apply Rmult_le_pos; [apply Rabs_pos|]. left. apply Rinv_0_lt_compat.
    assert (Y := Rabs_pos (u_relaxation_denominator l)). lra. }
  clearbody x. split.
  - apply Rmax_lub; [|lra].
    destruct (Rle_lt_dec 0 (u_min (sl_bounds l))).
    + eapply Rle_trans; [apply Rmin_l|nra].
    + eapply Rle_trans; [apply Rmin_r|nra].
  - apply Rmin_glb; [|lra].
    destruct (Rle_lt_dec 0 (u_max (sl_bounds l))).
    + eapply Rle_trans; [|apply Rmax_l]. nra.
    + eapply Rle_trans; [|apply Rmax_r]. nra.
Qed.

Lemma sc_stencil_contains dim big eps factor hd u_i f_i cs :
  0 < eps -> 0 <= factor ->
  let r := sc_get_bounds eps factor dim (sc_stencil dim big u_i f_i cs) hd in
  forall c, In c cs -> u_min r <= sc_bar_of dim u_i f_i c <= u_max r.
Proof.
  intros He Hf r c Hc.
  destruct (sc_fold dim cs (sc_reset big u_i f_i)) as (_ & _ & D & _).
  fold (sc_stencil dim big u_i f_i cs) in D. specialize (D c Hc). simpl in D.
  assert (K := sc_relaxed eps factor dim (sc_stencil dim big u_i f_i cs) hd He Hf). cbv zeta in K.
  fold r in K. lra.
Qed.

(** ** limit *)

Lemma sc_limit_range eps tiny L : sl_tmin L <= sl_tmax L ->
  sl_tmin L <= sc_limit1 eps tiny L <= sl_tmax L.
Proof.
  intros H. unfold sc_limit1. split; [apply Rmax_r|]. apply Rmax_lub; [apply Rmin_r|exact H].
Qed.

Lemma sc_limit_bounds eps tiny L : 0 <= eps -> 0 < tiny -> scalar_call L ->
  value_within L (sl_tmax L * (eps * Rmax 0 (- u_max (sl_b L)))) (sc_limit1 eps tiny L).
Proof.
  intros He Ht (T0 & T1 & H0 & H1). unfold value_within, value_at in *.
  assert (H0' : u_min (sl_b L) <= sl_U L <= u_max (sl_b L)) by lra. clear H0.
  assert (Hs : 0 <= eps * Rmax 0 (- u_max (sl_b L)))
    by (apply Rmult_le_pos; [lra|apply Rmax_l]).
  set (sl := eps * Rmax 0 (- u_max (sl_b L))) in *.
  assert (Hsl : - sl <= eps * u_max (sl_b L)).
  { unfold sl. assert (X := Rmax_r 0 (- u_max (sl_b L))). nra. }
  assert (Hslack : 0 <= sl_tmax L * sl) by (apply Rmult_le_pos; lra).
  unfold sc_limit1.
  set (uU := sl_U L) in *. set (uP := sl_P L) in *.
  set (um := u_min (sl_b L)) in *. set (uM := u_max (sl_b L)) in *.
  set (tmax := sl_tmax L) in *. set (tmin := sl_tmin L) in *.
  set (D := Rmax (100 * tiny) (Rabs uP + eps * uM)) in *.
  assert (HD : 0 < D) by (unfold D; eapply Rlt_le_trans; [|apply Rmax_l]; lra).
  assert (HD1 : Rabs uP - sl <= D) by (unfold D; eapply Rle_trans; [|apply Rmax_r]; lra).
  clearbody D sl.
  (* a candidate bounded by the quotient *)
  assert (Cand : forall gap t, 0 <= gap -> 0 <= t <= tmax -> t <= gap * (1 / D) ->
                 t * Rabs uP <= gap + tmax * sl).
  { intros gap t Hg Ht1 Ht2.
    assert (t * D <= gap).
    { apply Rmult_le_compat_r with (r := D) in Ht2; [|lra].
      replace (gap * (1 / D) * D) with gap in Ht2 by (field; lra). exact Ht2. }
    assert (t * (Rabs uP - sl) <= t * D) by (apply Rmult_le_compat_l; lra).
    assert (t * sl <= tmax * sl) by (apply Rmult_le_compat_r; lra). nra. }
  assert (Ha : uP <= Rabs uP) by apply Rle_abs.
  assert (Hb : - uP <= Rabs uP) by (rewrite <- Rabs_Ropp; apply Rle_abs).
  set (t1 := mask_lt uM (uU + tmax * uP) ((uM - uU) * (1 / D)) tmax).
  assert (G1 : 0 <= (uM - uU) * (1 / D)).
  { apply Rmult_le_pos; [lra|]. left. unfold Rdiv. rewrite Rmult_1_l. apply Rinv_0_lt_compat. lra. }
  assert (G2 : 0 <= (uU - um) * (1 / D)).
  { apply Rmult_le_pos; [lra|]. left. unfold Rdiv. rewrite Rmult_1_l. apply Rinv_0_lt_compat. lra. }
  assert (F1 : 0 <= t1 /\ forall t, 0 <= t -> t <= t1 -> t <= tmax -> uU + t * uP <= uM + tmax * sl).
  { unfold t1, mask_lt. destruct (Rlt_dec _ _) as [B|B].
    - split; [exact G1|]. intros t A1 A2 A3.
      assert (X := Cand (uM - uU) t ltac:(lra) ltac:(lra) A2). nra.
    - split; [lra|]. intros t A1 A2 A3. destruct (Rle_lt_dec 0 uP); nra. }
  clearbody t1. destruct F1 as [F0 F1].
  set (t2 := mask_lt (uU + t1 * uP) um ((uU - um) * (1 / D)) t1).
  assert (F2 : 0 <= t2 /\ forall t, 0 <= t -> t <= t2 -> t <= tmax ->
                 um - tmax * sl <= uU + t * uP <= uM + tmax * sl).
  { unfold t2, mask_lt. destruct (Rlt_dec _ _) as [B|B].
    - split; [exact G2|]. intros t A1 A2 A3.
      assert (X := Cand (uU - um) t ltac:(lra) ltac:(lra) A2).
      assert (uP < 0) by nra. split; nra.
    - split; [exact F0|]. intros t A1 A2 A3.
      split; [|apply F1; lra]. destruct (Rle_lt_dec 0 uP); nra. }
  clearbody t2. destruct F2 as [F2 F3].
  unfold Rmax. destruct (Rle_dec (Rmin t2 tmax) tmin) as [Q|Q].
  - split; lra.
  - apply F3; [apply Rmin_glb; lra|apply Rmin_l|apply Rmin_r].
Qed.

Lemma sc_limit_full eps tiny L : sl_tmin L <= sl_tmax L ->
  value_within L 0 (sl_tmax L) -> sc_limit1 eps tiny L = sl_tmax L.
Proof.
  unfold value_within, value_at. intros HT H. unfold sc_limit1.
  assert (E : mask_lt (u_max (sl_b L)) (sl_U L + sl_tmax L * sl_P L)
     ((u_max (sl_b L) - sl_U L) * (1 / Rmax (100 * tiny) (Rabs (sl_P L) + eps * u_max (sl_b L)))) (sl_tmax L)
     = sl_tmax L) by (unfold mask_lt; destruct (Rlt_dec _ _); lra).
  rewrite E. unfold mask_lt. destruct (Rlt_dec _ _); [lra|].
  rewrite Rmin_left by lra. apply Rmax_left. exact HT.
Qed.

(** The flag is true for states within the bounds. *)
Lemma sc_test_ok eps L : 0 <= eps -> value_within L 0 0 -> sc_test eps L = true.
Proof.
  unfold value_within, value_at. intros He H. unfold sc_test.
  assert (A : Rmin (sl_U L - (1 + 10000 * eps) * u_max (sl_b L)) ((1 + 10000 * eps) * sl_U L - u_max (sl_b L)) <= 0).
  { destruct (Rle_lt_dec 0 (u_max (sl_b L))).
    - eapply Rle_trans; [apply Rmin_l|]. nra.
    - eapply Rle_trans; [apply Rmin_r|]. nra. }
  assert (B : Rmin (u_min (sl_b L) - (1 + 10000 * eps) * sl_U L) ((1 + 10000 * eps) * u_min (sl_b L) - sl_U L) <= 0).
  { destruct (Rle_lt_dec 0 (sl_U L)).
    - eapply Rle_trans; [apply Rmin_l|]. nra.
    - eapply Rle_trans; [apply Rmin_r|]. nra. }
  rewrite !Rmax_left by assumption. destruct (Req_EM_T 0 0); [reflexivity|lra].
Qed.

(** ** The Riemann solver *)

Lemma prec_flux F dim n u : dot dim (construct_flux_tensor dim (sc_precomputed F dim u)) n = flux_n F dim n u.
Proof.
  apply rsum_ext. intros k Hk. unfold construct_flux_tensor, sc_precomputed.
  destruct (Nat.ltb_spec k dim); [reflexivity|lia].
Qed.

Lemma prec_gradient F dim n u :
  dot dim (construct_flux_gradient_tensor dim (sc_precomputed F dim u)) n = dflux_n F dim n u.
Proof.
  apply rsum_ext. intros k Hk. unfold construct_flux_gradient_tensor, sc_precomputed.
  destruct (Nat.ltb_spec (dim + k) dim); [lia|]. unfold sc_flux_gradient. repeat f_equal. lia.
Qed.

Lemma enforce_mono F dim n h2 u_i u_j f_i f_j lam k : lam <= enforce_entropy F dim n h2 u_i u_j f_i f_j lam k.
Proof. unfold enforce_entropy. eapply Rle_trans; [apply Rmax_l|apply Rmax_l]. Qed.

Lemma enforce_fold_mono F dim n h2 u_i u_j f_i f_j draws : forall lam,
  lam <= fold_left (fun lam factor => enforce_entropy F dim n h2 u_i u_j f_i f_j lam (factor * u_i + (1 - factor) * u_j)) draws lam.
Proof.
  induction draws as [|d ds IH]; intros lam; simpl; [lra|].
  eapply Rle_trans; [|apply IH]. apply enforce_mono.
Qed.

(** The estimate before the entropy inequalities are enforced. *)
Definition base_lambda (F : flux) (greedy : bool) (dim : nat) (n : vec) (u_i u_j : R) : R :=
  let roe := Rabs (flux_n F dim n u_i - flux_n F dim n u_j) / Rmax (Rabs (u_i - u_j)) (2 * fl_delta F) in
  if greedy then
    if Rge_dec (Rabs (u_i - u_j)) (2 * fl_delta F) then roe
    else Rabs (1 / 2 * (dflux_n F dim n u_i + dflux_n F dim n u_j))
  else Rmax (Rmax roe (Rabs (dflux_n F dim n u_i))) (Rabs (dflux_n F dim n u_j)).

Lemma wavespeed_ge_base F greedy averaged draws dim u_i u_j n :
  base_lambda F greedy dim n u_i u_j <= sc_wavespeed F greedy averaged draws dim u_i u_j n.
Proof.
  unfold sc_wavespeed, sc_compute. rewrite !prec_flux, !prec_gradient.
  eapply Rle_trans; [|apply enforce_fold_mono].
  destruct averaged; [eapply Rle_trans; [|apply enforce_mono]|]; apply Rle_refl.
Qed.

Lemma roe_separated F greedy averaged draws dim u_i u_j n :
  0 <= fl_delta F -> u_i <> u_j -> 2 * fl_delta F <= Rabs (u_i - u_j) ->
  Rabs (flux_n F dim n u_i - flux_n F dim n u_j) <=
  sc_wavespeed F greedy averaged draws dim u_i u_j n * Rabs (u_i - u_j).
Proof.
  intros Hd Hne Hs.
  assert (P : 0 < Rabs (u_i - u_j)) by (apply Rabs_pos_lt; lra).
  assert (B := wavespeed_ge_base F greedy averaged draws dim u_i u_j n).
  assert (Q : Rabs (flux_n F dim n u_i - flux_n F dim n u_j) / Rabs (u_i - u_j) <= base_lambda F greedy dim n u_i u_j).
  { unfold base_lambda. rewrite Rmax_left by lra. destruct greedy.
    - destruct (Rge_dec _ _); [apply Rle_refl|lra].
    - eapply Rle_trans; [apply Rmax_l|apply Rmax_l]. }
  assert (E := Rdiv_mult_r (Rabs (flux_n F dim n u_i - flux_n F dim n u_j)) (Rabs (u_i - u_j)) ltac:(lra)).
  rewrite <- E at 1. apply Rmult_le_compat_r; lra.
Qed.

Lemma mono_abs_bound x a b : a <= x <= b \/ b <= x <= a -> Rabs x <= Rmax (Rabs a) (Rabs b).
Proof.
  intros H.
  assert (A := Rle_abs a). assert (B := Rle_abs b).
  assert (A' := Rle_abs (- a)). assert (B' := Rle_abs (- b)). rewrite Rabs_Ropp in A', B'.
  assert (M1 := Rmax_l (Rabs a) (Rabs b)). assert (M2 := Rmax_r (Rabs a) (Rabs b)).
  apply Rabs_le. lra.
Qed.

Lemma convex_speed F averaged draws dim u_i u_j n : convex_between F dim n u_i u_j ->
  forall u, Rmin u_i u_j <= u <= Rmax u_i u_j ->
  Rabs (dflux_n F dim n u) <= sc_wavespeed F false averaged draws dim u_i u_j n.
Proof.
  intros [_ M] u Hu.
  assert (B := wavespeed_ge_base F false averaged draws dim u_i u_j n).
  eapply Rle_trans; [|exact B]. unfold base_lambda.
  set (roe := _ / _). clearbody roe.
  apply Rle_trans with (Rmax (Rabs (dflux_n F dim n u_i)) (Rabs (dflux_n F dim n u_j))).
  2: { apply Rmax_lub; [|apply Rmax_r]. eapply Rle_trans; [apply Rmax_r|apply Rmax_l]. }
  assert (Cs : u_i <= u_j \/ u_j <= u_i) by lra.
  apply mono_abs_bound.
  destruct Cs as [C|C].
  - rewrite Rmin_left, Rmax_right in Hu, M by exact C.
    destruct M as [M|M]; [left|right]; split; apply M; lra.
  - rewrite Rmin_right, Rmax_left in Hu, M by exact C.
    destruct M as [M|M]; [right|left]; split; apply M; lra.
Qed.

Lemma convex_lipschitz F averaged draws dim u_i u_j n : convex_between F dim n u_i u_j ->
  Rabs (flux_n F dim n u_i - flux_n F dim n u_j) <=
  sc_wavespeed F false averaged draws dim u_i u_j n * Rabs (u_i - u_j).
Proof.
  intros HC. assert (HS := convex_speed F averaged draws dim u_i u_j n HC).
  destruct HC as [D _].
  assert (G : forall a b, a < b -> Rmin u_i u_j <= a -> b <= Rmax u_i u_j ->
     Rabs (flux_n F dim n b - flux_n F dim n a) <= sc_wavespeed F false averaged draws dim u_i u_j n * (b - a)).
  { intros a b Hab Ha Hb.
    destruct (MVT_cor2 (flux_n F dim n) (dflux_n F dim n) a b Hab) as (c & E & Hc).
    { intros x Hx. apply D. lra. }
    rewrite E, Rabs_mult, (Rabs_right (b - a)) by lra.
    apply Rmult_le_compat_r; [lra|]. apply HS. lra. }
  destruct (Rtotal_order u_i u_j) as [L|[L|L]].
  - rewrite (Rabs_left (u_i - u_j)), Rabs_minus_sym by lra.
    replace (- (u_i - u_j)) with (u_j - u_i) by ring.
    apply G; [exact L|rewrite Rmin_left by lra; lra|rewrite Rmax_right by lra; lra].
  - subst. rewrite !Rminus_eq_0, Rabs_R0. lra.
  - rewrite (Rabs_right (u_i - u_j)) by lra.
    apply G; [lra|rewrite Rmin_right by lra; lra|rewrite Rmax_left by lra; lra].
Qed.

(** The bar state with d_ij >= |c_ij| lambda. *)
Lemma dot_unit dim a c : 0 < norm2 dim c ->
  dot dim a c = sqrt (norm2 dim c) * dot dim a (vscal (/ sqrt (norm2 dim c)) c).
Proof.
  intros H. rewrite dot_scal_r. field. apply Rgt_not_eq. apply sqrt_lt_R0. exact H.
Qed.

Lemma flux_n_dot F dim n u : flux_n F dim n u = dot dim (sc_flux F u) n.
Proof. reflexivity. Qed.

Lemma bar_between F dim u_i u_j c d lam :
  0 < norm2 dim c -> 0 < d -> sqrt (norm2 dim c) * lam <= d ->
  (let n := vscal (/ sqrt (norm2 dim c)) c in
   Rabs (flux_n F dim n u_i - flux_n F dim n u_j) <= lam * Rabs (u_i - u_j)) ->
  Rmin u_i u_j <= sc_bar_state dim u_i u_j (sc_flux F u_i) (sc_flux F u_j) (vscal (1 / d) c) 0 <= Rmax u_i u_j.
Proof.
  intros Hc Hd Hl HL. cbv zeta in HL. unfold sc_bar_state.
  rewrite dot_scal_r, dot_sub_l.
  rewrite (dot_unit dim (sc_flux F u_j) c Hc), (dot_unit dim (sc_flux F u_i) c Hc).
  rewrite !flux_n_dot in HL.
  set (n := vscal (/ sqrt (norm2 dim c)) c) in *. set (cc := sqrt (norm2 dim c)) in *.
  assert (Hcc : 0 < cc) by (apply sqrt_lt_R0; exact Hc).
  set (fi := dot dim (sc_flux F u_i) n) in *. set (fj := dot dim (sc_flux F u_j) n) in *.
  clearbody fi fj cc.
  set (X := 1 / d * (cc * fj - cc * fi)).
  assert (HX : Rabs X <= Rabs (u_i - u_j)).
  { unfold X. replace (1 / d * (cc * fj - cc * fi)) with (- (cc / d * (fi - fj))) by (field; lra).
    rewrite Rabs_Ropp, Rabs_mult.
    assert (P : 0 <= cc / d) by (apply Rmult_le_pos; [lra|left; apply Rinv_0_lt_compat; lra]).
    rewrite (Rabs_right (cc / d)) by lra.
    apply Rle_trans with (cc / d * (lam * Rabs (u_i - u_j))); [apply Rmult_le_compat_l; assumption|].
    rewrite <- Rmult_assoc. rewrite <- (Rmult_1_l (Rabs (u_i - u_j))) at 2.
    apply Rmult_le_compat_r; [apply Rabs_pos|].
    apply Rmult_le_reg_r with d; [exact Hd|]. replace (cc / d * lam * d) with (cc * lam) by (field; lra). lra. }
  clearbody X.
  assert (A := Rle_abs X). assert (B := Rle_abs (- X)). rewrite Rabs_Ropp in B.
  destruct (Rle_lt_dec u_i u_j) as [L|L].
  - rewrite Rmin_left, Rmax_right by exact L. rewrite (Rabs_left1 (u_i - u_j)) in HX by lra. lra.
  - rewrite Rmin_right, Rmax_left by lra. rewrite (Rabs_right (u_i - u_j)) in HX by lra. lra.
Qed.

(** ** The Kruzkov entropy inequality *)

Lemma enforce_ineq F dim n h2 u_i u_j f_i f_j lam k :
  0 < h2 ->
  let lam' := enforce_entropy F dim n h2 u_i u_j f_i f_j lam k in
  let f_k := dot dim (sc_flux F k) n in
  let q := fun u f => kruzkov_entropy_derivative k u * (f - f_k) in
  forall mu, lam' <= mu -> 0 < mu ->
  Rabs (k - (1 / 2 * (u_i + u_j) - 1 / (2 * mu) * (f_j - f_i))) <=
  1 / 2 * (Rabs (k - u_i) + Rabs (k - u_j)) - 1 / (2 * mu) * (q u_j f_j - q u_i f_i) + 1 / 2 * h2.
Proof.
  intros Hh lam' f_k q mu Hm H0.
  unfold lam', enforce_entropy in Hm. fold f_k in Hm.
  change (kruzkov_entropy_derivative k u_i * (f_i - f_k)) with (q u_i f_i) in Hm.
  change (kruzkov_entropy_derivative k u_j * (f_j - f_k)) with (q u_j f_j) in Hm.
  unfold kruzkov_entropy in Hm.
  set (c := Rabs (k - u_i) + Rabs (k - u_j)) in *.
  set (a := u_i + u_j - 2 * k) in *. set (b := f_j - f_i) in *. set (d := q u_j f_j - q u_i f_i) in *.
  assert (Hc : - c <= a <= c).
  { unfold a, c.
    assert (A1 := Rle_abs (k - u_i)). assert (A2 := Rle_abs (k - u_j)).
    assert (A3 := Rle_abs (- (k - u_i))). assert (A4 := Rle_abs (- (k - u_j))).
    rewrite Rabs_Ropp in A3, A4. lra. }
  rewrite (Rabs_right (c + a)), (Rabs_right (c - a)) in Hm by lra.
  set (X1 := Rabs (d + b) / (c + a + h2)) in *. set (X2 := Rabs (d - b) / (c - a + h2)) in *.
  assert (L1 : X1 <= mu).
  { eapply Rle_trans; [|exact Hm]. eapply Rle_trans; [apply Rmax_r|apply Rmax_l]. }
  assert (L2 : X2 <= mu) by (eapply Rle_trans; [apply Rmax_r|exact Hm]).
  assert (E1 := Rdiv_mult_r (Rabs (d + b)) (c + a + h2) ltac:(lra)). fold X1 in E1.
  assert (E2 := Rdiv_mult_r (Rabs (d - b)) (c - a + h2) ltac:(lra)). fold X2 in E2.
  assert (M1 : d + b <= mu * (c + a + h2)).
  { eapply Rle_trans; [apply Rle_abs|]. rewrite <- E1. apply Rmult_le_compat_r; lra. }
  assert (M2 : d - b <= mu * (c - a + h2)).
  { eapply Rle_trans; [apply Rle_abs|]. rewrite <- E2. apply Rmult_le_compat_r; lra. }
  clearbody X1 X2. clear E1 E2 L1 L2 Hm.
  assert (I : 0 < 1 / (2 * mu)) by (apply Rdiv_lt_0_compat; lra).
  assert (J : 1 / (2 * mu) * (2 * mu) = 1) by (field; lra).
  set (i := 1 / (2 * mu)) in *. clearbody i.
  replace (k - (1 / 2 * (u_i + u_j) - i * b)) with (- (1 / 2 * a) + i * b) by (unfold a; field).
  apply Rabs_le.
  assert (N1 : i * (d + b) <= 1 / 2 * (c + a + h2)).
  { apply Rmult_le_compat_l with (r := i) in M1; [|lra].
    replace (i * (mu * (c + a + h2))) with ((i * (2 * mu)) * (1 / 2 * (c + a + h2))) in M1 by field.
    rewrite J in M1. lra. }
  assert (N2 : i * (d - b) <= 1 / 2 * (c - a + h2)).
  { apply Rmult_le_compat_l with (r := i) in M2; [|lra].
    replace (i * (mu * (c - a + h2))) with ((i * (2 * mu)) * (1 / 2 * (c - a + h2))) in M2 by field.
    rewrite J in M2. lra. }
  split; nra.
Qed.

Lemma enforce_fold F dim n h2 u_i u_j f_i f_j draws : forall lam0 factor, In factor draws ->
  exists lam, enforce_entropy F dim n h2 u_i u_j f_i f_j lam (factor * u_i + (1 - factor) * u_j) <=
  fold_left (fun lam factor => enforce_entropy F dim n h2 u_i u_j f_i f_j lam (factor * u_i + (1 - factor) * u_j)) draws lam0.
Proof.
  induction draws as [|d ds IH]; intros lam0 factor [].
  - subst d. exists lam0. simpl. apply enforce_fold_mono.
  - simpl. apply IH. assumption.
Qed.

Lemma kruzkov_inequality F greedy averaged draws dim u_i u_j n k mu :
  0 < fl_delta F -> enforced averaged draws u_i u_j k ->
  sc_wavespeed F greedy averaged draws dim u_i u_j n <= mu -> 0 < mu ->
  let ubar := 1 / 2 * (u_i + u_j) - 1 / (2 * mu) * (flux_n F dim n u_j - flux_n F dim n u_i) in
  Rabs (k - ubar) <=
  1 / 2 * (Rabs (k - u_i) + Rabs (k - u_j)) -
  1 / (2 * mu) * (entropy_flux F dim n k u_j - entropy_flux F dim n k u_i) + fl_delta F.
Proof.
  intros Hd Hk Hm H0 ubar.
  unfold sc_wavespeed, sc_compute in Hm. rewrite !prec_flux, !prec_gradient in Hm.
  replace (fl_delta F) with (1 / 2 * (2 * fl_delta F)) by field.
  destruct Hk as [[-> ->]|(x & Hx & ->)].
  - set (l0 := if greedy then _ else _) in Hm.
    apply (enforce_ineq F dim n (2 * fl_delta F) u_i u_j (flux_n F dim n u_i) (flux_n F dim n u_j) l0
             (1 / 2 * (u_i + u_j)) ltac:(lra) mu); [|exact H0].
    eapply Rle_trans; [|exact Hm]. apply enforce_fold_mono.
  - set (l0 := if averaged then _ else _) in Hm.
    destruct (enforce_fold F dim n (2 * fl_delta F) u_i u_j (flux_n F dim n u_i) (flux_n F dim n u_j) draws l0 x Hx)
      as (lam & Hl).
    apply (enforce_ineq F dim n (2 * fl_delta F) u_i u_j (flux_n F dim n u_i) (flux_n F dim n u_j) lam
             (x * u_i + (1 - x) * u_j) ltac:(lra) mu); [|exact H0].
    eapply Rle_trans; [exact Hl|exact Hm].
Qed.

(** ** More on limit *)

Lemma sc_test_one eps x y : 0 <= eps ->
  (if Req_EM_T (Rmax 0 (Rmin (x - (1 + 10000 * eps) * y) ((1 + 10000 * eps) * x - y))) 0
   then true else false) = true ->
  x - y <= 10000 * eps * Rmax (Rabs x) (Rabs y).
Proof.
  intros He K. destruct (Req_EM_T _ _) as [E|E]; [clear K|discriminate].
  assert (X1 := Rmax_l (Rabs x) (Rabs y)). assert (X2 := Rmax_r (Rabs x) (Rabs y)).
  assert (X3 := Rle_abs y). assert (X4 := Rle_abs (- x)). rewrite Rabs_Ropp in X4.
  assert (X5 := Rle_abs x). assert (X6 := Rle_abs (- y)). rewrite Rabs_Ropp in X6.
  assert (M : Rmin (x - (1 + 10000 * eps) * y) ((1 + 10000 * eps) * x - y) <= 0)
    by (rewrite <- E; apply Rmax_r).
  set (m := Rmax (Rabs x) (Rabs y)) in *.
  assert (eps * y <= eps * m) by (apply Rmult_le_compat_l; lra).
  assert (eps * - x <= eps * m) by (apply Rmult_le_compat_l; lra).
  unfold Rmin in M. destruct (Rle_dec _ _); lra.
Qed.

Lemma sc_test_true eps L : 0 <= eps -> sc_test eps L = true ->
  sl_U L - u_max (sl_b L) <= 10000 * eps * Rmax (Rabs (sl_U L)) (Rabs (u_max (sl_b L))) /\
  u_min (sl_b L) - sl_U L <= 10000 * eps * Rmax (Rabs (sl_U L)) (Rabs (u_min (sl_b L))).
Proof.
  intros He H. unfold sc_test in H. apply andb_true_iff in H. destruct H as [H1 H2].
  split; [exact (sc_test_one eps _ _ He H1)|].
  rewrite Rmax_comm. exact (sc_test_one eps _ _ He H2).
Qed.

Lemma sc_limit_largest tiny L : 0 < tiny -> 100 * tiny <= Rabs (sl_P L) -> scalar_call L ->
  forall t, sc_limit1 0 tiny L < t <= sl_tmax L -> ~ value_within L 0 t.
Proof.
  intros Ht HP (T0 & T1 & H0 & H1) t Hlt. unfold value_within, value_at in *.
  unfold sc_limit1 in Hlt. rewrite (Rmult_0_l (u_max (sl_b L))), Rplus_0_r, (Rmax_right (100 * tiny)) in Hlt by exact HP.
  set (uU := sl_U L) in *. set (uP := sl_P L) in *.
  set (um := u_min (sl_b L)) in *. set (uM := u_max (sl_b L)) in *.
  set (tmax := sl_tmax L) in *. set (tmin := sl_tmin L) in *.
  assert (A0 : 0 < Rabs uP) by lra.
  assert (I : 1 / Rabs uP * Rabs uP = 1) by (field; lra).
  assert (IP : 0 < 1 / Rabs uP) by (apply Rdiv_lt_0_compat; lra).
  set (i := 1 / Rabs uP) in *. clearbody i.
  set (t1 := mask_lt uM (uU + tmax * uP) ((uM - uU) * i) tmax) in *.
  set (t2 := mask_lt (uU + t1 * uP) um ((uU - um) * i) t1) in *.
  assert (K : t2 < t) by (
    assert (X := Rmax_l (Rmin t2 tmax) tmin); unfold Rmin in X; destruct (Rle_dec t2 tmax); unfold Rmin in Hlt;
    destruct (Rle_dec t2 tmax); lra).
  intros [B1 B2]. unfold t2, mask_lt in K. destruct (Rlt_dec (uU + t1 * uP) um) as [C|C].
  - assert (t1 <= tmax).
    { unfold t1, mask_lt. destruct (Rlt_dec _ _) as [D|D]; [|lra].
      assert (0 < uP) by nra. rewrite Rabs_right in I by lra.
      apply Rmult_le_reg_r with uP; [assumption|]. replace ((uM - uU) * i * uP) with ((uM - uU) * (i * uP)) by ring.
      rewrite I. lra. }
    assert (Hn : uP < 0).
    { destruct (Rlt_le_dec uP 0) as [X|X]; [exact X|exfalso].
      assert (0 <= t1).
      { unfold t1, mask_lt. destruct (Rlt_dec _ _); [|lra]. apply Rmult_le_pos; lra. }
      nra. }
    rewrite Rabs_left in I by exact Hn.
    assert ((uU - um) * i * (- uP) = uU - um) by (replace ((uU - um) * i * (- uP)) with ((uU - um) * (i * - uP)) by ring; rewrite I; ring).
    nra.
  - unfold t1, mask_lt in K. destruct (Rlt_dec _ _) as [D|D]; [|lra].
    assert (0 < uP) by nra. rewrite Rabs_right in I by lra.
    assert ((uM - uU) * i * uP = uM - uU) by (replace ((uM - uU) * i * uP) with ((uM - uU) * (i * uP)) by ring; rewrite I; ring).
    nra.
Qed.

(** A concrete lane with negative bounds. *)
Definition ex_negative : slane :=
  {| sl_b := {| u_min := -2; u_max := -1 |}; sl_U := - (3 / 2); sl_P := 1; sl_tmin := 0; sl_tmax := 1 |}.

Lemma negative_violation eps tiny : 0 < eps < 1 / 2 -> 0 < tiny < 1 / 1000 ->
  scalar_call ex_negative /\ u_max (sl_b ex_negative) < value_at ex_negative (sc_limit1 eps tiny ex_negative).
Proof.
  intros He Ht. split.
  - unfold scalar_call, value_within, value_at, ex_negative; simpl. lra.
  - unfold value_at, sc_limit1, ex_negative; simpl.
    rewrite Rabs_right, (Rmax_right (100 * tiny)) by lra.
    assert (E : (-1 - - (3 / 2)) * (1 / (1 + eps * -1)) = 1 / 2 / (1 - eps)) by (field; lra).
    rewrite E.
    assert (B : 1 / 2 < 1 / 2 / (1 - eps) < 1).
    { split; apply Rmult_lt_reg_r with (1 - eps); try lra;
        replace (1 / 2 / (1 - eps) * (1 - eps)) with (1 / 2) by (field; lra); lra. }
    set (x := 1 / 2 / (1 - eps)) in *. clearbody x.
    assert (E1 : mask_lt (-1) (- (3 / 2) + 1 * 1) x 1 = x) by (unfold mask_lt; destruct (Rlt_dec _ _); lra).
    rewrite E1. unfold mask_lt. destruct (Rlt_dec _ _); [lra|].
    rewrite Rmin_left, Rmax_left by lra. lra.
Qed.

(** ** KPP *)

Lemma sin_gt_xcos a : 0 < a < 1 -> a * cos a < sin a.
Proof.
  intros H.
  assert (G : forall x, derivable_pt_lim (fun y => sin y - y * cos y) x (cos x - (1 * cos x + x * - sin x))).
  { intros x. apply (derivable_pt_lim_minus sin (fun y => y * cos y)).
    - apply derivable_pt_lim_sin.
    - apply (derivable_pt_lim_mult id cos); [apply derivable_pt_lim_id|apply derivable_pt_lim_cos]. }
  destruct (MVT_cor2 (fun y => sin y - y * cos y) (fun x => cos x - (1 * cos x + x * - sin x)) 0 a) as (c & E & Hc);
    [lra|intros; apply G|].
  rewrite sin_0, cos_0 in E.
  assert (0 < sin c) by (apply sin_gt_0; [lra|]; assert (X := PI2_1); lra).
  assert (0 < (cos c - (1 * cos c + c * - sin c)) * (a - 0)) by (apply Rmult_lt_0_compat; nra).
  lra.
Qed.

Lemma kpp_violation greedy delta : 0 < delta <= 1 ->
  let a := delta / 2 in let c := fun k : nat => match k with O => 1 | _ => 0 end in
  let F := kpp delta in
  let d := sqrt (norm2 2 c) * sc_wavespeed F greedy true [] 2 (- a) a (vscal (/ sqrt (norm2 2 c)) c) in
  0 < d /\
  sc_bar_state 2 (- a) a (sc_flux F (- a)) (sc_flux F a) (vscal (1 / d) c) 0 < - a.
Proof.
  intros Hd a c F d.
  assert (N : norm2 2 c = 1) by (unfold norm2, dot, rsum, c; simpl; ring).
  assert (S1 : sqrt (norm2 2 c) = 1) by (rewrite N; apply sqrt_1).
  assert (Ha : 0 < a <= 1 / 2) by (unfold a; lra).
  assert (Hs : 0 < sin a) by (apply sin_gt_0; [lra|]; assert (X := PI2_1); lra).
  assert (Hsx : sin a < a) by (apply sin_lt_x; lra).
  assert (Hc : 7 / 8 <= cos a).
  { replace a with (2 * (a / 2)) by field. rewrite cos_2a_sin.
    assert (0 < sin (a / 2)) by (apply sin_gt_0; [lra|]; assert (X := PI2_1); lra).
    assert (sin (a / 2) < a / 2) by (apply sin_lt_x; lra). nra. }
  assert (Hsc := sin_gt_xcos a ltac:(lra)).
  assert (FN : forall u, dot 2 (sc_flux F u) (vscal (/ 1) c) = sin u)
    by (intros u; unfold dot, rsum, sc_flux, vscal, c, F, kpp; simpl; rewrite Rinv_1; ring).
  assert (DN : forall u, dflux_n F 2 (vscal (/ 1) c) u = cos u)
    by (intros u; unfold dflux_n, rsum, vscal, c, F, kpp; simpl; rewrite Rinv_1; ring).
  assert (D : d = cos a).
  { unfold d. rewrite S1, Rmult_1_l. unfold sc_wavespeed, sc_compute. cbn [fold_left].
    rewrite !prec_flux, !prec_gradient, !flux_n_dot, !FN, !DN, sin_neg, cos_neg.
    change (fl_delta F) with delta.
    replace (- a - a) with (- (2 * a)) by ring.
    rewrite Rabs_Ropp, (Rabs_right (2 * a)) by lra.
    replace (- sin a - sin a) with (- (2 * sin a)) by ring.
    rewrite Rabs_Ropp, (Rabs_right (2 * sin a)) by lra.
    replace (delta) with (2 * a) by (unfold a; field).
    rewrite (Rmax_right (2 * a)) by lra.
    assert (Roe : 2 * sin a / (2 * (2 * a)) <= cos a).
    { apply Rmult_le_reg_r with (2 * (2 * a)); [lra|].
      replace (2 * sin a / (2 * (2 * a)) * (2 * (2 * a))) with (2 * sin a) by (field; lra). nra. }
    set (l0 := if greedy then _ else _).
    assert (L0 : l0 = cos a).
    { unfold l0. destruct greedy.
      - destruct (Rge_dec _ _); [lra|]. rewrite Rabs_right; lra.
      - rewrite Rabs_right by lra. rewrite (Rmax_right (2 * sin a / (2 * (2 * a)))) by exact Roe. apply Rmax_left. lra. }
    rewrite L0. clear l0 L0 Roe. unfold enforce_entropy. rewrite FN.
    replace (1 / 2 * (- a + a)) with 0 by field. rewrite sin_0.
    unfold kruzkov_entropy, kruzkov_entropy_derivative.
    destruct (Rge_dec (- a) 0); [lra|]. destruct (Rge_dec a 0); [|lra].
    replace (0 - - a) with a by ring. replace (0 - a) with (- a) by ring.
    rewrite Rabs_Ropp, (Rabs_right a) by lra.
    replace (1 * (sin a - 0) - -1 * (- sin a - 0)) with 0 by ring.
    replace (- a + a - 2 * 0) with 0 by ring. rewrite Rplus_0_r, Rminus_0_r, Rplus_0_l, Rminus_0_l.
    rewrite Rabs_Ropp. replace (sin a - - sin a) with (2 * sin a) by ring.
    rewrite (Rabs_right (2 * sin a)), (Rabs_right (a + a)) by lra.
    assert (Q : 2 * sin a / (a + a + 2 * (2 * a)) <= cos a).
    { apply Rmult_le_reg_r with (a + a + 2 * (2 * a)); [lra|].
      replace (2 * sin a / (a + a + 2 * (2 * a)) * (a + a + 2 * (2 * a))) with (2 * sin a) by (field; lra). nra. }
    rewrite (Rmax_left (cos a)) by exact Q. apply Rmax_left. exact Q. }
  split; [lra|].
  rewrite D. unfold sc_bar_state. rewrite dot_scal_r, dot_sub_l.
  assert (FC : forall u, dot 2 (sc_flux F u) c = sin u)
    by (intros u; unfold dot, rsum, sc_flux, c, F, kpp; simpl; ring).
  rewrite !FC, sin_neg.
  assert (a < sin a / cos a).
  { apply Rmult_lt_reg_r with (cos a); [lra|].
    replace (sin a / cos a * cos a) with (sin a) by (field; lra). lra. }
  replace (1 / 2 * (- a + a) - 1 / 2 * (1 / cos a * (sin a - - sin a)) + 0) with (- (sin a / cos a)) by (field; lra).
  lra.
Qed.

(** ** Burgers *)

Lemma burgers_flux_n delta dim n u : flux_n (burgers delta) dim n u = rsum dim n * (1 / 2 * u * u).
Proof.
  unfold flux_n. rewrite Rmult_comm, <- rsum_scal. apply rsum_ext. intros k _. simpl. ring.
Qed.

Lemma burgers_dflux_n delta dim n u : dflux_n (burgers delta) dim n u = rsum dim n * u.
Proof.
  unfold dflux_n. rewrite Rmult_comm, <- rsum_scal. apply rsum_ext. intros k _. simpl. ring.
Qed.

Lemma burgers_convex delta dim n u_i u_j : convex_between (burgers delta) dim n u_i u_j.
Proof.
  split.
  - intros u _. rewrite burgers_dflux_n.
    apply derivable_pt_lim_ext with (fun u => rsum dim n * (1 / 2 * u * u)).
    { intros x. symmetry. apply burgers_flux_n. }
    replace (rsum dim n * u) with (rsum dim n * ((1 / 2 * 1) * u + 1 / 2 * u * 1)) by field.
    apply (derivable_pt_lim_scal (fun u => 1 / 2 * u * u)).
    apply (derivable_pt_lim_mult (fun u => 1 / 2 * u) id); [|apply derivable_pt_lim_id].
    apply (derivable_pt_lim_scal id). apply derivable_pt_lim_id.
  - destruct (Rle_lt_dec 0 (rsum dim n)); [left|right]; intros u v H1 H2; rewrite !burgers_dflux_n; nra.
Qed.

Lemma sc_bar_principle F averaged draws dim u_i u_j c d :
  let cc := sqrt (norm2 dim c) in let n := vscal (/ cc) c in
  0 < norm2 dim c -> 0 < d -> convex_between F dim n u_i u_j ->
  cc * sc_wavespeed F false averaged draws dim u_i u_j n <= d ->
  Rmin u_i u_j <= sc_bar_state dim u_i u_j (sc_flux F u_i) (sc_flux F u_j) (vscal (1 / d) c) 0 <= Rmax u_i u_j.
Proof.
  intros cc n Hc Hd HC Hl. eapply bar_between; [exact Hc|exact Hd|exact Hl|].
  apply convex_lipschitz. exact HC.
Qed.

Lemma sc_bar_separated F greedy averaged draws dim u_i u_j c d :
  let cc := sqrt (norm2 dim c) in let n := vscal (/ cc) c in
  0 < norm2 dim c -> 0 < d -> 0 <= fl_delta F -> u_i <> u_j -> 2 * fl_delta F <= Rabs (u_i - u_j) ->
  cc * sc_wavespeed F greedy averaged draws dim u_i u_j n <= d ->
  Rmin u_i u_j <= sc_bar_state dim u_i u_j (sc_flux F u_i) (sc_flux F u_j) (vscal (1 / d) c) 0 <= Rmax u_i u_j.
Proof.
  intros cc n Hc Hd H0 Hne Hs Hl. eapply bar_between; [exact Hc|exact Hd|exact Hl|].
  apply roe_separated; assumption.
Qed.

Lemma sc_limit_lanes (P : slane -> Prop) (Q : slane -> R -> Prop) eps tiny lanes ts success :
  (forall L, P L -> Q L (sc_limit1 eps tiny L)) -> Forall P lanes ->
  sc_limit eps tiny lanes = (ts, success) -> Forall2 Q lanes ts.
Proof.
  intros H HP E. unfold sc_limit in E. injection E as <- _. clear success.
  induction HP; simpl; constructor; auto.
Qed.

Lemma sc_limit_success eps tiny lanes ts success : 0 <= eps ->
  Forall (fun L => value_within L 0 0) lanes ->
  sc_limit eps tiny lanes = (ts, success) -> success = true.
Proof.
  intros He H E. unfold sc_limit in E. injection E as _ <-. apply forallb_forall.
  intros L HL. apply sc_test_ok; [exact He|]. rewrite Forall_forall in H. apply H. exact HL.
Qed.

Lemma sc_limit_failure eps tiny lanes ts : 0 <= eps ->
  sc_limit eps tiny lanes = (ts, true) ->
  Forall (fun L =>
    sl_U L - u_max (sl_b L) <= 10000 * eps * Rmax (Rabs (sl_U L)) (Rabs (u_max (sl_b L))) /\
    u_min (sl_b L) - sl_U L <= 10000 * eps * Rmax (Rabs (sl_U L)) (Rabs (u_min (sl_b L)))) lanes.
Proof.
  intros He E. unfold sc_limit in E. injection E as _ E. rewrite forallb_forall in E.
  apply Forall_forall. intros L HL. apply sc_test_true; auto.
Qed.

(** ** Statements of the property theorems *)

Lemma C27_scalar_combine_proof : forall l r,
  let b := sc_combine_bounds l r in
  (u_min b <= u_min l /\ u_max l <= u_max b) /\ (u_min b <= u_min r /\ u_max r <= u_max b).
Proof. intros. repeat split; simpl; (apply Rmin_l || apply Rmin_r || apply Rmax_l || apply Rmax_r). Qed.

Lemma C30_range_proof : forall eps tiny lanes ts success,
  Forall (fun L => sl_tmin L <= sl_tmax L) lanes ->
  sc_limit eps tiny lanes = (ts, success) ->
  Forall2 (fun L t => sl_tmin L <= t <= sl_tmax L) lanes ts.
Proof. intros eps tiny lanes ts success. apply sc_limit_lanes. intros L. apply sc_limit_range. Qed.

Lemma C30_bounds_proof : forall eps tiny lanes ts success,
  0 <= eps -> 0 < tiny -> Forall scalar_call lanes ->
  sc_limit eps tiny lanes = (ts, success) ->
  Forall2 (fun L t => value_within L (sl_tmax L * (eps * Rmax 0 (- u_max (sl_b L)))) t) lanes ts.
Proof. intros eps tiny lanes ts success He Ht. apply sc_limit_lanes. intros L. apply sc_limit_bounds; assumption. Qed.

Lemma C30_full_update_accepted_proof : forall eps tiny lanes ts success,
  Forall (fun L => sl_tmin L <= sl_tmax L /\ value_within L 0 (sl_tmax L)) lanes ->
  sc_limit eps tiny lanes = (ts, success) ->
  Forall2 (fun L t => t = sl_tmax L) lanes ts.
Proof.
  intros eps tiny lanes ts success. apply sc_limit_lanes. intros L [H1 H2]. apply sc_limit_full; assumption.
Qed.

Lemma C30_largest_proof : forall tiny lanes ts success,
  0 < tiny -> Forall (fun L => 100 * tiny <= Rabs (sl_P L) /\ scalar_call L) lanes ->
  sc_limit 0 tiny lanes = (ts, success) ->
  Forall2 (fun L t => forall t', t < t' <= sl_tmax L -> ~ value_within L 0 t') lanes ts.
Proof.
  intros tiny lanes ts success Ht. apply sc_limit_lanes. intros L [H1 H2]. apply sc_limit_largest; assumption.
Qed.

Lemma C70_exact_bounds_refuted_proof : forall eps tiny,
  0 < eps < 1 / 2 -> 0 < tiny < 1 / 1000 ->
  exists L, scalar_call L /\ ~ value_within L 0 (sc_limit1 eps tiny L).
Proof.
  intros eps tiny He Ht. exists ex_negative. destruct (negative_violation eps tiny He Ht) as [H1 H2].
  split; [exact H1|]. unfold value_within. lra.
Qed.

Lemma C40_convex_proof : forall F averaged draws dim u_i u_j n,
  convex_between F dim n u_i u_j ->
  let lambda := sc_wavespeed F false averaged draws dim u_i u_j n in
  (forall u, Rmin u_i u_j <= u <= Rmax u_i u_j -> Rabs (dflux_n F dim n u) <= lambda) /\
  Rabs (flux_n F dim n u_i - flux_n F dim n u_j) <= lambda * Rabs (u_i - u_j).
Proof.
  intros. split; [apply convex_speed; assumption|apply convex_lipschitz; assumption].
Qed.

Lemma C72_kpp_refuted_proof : forall greedy delta, 0 < delta <= 1 ->
  exists u_i u_j c,
    let cc := sqrt (norm2 2 c) in let F := kpp delta in
    let d := cc * sc_wavespeed F greedy true [] 2 u_i u_j (vscal (/ cc) c) in
    0 < norm2 2 c /\ 0 < d /\
    sc_bar_state 2 u_i u_j (sc_flux F u_i) (sc_flux F u_j) (vscal (1 / d) c) 0 < Rmin u_i u_j.
Proof.
  intros greedy delta Hd. exists (- (delta / 2)), (delta / 2), (fun k => match k with O => 1 | _ => 0 end).
  cbv zeta. destruct (kpp_violation greedy delta Hd) as [H1 H2]. cbv zeta in H1, H2.
  split; [unfold norm2, dot, rsum; simpl; lra|]. split; [exact H1|].
  rewrite Rmin_left by lra. exact H2.
Qed.

(** ** Symmetry and sign of the wave speed *)

Lemma dot_opp_r dim (x n : vec) : dot dim x (fun k => - n k) = - dot dim x n.
Proof.
  unfold dot. rewrite <- (Rmult_1_l (rsum dim (fun i => x i * n i))), Ropp_mult_distr_l, <- rsum_scal.
  apply rsum_ext. intros. ring.
Qed.

Lemma enforce_mirror F dim n h2 u_i u_j f_i f_j l k :
  enforce_entropy F dim (fun i => - n i) h2 u_j u_i (- f_j) (- f_i) l k = enforce_entropy F dim n h2 u_i u_j f_i f_j l k.
Proof.
  unfold enforce_entropy. rewrite dot_opp_r. set (f_k := dot dim (sc_flux F k) n).
  replace (kruzkov_entropy_derivative k u_i * (- f_i - - f_k) - kruzkov_entropy_derivative k u_j * (- f_j - - f_k))
    with (kruzkov_entropy_derivative k u_j * (f_j - f_k) - kruzkov_entropy_derivative k u_i * (f_i - f_k)) by ring.
  replace (- f_i - - f_j) with (f_j - f_i) by ring. replace (u_j + u_i - 2 * k) with (u_i + u_j - 2 * k) by ring.
  rewrite (Rplus_comm (kruzkov_entropy k u_j)). reflexivity.
Qed.

Lemma sc_wavespeed_symmetric F greedy averaged draws dim u_i u_j n :
  sc_wavespeed F greedy averaged (map (fun x => 1 - x) draws) dim u_j u_i (fun k => - n k) =
  sc_wavespeed F greedy averaged draws dim u_i u_j n.
Proof.
  unfold sc_wavespeed, sc_compute. rewrite !dot_opp_r.
  set (f_i := dot dim (construct_flux_tensor dim (sc_precomputed F dim u_i)) n).
  set (f_j := dot dim (construct_flux_tensor dim (sc_precomputed F dim u_j)) n).
  set (df_i := dot dim (construct_flux_gradient_tensor dim (sc_precomputed F dim u_i)) n).
  set (df_j := dot dim (construct_flux_gradient_tensor dim (sc_precomputed F dim u_j)) n).
  clearbody f_i f_j df_i df_j.
  replace (- f_j - - f_i) with (f_i - f_j) by ring. rewrite (Rabs_minus_sym u_j u_i).
  replace (Rabs (1 / 2 * (- df_j + - df_i))) with (Rabs (1 / 2 * (df_i + df_j)))
    by (rewrite <- Rabs_Ropp; f_equal; ring).
  rewrite !Rabs_Ropp.
  match goal with |- fold_left _ _ ?a = fold_left _ _ ?b => assert (E : a = b) end.
  { assert (E2 : forall x, Rmax (Rmax x (Rabs df_j)) (Rabs df_i) = Rmax (Rmax x (Rabs df_i)) (Rabs df_j))
      by (intros; rewrite <- !Rmax_assoc; f_equal; apply Rmax_comm).
    rewrite E2. destruct averaged; [|reflexivity]. rewrite enforce_mirror. f_equal. ring. }
  rewrite E. clear E. match goal with |- fold_left _ _ ?a = _ => generalize a end.
  induction draws as [|x draws IH]; intros l; cbn [map fold_left]; [reflexivity|].
  rewrite enforce_mirror.
  replace ((1 - x) * u_j + (1 - (1 - x)) * u_i) with (x * u_i + (1 - x) * u_j) by ring. apply IH.
Qed.

Lemma sc_wavespeed_nonneg F greedy averaged draws dim u_i u_j n : 0 < fl_delta F ->
  0 <= sc_wavespeed F greedy averaged draws dim u_i u_j n.
Proof.
  intros Hd. unfold sc_wavespeed, sc_compute.
  assert (G : forall l, 0 <= l -> forall h2 f_i f_j k, 0 <= enforce_entropy F dim n h2 u_i u_j f_i f_j l k).
  { intros l Hl h2 f_i f_j k. unfold enforce_entropy. eapply Rle_trans; [|apply Rmax_l]. eapply Rle_trans; [|apply Rmax_l]. exact Hl. }
  match goal with |- 0 <= fold_left _ _ ?a => assert (L : 0 <= a) end.
  { match goal with |- 0 <= (if averaged then enforce_entropy _ _ _ _ _ _ _ _ ?a _ else _) => assert (L : 0 <= a) end.
    { destruct greedy.
      - destruct (Rge_dec _ _); [|apply Rabs_pos]. apply Rmult_le_pos; [apply Rabs_pos|].
        apply Rlt_le, Rinv_0_lt_compat. eapply Rlt_le_trans; [|apply Rmax_r]. lra.
      - eapply Rle_trans; [apply Rabs_pos|apply Rmax_r]. }
    destruct averaged; [apply G; exact L|exact L]. }
  revert L. match goal with |- 0 <= ?a -> _ => generalize a end.
  induction draws as [|x draws IH]; intros l Hl; cbn [fold_left]; [exact Hl|]. apply IH, G, Hl.
Qed.
