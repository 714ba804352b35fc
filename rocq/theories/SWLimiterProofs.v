(** * The shallow water limiter: proofs *)
From Coq Require Import Reals List Bool Arith Lia Lra Psatz Permutation.
From Verif Require Import RVec Newton NewtonProofs NewtonSign EulerSystem EulerLimiter EulerLimiterProofs
  EulerLimiterBounds SWSystem SWLimiter SWLimiterSpec.
Import ListNotations.
Local Open Scope R_scope.

(** ** Lane-wise description of w_limit *)

Definition acc1 (psi : wlane -> R -> R) (x : wlane * (R * R)) : wlane * (R * R) :=
  let '(L, (t_l, t_r)) := x in (L, (mask_gt (psi L t_r) 0 t_r t_l, t_r)).
Definition newt1 (eps : R) (psi dpsi : wlane -> R -> R) (x : wlane * (R * R)) : wlane * (R * R) :=
  let '(L, (t_l, t_r)) := x in
  (L, quadratic_newton_step eps (-1) t_l t_r (psi L t_l) (psi L t_r) (dpsi L t_l) (dpsi L t_r)).
Definition flip1 (x : wlane * (R * R)) : wlane * (R * R) :=
  let '(L, (t_l, _)) := x in (L, (wl_tmin L, t_l)).
Definition init1 (eps tiny : R) (L : wlane) : wlane * (R * R) := (L, (wl_tmin L, w_limit_depth eps tiny L)).

(** One limiting phase of one lane; the Newton step is skipped only within the
    tolerance. *)
Definition phase1 (eps tol : R) (psi dpsi : wlane -> R -> R) (x y : wlane * (R * R)) : Prop :=
  (y = acc1 psi x /\ snd (snd y) - fst (snd y) <= Rmax 0 tol) \/ y = newt1 eps psi dpsi (acc1 psi x).

Definition lane_result (s : shallow) (eps tiny tol : R) (on_kin on_v2 : bool) (dim : nat)
    (L : wlane) (x : wlane * (R * R)) : Prop :=
  let kin := phase1 eps tol (psi_kin s eps dim) (dpsi_kin dim) in
  let v2 := phase1 eps tol (psi_v2 s eps dim) (dpsi_v2 dim) in
  match on_kin, on_v2 with
  | false, false => x = init1 eps tiny L
  | true, false => kin (init1 eps tiny L) x
  | false, true => v2 (init1 eps tiny L) x
  | true, true => exists y, kin (init1 eps tiny L) y /\ v2 (flip1 y) x
  end.

Lemma w_accept_map psi it : w_accept psi it = map (acc1 psi) it.
Proof. apply map_ext. intros [L [a b]]. reflexivity. Qed.
Lemma w_newton_map eps psi dpsi it : w_newton eps psi dpsi it = map (newt1 eps psi dpsi) it.
Proof. apply map_ext. intros [L [a b]]. reflexivity. Qed.
Lemma w_flip_map it : w_flip it = map flip1 it.
Proof. apply map_ext. intros [L [a b]]. reflexivity. Qed.

Lemma all_equal_in it x : w_all_equal it = true -> In x it -> fst (snd x) = snd (snd x).
Proof.
  unfold w_all_equal. rewrite forallb_forall. intros H Hx. apply H in Hx.
  destruct x as [L [a b]]. simpl in *. destruct (Req_EM_T a b); [assumption|discriminate].
Qed.

Lemma within_tol_in tol it x : w_within_tolerance tol it = true -> In x it ->
  snd (snd x) - fst (snd x) <= Rmax 0 tol.
Proof.
  unfold w_within_tolerance. rewrite forallb_forall. intros H Hx. apply H in Hx.
  destruct x as [L [a b]]. simpl in *. destruct (Req_EM_T _ 0) as [E|]; [|discriminate].
  assert (b - a - tol <= 0) by (rewrite <- E; apply Rmax_r).
  assert (tol <= Rmax 0 tol) by apply Rmax_r. lra.
Qed.

Lemma phase_list eps tol psi dpsi it :
  Forall2 (phase1 eps tol psi dpsi) it
    (if w_within_tolerance tol (map (acc1 psi) it) then map (acc1 psi) it
     else w_newton eps psi dpsi (map (acc1 psi) it)).
Proof.
  destruct (w_within_tolerance tol (map (acc1 psi) it)) eqn:E.
  - assert (H' : forall x, In x it -> snd (snd (acc1 psi x)) - fst (snd (acc1 psi x)) <= Rmax 0 tol).
    { intros x Hx. eapply within_tol_in; [exact E|]. apply in_map. exact Hx. }
    clear E. induction it as [|x l IH]; simpl; constructor.
    + left. split; [reflexivity|]. apply H'. now left.
    + apply IH. intros z Hz. apply H'. now right.
  - rewrite w_newton_map. clear E. induction it as [|x l IH]; simpl; constructor; [|exact IH].
    right. reflexivity.
Qed.

Lemma phase_equal eps tol psi dpsi it :
  w_all_equal (map (acc1 psi) it) = true ->
  Forall2 (phase1 eps tol psi dpsi) it (map (acc1 psi) it).
Proof.
  intros E. assert (H : forall x, In x it -> fst (snd (acc1 psi x)) = snd (snd (acc1 psi x))).
  { intros x Hx. eapply all_equal_in; [exact E|]. apply in_map. exact Hx. }
  clear E. induction it as [|x l IH]; simpl; constructor.
  - left. split; [reflexivity|]. assert (Z := H x (or_introl eq_refl)).
    assert (0 <= Rmax 0 tol) by apply Rmax_l. lra.
  - apply IH. intros z Hz. apply H. now right.
Qed.

Lemma Forall2_map_l {A B C} (P : B -> C -> Prop) (f : A -> B) l r :
  Forall2 P (map f l) r -> Forall2 (fun a c => P (f a) c) l r.
Proof.
  revert r. induction l as [|a l IH]; intros r H; inversion H; subst; constructor; auto.
Qed.

Lemma Forall2_trans2 {A B C} (P : A -> B -> Prop) (Q : B -> C -> Prop) l m r :
  Forall2 P l m -> Forall2 Q m r -> Forall2 (fun a c => exists b, P a b /\ Q b c) l r.
Proof.
  intros H. revert r. induction H; intros r Hr; inversion Hr; subst; constructor; eauto.
Qed.

Lemma Forall2_weak {A B} (P Q : A -> B -> Prop) l r :
  (forall a b, P a b -> Q a b) -> Forall2 P l r -> Forall2 Q l r.
Proof. induction 2; constructor; auto. Qed.

Lemma w_limit_lanes s eps tiny tol on_kin on_v2 dim lanes ts b :
  w_limit s eps tiny tol on_kin on_v2 dim lanes = (ts, b) ->
  exists xs, Forall2 (lane_result s eps tiny tol on_kin on_v2 dim) lanes xs /\
             ts = map (fun x => fst (snd x)) xs.
Proof.
  unfold w_limit. change (map (fun L => (L, (wl_tmin L, w_limit_depth eps tiny L))) lanes)
    with (map (init1 eps tiny) lanes).
  rewrite !w_accept_map.
  set (it := map (init1 eps tiny) lanes).
  destruct on_kin, on_v2; cbn [andb negb].
  - (* both *)
    rewrite w_flip_map.
    assert (P1 := phase_list eps tol (psi_kin s eps dim) (dpsi_kin dim) it).
    set (y := if w_within_tolerance tol _ then _ else _) in *. clearbody y.
    assert (Z : forall xs, Forall2 (phase1 eps tol (psi_v2 s eps dim) (dpsi_v2 dim)) (map flip1 y) xs ->
                Forall2 (lane_result s eps tiny tol true true dim) lanes xs).
    { intros xs H. apply Forall2_map_l in H. unfold it in P1. apply Forall2_map_l in P1.
      assert (K := Forall2_trans2 _ _ _ _ _ P1 H).
      eapply Forall2_weak; [|exact K]. intros L x (w & A & B). exists w. split; assumption. }
    destruct (w_all_equal (map (acc1 (psi_v2 s eps dim)) (map flip1 y))) eqn:E;
      intros H; injection H as <- _.
    + eexists. split; [|reflexivity]. apply Z. apply phase_equal. exact E.
    + eexists. split; [|reflexivity]. apply Z. apply phase_list.
  - (* kinetic energy only *)
    assert (Z : forall xs, Forall2 (phase1 eps tol (psi_kin s eps dim) (dpsi_kin dim)) it xs ->
                Forall2 (lane_result s eps tiny tol true false dim) lanes xs).
    { intros xs H. unfold it in H. apply Forall2_map_l in H. exact H. }
    destruct (w_all_equal (map (acc1 (psi_kin s eps dim)) it)) eqn:E; intros H; injection H as <- _.
    + eexists. split; [|reflexivity]. apply Z. apply phase_equal. exact E.
    + eexists. split; [|reflexivity]. apply Z. apply phase_list.
  - (* square velocity only *)
    assert (Z : forall xs, Forall2 (phase1 eps tol (psi_v2 s eps dim) (dpsi_v2 dim)) it xs ->
                Forall2 (lane_result s eps tiny tol false true dim) lanes xs).
    { intros xs H. unfold it in H. apply Forall2_map_l in H. exact H. }
    destruct (w_all_equal (map (acc1 (psi_v2 s eps dim)) it)) eqn:E; intros H; injection H as <- _.
    + eexists. split; [|reflexivity]. apply Z. apply phase_equal. exact E.
    + eexists. split; [|reflexivity]. apply Z. apply phase_list.
  - intros H; injection H as <- _. exists it. split; [|reflexivity].
    unfold it. clear. induction lanes; simpl; constructor; [reflexivity|assumption].
Qed.

(** A property of the coefficient of every lane. *)
Lemma w_limit_forall s eps tiny tol on_kin on_v2 dim lanes ts b (H : wlane -> Prop) (P : wlane -> R -> Prop) :
  (forall L x, H L -> lane_result s eps tiny tol on_kin on_v2 dim L x -> P L (fst (snd x))) ->
  Forall H lanes ->
  w_limit s eps tiny tol on_kin on_v2 dim lanes = (ts, b) -> Forall2 P lanes ts.
Proof.
  intros K F E. apply w_limit_lanes in E. destruct E as (xs & A & ->).
  induction A as [|L x ls xs A1 A2 IH]; simpl; constructor.
  - apply K; [inversion F; assumption|exact A1].
  - apply IH. inversion F; assumption.
Qed.

(** ** The range *)

Definition in_window (x : wlane * (R * R)) : Prop :=
  let '(L, (t_l, t_r)) := x in wl_tmin L <= t_l <= t_r.

Lemma acc1_window psi x : in_window x -> in_window (acc1 psi x) /\ snd (snd (acc1 psi x)) = snd (snd x) /\
  fst (acc1 psi x) = fst x.
Proof.
  destruct x as [L [a b]]. simpl. intros H. unfold mask_gt. destruct (Rgt_dec _ _); repeat split; lra.
Qed.

Lemma newt1_window eps psi dpsi x : in_window x ->
  in_window (newt1 eps psi dpsi x) /\ snd (snd (newt1 eps psi dpsi x)) <= snd (snd x) /\
  fst (newt1 eps psi dpsi x) = fst x.
Proof.
  destruct x as [L [a b]]. unfold newt1, in_window. intros H.
  destruct (quadratic_newton_step eps (-1) a b (psi L a) (psi L b) (dpsi L a) (dpsi L b)) as [q1 q2] eqn:E.
  apply newton_shrinks in E; [|lra]. simpl. repeat split; lra.
Qed.

Lemma phase1_window eps tol psi dpsi x y : in_window x -> phase1 eps tol psi dpsi x y ->
  in_window y /\ snd (snd y) <= snd (snd x) /\ fst y = fst x.
Proof.
  intros H [[-> _]| ->].
  - destruct (acc1_window psi x H) as (A & B & C). rewrite B. repeat split; auto; lra.
  - destruct (acc1_window psi x H) as (A & B & C).
    destruct (newt1_window eps psi dpsi _ A) as (A' & B' & C'). repeat split; auto; [lra|congruence].
Qed.

Lemma w_limit_depth_range eps tiny L : wl_tmin L <= wl_tmax L ->
  wl_tmin L <= w_limit_depth eps tiny L <= wl_tmax L.
Proof.
  intros H. unfold w_limit_depth. split; [apply Rmax_r|]. apply Rmax_lub; [apply Rmin_r|exact H].
Qed.

Lemma lane_result_window s eps tiny tol on_kin on_v2 dim L x :
  wl_tmin L <= wl_tmax L ->
  lane_result s eps tiny tol on_kin on_v2 dim L x ->
  wl_tmin L <= fst (snd x) <= w_limit_depth eps tiny L.
Proof.
  intros HL H. assert (D := w_limit_depth_range eps tiny L HL).
  assert (I : in_window (init1 eps tiny L)) by (simpl; lra).
  assert (Fin : forall y, in_window y -> snd (snd y) <= w_limit_depth eps tiny L -> fst y = L ->
            wl_tmin L <= fst (snd y) <= w_limit_depth eps tiny L).
  { intros [L' [a b]] A B C. simpl in *. subst. lra. }
  destruct on_kin, on_v2; simpl in H.
  - destruct H as (y & H1 & H2).
    apply phase1_window in H1; [|exact I]. destruct H1 as (A & B & C).
    apply phase1_window in H2.
    + destruct H2 as (A' & B' & C'). destruct y as [Ly [a b]]. simpl in *. subst.
      apply Fin; auto. lra.
    + destruct y as [Ly [a b]]. simpl in *. lra.
  - apply phase1_window in H; [|exact I]. destruct H as (A & B & C). apply Fin; auto.
  - apply phase1_window in H; [|exact I]. destruct H as (A & B & C). apply Fin; auto.
  - subst x. simpl. lra.
Qed.

Lemma w_limit_in_range s eps tiny tol on_kin on_v2 dim lanes ts b :
  Forall (fun L => wl_tmin L <= wl_tmax L) lanes ->
  w_limit s eps tiny tol on_kin on_v2 dim lanes = (ts, b) ->
  Forall2 (fun L t => wl_tmin L <= t <= wl_tmax L) lanes ts.
Proof.
  apply w_limit_forall. intros L x HL H. apply lane_result_window in H; [|exact HL].
  assert (D := w_limit_depth_range eps tiny L HL). lra.
Qed.

(** ** The water depth *)

Lemma depth_limit_ok eps tiny L : 0 <= eps -> 0 < tiny -> depth_call L ->
  depth_within L (w_limit_depth eps tiny L).
Proof.
  intros He Ht (T0 & T1 & Hm & Hw). unfold depth_within, depth_at, w_limit_depth, water_depth in *.
  rewrite T0 in *. rewrite Rmult_0_l, Rplus_0_r in Hw.
  set (hU := wl_U L 0%nat) in *. set (hP := wl_P L 0%nat) in *.
  set (hm := h_min (wl_b L)) in *. set (hM := h_max (wl_b L)) in *. set (hs := h_small (wl_b L)) in *.
  set (tmax := wl_tmax L) in *.
  assert (Ha := Rabs_pos hP).
  assert (HeM : 0 <= eps * hM) by (apply Rmult_le_pos; lra).
  set (D := Rabs hP + eps * hM + tiny) in *.
  assert (HD : 0 < D) by (unfold D; lra).
  assert (HD1 : Rabs hP <= D) by (unfold D; lra). clearbody D.
  set (den := 1 / D).
  assert (Hden : 0 < den) by (unfold den; apply Rdiv_lt_0_compat; lra).
  assert (HdP : forall c, 0 <= c -> c * den * Rabs hP <= c).
  { intros c Hc. assert (den * Rabs hP <= 1).
    { apply Rmult_le_reg_r with D; [exact HD|]. unfold den. field_simplify; lra. }
    rewrite Rmult_assoc. nra. }
  assert (HP : - Rabs hP <= hP <= Rabs hP).
  { split; [|apply Rle_abs]. assert (X := Rle_abs (- hP)). rewrite Rabs_Ropp in X. lra. }
  clearbody den.
  set (t1 := mask_lt hM (hU + tmax * hP) ((hM - hU) * den) tmax).
  assert (T : 0 <= t1 /\ hU + t1 * hP <= hM).
  { unfold t1, mask_lt. destruct (Rlt_dec hM (hU + tmax * hP)).
    - assert (0 <= (hM - hU) * den) by (apply Rmult_le_pos; lra).
      assert (X := HdP (hM - hU) ltac:(lra)). split; [assumption|]. nra.
    - lra. }
  clearbody t1. destruct T as [T2 T3].
  set (tilde := Rmax hs hm).
  assert (Htl : hm <= tilde) by apply Rmax_r. clearbody tilde.
  assert (Sub : forall t t', 0 <= t' <= t -> hm <= hU + t * hP <= hM -> hm <= hU + t' * hP <= hM).
  { intros t t' A B. destruct (Rle_lt_dec 0 hP); split; nra. }
  assert (T4 : forall t2, t2 = mask_lt (hU + t1 * hP) tilde ((hU - tilde) * den) t1 ->
               t2 < 0 \/ (0 <= t2 /\ hm <= hU + t2 * hP <= hM)).
  { intros t2 ->. unfold mask_lt. destruct (Rlt_dec _ _) as [B|B].
    - destruct (Rlt_le_dec ((hU - tilde) * den) 0) as [C|C]; [now left|right].
      split; [exact C|].
      assert (0 <= hU - tilde) by nra.
      assert (X := HdP (hU - tilde) ltac:(lra)).
      assert (hP < 0) by nra. split; nra.
    - right. lra. }
  destruct (T4 _ eq_refl) as [N|[P Q]].
  - set (t2 := mask_lt _ _ _ _) in *. clearbody t2.
    rewrite Rmax_right.
    + rewrite Rmult_0_l, Rplus_0_r. exact Hw.
    + eapply Rle_trans; [apply Rmin_l|lra].
  - set (t2 := mask_lt _ _ _ _) in *. clearbody t2.
    apply (Sub t2); [|exact Q]. rewrite Rmax_left.
    + split; [apply Rmin_glb; lra|apply Rmin_l].
    + apply Rmin_glb; lra.
Qed.

Lemma depth_between L t t' : depth_within L 0 -> depth_within L t -> 0 <= t' <= t -> depth_within L t'.
Proof.
  unfold depth_within, depth_at. intros A B H. destruct (Rle_lt_dec 0 (wl_P L 0%nat)); split; nra.
Qed.

Lemma w_limit_depth_ok s eps tiny tol on_kin on_v2 dim lanes ts b :
  0 <= eps -> 0 < tiny ->
  Forall depth_call lanes ->
  w_limit s eps tiny tol on_kin on_v2 dim lanes = (ts, b) ->
  Forall2 depth_within lanes ts.
Proof.
  intros He Ht. apply w_limit_forall. intros L x HL H.
  assert (HL' := HL). destruct HL' as (T0 & T1 & _ & H0).
  apply lane_result_window in H; [|lra]. rewrite T0 in H.
  apply (depth_between L (w_limit_depth eps tiny L)); auto.
  apply depth_limit_ok; assumption.
Qed.

(** ** A Newton step for a quadratic function with possibly inexact slopes *)

Definition qpoly (A B C t : R) : R := A + B * t + C * (t * t).

Lemma newton_quad_safe A B C p1 p2 d1 d2 q1 q2 :
  p1 <= p2 -> 0 <= qpoly A B C p1 ->
  (d1 <= B + 2 * C * p1 \/ (qpoly A B C p2 < 0 /\ B + 2 * C * p2 <= d2) \/
   (forall x, p1 <= x <= p2 -> 0 <= qpoly A B C x)) ->
  quadratic_newton_step 0 (-1) p1 p2 (qpoly A B C p1) (qpoly A B C p2) d1 d2 = (q1, q2) ->
  forall x, p1 <= x <= q1 -> 0 <= qpoly A B C x.
Proof.
  intros Hp H0 S E x Hx.
  assert (Sh := newton_shrinks _ _ _ _ _ _ _ _ _ _ Hp E).
  destruct S as [S|[[N S]|S]]; [| |apply S; lra].
  - destruct (Req_dec p1 p2) as [Q|Q]; [replace x with p1 by lra; exact H0|].
    unfold quadratic_newton_step in E. injection E as E1 _.
    set (f1 := qpoly A B C p1) in *. set (f2 := qpoly A B C p2) in *.
    set (b := ((f2 - f1) * (1 / (p2 - p1 + 0)) - d1) * (1 / (p2 - p1 + 0))) in *.
    assert (K := left_quad_nonneg 0 p1 p2 f1 d1 b x H0 (proj1 Hx)).
    assert (0 <= quad p1 f1 d1 b x).
    { apply K. eapply Rle_trans; [apply Hx|]. rewrite <- E1. apply Rmin_l. }
    assert (X : qpoly A B C x - quad p1 f1 d1 b x =
                (B + 2 * C * p1 - d1) * ((x - p1) * ((p2 - x) / (p2 - p1)))).
    { unfold b, f1, f2, quad, qpoly. field. lra. }
    assert (0 <= (p2 - x) / (p2 - p1)).
    { unfold Rdiv. apply Rmult_le_pos; [lra|]. left. apply Rinv_0_lt_compat. lra. }
    assert (0 <= (B + 2 * C * p1 - d1) * ((x - p1) * ((p2 - x) / (p2 - p1)))).
    { apply Rmult_le_pos; [lra|]. apply Rmult_le_pos; lra. }
    lra.
  - assert (p1 < p2). { destruct (Req_dec p1 p2) as [Q|Q]; [subst; lra|lra]. }
    unfold quadratic_newton_step in E. injection E as E1 _.
    set (f1 := qpoly A B C p1) in *. set (f2 := qpoly A B C p2) in *.
    set (b := (d2 - (f2 - f1) * (1 / (p2 - p1 + 0))) * (1 / (p2 - p1 + 0))) in *.
    assert (K := right_quad_bound 0 p1 p2 f2 d2 b 0 x). cbv zeta in K.
    assert (0 <= quad p2 f2 d2 b x).
    { apply Rle_trans with (- (2 * 0 + 2 * 0 * (p2 - p1))); [lra|].
      apply K; try lra.
      - assert (X : quad p2 f2 d2 b p1 = f1) by (unfold b, quad; field; lra). lra.
      - destruct (Rle_lt_dec d2 0) as [|Hd]; [left; assumption|right; right].
        apply (guard_inactive 0 (p2 - p1 + 0) f1 f2 d2); lra.
      - eapply Rle_trans; [apply Hx|]. rewrite <- E1. apply Rmin_r. }
    assert (X : qpoly A B C x - quad p2 f2 d2 b x =
                (d2 - (B + 2 * C * p2)) * ((p2 - x) * ((x - p1) / (p2 - p1)))).
    { unfold b, f1, f2, quad, qpoly. field. lra. }
    assert (0 <= (x - p1) / (p2 - p1)).
    { unfold Rdiv. apply Rmult_le_pos; [lra|]. left. apply Rinv_0_lt_compat. lra. }
    assert (0 <= (d2 - (B + 2 * C * p2)) * ((p2 - x) * ((x - p1) / (p2 - p1)))).
    { apply Rmult_le_pos; [lra|]. apply Rmult_le_pos; lra. }
    lra.
Qed.

(** For a concave quadratic function with the exact slopes the step finds the root. *)
Lemma newton_quad_root A B C p1 p2 q1 q2 :
  p1 <= p2 -> C <= 0 -> 0 < qpoly A B C p1 -> qpoly A B C p2 <= 0 ->
  quadratic_newton_step 0 (-1) p1 p2 (qpoly A B C p1) (qpoly A B C p2) (B + 2 * C * p1) (B + 2 * C * p2) = (q1, q2) ->
  qpoly A B C q1 = 0.
Proof.
  intros Hp HC H1 H2 E.
  assert (Hlt : p1 < p2). { destruct (Req_dec p1 p2) as [Q|Q]; [subst; lra|lra]. }
  unfold quadratic_newton_step in E. injection E as E1 _.
  set (f1 := qpoly A B C p1) in *. set (f2 := qpoly A B C p2) in *.
  set (d1 := B + 2 * C * p1) in *. set (d2 := B + 2 * C * p2) in *.
  assert (B1 : ((f2 - f1) * (1 / (p2 - p1 + 0)) - d1) * (1 / (p2 - p1 + 0)) = C).
  { unfold f1, f2, d1, qpoly. field. lra. }
  assert (B2 : (d2 - (f2 - f1) * (1 / (p2 - p1 + 0))) * (1 / (p2 - p1 + 0)) = C).
  { unfold f1, f2, d2, qpoly. field. lra. }
  rewrite B1, B2 in E1. clear B1 B2.
  assert (Disc : d1 * d1 - 4 * f1 * C = d2 * d2 - 4 * f2 * C).
  { unfold f1, f2, d1, d2, qpoly. ring. }
  unfold newton_candidate in E1. rewrite <- Disc in E1.
  assert (Hd0 : 0 <= d1 * d1 - 4 * f1 * C) by nra.
  assert (Hs := sqrt_abs_sq (d1 * d1 - 4 * f1 * C)). assert (Hs0 := sqrt_pos (Rabs (d1 * d1 - 4 * f1 * C))).
  set (s := sqrt (Rabs (d1 * d1 - 4 * f1 * C))) in *. clearbody s.
  rewrite Rabs_right in Hs by lra.
  assert (Fall : f2 = f1 + d1 * (p2 - p1) + C * ((p2 - p1) * (p2 - p1))).
  { unfold f1, f2, d1, qpoly. ring. }
  assert (Fall2 : f1 = f2 - d2 * (p2 - p1) + C * ((p2 - p1) * (p2 - p1))).
  { unfold f1, f2, d2, qpoly. ring. }
  assert (D1 : d1 + -1 * s < 0).
  { destruct (Rlt_le_dec (d1 + -1 * s) 0) as [|N]; [assumption|exfalso].
    assert (0 <= d1) by lra. assert (s * s <= d1 * d1) by nra.
    assert (C = 0) by nra. subst C. nra. }
  assert (D2 : d2 + -1 * s < 0).
  { assert (d2 < 0); [|lra].
    assert (0 <= - C * ((p2 - p1) * (p2 - p1))) by (apply Rmult_le_pos; [lra|apply Rle_0_sqr]).
    assert (d2 * (p2 - p1) < 0) by lra.
    apply Rnot_le_lt. intros N. assert (0 <= d2 * (p2 - p1)) by (apply Rmult_le_pos; lra). lra. }
  unfold mask_lt in E1.
  destruct (Rlt_dec (Rabs (d1 + -1 * s)) 0) as [G|_]; [assert (X := Rabs_pos (d1 + -1 * s)); lra|].
  destruct (Rlt_dec (Rabs (d2 + -1 * s)) 0) as [G|_]; [assert (X := Rabs_pos (d2 + -1 * s)); lra|].
  assert (Z1 := Rdiv_mult_r (2 * f1) (d1 + -1 * s) ltac:(lra)).
  assert (Z2 := Rdiv_mult_r (2 * f2) (d2 + -1 * s) ltac:(lra)).
  set (z1 := 2 * f1 / (d1 + -1 * s)) in *. set (z2 := 2 * f2 / (d2 + -1 * s)) in *.
  clearbody z1 z2.
  (* both candidates are the root *)
  assert (S1 := root_slope f1 d1 C s (- z1) ltac:(lra) ltac:(lra) ltac:(lra)).
  assert (S2 := root_slope f2 d2 C s (- z2) ltac:(lra) ltac:(lra) ltac:(lra)).
  assert (R1 : qpoly A B C (p1 - z1) = 0).
  { replace (qpoly A B C (p1 - z1)) with (f1 - d1 * z1 + C * (z1 * z1)) by (unfold f1, d1, qpoly; ring).
    assert (X : 2 * f1 = d1 * z1 - s * z1) by lra.
    assert (Y : C * (2 * z1) = d1 + s) by lra.
    assert (C * (z1 * z1) * 2 = (d1 + s) * z1) by (rewrite <- Y; ring). lra. }
  assert (R2 : qpoly A B C (p2 - z2) = 0).
  { replace (qpoly A B C (p2 - z2)) with (f2 - d2 * z2 + C * (z2 * z2)) by (unfold f2, d2, qpoly; ring).
    assert (X : 2 * f2 = d2 * z2 - s * z2) by lra.
    assert (Y : C * (2 * z2) = d2 + s) by lra.
    assert (C * (z2 * z2) * 2 = (d2 + s) * z2) by (rewrite <- Y; ring). lra. }
  assert (Z1n : z1 < 0) by nra.
  assert (Z2n : 0 <= z2) by nra.
  (* beyond the root the function is negative *)
  assert (Dec : forall r x, p1 < r -> qpoly A B C r = 0 -> r < x -> qpoly A B C x < 0).
  { intros r x Hr Hz Hx.
    assert (X : qpoly A B C x * (r - p1) =
                - (x - r) * f1 + (r - p1) * (x - r) * (C * (x - p1)) + qpoly A B C r * (x - p1)).
    { unfold f1, qpoly. ring. }
    rewrite Hz in X.
    assert (0 < (x - r) * f1) by nra.
    assert (C * (x - p1) <= 0) by nra.
    assert (0 <= (r - p1) * (x - r)) by nra.
    assert ((r - p1) * (x - r) * (C * (x - p1)) <= 0) by nra.
    nra. }
  assert (Q2 : p1 < p2 - z2).
  { destruct (Rlt_le_dec p1 (p2 - z2)) as [|N]; [assumption|exfalso].
    (* concavity: a root left of p1 and positive at p1 has slope s > 0 there, but slope is -s *)
    assert (X : f1 = qpoly A B C (p2 - z2) + (- s) * (p1 - (p2 - z2)) + C * ((p1 - (p2 - z2)) * (p1 - (p2 - z2)))).
    { replace (- s) with (d2 + 2 * C * - z2) by lra. unfold f1, d2, qpoly. ring. }
    rewrite R2 in X.
    assert (0 <= s * (p1 - (p2 - z2))) by nra.
    assert (0 <= - C * ((p1 - (p2 - z2)) * (p1 - (p2 - z2)))) by (apply Rmult_le_pos; [lra|apply Rle_0_sqr]).
    lra. }
  assert (Eq : p1 - z1 = p2 - z2).
  { destruct (Rtotal_order (p1 - z1) (p2 - z2)) as [L|[L|L]]; [|exact L|].
    - assert (X := Dec (p1 - z1) (p2 - z2) ltac:(lra) R1 L). lra.
    - assert (X := Dec (p2 - z2) (p1 - z1) Q2 R2 L). lra. }
  rewrite Eq in E1.
  assert (Cl : clamp p1 p2 (p2 - z2) = p2 - z2).
  { unfold clamp. rewrite Rmax_right by lra. apply Rmin_right. lra. }
  rewrite Cl, Rmin_left in E1 by lra. rewrite <- E1. exact R2.
Qed.

(** ** The two functions psi *)

Lemma momentum_along dim L t :
  norm2 dim (w_momentum (w_along L t)) =
  norm2 dim (w_momentum (wl_U L)) + 2 * dot dim (w_momentum (wl_U L)) (w_momentum (wl_P L)) * t
  + norm2 dim (w_momentum (wl_P L)) * (t * t).
Proof.
  replace (norm2 dim (w_momentum (w_along L t))) with
    (norm2 dim (vadd (w_momentum (wl_U L)) (vscal t (w_momentum (wl_P L))))) by reflexivity.
  rewrite norm2_add, norm2_scal, dot_scal_r. ring.
Qed.

Lemma relax_small_0 s : w_relax_small s 0 = 1.
Proof. unfold w_relax_small. ring. Qed.

Lemma psi_kin_spec s dim L t : psi_kin s 0 dim L t =
  kin_max (wl_b L) * depth_at L t - 1 / 2 * norm2 dim (momentum_at L t).
Proof.
  unfold psi_kin. rewrite relax_small_0. unfold depth_at.
  change (norm2 dim (momentum_at L t)) with (norm2 dim (w_momentum (w_along L t))).
  unfold water_depth, w_along, vadd, vscal. ring.
Qed.

Lemma psi_v2_spec s dim L t : psi_v2 s 0 dim L t =
  v2_max (wl_b L) * (depth_at L t * depth_at L t) - norm2 dim (momentum_at L t).
Proof.
  unfold psi_v2. rewrite relax_small_0. unfold depth_at.
  change (norm2 dim (momentum_at L t)) with (norm2 dim (w_momentum (w_along L t))).
  unfold water_depth, w_along, vadd, vscal. ring.
Qed.

Lemma psi_kin_poly s dim L t :
  let K := kin_max (wl_b L) in let hU := wl_U L 0%nat in let hP := wl_P L 0%nat in
  let qU := w_momentum (wl_U L) in let qP := w_momentum (wl_P L) in
  psi_kin s 0 dim L t =
  qpoly (hU * K - 1 / 2 * norm2 dim qU) (hP * K - dot dim qU qP) (- (1 / 2) * norm2 dim qP) t.
Proof.
  cbv zeta. unfold psi_kin. rewrite momentum_along, relax_small_0.
  unfold qpoly, water_depth, w_along, vadd, vscal. field.
Qed.

Lemma psi_v2_poly s dim L t :
  let V := v2_max (wl_b L) in let hU := wl_U L 0%nat in let hP := wl_P L 0%nat in
  let qU := w_momentum (wl_U L) in let qP := w_momentum (wl_P L) in
  psi_v2 s 0 dim L t =
  qpoly (hU * hU * V - norm2 dim qU) (2 * hU * hP * V - 2 * dot dim qU qP) (hP * hP * V - norm2 dim qP) t.
Proof.
  cbv zeta. unfold psi_v2. rewrite momentum_along, relax_small_0.
  unfold qpoly, water_depth, w_along, vadd, vscal. ring.
Qed.

(** ** The kinetic energy *)

Lemma concave_between A B C p q x :
  C <= 0 -> p <= x <= q -> 0 <= qpoly A B C p -> 0 <= qpoly A B C q -> 0 <= qpoly A B C x.
Proof.
  intros HC Hx Hp Hq.
  destruct (Req_dec p q) as [E|E]; [replace x with p by lra; exact Hp|].
  apply Rmult_le_reg_r with (q - p); [lra|]. rewrite Rmult_0_l.
  replace (qpoly A B C x * (q - p)) with
    ((q - x) * qpoly A B C p + (x - p) * qpoly A B C q + (- C) * ((x - p) * (q - x) * (q - p)))
    by (unfold qpoly; ring).
  assert (0 <= (q - x) * qpoly A B C p) by (apply Rmult_le_pos; lra).
  assert (0 <= (x - p) * qpoly A B C q) by (apply Rmult_le_pos; lra).
  assert (0 <= (- C) * ((x - p) * (q - x) * (q - p))).
  { apply Rmult_le_pos; [lra|]. apply Rmult_le_pos; [apply Rmult_le_pos|]; lra. }
  lra.
Qed.

Lemma kin_phase s tol dim L t_l t_r y :
  t_l <= t_r -> 0 <= psi_kin s 0 dim L t_l ->
  phase1 0 tol (psi_kin s 0 dim) (dpsi_kin dim) (L, (t_l, t_r)) y ->
  fst y = L /\ t_l <= fst (snd y) <= t_r /\
  forall x, t_l <= x <= fst (snd y) -> 0 <= psi_kin s 0 dim L x.
Proof.
  intros Hw H0 P.
  assert (HC : - (1 / 2) * norm2 dim (w_momentum (wl_P L)) <= 0)
    by (assert (X := norm2_nonneg dim (w_momentum (wl_P L))); lra).
  assert (Sg : forall t, dpsi_kin dim L t =
     (wl_P L 0%nat * kin_max (wl_b L) - dot dim (w_momentum (wl_U L)) (w_momentum (wl_P L)))
     + 2 * (- (1 / 2) * norm2 dim (w_momentum (wl_P L))) * t)
    by (intros t; unfold dpsi_kin, norm2, water_depth; field).
  assert (HP : forall t, psi_kin s 0 dim L t = _) by (intros t; exact (psi_kin_poly s dim L t)).
  cbv zeta in HP.
  assert (Acc : forall tl', mask_gt (psi_kin s 0 dim L t_r) 0 t_r t_l = tl' ->
     t_l <= tl' <= t_r /\ (forall x, t_l <= x <= tl' -> 0 <= psi_kin s 0 dim L x)).
  { intros tl' <-. unfold mask_gt. destruct (Rgt_dec _ _) as [G|G].
    - split; [lra|]. intros x Hx. rewrite HP. rewrite HP in G, H0.
      eapply concave_between; [exact HC|exact Hx|exact H0|lra].
    - split; [lra|]. intros x Hx. replace x with t_l by lra. exact H0. }
  destruct P as [[-> _]| ->]; cbn [acc1 newt1 fst snd].
  - split; [reflexivity|]. apply Acc. reflexivity.
  - split; [reflexivity|].
    destruct (Acc _ eq_refl) as [A1 A2].
    set (tl' := mask_gt (psi_kin s 0 dim L t_r) 0 t_r t_l) in *. clearbody tl'.
    destruct (quadratic_newton_step 0 (-1) tl' t_r (psi_kin s 0 dim L tl') (psi_kin s 0 dim L t_r)
                (dpsi_kin dim L tl') (dpsi_kin dim L t_r)) as [q1 q2] eqn:E.
    assert (Sh := newton_shrinks _ _ _ _ _ _ _ _ _ _ (proj2 A1) E). cbn [fst snd].
    split; [lra|]. intros x Hx.
    destruct (Rle_lt_dec x tl') as [Hl|Hl]; [apply A2; lra|].
    rewrite HP. rewrite !HP in E.
    assert (N := A2 tl' ltac:(lra)). rewrite HP in N.
    eapply newton_quad_safe; [exact (proj2 A1)|exact N|left; right; apply Sg|exact E|lra].
Qed.

Lemma kin_phase_root s tol dim L t_l t_r y :
  t_l <= t_r -> 0 < psi_kin s 0 dim L t_l -> psi_kin s 0 dim L t_r <= 0 -> Rmax 0 tol < t_r - t_l ->
  phase1 0 tol (psi_kin s 0 dim) (dpsi_kin dim) (L, (t_l, t_r)) y ->
  psi_kin s 0 dim L (fst (snd y)) = 0.
Proof.
  intros Hw H0 Hr Ht P.
  assert (HC : - (1 / 2) * norm2 dim (w_momentum (wl_P L)) <= 0)
    by (assert (X := norm2_nonneg dim (w_momentum (wl_P L))); lra).
  assert (Sg : forall t, dpsi_kin dim L t =
     (wl_P L 0%nat * kin_max (wl_b L) - dot dim (w_momentum (wl_U L)) (w_momentum (wl_P L)))
     + 2 * (- (1 / 2) * norm2 dim (w_momentum (wl_P L))) * t)
    by (intros t; unfold dpsi_kin, norm2, water_depth; field).
  assert (HP : forall t, psi_kin s 0 dim L t = _) by (intros t; exact (psi_kin_poly s dim L t)).
  cbv zeta in HP.
  assert (M : mask_gt (psi_kin s 0 dim L t_r) 0 t_r t_l = t_l).
  { unfold mask_gt. destruct (Rgt_dec _ _); [lra|reflexivity]. }
  destruct P as [[-> T]| ->]; cbn [acc1 newt1 fst snd] in *; rewrite M in *; [lra|].
  destruct (quadratic_newton_step 0 (-1) t_l t_r (psi_kin s 0 dim L t_l) (psi_kin s 0 dim L t_r)
              (dpsi_kin dim L t_l) (dpsi_kin dim L t_r)) as [q1 q2] eqn:E.
  cbn [fst snd]. rewrite HP. rewrite !HP, !Sg in E. rewrite HP in H0, Hr.
  eapply newton_quad_root; [exact Hw|exact HC|exact H0|exact Hr|exact E].
Qed.

Lemma after_root A B C p r x :
  C <= 0 -> p < r -> 0 < qpoly A B C p -> qpoly A B C r = 0 -> r < x -> qpoly A B C x < 0.
Proof.
  intros HC Hr Hp Hz Hx.
  assert (X : qpoly A B C x * (r - p) =
              - (x - r) * qpoly A B C p + (r - p) * (x - r) * (C * (x - p)) + qpoly A B C r * (x - p)).
  { unfold qpoly. ring. }
  rewrite Hz in X.
  assert (0 < (x - r) * qpoly A B C p) by (apply Rmult_lt_0_compat; lra).
  assert (C * (x - p) <= 0) by nra.
  assert (0 <= (r - p) * (x - r)) by nra.
  assert ((r - p) * (x - r) * (C * (x - p)) <= 0) by nra.
  nra.
Qed.

(** ** The square of the velocity *)

(** The cone |q|^2 <= V h^2, h >= 0 is convex. *)
Lemma cone_convex dim V ha hb qa qb l :
  0 <= V -> 0 <= ha -> 0 <= hb -> 0 <= l <= 1 ->
  norm2 dim qa <= V * (ha * ha) -> norm2 dim qb <= V * (hb * hb) ->
  norm2 dim (vadd (vscal (1 - l) qa) (vscal l qb)) <=
  V * (((1 - l) * ha + l * hb) * ((1 - l) * ha + l * hb)).
Proof.
  intros HV Ha Hb Hl A B.
  rewrite norm2_add, !norm2_scal, dot_scal_l, dot_scal_r.
  assert (CS := cauchy_schwarz dim qa qb).
  assert (D : dot dim qa qb <= V * (ha * hb)).
  { assert (Na := norm2_nonneg dim qa). assert (Nb := norm2_nonneg dim qb).
    assert (dot dim qa qb * dot dim qa qb <= (V * (ha * hb)) * (V * (ha * hb))).
    { eapply Rle_trans; [exact CS|].
      replace (V * (ha * hb) * (V * (ha * hb))) with ((V * (ha * ha)) * (V * (hb * hb))) by ring.
      apply Rmult_le_compat; lra. }
    assert (0 <= V * (ha * hb)) by (apply Rmult_le_pos; [lra|apply Rmult_le_pos; lra]).
    apply Rnot_lt_le. intros N. nra. }
  assert (0 <= (1 - l) * l) by (apply Rmult_le_pos; lra).
  assert ((1 - l) * (1 - l) * norm2 dim qa <= (1 - l) * (1 - l) * (V * (ha * ha)))
    by (apply Rmult_le_compat_l; [nra|lra]).
  assert (l * l * norm2 dim qb <= l * l * (V * (hb * hb))) by (apply Rmult_le_compat_l; [nra|lra]).
  assert ((1 - l) * l * dot dim qa qb <= (1 - l) * l * (V * (ha * hb))) by (apply Rmult_le_compat_l; lra).
  nra.
Qed.

Lemma v2_between s dim L p q x :
  0 <= v2_max (wl_b L) -> 0 <= depth_at L p -> 0 <= depth_at L q -> p <= x <= q ->
  0 <= psi_v2 s 0 dim L p -> 0 <= psi_v2 s 0 dim L q -> 0 <= psi_v2 s 0 dim L x.
Proof.
  intros HV Hp Hq Hx Pp Pq.
  destruct (Req_dec p q) as [E|E]; [replace x with p by lra; exact Pp|].
  rewrite psi_v2_spec in *.
  set (l := (x - p) / (q - p)).
  assert (Hl : 0 <= l <= 1).
  { unfold l. split; [apply Rmult_le_pos; [lra|left; apply Rinv_0_lt_compat; lra]|].
    apply Rmult_le_reg_r with (q - p); [lra|]. unfold Rdiv. rewrite Rmult_assoc, Rinv_l; lra. }
  assert (El : x = (1 - l) * p + l * q) by (unfold l; field; lra).
  assert (K := cone_convex dim (v2_max (wl_b L)) (depth_at L p) (depth_at L q)
                 (momentum_at L p) (momentum_at L q) l HV Hp Hq Hl ltac:(lra) ltac:(lra)).
  assert (E1 : (1 - l) * depth_at L p + l * depth_at L q = depth_at L x).
  { unfold depth_at. rewrite El. ring. }
  assert (E2 : norm2 dim (vadd (vscal (1 - l) (momentum_at L p)) (vscal l (momentum_at L q))) =
               norm2 dim (momentum_at L x)).
  { apply dot_ext; intros k _; unfold vadd, vscal, momentum_at; rewrite El; ring. }
  rewrite E1, E2 in K. lra.
Qed.

Lemma v2_phase s tol dim L t_r y :
  0 <= t_r -> 0 <= v2_max (wl_b L) -> 0 <= depth_at L 0 -> 0 <= depth_at L t_r ->
  0 <= psi_v2 s 0 dim L 0 ->
  phase1 0 tol (psi_v2 s 0 dim) (dpsi_v2 dim) (L, (0, t_r)) y ->
  fst y = L /\ 0 <= fst (snd y) <= t_r /\ 0 <= psi_v2 s 0 dim L (fst (snd y)).
Proof.
  intros Hw HV Hd0 Hdr H0 P.
  assert (HP : forall t, psi_v2 s 0 dim L t = _) by (intros t; exact (psi_v2_poly s dim L t)).
  cbv zeta in HP.
  set (V := v2_max (wl_b L)) in *. set (hU := wl_U L 0%nat) in *. set (hP := wl_P L 0%nat) in *.
  set (qU := w_momentum (wl_U L)) in *. set (qP := w_momentum (wl_P L)) in *.
  set (A := hU * hU * V - norm2 dim qU) in *. set (B := 2 * hU * hP * V - 2 * dot dim qU qP) in *.
  set (C := hP * hP * V - norm2 dim qP) in *.
  (* the error of the slopes *)
  assert (Sg : forall t, dpsi_v2 dim L t - (B + 2 * C * t) =
                         - (depth_at L t * hP * V) + 4 * norm2 dim qP * t).
  { intros t. unfold dpsi_v2, B, C, depth_at, norm2, water_depth. fold hU hP qU qP V. ring. }
  destruct P as [[-> _]| ->]; cbn [acc1 newt1 fst snd].
  - split; [reflexivity|]. unfold mask_gt. destruct (Rgt_dec _ _) as [G|G]; split; try lra; assumption.
  - split; [reflexivity|].
    set (tl' := mask_gt (psi_v2 s 0 dim L t_r) 0 t_r 0) in *.
    assert (A1 : 0 <= tl' <= t_r) by (unfold tl', mask_gt; destruct (Rgt_dec _ _); lra).
    destruct (quadratic_newton_step 0 (-1) tl' t_r (psi_v2 s 0 dim L tl') (psi_v2 s 0 dim L t_r)
                (dpsi_v2 dim L tl') (dpsi_v2 dim L t_r)) as [q1 q2] eqn:E.
    assert (Sh := newton_shrinks _ _ _ _ _ _ _ _ _ _ (proj2 A1) E). cbn [fst snd].
    split; [lra|].
    destruct (Rlt_le_dec 0 (psi_v2 s 0 dim L t_r)) as [G|G].
    { assert (tl' = t_r) by (unfold tl', mask_gt; destruct (Rgt_dec _ _); lra).
      replace q1 with t_r by lra. lra. }
    assert (Htl : tl' = 0) by (unfold tl', mask_gt; destruct (Rgt_dec _ _); lra).
    clearbody tl'. subst tl'.
    assert (Nn := norm2_nonneg dim qP).
    assert (S0 := Sg 0). assert (Sr := Sg t_r).
    rewrite HP. rewrite !HP in E. rewrite HP in H0.
    eapply newton_quad_safe; [exact Hw|exact H0| |exact E|lra].
    destruct (Rle_lt_dec 0 hP) as [Hh|Hh].
    + left. assert (0 <= depth_at L 0 * hP * V).
      { apply Rmult_le_pos; [apply Rmult_le_pos|]; assumption. } lra.
    + right. destruct (Req_dec (psi_v2 s 0 dim L t_r) 0) as [Z|Z].
      * right. intros x Hx. rewrite <- HP. apply (v2_between s dim L 0 t_r); try assumption.
        -- rewrite HP. exact H0.
        -- lra.
      * left. rewrite <- HP. split; [lra|].
        assert (0 <= depth_at L t_r * (- hP) * V).
        { apply Rmult_le_pos; [apply Rmult_le_pos|]; lra. }
        assert (0 <= 4 * norm2 dim qP * t_r) by (apply Rmult_le_pos; lra). lra.
Qed.
