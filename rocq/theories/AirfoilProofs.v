(** * Lemmas: the manifolds of the airfoil geometry *)
From Coq Require Import Reals List Bool Lra Lia.
From Verif Require Import RVec Airfoil AirfoilSpec.
Import ListNotations.
Local Open Scope R_scope.

Lemma sqrt_sq_pos x y : sqrt (x * x + y * y) * sqrt (x * x + y * y) = x * x + y * y.
Proof. apply sqrt_sqrt. nra. Qed.

Lemma sqrt_pos0 x y : (x <> 0 \/ y <> 0) -> 0 < sqrt (x * x + y * y).
Proof. intros H. apply sqrt_lt_R0. destruct H; nra. Qed.

(** 1 + (y/x)^2 for x <> 0. *)
Lemma norm_quotient x y : x <> 0 -> sqrt (1 + (y / x)²) = sqrt (x * x + y * y) / Rabs x.
Proof.
  intros H. replace (1 + (y / x)²) with ((x * x + y * y) / (x * x)) by (unfold Rsqr; field; exact H).
  rewrite sqrt_div_alt by nra. f_equal. change (x * x) with (Rsqr x). apply sqrt_Rsqr_abs.
Qed.

Lemma angle_trig x y : (x <> 0 \/ y <> 0) ->
  sqrt (x * x + y * y) * cos (angle x y) = x /\ sqrt (x * x + y * y) * sin (angle x y) = y.
Proof.
  intros H. pose proof (sqrt_pos0 x y H) as P. pose proof PI_RGT_0 as Pi.
  assert (G : sqrt (x * x + y * y) * cos (atan2 y x) = x /\ sqrt (x * x + y * y) * sin (atan2 y x) = y).
  { unfold atan2. destruct (Rlt_dec 0 x) as [X|X].
    - rewrite cos_atan, sin_atan, norm_quotient, Rabs_pos_eq by lra. split; field; lra.
    - destruct (Rlt_dec x 0) as [X'|X'].
      + assert (C : sqrt (x * x + y * y) * (- cos (atan (y / x))) = x /\ sqrt (x * x + y * y) * (- sin (atan (y / x))) = y).
        { rewrite cos_atan, sin_atan, norm_quotient, Rabs_left by lra. split; field; lra. }
        destruct (Rle_dec 0 y).
        * rewrite neg_cos, neg_sin. exact C.
        * replace (cos (atan (y / x) - PI)) with (- cos (atan (y / x))).
          2:{ rewrite cos_minus, cos_PI, sin_PI. ring. }
          replace (sin (atan (y / x) - PI)) with (- sin (atan (y / x))).
          2:{ rewrite sin_minus, cos_PI, sin_PI. ring. }
          exact C.
      + assert (x = 0) as -> by lra. replace (0 * 0 + y * y) with (Rsqr y) by (unfold Rsqr; ring). rewrite sqrt_Rsqr_abs.
        destruct (Rlt_dec 0 y).
        * rewrite cos_PI2, sin_PI2, Rabs_pos_eq by lra. lra.
        * destruct (Rlt_dec y 0); [|exfalso; destruct H; lra].
          rewrite cos_neg, sin_neg, cos_PI2, sin_PI2, Rabs_left by lra. lra. }
  unfold angle. cbv zeta. destruct (Rlt_dec (atan2 y x) 0); [|exact G].
  rewrite cos_plus, sin_plus, cos_2PI, sin_2PI. split; [transitivity (sqrt (x * x + y * y) * cos (atan2 y x)) | transitivity (sqrt (x * x + y * y) * sin (atan2 y x))]; try ring; apply G.
Qed.

(** The angle of a point in front of the center. *)
Lemma angle_front x y : x <= 0 -> (x <> 0 \/ y <> 0) -> PI / 2 <= angle x y <= 3 * PI / 2.
Proof.
  intros Hx H. pose proof PI_RGT_0 as Pi. unfold angle. cbv zeta.
  assert (G : PI / 2 <= atan2 y x <= PI \/ - PI <= atan2 y x <= - (PI / 2)).
  { unfold atan2. destruct (Rlt_dec 0 x); [lra|]. destruct (Rlt_dec x 0) as [X|X].
    - pose proof (atan_bound (y / x)) as B.
      assert (Q : y = y / x * x) by (field; lra).
      destruct (Rle_dec 0 y) as [Y|Y].
      + left. assert (y / x <= 0) by nra. assert (atan (y / x) <= 0).
        { destruct (Req_dec (y / x) 0) as [E|E]; [rewrite E, atan_0; lra|]. rewrite <- atan_0. left. apply atan_increasing. lra. }
        lra.
      + right. assert (0 < y / x) by nra. assert (0 < atan (y / x)) by (rewrite <- atan_0; apply atan_increasing; lra). lra.
    - destruct (Rlt_dec 0 y); [left; lra|]. destruct (Rlt_dec y 0); [right; lra|]. exfalso; destruct H; lra. }
  destruct (Rlt_dec (atan2 y x) 0); lra.
Qed.

(** Polar coordinates with angle in [pi/2, 3 pi/2] are recovered. *)
Lemma angle_inv rho phi : 0 < rho -> PI / 2 <= phi <= 3 * PI / 2 -> angle (rho * cos phi) (rho * sin phi) = phi.
Proof.
  intros Hr Hp. pose proof PI_RGT_0 as Pi.
  assert (C : cos phi <= 0) by (apply cos_le_0; lra).
  assert (T : rho * cos phi <= 0) by nra.
  assert (N : rho * cos phi <> 0 \/ rho * sin phi <> 0).
  { pose proof (sin2_cos2 phi) as E. unfold Rsqr in E. destruct (Req_dec (cos phi) 0) as [Z|Z]; [right|left]; intros Q; apply Rmult_integral in Q; destruct Q; try lra; try nra. }
  pose proof (angle_trig _ _ N) as [A B]. pose proof (angle_front _ _ T N) as F.
  assert (Q : sqrt (rho * cos phi * (rho * cos phi) + rho * sin phi * (rho * sin phi)) = rho).
  { replace (rho * cos phi * (rho * cos phi) + rho * sin phi * (rho * sin phi)) with (rho * rho).
    - apply sqrt_square. lra.
    - pose proof (sin2_cos2 phi) as E. unfold Rsqr in E. nra. }
  rewrite Q in A, B. set (u := angle _ _) in *.
  apply Rmult_eq_reg_l in B; [|lra]. apply Rmult_eq_reg_l in A; [|lra].
  destruct (Rtotal_order u phi) as [L|[E|L]]; [|exact E|].
  - exfalso. assert (sin phi < sin u) by (apply sin_decreasing_1; lra). lra.
  - exfalso. assert (sin u < sin phi) by (apply sin_decreasing_1; lra). lra.
Qed.

Lemma C139_round_trip_proof : forall a p, 0 < ratio a -> p <> airfoil_center a ->
  airfoil_push_forward a (airfoil_pull_back a p) = p.
Proof.
  intros a [px py] Hr Hp. unfold airfoil_pull_back. cbn [fst snd].
  set (x := px - fst (airfoil_center a)). set (y := py - snd (airfoil_center a)).
  pose proof PI_RGT_0 as Pi.
  assert (N : x <> 0 \/ y <> 0).
  { destruct (Req_dec x 0) as [X|X]; [|left; exact X]. destruct (Req_dec y 0) as [Y|Y]; [|right; exact Y].
    exfalso. apply Hp. rewrite (surjective_pairing (airfoil_center a)). unfold x, y in *. f_equal; lra. }
  assert (E : (x + fst (airfoil_center a), y + snd (airfoil_center a)) = (px, py)) by (unfold x, y; f_equal; lra).
  rewrite <- E. clear E Hp. unfold airfoil_push_forward. destruct (Rlt_dec 0 x) as [X|X].
  - assert (0 < ratio a * x) by nra. destruct (upper_side a); cbn [fst snd].
    + destruct (Rlt_dec _ (0.5 * PI)) as [_|Q]; [|exfalso; apply Q; lra]. cbn [fst snd].
      replace ((0.5 * PI - (0.5 * PI - ratio a * x)) / ratio a) with x by (field; lra). f_equal; lra.
    + destruct (Rlt_dec _ (0.5 * PI)) as [Q|_]; [exfalso; lra|]. destruct (Rlt_dec (1.5 * PI) _) as [_|Q]; [|exfalso; apply Q; lra]. cbn [fst snd].
      replace ((1.5 * PI + ratio a * x - 1.5 * PI) / ratio a) with x by (field; lra). f_equal; lra.
  - cbn [fst snd polar_pull_back]. pose proof (angle_front x y ltac:(lra) N) as F. pose proof (angle_trig x y N) as [A B].
    destruct (Rlt_dec _ (0.5 * PI)) as [Q|_]; [exfalso; lra|]. destruct (Rlt_dec (1.5 * PI) _) as [Q|_]; [exfalso; lra|].
    unfold polar_push_forward. cbn [fst snd].
    replace (1 + sqrt (x * x + y * y) - psi_front a (angle x y) - 1 + psi_front a (angle x y)) with (sqrt (x * x + y * y)) by lra.
    rewrite A, B. reflexivity.
Qed.

(** The other direction: chart points on the side of the manifold, not beyond the center. *)
Lemma C139_chart_proof : forall a q, 0 < ratio a ->
  (upper_side a = true /\ snd q <= 3 * PI / 2 \/ upper_side a = false /\ PI / 2 <= snd q) ->
  (PI / 2 <= snd q <= 3 * PI / 2 -> 0 < fst q - 1 + psi_front a (snd q)) ->
  airfoil_pull_back a (airfoil_push_forward a q) = q.
Proof.
  intros a [s phi] Hr Hs Hf. cbn [fst snd] in *. pose proof PI_RGT_0 as Pi. unfold airfoil_push_forward. cbn [fst snd].
  destruct (Rlt_dec phi (0.5 * PI)) as [Q|Q].
  - destruct Hs as [[U _]|[_ H]]; [|exfalso; lra].
    assert (0 < (0.5 * PI - phi) / ratio a) by (apply Rdiv_lt_0_compat; lra).
    unfold airfoil_pull_back. cbn [fst snd]. rewrite U.
    replace ((0.5 * PI - phi) / ratio a + fst (airfoil_center a) - fst (airfoil_center a)) with ((0.5 * PI - phi) / ratio a) by ring.
    destruct (Rlt_dec 0 _) as [_|Z]; [|contradiction]. f_equal; [lra|field; lra].
  - destruct (Rlt_dec (1.5 * PI) phi) as [T|T].
    + destruct Hs as [[_ H]|[U _]]; [exfalso; lra|].
      assert (0 < (phi - 1.5 * PI) / ratio a) by (apply Rdiv_lt_0_compat; lra).
      unfold airfoil_pull_back. cbn [fst snd]. rewrite U.
      replace ((phi - 1.5 * PI) / ratio a + fst (airfoil_center a) - fst (airfoil_center a)) with ((phi - 1.5 * PI) / ratio a) by ring.
      destruct (Rlt_dec 0 _) as [_|Z]; [|contradiction]. f_equal; [lra|field; lra].
    + specialize (Hf ltac:(lra)). set (rho := s - 1 + psi_front a phi) in *.
      unfold airfoil_pull_back, polar_push_forward, polar_pull_back. cbn [fst snd].
      replace (rho * cos phi + fst (airfoil_center a) - fst (airfoil_center a)) with (rho * cos phi) by ring.
      replace (rho * sin phi + snd (airfoil_center a) - snd (airfoil_center a)) with (rho * sin phi) by ring.
      assert (C : cos phi <= 0) by (apply cos_le_0; lra).
      destruct (Rlt_dec 0 (rho * cos phi)) as [Z|_]; [exfalso; nra|].
      rewrite angle_inv by lra.
      replace (sqrt (rho * cos phi * (rho * cos phi) + rho * sin phi * (rho * sin phi))) with rho; [unfold rho; f_equal; lra|].
      replace (rho * cos phi * (rho * cos phi) + rho * sin phi * (rho * sin phi)) with (rho * rho).
      * symmetry. apply sqrt_square. lra.
      * pose proof (sin2_cos2 phi) as E. unfold Rsqr in E. nra.
Qed.

(** At the center itself the chart leaves the front. *)
Lemma C139_center_refuted_proof : forall a, 0 < ratio a ->
  airfoil_push_forward a (airfoil_pull_back a (airfoil_center a)) <> airfoil_center a.
Proof.
  intros a Hr. pose proof PI_RGT_0 as Pi. unfold airfoil_pull_back. rewrite !Rminus_eq_0.
  destruct (Rlt_dec 0 0); [lra|]. unfold polar_pull_back, angle, atan2. cbn [fst snd].
  destruct (Rlt_dec 0 0); [lra|]. cbv zeta. destruct (Rlt_dec 0 0); [lra|].
  unfold airfoil_push_forward. cbn [fst snd]. destruct (Rlt_dec 0 (0.5 * PI)) as [_|Q]; [|exfalso; apply Q; lra].
  cbn [fst snd]. intros E. apply (f_equal fst) in E. cbn [fst] in E.
  assert (0 < (0.5 * PI - 0) / ratio a) by (apply Rdiv_lt_0_compat; lra). lra.
Qed.

(** ** Points on the curve *)

Section Curve.
  Variable a : airfoil.
  Hypothesis Hr : 0 < ratio a.
  Hypothesis Hf : forall phi, PI / 2 <= phi <= 3 * PI / 2 -> 0 < psi_front a phi.

  Definition range (phi : R) : Prop := if upper_side a then phi <= 3 * PI / 2 else PI / 2 <= phi.

  Lemma pull_curve p : on_curve a p -> fst (airfoil_pull_back a p) = 1 /\ range (snd (airfoil_pull_back a p)).
  Proof using Hr Hf.
    pose proof PI_RGT_0 as Pi. intros [[X Y]|(phi & Hp & X & Y)]; unfold airfoil_pull_back.
    - destruct (Rlt_dec 0 _) as [_|Z]; [|contradiction]. unfold range.
      assert (0 < ratio a * (fst p - fst (airfoil_center a))) by nra.
      destruct (upper_side a); cbn [fst snd]; rewrite Y; split; lra.
    - assert (C : cos phi <= 0) by (apply cos_le_0; lra). pose proof (Hf phi Hp) as F.
      destruct (Rlt_dec 0 _) as [Z|_]; [exfalso; nra|]. unfold polar_pull_back. cbn [fst snd]. rewrite X, Y, angle_inv by lra.
      replace (sqrt _) with (psi_front a phi).
      + split; [lra|]. unfold range. destruct (upper_side a); lra.
      + replace (psi_front a phi * cos phi * (psi_front a phi * cos phi) + psi_front a phi * sin phi * (psi_front a phi * sin phi)) with (psi_front a phi * psi_front a phi).
        * symmetry. apply sqrt_square. lra.
        * pose proof (sin2_cos2 phi) as E. unfold Rsqr in E. nra.
  Qed.

  Lemma push_curve phi : range phi -> on_curve a (airfoil_push_forward a (1, phi)).
  Proof using Hr.
    pose proof PI_RGT_0 as Pi. unfold range, on_curve, airfoil_push_forward. cbn [fst snd]. intros H.
    destruct (Rlt_dec phi (0.5 * PI)) as [Q|Q]; [|destruct (Rlt_dec (1.5 * PI) phi) as [T|T]]; cbn [fst snd polar_push_forward].
    - destruct (upper_side a); [|exfalso; lra]. left.
      replace ((0.5 * PI - phi) / ratio a + fst (airfoil_center a) - fst (airfoil_center a)) with ((0.5 * PI - phi) / ratio a) by ring.
      split; [apply Rdiv_lt_0_compat; lra|lra].
    - destruct (upper_side a); [exfalso; lra|]. left.
      replace ((phi - 1.5 * PI) / ratio a + fst (airfoil_center a) - fst (airfoil_center a)) with ((phi - 1.5 * PI) / ratio a) by ring.
      split; [apply Rdiv_lt_0_compat; lra|lra].
    - right. exists phi. split; [lra|].
      replace (1 - 1 + psi_front a phi) with (psi_front a phi) by ring. split; ring.
  Qed.

  Lemma mean_curve points : (forall p w, In (p, w) points -> 0 <= w /\ on_curve a p) ->
    let s := fold_right (fun pw s => snd pw + s) 0 points in
    let m := fold_right (fun pw s => (snd pw * fst (airfoil_pull_back a (fst pw)) + fst s, snd pw * snd (airfoil_pull_back a (fst pw)) + snd s)) (0, 0) points in
    fst m = s /\ 0 <= s /\ (if upper_side a then snd m <= s * (3 * PI / 2) else s * (PI / 2) <= snd m).
  Proof using Hr Hf.
    induction points as [|[p w] l IH]; intros H; cbn [fold_right fst snd].
    - destruct (upper_side a); lra.
    - destruct IH as (A & B & C); [intros; apply H; right; assumption|].
      destruct (H p w (or_introl eq_refl)) as [W P]. apply pull_curve in P. destruct P as [P1 P2]. unfold range in P2.
      rewrite P1, A. split; [ring|]. split; [lra|]. destruct (upper_side a); nra.
  Qed.
End Curve.

Lemma C139_curve_proof : forall a points, 0 < ratio a -> (forall phi, PI / 2 <= phi <= 3 * PI / 2 -> 0 < psi_front a phi) ->
  average points -> (forall p w, In (p, w) points -> on_curve a p) ->
  on_curve a (chart_new_point (airfoil_pull_back a) (airfoil_push_forward a) points).
Proof.
  intros a points Hr Hf [Hw Hs] Hp. unfold chart_new_point.
  destruct (mean_curve a Hr Hf points) as (A & _ & C); [intros p w H; split; [apply (Hw p w H)|apply (Hp p w H)]|].
  cbv zeta in *. set (m := fold_right _ (0, 0) points) in *. rewrite Hs in A, C.
  rewrite (surjective_pairing m), A. apply push_curve; [exact Hr|]. unfold range. destruct (upper_side a); lra.
Qed.

(** Behind the center the abscissas are averaged. *)
Lemma C139_abscissa_proof : forall a points, 0 < ratio a -> average points ->
  (forall p w, In (p, w) points -> fst (airfoil_center a) < fst p) ->
  fst (chart_new_point (airfoil_pull_back a) (airfoil_push_forward a) points) =
  fold_right (fun pw s => snd pw * fst (fst pw) + s) 0 points.
Proof.
  intros a points Hr [Hw Hs] Hp. unfold chart_new_point. pose proof PI_RGT_0 as Pi.
  set (c := fst (airfoil_center a)).
  assert (G : let s := fold_right (fun pw s => snd pw + s) 0 points in
     let m := fold_right (fun pw s => (snd pw * fst (airfoil_pull_back a (fst pw)) + fst s, snd pw * snd (airfoil_pull_back a (fst pw)) + snd s)) (0, 0) points in
     let x := fold_right (fun pw s => snd pw * fst (fst pw) + s) 0 points in
     0 <= s /\ s * c <= x /\ (0 < s -> s * c < x) /\
     snd m = if upper_side a then s * (0.5 * PI) - ratio a * (x - s * c) else s * (1.5 * PI) + ratio a * (x - s * c)).
  { clear Hs. induction points as [|[p w] l IH]; cbn [fold_right fst snd].
    - split; [lra|]. split; [lra|]. split; [lra|]. destruct (upper_side a); lra.
    - destruct IH as (A & B & B' & C); [intros; eapply Hw; right; eassumption|intros; eapply Hp; right; eassumption|].
      cbv zeta in *. pose proof (Hp p w (or_introl eq_refl)) as P. pose proof (Hw p w (or_introl eq_refl)) as W. fold c in P.
      set (s := fold_right (fun pw s => snd pw + s) 0 l) in *. set (x := fold_right (fun pw s => snd pw * fst (fst pw) + s) 0 l) in *.
      split; [lra|]. split; [nra|]. split.
      + intros V0. destruct (Rle_lt_or_eq_dec 0 s A) as [S|S]; [specialize (B' S); nra|]. rewrite <- S in *.
        assert (0 < w) by lra. nra.
      + rewrite C. unfold airfoil_pull_back. fold c. destruct (Rlt_dec 0 (fst p - c)) as [_|Z]; [|exfalso; lra].
        destruct (upper_side a); cbn [fst snd]; ring. }
  cbv zeta in G. set (m := fold_right _ (0, 0) points) in *. set (x := fold_right (fun pw s => snd pw * fst (fst pw) + s) 0 points) in *.
  rewrite Hs in G. destruct G as (_ & _ & L & E). specialize (L Rlt_0_1).
  assert (0 < ratio a * (x - 1 * c)) by nra.
  unfold airfoil_push_forward. fold c. rewrite E. destruct (upper_side a).
  - destruct (Rlt_dec _ (0.5 * PI)) as [_|Q]; [|exfalso; apply Q; lra]. cbn [fst]. field. lra.
  - destruct (Rlt_dec _ (0.5 * PI)) as [Q|_]; [exfalso; lra|]. destruct (Rlt_dec (1.5 * PI) _) as [_|Q]; [|exfalso; apply Q; lra]. cbn [fst]. field. lra.
Qed.

(** ** The seam *)

(** A function glued together at one place. *)
Lemma glued (f g h : R -> R) x0 : (forall x, x < x0 -> f x = g x) -> (exists d, 0 < d /\ forall x, x0 <= x < x0 + d -> f x = h x) ->
  continuity_pt g x0 -> continuity_pt h x0 -> (continuity_pt f x0 <-> g x0 = h x0).
Proof.
  intros Hg (d & Hd & Hh) Cg Ch. split.
  - intros Cf. apply cond_eq. intros e He.
    destruct (Cf (e / 4) ltac:(lra)) as (df & Df & F). destruct (Cg (e / 4) ltac:(lra)) as (dg & Dg & G).
    set (x := x0 - Rmin df dg / 2). assert (M : 0 < Rmin df dg) by (apply Rmin_glb_lt; lra).
    pose proof (Rmin_l df dg). pose proof (Rmin_r df dg).
    assert (X : D_x no_cond x0 x) by (split; [exact Logic.I|unfold x; lra]).
    assert (Q : dist R_met x x0 = Rmin df dg / 2).
    { cbn. unfold R_dist, x. rewrite Rabs_left; lra. }
    specialize (F x). specialize (G x). cbn [Base dist R_met] in F, G, Q. rewrite Q in F, G.
    assert (F' : R_dist (f x) (f x0) < e / 4) by (apply F; split; [exact X|lra]).
    assert (G' : R_dist (g x) (g x0) < e / 4) by (apply G; split; [exact X|lra]). clear F G. rename F' into F, G' into G. unfold R_dist in F, G.
    rewrite (Hg x) in F by (unfold x; lra). rewrite (Hh x0) in F by lra.
    replace (g x0 - h x0) with ((g x - h x0) - (g x - g x0)) by ring.
    eapply Rle_lt_trans; [apply Rabs_triang|]. rewrite Rabs_Ropp. lra.
  - intros E e He. destruct (Cg e He) as (dg & Dg & G). destruct (Ch e He) as (dh & Dh & H).
    exists (Rmin d (Rmin dg dh)). split; [repeat apply Rmin_glb_lt; lra|]. intros x [X Q].
    pose proof (Rmin_l d (Rmin dg dh)). pose proof (Rmin_r d (Rmin dg dh)). pose proof (Rmin_l dg dh). pose proof (Rmin_r dg dh).
    cbn [Base dist R_met] in *. rewrite (Hh x0) by lra. destruct (Rlt_dec x x0) as [L|L].
    + rewrite (Hg x L), <- E. apply G. split; [exact X|lra].
    + unfold R_dist in Q. rewrite Rabs_pos_eq in Q by lra. rewrite (Hh x) by lra. apply H. split; [exact X|]. cbn [Base dist R_met]. unfold R_dist. rewrite Rabs_pos_eq; lra.
Qed.

Lemma C139_seam_proof : forall a s, 0 < ratio a -> upper_side a = true ->
  continuity_pt (psi_upper a) 0 -> continuity_pt (psi_front a) (PI / 2) ->
  ((continuity_pt (fun phi => fst (airfoil_push_forward a (s, phi))) (PI / 2) /\
    continuity_pt (fun phi => snd (airfoil_push_forward a (s, phi))) (PI / 2)) <-> psi_upper a 0 = psi_front a (PI / 2)).
Proof.
  intros a s Hr U Cu Cf. pose proof PI_RGT_0 as Pi.
  set (front := fun phi => s - 1 + psi_front a phi).
  assert (CF : continuity_pt front (PI / 2)).
  { apply (continuity_pt_plus (fun _ => s - 1) (psi_front a)); [apply continuity_pt_const; intros ? ?; reflexivity|exact Cf]. }
  assert (CX : continuity_pt (fun phi => (0.5 * PI - phi) / ratio a) (PI / 2)) by reg.
  assert (Z : (0.5 * PI - PI / 2) / ratio a = 0) by (replace (0.5 * PI - PI / 2) with 0 by lra; unfold Rdiv; ring).
  assert (CU : continuity_pt (fun phi => psi_upper a ((0.5 * PI - phi) / ratio a)) (PI / 2)).
  { apply (continuity_pt_comp (fun phi => (0.5 * PI - phi) / ratio a) (psi_upper a)); [exact CX|]. rewrite Z. exact Cu. }
  assert (Up : forall phi, phi < PI / 2 -> airfoil_push_forward a (s, phi) =
     ((0.5 * PI - phi) / ratio a + fst (airfoil_center a), s - 1 + psi_upper a ((0.5 * PI - phi) / ratio a) + snd (airfoil_center a))).
  { intros phi H. unfold airfoil_push_forward. cbn [fst snd]. destruct (Rlt_dec phi (0.5 * PI)) as [_|Q]; [reflexivity|exfalso; lra]. }
  assert (Fr : forall phi, PI / 2 <= phi < PI / 2 + PI -> airfoil_push_forward a (s, phi) =
     (front phi * cos phi + fst (airfoil_center a), front phi * sin phi + snd (airfoil_center a))).
  { intros phi H. unfold airfoil_push_forward. cbn [fst snd]. destruct (Rlt_dec phi (0.5 * PI)) as [Q|_]; [exfalso; lra|].
    destruct (Rlt_dec (1.5 * PI) phi) as [Q|_]; [exfalso; lra|]. reflexivity. }
  assert (K : forall k : R, continuity_pt (fun _ : R => k) (PI / 2)) by (intros k; apply continuity_pt_const; intros ? ?; reflexivity).
  pose proof (glued (fun phi => fst (airfoil_push_forward a (s, phi))) (fun phi => (0.5 * PI - phi) / ratio a + fst (airfoil_center a))
    (fun phi => front phi * cos phi + fst (airfoil_center a)) (PI / 2)) as G1.
  pose proof (glued (fun phi => snd (airfoil_push_forward a (s, phi))) (fun phi => s - 1 + psi_upper a ((0.5 * PI - phi) / ratio a) + snd (airfoil_center a))
    (fun phi => front phi * sin phi + snd (airfoil_center a)) (PI / 2)) as G2.
  cbv beta in G1, G2. rewrite Z, cos_PI2 in G1. rewrite Z, sin_PI2 in G2.
  assert (E1 : continuity_pt (fun phi => fst (airfoil_push_forward a (s, phi))) (PI / 2)).
  { apply G1; [intros x H; rewrite Up by exact H; reflexivity|exists PI; split; [lra|intros x H; rewrite Fr by exact H; reflexivity]| | |ring].
    - apply (continuity_pt_plus (fun phi => (0.5 * PI - phi) / ratio a) (fun _ => fst (airfoil_center a))); [exact CX|apply K].
    - apply (continuity_pt_plus (fun phi => front phi * cos phi) (fun _ => fst (airfoil_center a))); [|apply K].
      apply (continuity_pt_mult front cos); [exact CF|apply continuity_cos]. }
  assert (E2 : continuity_pt (fun phi => snd (airfoil_push_forward a (s, phi))) (PI / 2) <->
     s - 1 + psi_upper a 0 + snd (airfoil_center a) = front (PI / 2) * 1 + snd (airfoil_center a)).
  { apply G2; [intros x H; rewrite Up by exact H; reflexivity|exists PI; split; [lra|intros x H; rewrite Fr by exact H; reflexivity]| |].
    - apply (continuity_pt_plus (fun phi => s - 1 + psi_upper a ((0.5 * PI - phi) / ratio a)) (fun _ => snd (airfoil_center a))); [|apply K].
      apply (continuity_pt_plus (fun _ => s - 1) (fun phi => psi_upper a ((0.5 * PI - phi) / ratio a))); [apply K|exact CU].
    - apply (continuity_pt_plus (fun phi => front phi * sin phi) (fun _ => snd (airfoil_center a))); [|apply K].
      apply (continuity_pt_mult front sin); [exact CF|apply continuity_sin]. }
  unfold front in E2. split.
  - intros [_ H]. apply E2 in H. lra.
  - intros H. split; [exact E1|]. apply E2. lra.
Qed.

Lemma glued_r (f g h : R -> R) x0 : (forall x, x0 < x -> f x = g x) -> (exists d, 0 < d /\ forall x, x0 - d < x <= x0 -> f x = h x) ->
  continuity_pt g x0 -> continuity_pt h x0 -> (continuity_pt f x0 <-> g x0 = h x0).
Proof.
  intros Hg (d & Hd & Hh) Cg Ch.
  assert (M : forall u : R -> R, continuity_pt u x0 -> continuity_pt (fun x => u (- x)) (- x0)).
  { intros u Cu. apply (continuity_pt_comp Ropp u); [apply (continuity_pt_opp id), derivable_continuous_pt, derivable_pt_id|rewrite Ropp_involutive; exact Cu]. }
  assert (M' : continuity_pt (fun x => f (- x)) (- x0) -> continuity_pt f x0).
  { intros C. assert (E : f = (fun x => f (- - x))) by (apply FunctionalExtensionality.functional_extensionality; intros x; rewrite Ropp_involutive; reflexivity).
    rewrite E. apply (continuity_pt_comp Ropp (fun x => f (- x))); [apply (continuity_pt_opp id), derivable_continuous_pt, derivable_pt_id|exact C]. }
  destruct (glued (fun x => f (- x)) (fun x => g (- x)) (fun x => h (- x)) (- x0)) as [A B].
  - intros x H. apply Hg. lra.
  - exists d. split; [exact Hd|]. intros x H. apply Hh. lra.
  - apply M, Cg.
  - apply M, Ch.
  - rewrite Ropp_involutive in A, B. split; [intros C; apply A, M, C|intros E; apply M', B, E].
Qed.

Lemma C139_seam_lower_proof : forall a s, 0 < ratio a -> upper_side a = false ->
  continuity_pt (psi_lower a) 0 -> continuity_pt (psi_front a) (3 * PI / 2) ->
  ((continuity_pt (fun phi => fst (airfoil_push_forward a (s, phi))) (3 * PI / 2) /\
    continuity_pt (fun phi => snd (airfoil_push_forward a (s, phi))) (3 * PI / 2)) <-> psi_lower a 0 = - psi_front a (3 * PI / 2)).
Proof.
  intros a s Hr U Cu Cf. pose proof PI_RGT_0 as Pi. set (x0 := 3 * PI / 2) in *.
  set (front := fun phi => s - 1 + psi_front a phi).
  assert (CF : continuity_pt front x0).
  { apply (continuity_pt_plus (fun _ => s - 1) (psi_front a)); [apply continuity_pt_const; intros ? ?; reflexivity|exact Cf]. }
  assert (CX : continuity_pt (fun phi => (phi - 1.5 * PI) / ratio a) x0) by reg.
  assert (Z : (x0 - 1.5 * PI) / ratio a = 0) by (replace (x0 - 1.5 * PI) with 0 by (unfold x0; lra); unfold Rdiv; ring).
  assert (CU : continuity_pt (fun phi => psi_lower a ((phi - 1.5 * PI) / ratio a)) x0).
  { apply (continuity_pt_comp (fun phi => (phi - 1.5 * PI) / ratio a) (psi_lower a)); [exact CX|]. rewrite Z. exact Cu. }
  assert (Lo : forall phi, x0 < phi -> airfoil_push_forward a (s, phi) =
     ((phi - 1.5 * PI) / ratio a + fst (airfoil_center a), 1 - s + psi_lower a ((phi - 1.5 * PI) / ratio a) + snd (airfoil_center a))).
  { intros phi H. unfold x0 in H. unfold airfoil_push_forward. cbn [fst snd]. destruct (Rlt_dec phi (0.5 * PI)) as [Q|_]; [exfalso; lra|].
    destruct (Rlt_dec (1.5 * PI) phi) as [_|Q]; [reflexivity|exfalso; lra]. }
  assert (Fr : forall phi, x0 - PI < phi <= x0 -> airfoil_push_forward a (s, phi) =
     (front phi * cos phi + fst (airfoil_center a), front phi * sin phi + snd (airfoil_center a))).
  { intros phi H. unfold x0 in H. unfold airfoil_push_forward. cbn [fst snd]. destruct (Rlt_dec phi (0.5 * PI)) as [Q|_]; [exfalso; lra|].
    destruct (Rlt_dec (1.5 * PI) phi) as [Q|_]; [exfalso; lra|]. reflexivity. }
  assert (K : forall k : R, continuity_pt (fun _ : R => k) x0) by (intros k; apply continuity_pt_const; intros ? ?; reflexivity).
  assert (Co : cos x0 = 0) by (unfold x0; replace (3 * PI / 2) with (3 * (PI / 2)) by field; apply cos_3PI2).
  assert (Si : sin x0 = -1) by (unfold x0; replace (3 * PI / 2) with (3 * (PI / 2)) by field; apply sin_3PI2).
  pose proof (glued_r (fun phi => fst (airfoil_push_forward a (s, phi))) (fun phi => (phi - 1.5 * PI) / ratio a + fst (airfoil_center a))
    (fun phi => front phi * cos phi + fst (airfoil_center a)) x0) as G1.
  pose proof (glued_r (fun phi => snd (airfoil_push_forward a (s, phi))) (fun phi => 1 - s + psi_lower a ((phi - 1.5 * PI) / ratio a) + snd (airfoil_center a))
    (fun phi => front phi * sin phi + snd (airfoil_center a)) x0) as G2.
  cbv beta in G1, G2. rewrite Z, Co in G1. rewrite Z, Si in G2.
  assert (E1 : continuity_pt (fun phi => fst (airfoil_push_forward a (s, phi))) x0).
  { apply G1; [intros x H; rewrite Lo by exact H; reflexivity|exists PI; split; [lra|intros x H; rewrite Fr by exact H; reflexivity]| | |ring].
    - apply (continuity_pt_plus (fun phi => (phi - 1.5 * PI) / ratio a) (fun _ => fst (airfoil_center a))); [exact CX|apply K].
    - apply (continuity_pt_plus (fun phi => front phi * cos phi) (fun _ => fst (airfoil_center a))); [|apply K].
      apply (continuity_pt_mult front cos); [exact CF|apply continuity_cos]. }
  assert (E2 : continuity_pt (fun phi => snd (airfoil_push_forward a (s, phi))) x0 <->
     1 - s + psi_lower a 0 + snd (airfoil_center a) = front x0 * -1 + snd (airfoil_center a)).
  { apply G2; [intros x H; rewrite Lo by exact H; reflexivity|exists PI; split; [lra|intros x H; rewrite Fr by exact H; reflexivity]| |].
    - apply (continuity_pt_plus (fun phi => 1 - s + psi_lower a ((phi - 1.5 * PI) / ratio a)) (fun _ => snd (airfoil_center a))); [|apply K].
      apply (continuity_pt_plus (fun _ => 1 - s) (fun phi => psi_lower a ((phi - 1.5 * PI) / ratio a))); [apply K|exact CU].
    - apply (continuity_pt_plus (fun phi => front phi * sin phi) (fun _ => snd (airfoil_center a))); [|apply K].
      apply (continuity_pt_mult front sin); [exact CF|apply continuity_sin]. }
  unfold front in E2. split.
  - intros [_ H]. apply E2 in H. lra.
  - intros H. split; [exact E1|]. apply E2. lra.
Qed.

(** ** Copies *)

Lemma C139_clone_proof : forall center front upper lower side psi_ratio, front 0 <> 0 -> front PI <> 0 ->
  let a := make_airfoil center front upper lower side psi_ratio in
  (forall p, airfoil_pull_back (airfoil_clone a) p = airfoil_pull_back a p) /\
  (forall q, airfoil_push_forward (airfoil_clone a) q = airfoil_push_forward a q).
Proof.
  intros center front upper lower side r H0 Hpi a.
  assert (E : airfoil_clone a = a).
  { unfold airfoil_clone, a, make_airfoil. cbn. f_equal. field. split; assumption. }
  rewrite E. split; reflexivity.
Qed.
