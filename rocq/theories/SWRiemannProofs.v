(** * Proofs about the shallow water Riemann solver *)
From Coq Require Import Reals Lra Lia Arith Psatz.
From Verif Require Import RVec Simd SimdProofs Newton SWSystem SWPhysProofs SWRiemann SWRiemannSpec.
Local Open Scope R_scope.

Lemma pp_nonneg x : 0 <= positive_part x.
Proof. unfold positive_part. destruct (Rcase_abs x); [rewrite (Rabs_left x)|rewrite (Rabs_right x)]; lra. Qed.

Lemma pp_pos x : 0 <= x -> positive_part x = x.
Proof. intros. unfold positive_part. rewrite (Rabs_right x); lra. Qed.

Lemma pp_neg x : x <= 0 -> positive_part x = 0.
Proof. intros. unfold positive_part. rewrite (Rabs_left1 x); lra. Qed.

Lemma pp_ge x : x <= positive_part x.
Proof. unfold positive_part. destruct (Rcase_abs x); [rewrite (Rabs_left x)|rewrite (Rabs_right x)]; lra. Qed.

Lemma np_ge x : - x <= negative_part x.
Proof. unfold negative_part. destruct (Rcase_abs x); [rewrite (Rabs_left x)|rewrite (Rabs_right x)]; lra. Qed.

Lemma pp_mono x y : x <= y -> positive_part x <= positive_part y.
Proof.
  intros. destruct (Rle_dec 0 x).
  - rewrite !pp_pos by lra. lra.
  - rewrite (pp_neg x) by lra. apply pp_nonneg.
Qed.

(** The factor of the speed, [sqrt ((1 + x / 2) (1 + x))] for the relative increase x. *)
Definition stretch (h hs : R) : R :=
  let factor := positive_part ((hs - h) / h) in sqrt ((1 + 1 / 2 * factor) * (1 + factor)).

Lemma stretch_ge_1 h hs : 1 <= stretch h hs.
Proof.
  unfold stretch. rewrite <- sqrt_1 at 1. apply sqrt_le_1_alt.
  pose proof (pp_nonneg ((hs - h) / h)). nra.
Qed.

Lemma stretch_below h hs : 0 < h -> hs <= h -> stretch h hs = 1.
Proof.
  intros. unfold stretch. rewrite pp_neg.
  - replace ((1 + 1 / 2 * 0) * (1 + 0)) with 1 by ring. apply sqrt_1.
  - unfold Rdiv. pose proof (Rinv_0_lt_compat h ltac:(lra)). nra.
Qed.

Lemma stretch_mono h x y : 0 < h -> x <= y -> stretch h x <= stretch h y.
Proof.
  intros. unfold stretch. apply sqrt_le_1_alt.
  assert (positive_part ((x - h) / h) <= positive_part ((y - h) / h)).
  { apply pp_mono. unfold Rdiv. apply Rmult_le_compat_r; [left; apply Rinv_0_lt_compat; lra|lra]. }
  pose proof (pp_nonneg ((x - h) / h)). nra.
Qed.

Definition data (g h u : R) : wdata := {| wd_h := h; wd_u := u; wd_a := sqrt (g * h) |}.

Lemma sqrt_uniq x y : 0 <= x -> x * x = y -> x = sqrt y.
Proof. intros. subst. symmetry. apply sqrt_square. assumption. Qed.

Lemma shock_speed g h u hs us sp : 0 < g -> 0 < h -> h < hs -> sp < u ->
  h * u - hs * us = sp * (h - hs) ->
  (h * u * u + g * h * h / 2) - (hs * us * us + g * hs * hs / 2) = sp * (h * u - hs * us) ->
  u - sp = sqrt (g * hs * (h + hs) / (2 * h)) /\
  u - us = (hs - h) * sqrt (1 / 2 * g * (hs + h) / (hs * h)).
Proof.
  intros Hg Hh Hhs Hsp M1 M2.
  assert (E : h * (u - sp) = hs * (us - sp)) by lra.
  assert (Hd : u - us = (hs - h) / hs * (u - sp)).
  { apply Rmult_eq_reg_l with hs; [|lra]. replace (hs * ((hs - h) / hs * (u - sp))) with ((hs - h) * (u - sp)) by (field; lra).
    lra. }
  assert (F : h * (u - sp) * (u - us) = g / 2 * (hs - h) * (hs + h)).
  { replace (h * (u - sp) * (u - us)) with (h * u * (u - sp) - us * (h * (u - sp))) by ring.
    replace (us * (h * (u - sp))) with (us * (hs * (us - sp))) by (rewrite E; ring). lra. }
  assert (Q : (u - sp) * (u - sp) = g * hs * (h + hs) / (2 * h)).
  { rewrite Hd in F.
    apply Rmult_eq_reg_l with (h * (hs - h) / hs).
    2:{ apply Rgt_not_eq. apply Rdiv_lt_0_compat; [|lra]. apply Rmult_lt_0_compat; lra. }
    replace (h * (hs - h) / hs * ((u - sp) * (u - sp))) with (h * (u - sp) * ((hs - h) / hs * (u - sp))) by (field; lra).
    rewrite F. field. lra. }
  split; [apply sqrt_uniq; [lra|exact Q]|].
  rewrite Hd.
  replace ((hs - h) / hs * (u - sp)) with ((hs - h) * ((u - sp) / hs)) by (field; lra).
  f_equal. apply sqrt_uniq.
  - apply Rlt_le. apply Rdiv_lt_0_compat; lra.
  - replace ((u - sp) / hs * ((u - sp) / hs)) with ((u - sp) * (u - sp) / (hs * hs)) by (field; lra).
    rewrite Q. field. lra.
Qed.

(** The jump of the velocity across a wave is f, its speed is the formula of lambda1_minus. *)
Lemma wave_speed g h u hs us sp : 0 < g -> 0 < h -> left_wave g h u hs us sp ->
  u - us = wr_f g (data g h u) hs /\ sp = u - sqrt (g * h) * stretch h hs.
Proof.
  intros Hg Hh [(R1 & R2 & R3)|(S1 & S2 & S3 & S4)].
  - split.
    + unfold wr_f, mask_le, data; cbn. destruct (Rle_dec hs h); lra.
    + rewrite stretch_below by lra. lra.
  - destruct (shock_speed g h u hs us sp) as [E1 E2]; auto. split.
    + unfold wr_f, mask_le, data; cbn. destruct (Rle_dec hs h); [lra|]. exact E2.
    + unfold stretch. rewrite pp_pos.
      2:{ apply Rlt_le. apply Rdiv_lt_0_compat; lra. }
      rewrite <- sqrt_mult_alt by nra.
      assert (E : u - sp = sqrt (g * h * ((1 + 1 / 2 * ((hs - h) / h)) * (1 + (hs - h) / h)))).
      { rewrite E1. f_equal. field. lra. }
      lra.
Qed.

(** ** Lower bounds of f *)

Lemma f_rarefaction g h u x : 0 < g -> 0 < h -> 0 <= x ->
  2 * (sqrt (g * x) - sqrt (g * h)) <= wr_f g (data g h u) x.
Proof.
  intros Hg Hh Hx. unfold wr_f, mask_le, data; cbn. destruct (Rle_dec x h); [lra|].
  assert (x > h) by lra.
  pose proof (sqrt_lt_R0 x ltac:(lra)) as Px. pose proof (sqrt_lt_R0 h ltac:(lra)) as Ph.
  pose proof (sqrt_sqrt x ltac:(lra)) as Sx. pose proof (sqrt_sqrt h ltac:(lra)) as Sh.
  assert (sqrt h < sqrt x) by (apply sqrt_lt_1_alt; lra).
  set (s := sqrt x) in *. set (t := sqrt h) in *.
  assert (E : sqrt (1 / 2 * g * (x + h) / (x * h)) = sqrt g * (sqrt (1 / 2 * (x + h)) / (s * t))).
  { rewrite <- (sqrt_square (s * t)) by nra.
    rewrite <- sqrt_div_alt by nra. rewrite <- sqrt_mult_alt by lra. f_equal.
    replace (s * t * (s * t)) with (x * h) by (rewrite <- Sx, <- Sh; ring). field. nra. }
  rewrite E. rewrite (sqrt_mult_alt g x), (sqrt_mult_alt g h) by lra. fold s t.
  pose proof (sqrt_lt_R0 g Hg) as Pg.
  assert (B : 2 * (s * t) <= (s + t) * sqrt (1 / 2 * (x + h))).
  { apply Rsqr_incr_0_var; [|apply Rmult_le_pos; [lra|apply sqrt_pos]].
    unfold Rsqr. replace ((s + t) * sqrt (1 / 2 * (x + h)) * ((s + t) * sqrt (1 / 2 * (x + h))))
      with ((s + t) * (s + t) * (sqrt (1 / 2 * (x + h)) * sqrt (1 / 2 * (x + h)))) by ring.
    rewrite sqrt_sqrt by lra. rewrite <- Sx, <- Sh.
    assert (A1 : 4 * (s * t) <= (s + t) * (s + t)) by nra.
    assert (A2 : s * t <= 1 / 2 * (s * s + t * t)) by nra.
    assert (0 <= s * t) by nra.
    replace (2 * (s * t) * (2 * (s * t))) with (4 * (s * t) * (s * t)) by ring.
    apply Rmult_le_compat; lra. }
  replace (2 * (sqrt g * s - sqrt g * t)) with (sqrt g * ((s - t) * 2)) by ring.
  replace ((x - h) * (sqrt g * (sqrt (1 / 2 * (x + h)) / (s * t))))
    with (sqrt g * ((s - t) * ((s + t) * sqrt (1 / 2 * (x + h)) / (s * t)))) by (rewrite <- Sx, <- Sh; field; lra).
  apply Rmult_le_compat_l; [lra|]. apply Rmult_le_compat_l; [lra|].
  apply Rmult_le_reg_r with (s * t); [nra|].
  replace ((s + t) * sqrt (1 / 2 * (x + h)) / (s * t) * (s * t)) with ((s + t) * sqrt (1 / 2 * (x + h))) by (field; nra).
  lra.
Qed.

(** The modified shock. *)
Lemma f_modified g h u x : 0 < g -> 0 < h -> h <= x ->
  (x - h) * (sqrt g / (sqrt 2 * sqrt h)) <= wr_f g (data g h u) x.
Proof.
  intros Hg Hh Hx. unfold wr_f, mask_le, data; cbn. destruct (Rle_dec x h).
  - replace x with h by lra. lra.
  - apply Rmult_le_compat_l; [lra|].
    rewrite <- sqrt_mult_alt by lra. rewrite <- sqrt_div_alt by nra. apply sqrt_le_1_alt.
    replace (1 / 2 * g * (x + h) / (x * h)) with (g / (2 * h) * ((x + h) / x)) by (field; lra).
    rewrite <- (Rmult_1_r (g / (2 * h))) at 1. apply Rmult_le_compat_l.
    + apply Rlt_le. apply Rdiv_lt_0_compat; lra.
    + apply Rmult_le_reg_r with x; [lra|]. replace ((x + h) / x * x) with (x + h) by (field; lra). lra.
Qed.

Lemma f_mono g h u x y : 0 < g -> 0 < h -> 0 <= x -> x <= y ->
  wr_f g (data g h u) x <= wr_f g (data g h u) y.
Proof.
  intros Hg Hh Hx Hxy. destruct (Rle_dec y h) as [Hy|Hy].
  - unfold wr_f, mask_le, data; cbn. destruct (Rle_dec x h); [|lra]. destruct (Rle_dec y h); [|lra].
    assert (sqrt (g * x) <= sqrt (g * y)) by (apply sqrt_le_1_alt; nra). lra.
  - destruct (Rle_dec x h) as [Hxh|Hxh].
    + apply Rle_trans with 0.
      * unfold wr_f, mask_le, data; cbn. destruct (Rle_dec x h); [|lra].
        assert (sqrt (g * x) <= sqrt (g * h)) by (apply sqrt_le_1_alt; nra). lra.
      * unfold wr_f, mask_le, data; cbn. destruct (Rle_dec y h); [lra|].
        apply Rmult_le_pos; [lra|apply sqrt_pos].
    + unfold wr_f, mask_le, data; cbn. destruct (Rle_dec x h); [lra|]. destruct (Rle_dec y h); [lra|].
      assert (Q : forall z, h < z -> (z - h) * sqrt (1 / 2 * g * (z + h) / (z * h)) =
                  sqrt (1 / 2 * g / h * ((z - h) * (z - h * h / z)))).
      { intros z Hz. rewrite <- (sqrt_square (z - h)) at 1 by lra.
        rewrite <- sqrt_mult_alt by nra. f_equal. field. lra. }
      rewrite !Q by lra. apply sqrt_le_1_alt.
      apply Rmult_le_compat_l.
      * apply Rlt_le. apply Rdiv_lt_0_compat; lra.
      * assert (h * h / y <= h * h / x).
        { unfold Rdiv. apply Rmult_le_compat_l; [nra|]. apply Rinv_le_contravar; lra. }
        assert (h * h / x < x).
        { apply Rmult_lt_reg_r with x; [lra|]. replace (h * h / x * x) with (h * h) by (field; lra). nra. }
        apply Rmult_le_compat; lra.
Qed.

(** ** The estimate of the intermediate depth *)

Lemma phi_eq g hi ui hj uj h :
  wr_phi g (data g hi ui) (data g hj uj) h = wr_f g (data g hi ui) h + wr_f g (data g hj uj) h + uj - ui.
Proof. reflexivity. Qed.

Lemma f_vel g h u u' x : wr_f g (data g h u) x = wr_f g (data g h u') x.
Proof. reflexivity. Qed.

Lemma x0_ge_1 : 1 <= 9 - 4 * sqrt 2.
Proof.
  assert (sqrt 2 <= 2); [|lra].
  apply Rle_trans with (sqrt (2 * 2)); [apply sqrt_le_1_alt; lra|rewrite sqrt_square; lra].
Qed.

Lemma sqrt2_pos : 0 < sqrt 2.
Proof. apply sqrt_lt_R0. lra. Qed.

(** Both waves are shocks. *)
Lemma middle_bound g a b du x : 0 < g -> 0 < a -> a <= b -> b <= x ->
  (x - a) * (sqrt g / (sqrt 2 * sqrt a)) + (x - b) * (sqrt g / (sqrt 2 * sqrt b)) <= du ->
  x <= sqrt (a * b) * (1 + sqrt 2 * du / (sqrt (g * a) + sqrt (g * b))).
Proof.
  intros Hg Ha Hab Hx H.
  pose proof sqrt2_pos as P2. pose proof (sqrt_lt_R0 g Hg) as Pg.
  pose proof (sqrt_lt_R0 a Ha) as Pa. pose proof (sqrt_lt_R0 b ltac:(lra)) as Pb.
  pose proof (sqrt_sqrt a ltac:(lra)) as Sa. pose proof (sqrt_sqrt b ltac:(lra)) as Sb.
  rewrite !sqrt_mult_alt by lra.
  set (r := sqrt a) in *. set (t := sqrt b) in *. set (G := sqrt g) in *. set (w := sqrt 2) in *.
  assert (D : 0 < G * r + G * t) by nra.
  assert (Q : (x - r * t) * (r + t) * G / (w * (r * t)) <= du).
  { replace ((x - r * t) * (r + t) * G / (w * (r * t))) with
      ((x - a) * (G / (w * r)) + (x - b) * (G / (w * t))); [exact H|].
    rewrite <- Sa, <- Sb. field. lra. }
  apply Rmult_le_reg_r with ((G * r + G * t) / (r * t)).
  { apply Rdiv_lt_0_compat; nra. }
  replace (r * t * (1 + w * du / (G * r + G * t)) * ((G * r + G * t) / (r * t)))
    with (G * r + G * t + w * du) by (field; lra).
  apply (Rmult_le_compat_l w) in Q; [|lra].
  replace (w * ((x - r * t) * (r + t) * G / (w * (r * t)))) with
    (x * ((G * r + G * t) / (r * t)) - (G * r + G * t)) in Q by (field; lra).
  lra.
Qed.

(** The wave into the shallower water is a shock. *)
Lemma right_bound g a b du x : 0 < g -> 0 < a -> 0 < b -> a <= x ->
  (x - a) * (sqrt g / (sqrt 2 * sqrt a)) + 2 * (sqrt (g * x) - sqrt (g * b)) <= du ->
  let tmp := sqrt (positive_part (3 * a + 2 * sqrt 2 * sqrt (a * b) + sqrt 2 * sqrt (1 / g * a) * du))
             - sqrt 2 * sqrt a in
  x <= tmp * tmp.
Proof.
  intros Hg Ha Hb Hx H.
  pose proof sqrt2_pos as P2. pose proof (sqrt_lt_R0 g Hg) as Pg.
  pose proof (sqrt_lt_R0 a Ha) as Pa. pose proof (sqrt_lt_R0 b ltac:(lra)) as Pb.
  pose proof (sqrt_sqrt a ltac:(lra)) as Sa. pose proof (sqrt_sqrt 2 ltac:(lra)) as S2.
  pose proof (sqrt_sqrt x ltac:(lra)) as Sx. pose proof (sqrt_lt_R0 x ltac:(lra)) as Px.
  assert (Ei : sqrt (1 / g * a) = sqrt a / sqrt g).
  { rewrite <- sqrt_div_alt by lra. f_equal. field. lra. }
  rewrite (sqrt_mult_alt a b), Ei by lra. intros tmp.
  rewrite !sqrt_mult_alt in H by lra.
  set (r := sqrt a) in *. set (t := sqrt b) in *. set (G := sqrt g) in *. set (w := sqrt 2) in *.
  set (y := sqrt x) in *.
  assert (K : (y + w * r) * (y + w * r) <= 3 * a + 2 * w * (r * t) + w * (r / G) * du).
  { apply (Rmult_le_compat_l (w * (r / G))) in H.
    2:{ apply Rmult_le_pos; [lra|]. apply Rlt_le, Rdiv_lt_0_compat; lra. }
    replace (w * (r / G) * ((x - a) * (G / (w * r)) + 2 * (G * y - G * t)))
      with (x - a + 2 * w * r * y - 2 * w * (r * t)) in H by (field; lra).
    replace ((y + w * r) * (y + w * r)) with (y * y + 2 * w * r * y + (w * w) * (r * r)) by ring.
    rewrite Sx, S2, Sa. lra. }
  assert (T : y <= tmp).
  { unfold tmp. apply Rplus_le_reg_r with (w * r).
    replace (sqrt (positive_part (3 * a + 2 * w * (r * t) + w * (r / G) * du)) - w * r + w * r)
      with (sqrt (positive_part (3 * a + 2 * w * (r * t) + w * (r / G) * du))) by ring.
    rewrite <- (sqrt_square (y + w * r)) by nra. apply sqrt_le_1_alt.
    eapply Rle_trans; [exact K|apply pp_ge]. }
  rewrite <- Sx. apply Rmult_le_compat; lra.
Qed.

Lemma h_star_bound g hi ui hj uj x : 0 < g -> 0 < hi -> 0 < hj -> Rmin hi hj <= x ->
  wr_phi g (data g hi ui) (data g hj uj) x = 0 ->
  x <= wr_compute_h_star g (data g hi ui) (data g hj uj).
Proof.
  intros Hg Hi Hj Hx Hphi. rewrite phi_eq in Hphi.
  (* order the two depths *)
  assert (O : exists a b, 0 < a /\ a <= b /\ a = Rmin hi hj /\ b = Rmax hi hj /\
     wr_f g (data g a 0) x + wr_f g (data g b 0) x = ui - uj /\
     (forall z, wr_f g (data g hi ui) z + wr_f g (data g hj uj) z = wr_f g (data g a 0) z + wr_f g (data g b 0) z)).
  { destruct (Rle_dec hi hj) as [C|C].
    - exists hi, hj. rewrite Rmin_left, Rmax_right by lra. repeat split; try lra.
      rewrite (f_vel g hi 0 ui), (f_vel g hj 0 uj). lra.
    - exists hj, hi. rewrite Rmin_right, Rmax_left by lra. repeat split; try lra.
      + rewrite (f_vel g hi 0 ui), (f_vel g hj 0 uj). lra.
      + intros z. rewrite (f_vel g hi 0 ui), (f_vel g hj 0 uj). lra. }
  destruct O as (a & b & Ha & Hab & Ea & Eb & Hf & Hz).
  unfold wr_compute_h_star. rewrite !phi_eq. cbn [wd_h wd_u wd_a data]. rewrite <- Ea, <- Eb.
  unfold mask_lt. rewrite <- Ea in Hx.
  match goal with |- context [if ?d then _ else _] => destruct d as [C|C] end.
  - rewrite Hz in C. pose proof x0_ge_1.
    assert (b <= x).
    { apply Rnot_lt_le. intros N.
      pose proof (f_mono g a 0 x ((9 - 4 * sqrt 2) * b) Hg ltac:(lra) ltac:(lra) ltac:(nra)).
      pose proof (f_mono g b 0 x ((9 - 4 * sqrt 2) * b) Hg ltac:(lra) ltac:(lra) ltac:(nra)).
      lra. }
    apply middle_bound; try lra.
    pose proof (f_modified g a 0 x Hg Ha ltac:(lra)). pose proof (f_modified g b 0 x Hg ltac:(lra) ltac:(lra)). lra.
  - apply right_bound; try lra.
    pose proof (f_modified g a 0 x Hg Ha ltac:(lra)). pose proof (f_rarefaction g b 0 x Hg ltac:(lra) ltac:(lra)). lra.
Qed.

(** ** The speed bound *)

Lemma lambda1_data g h u x : wr_lambda1_minus (data g h u) x = u - sqrt (g * h) * stretch h x.
Proof. reflexivity. Qed.

Lemma lambda3_data g h u x : wr_lambda3_plus (data g h u) x = u + sqrt (g * h) * stretch h x.
Proof. reflexivity. Qed.

Lemma compute_bound g hi ui hj uj sl sr xi : 0 < g -> 0 < hi -> 0 < hj ->
  extreme_speeds g hi ui hj uj sl sr -> sl <= xi <= sr ->
  Rabs xi <= wr_compute g (data g hi ui) (data g hj uj).
Proof.
  intros Hg Hi Hj E [X1 X2].
  set (H := wr_compute_h_star g (data g hi ui) (data g hj uj)).
  assert (B : ui - sqrt (g * hi) * stretch hi H <= sl /\ sr <= uj + sqrt (g * hj) * stretch hj H).
  { pose proof (sqrt_pos (g * hi)). pose proof (sqrt_pos (g * hj)).
    destruct E as [(hs & us & L & R)|(V & -> & ->)].
    - destruct (wave_speed g hi ui hs us sl Hg Hi L) as [F1 S1].
      destruct (wave_speed g hj (- uj) hs (- us) (- sr) Hg Hj R) as [F2 S2].
      destruct (Rle_dec (Rmin hi hj) hs) as [C|C].
      + assert (hs <= H).
        { apply h_star_bound; try assumption. rewrite phi_eq.
          rewrite (f_vel g hj uj (- uj)). lra. }
        pose proof (stretch_mono hi hs H Hi H2). pose proof (stretch_mono hj hs H Hj H2).
        split; nra.
      + assert (hs <= hi /\ hs <= hj).
        { pose proof (Rmin_l hi hj). pose proof (Rmin_r hi hj). lra. }
        rewrite (stretch_below hi hs) in S1 by lra. rewrite (stretch_below hj hs) in S2 by lra.
        pose proof (stretch_ge_1 hi H). pose proof (stretch_ge_1 hj H). split; nra.
    - pose proof (stretch_ge_1 hi H). pose proof (stretch_ge_1 hj H). split; nra. }
  destruct B as [B1 B2]. unfold wr_compute. fold H. unfold wr_compute_lambda.
  rewrite lambda1_data, lambda3_data.
  pose proof (np_ge (ui - sqrt (g * hi) * stretch hi H)) as N.
  pose proof (pp_ge (uj + sqrt (g * hj) * stretch hj H)) as P.
  match goal with |- _ <= Rmax ?a ?b => pose proof (Rmax_l a b); pose proof (Rmax_r a b) end.
  apply Rabs_le. lra.
Qed.

Lemma compute_nonneg g di dj : 0 <= wr_compute g di dj.
Proof.
  unfold wr_compute, wr_compute_lambda. eapply Rle_trans; [|apply Rmax_r]. apply pp_nonneg.
Qed.

(** ** Existence of the exact solution *)

Definition fc (g h : R) (y : R) : R :=
  2 * (sqrt g * ((y + sqrt h - Rabs (y - sqrt h)) / 2) - sqrt (g * h)) +
  ((y * y + h + Rabs (y * y - h)) / 2 - h) *
  sqrt (1 / 2 * g * (/ h + / ((y * y + h + Rabs (y * y - h)) / 2))).

Lemma fc_f g h u y : 0 < g -> 0 < h -> 0 <= y -> fc g h y = wr_f g (data g h u) (y * y).
Proof.
  intros Hg Hh Hy. unfold fc, wr_f, mask_le, data; cbn.
  pose proof (sqrt_sqrt h ltac:(lra)) as Sh. pose proof (sqrt_lt_R0 h Hh).
  destruct (Rle_dec (y * y) h) as [C|C].
  - assert (y <= sqrt h) by nra.
    rewrite (Rabs_left1 (y - sqrt h)), (Rabs_left1 (y * y - h)) by lra.
    rewrite (sqrt_mult_alt g (y * y)), (sqrt_square y) by lra.
    replace ((y * y + h + - (y * y - h)) / 2 - h) with 0 by field. lra.
  - assert (sqrt h <= y) by nra.
    rewrite (Rabs_right (y - sqrt h)), (Rabs_right (y * y - h)) by lra.
    replace ((y + sqrt h - (y - sqrt h)) / 2) with (sqrt h) by field.
    rewrite (sqrt_mult_alt g h) by lra.
    replace ((y * y + h + (y * y - h)) / 2) with (y * y) by field.
    replace (1 / 2 * g * (/ h + / (y * y))) with (1 / 2 * g * (y * y + h) / (y * y * h)) by (field; split; nra).
    lra.
Qed.

Lemma cont_abs f : continuity f -> continuity (fun y => Rabs (f y)).
Proof. intros H. apply (continuity_comp f Rabs); [exact H|apply Rcontinuity_abs]. Qed.

Lemma fc_cont g h : 0 < g -> 0 < h -> continuity (fc g h).
Proof.
  intros Hg Hh.
  assert (C1 : continuity (fun y => y - sqrt h)) by reg.
  assert (C2 : continuity (fun y => y * y - h)) by reg.
  assert (C3 : continuity (fun y => (y * y + h + Rabs (y * y - h)) / 2)).
  { pose proof (cont_abs _ C2) as A.
    assert (continuity (fun y => y * y + h)) by reg.
    pose proof (continuity_mult _ (fun _ => / 2) (continuity_plus _ _ H A) (continuity_const (fun _ => / 2) (fun x y => eq_refl))) as Z.
    exact Z. }
  assert (P3 : forall y, 0 < (y * y + h + Rabs (y * y - h)) / 2).
  { intros y. pose proof (Rabs_pos (y * y - h)). nra. }
  assert (C4 : continuity (fun y => sqrt (1 / 2 * g * (/ h + / ((y * y + h + Rabs (y * y - h)) / 2))))).
  { intros y.
    apply (continuity_pt_comp (fun y => 1 / 2 * g * (/ h + / ((y * y + h + Rabs (y * y - h)) / 2))) sqrt).
    - apply (continuity_pt_mult (fun _ => 1 / 2 * g)).
      + apply continuity_pt_const. intros ? ?; reflexivity.
      + apply (continuity_pt_plus (fun _ => / h)).
        * apply continuity_pt_const. intros ? ?; reflexivity.
        * apply (continuity_pt_inv (fun y => (y * y + h + Rabs (y * y - h)) / 2)).
          -- apply C3.
          -- specialize (P3 y). lra.
    - apply continuity_pt_sqrt. specialize (P3 y).
      apply Rinv_0_lt_compat in P3. pose proof (Rinv_0_lt_compat h Hh). nra. }
  assert (C5 : continuity (fun y => 2 * (sqrt g * ((y + sqrt h - Rabs (y - sqrt h)) / 2) - sqrt (g * h)))).
  { pose proof (cont_abs _ C1) as A.
    assert (B : continuity (fun y => y + sqrt h)) by reg.
    pose proof (continuity_minus _ _ B A) as D.
    assert (K : continuity (fun z => 2 * (sqrt g * (z / 2) - sqrt (g * h)))) by reg.
    exact (continuity_comp _ _ D K). }
  assert (C6 : continuity (fun y => (y * y + h + Rabs (y * y - h)) / 2 - h)).
  { pose proof (continuity_minus _ (fun _ => h) C3 (continuity_const (fun _ => h) (fun x y => eq_refl))) as Z. exact Z. }
  exact (continuity_plus _ _ C5 (continuity_mult _ _ C6 C4)).
Qed.

(** A wave with a prescribed depth behind it. *)
Lemma wave_exists g h u hs : 0 < g -> 0 < h -> 0 <= hs ->
  exists sp, left_wave g h u hs (u - wr_f g (data g h u) hs) sp.
Proof.
  intros Hg Hh Hs. unfold wr_f, mask_le, data; cbn. destruct (Rle_dec hs h) as [C|C].
  - exists (u - sqrt (g * h)). left. repeat split; lra.
  - set (d := sqrt (g * hs * (h + hs) / (2 * h))).
    assert (Q : d * d = g * hs * (h + hs) / (2 * h)).
    { apply sqrt_sqrt. apply Rlt_le, Rdiv_lt_0_compat; [|lra].
      repeat apply Rmult_lt_0_compat; lra. }
    assert (Pd : 0 < d).
    { apply sqrt_lt_R0. apply Rdiv_lt_0_compat; [|lra]. repeat apply Rmult_lt_0_compat; lra. }
    assert (E : sqrt (1 / 2 * g * (hs + h) / (hs * h)) = d / hs).
    { symmetry. apply sqrt_uniq; [apply Rlt_le, Rdiv_lt_0_compat; lra|].
      replace (d / hs * (d / hs)) with (d * d / (hs * hs)) by (field; lra). rewrite Q. field. lra. }
    rewrite E. exists (u - d). right. repeat split; try lra.
    + field. lra.
    + assert (Z : d * d * (hs - h) * h = g / 2 * (hs - h) * (hs + h) * hs).
      { rewrite Q. field. lra. }
      apply Rmult_eq_reg_l with hs; [|lra].
      match goal with |- ?l = ?r => replace l with
        (hs * (h * u * u + g * h * h / 2) - (hs * u - (hs - h) * d) * (hs * u - (hs - h) * d) - g * hs * hs * hs / 2) by (field; lra);
        replace r with (hs * (u - d) * (h * u - (hs * u - (hs - h) * d))) by (field; lra) end.
      assert (d * d * (hs - h) * (hs - h) + (hs - h) * d * d * h - hs * (hs - h) * d * d = 0) by ring.
      lra.
Qed.

Lemma exact_exists g hi ui hj uj : 0 < g -> 0 < hi -> 0 < hj ->
  exists sl sr, extreme_speeds g hi ui hj uj sl sr.
Proof.
  intros Hg Hi Hj.
  destruct (Rle_dec (ui + 2 * sqrt (g * hi)) (uj - 2 * sqrt (g * hj))) as [V|V].
  { exists (ui - sqrt (g * hi)), (uj + sqrt (g * hj)). right. lra. }
  pose proof (sqrt_lt_R0 g Hg) as Pg.
  set (F := fun y => fc g hi y + fc g hj y + (uj - ui)).
  assert (CF : continuity F).
  { apply (continuity_plus (fun y => fc g hi y + fc g hj y) (fun _ => uj - ui)).
    - apply (continuity_plus (fc g hi) (fc g hj)); apply fc_cont; assumption.
    - apply continuity_const. intros ? ?; reflexivity. }
  assert (F0 : F 0 < 0).
  { unfold F. rewrite (fc_f g hi ui 0), (fc_f g hj uj 0) by lra.
    unfold wr_f, mask_le, data; cbn. destruct (Rle_dec (0 * 0) hi); [|lra]. destruct (Rle_dec (0 * 0) hj); [|lra].
    replace (g * (0 * 0)) with 0 by ring. rewrite sqrt_0. lra. }
  set (Y := (2 * sqrt (g * hi) + 2 * sqrt (g * hj) + Rabs (uj - ui) + 1) / sqrt g).
  assert (PY : 0 < Y).
  { apply Rdiv_lt_0_compat; [|lra]. pose proof (sqrt_pos (g * hi)). pose proof (sqrt_pos (g * hj)).
    pose proof (Rabs_pos (uj - ui)). lra. }
  assert (FY : 0 < F Y).
  { unfold F. rewrite (fc_f g hi ui Y), (fc_f g hj uj Y) by lra.
    assert (0 <= Y * Y) by nra.
    pose proof (f_rarefaction g hi ui (Y * Y) Hg Hi H). pose proof (f_rarefaction g hj uj (Y * Y) Hg Hj H).
    rewrite (sqrt_mult_alt g (Y * Y)), (sqrt_square Y) in H0 by lra.
    rewrite (sqrt_mult_alt g (Y * Y)), (sqrt_square Y) in H1 by lra.
    assert (sqrt g * Y = 2 * sqrt (g * hi) + 2 * sqrt (g * hj) + Rabs (uj - ui) + 1) by (unfold Y; field; lra).
    pose proof (sqrt_pos (g * hi)). pose proof (sqrt_pos (g * hj)).
    pose proof (Rle_abs (- (uj - ui))) as RA. rewrite Rabs_Ropp in RA. lra. }
  destruct (IVT F 0 Y CF PY F0 FY) as (y & [Y0 _] & Z).
  destruct (wave_exists g hi ui (y * y) Hg Hi ltac:(nra)) as [sl L].
  destruct (wave_exists g hj (- uj) (y * y) Hg Hj ltac:(nra)) as [sr R].
  exists sl, (- sr). left. exists (y * y), (ui - wr_f g (data g hi ui) (y * y)). split; [exact L|].
  unfold right_wave. rewrite Ropp_involutive.
  replace (- (ui - wr_f g (data g hi ui) (y * y))) with (- uj - wr_f g (data g hj (- uj)) (y * y)); [exact R|].
  unfold F in Z. rewrite (fc_f g hi ui y), (fc_f g hj (- uj) y) in Z by lra. lra.
Qed.
