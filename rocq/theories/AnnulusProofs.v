(** * The partial annulus: proofs *)
From Coq Require Import Reals List Bool Lia Lra Psatz.
From Verif Require Import Annulus AnnulusSpec.
Import ListNotations.
Local Open Scope R_scope.

Lemma less_true a b : less a b = true <-> a < b.
Proof. unfold less. destruct (Rlt_dec a b); split; auto; discriminate. Qed.

Lemma removed_iff i o a c : removed i o a c = true <->
  exists f, In f (faces c) /\ i + 1 / 10 ^ 8 < norm (center f) < o - 1 / 10 ^ 3 /\
    Rabs (snd (center f)) - Rabs (fst (center f)) * tan (deg a) < 1 / 10 ^ 8.
Proof.
  unfold removed. rewrite existsb_exists. split.
  - intros (f & Hf & H). exists f. split; [exact Hf|]. cbv zeta in H. apply andb_true_iff in H as [H1 H2]. apply andb_true_iff in H1 as [H0 H1].
    apply less_true in H0, H1, H2. unfold deg. split; [lra|exact H2].
  - intros (f & Hf & H1 & H2). exists f. split; [exact Hf|]. cbv zeta. unfold in_anulus, partial_annulus. rewrite !andb_true_iff, !less_true. unfold deg in H2. repeat split; lra.
Qed.

Lemma e8 : 0 < 1 / 10 ^ 8. Proof. apply Rdiv_lt_0_compat; [lra|apply pow_lt; lra]. Qed.
Lemma e3 : 1 / 10 ^ 3 = 1 / 1000. Proof. replace (10 ^ 3) with 1000 by ring. reflexivity. Qed.
Lemma e8' : 1 / 10 ^ 8 = 1 / 100000000. Proof. replace (10 ^ 8) with 100000000 by ring. reflexivity. Qed.

(** ** Reflections *)
Lemma C148_reflect_proof i o a sx sy c : (sx = 1 \/ sx = -1) -> (sy = 1 \/ sy = -1) ->
  removed i o a (reflect sx sy c) = removed i o a c.
Proof.
  intros Hx Hy.
  assert (AX : forall x, Rabs (sx * x) = Rabs x).
  { intros x. destruct Hx as [-> | ->]; [rewrite Rmult_1_l; reflexivity|]. replace (-1 * x) with (- x) by ring. apply Rabs_Ropp. }
  assert (AY : forall x, Rabs (sy * x) = Rabs x).
  { intros x. destruct Hy as [-> | ->]; [rewrite Rmult_1_l; reflexivity|]. replace (-1 * x) with (- x) by ring. apply Rabs_Ropp. }
  assert (NF : forall p, norm (flip sx sy p) = norm p).
  { intros [u w]. unfold norm, flip. cbn [fst snd]. f_equal. destruct Hx as [-> | ->], Hy as [-> | ->]; ring. }
  assert (F : forall p q, in_anulus i o (norm (center (flip sx sy p, flip sx sy q))) && partial_annulus a (center (flip sx sy p, flip sx sy q)) =
    in_anulus i o (norm (center (p, q))) && partial_annulus a (center (p, q))).
  { intros [p1 p2] [q1 q2]. assert (E : center (flip sx sy (p1, p2), flip sx sy (q1, q2)) = flip sx sy (center ((p1, p2), (q1, q2)))).
    { unfold center, flip. cbn. f_equal; field. }
    rewrite E. f_equal.
    - rewrite NF. reflexivity.
    - unfold partial_annulus, flip. cbn [fst snd]. rewrite AX, AY. reflexivity. }
  unfold removed, faces, reflect. cbn [v0 v1 v2 v3 existsb]. cbv zeta. rewrite !F. reflexivity.
Qed.

(** ** Face centres of cells in polar coordinates *)
Lemma norm_polar r t : 0 <= r -> norm (polar r t) = r.
Proof.
  intros H. unfold norm, polar. cbn. replace (r * cos t * (r * cos t) + r * sin t * (r * sin t)) with (r * r * (sin t * sin t + cos t * cos t)) by ring.
  pose proof (sin2_cos2 t) as E. unfold Rsqr in E. rewrite E, Rmult_1_r. apply sqrt_square. exact H.
Qed.

Lemma center_radial r1 r2 t : center (polar r1 t, polar r2 t) = polar ((r1 + r2) / 2) t.
Proof. unfold center, polar. cbn. f_equal; field. Qed.

Lemma center_arc r t1 t2 : center (polar r t1, polar r t2) = polar (r * cos ((t2 - t1) / 2)) ((t1 + t2) / 2).
Proof.
  unfold center, polar. cbn [fst snd]. f_equal.
  - rewrite <- Rmult_plus_distr_l, (Rplus_comm (cos t1)), form1. rewrite (Rplus_comm t2 t1). field.
  - rewrite <- Rmult_plus_distr_l, (Rplus_comm (sin t1)), form3. rewrite (Rplus_comm t2 t1). field.
Qed.

(** The angle test in the first quadrant. *)
Lemma sector r t a : 0 < r -> 0 <= t <= PI / 2 -> 0 <= a < 90 ->
  Rabs (snd (polar r t)) - Rabs (fst (polar r t)) * tan (deg a) < 1 / 10 ^ 8 <-> r * sin (t - deg a) < 1 / 10 ^ 8 * cos (deg a).
Proof.
  intros Hr Ht Ha. pose proof PI_RGT_0 as P. assert (D : 0 <= deg a < PI / 2) by (unfold deg; nra).
  assert (C : 0 < cos (deg a)) by (apply cos_gt_0; lra). unfold polar. cbn [fst snd].
  rewrite !Rabs_pos_eq by (apply Rmult_le_pos; [lra|]; first [apply sin_ge_0; lra|apply cos_ge_0; lra]).
  assert (E : r * sin t - r * cos t * tan (deg a) = r * sin (t - deg a) / cos (deg a)).
  { rewrite sin_minus. unfold tan. field. lra. }
  rewrite E. split; intros H.
  - apply (Rmult_lt_compat_r (cos (deg a))) in H; [|exact C]. unfold Rdiv in H at 1. rewrite Rmult_assoc, Rinv_l, Rmult_1_r in H by lra. exact H.
  - apply (Rmult_lt_reg_r (cos (deg a))); [exact C|]. unfold Rdiv at 1. rewrite Rmult_assoc, Rinv_l, Rmult_1_r by lra. exact H.
Qed.

Lemma sin_le_mono a b : - (PI / 2) <= a -> a <= b -> b <= PI / 2 -> sin a <= sin b.
Proof. intros. apply sin_incr_1; lra. Qed.

(** ** Cells of the shell *)
Lemma polar_removed i o a r1 r2 t1 t2 : 0 <= a < 90 -> 0 <= t1 <= deg a -> 0 < r1 < r2 ->
  i + 1 / 10 ^ 8 < (r1 + r2) / 2 < o - 1 / 10 ^ 3 -> removed i o a (polar_cell r1 r2 t1 t2) = true.
Proof.
  intros Ha Ht Hr Hm. apply removed_iff. exists (polar r1 t1, polar r2 t1). split; [left; reflexivity|]. rewrite center_radial.
  pose proof PI_RGT_0 as P. assert (D : 0 <= deg a < PI / 2) by (unfold deg; nra). assert (C : 0 < cos (deg a)) by (apply cos_gt_0; lra).
  rewrite norm_polar by lra. split; [exact Hm|]. apply sector; [lra|lra|exact Ha|].
  pose proof e8. assert (sin (t1 - deg a) <= 0).
  { replace (t1 - deg a) with (- (deg a - t1)) by ring. rewrite sin_neg. assert (0 <= sin (deg a - t1)) by (apply sin_ge_0; lra). lra. }
  assert (0 < 1 / 10 ^ 8 * cos (deg a)) by (apply Rmult_lt_0_compat; assumption).
  assert ((r1 + r2) / 2 * sin (t1 - deg a) <= 0); [|lra]. assert (0 < (r1 + r2) / 2) by lra. nra.
Qed.

Lemma polar_kept i o a r1 r2 t1 t2 : 0 <= a < 90 -> 0 < i -> 0 <= t1 < t2 -> t2 <= PI / 2 -> 0 < r1 < r2 -> deg a <= t1 ->
  1 / 10 ^ 8 <= i * sin (t1 - deg a) -> removed i o a (polar_cell r1 r2 t1 t2) = false.
Proof.
  intros Ha Hi Ht Ht2 Hr Hat Hs. apply not_true_is_false. intros H. apply removed_iff in H as (f & Hf & [Hn _] & Hp).
  pose proof PI_RGT_0 as P. assert (D : 0 <= deg a < PI / 2) by (unfold deg; nra). assert (C : 0 < cos (deg a)) by (apply cos_gt_0; lra).
  assert (G : exists r t, 0 < r /\ t1 <= t <= t2 /\ center f = polar r t).
  { assert (K : 0 < cos ((t2 - t1) / 2)) by (apply cos_gt_0; lra).
    cbn in Hf. destruct Hf as [<-|[<-|[<-|[<-|[]]]]]; [rewrite center_radial|rewrite center_radial|rewrite center_arc|rewrite center_arc].
    - exists ((r1 + r2) / 2), t1. repeat split; lra. - exists ((r1 + r2) / 2), t2. repeat split; lra.
    - exists (r1 * cos ((t2 - t1) / 2)), ((t1 + t2) / 2). split; [apply Rmult_lt_0_compat; lra|]. repeat split; lra.
    - exists (r2 * cos ((t2 - t1) / 2)), ((t1 + t2) / 2). split; [apply Rmult_lt_0_compat; lra|]. repeat split; lra. }
  destruct G as (r & t & Hr0 & Htt & E). rewrite E in *. rewrite norm_polar in Hn by lra. apply sector in Hp; [|exact Hr0|lra|exact Ha].
  pose proof e8. assert (S1 : sin (t1 - deg a) <= sin (t - deg a)) by (apply sin_le_mono; lra).
  assert (C1 : cos (deg a) <= 1) by apply COS_bound. assert (S0 : 0 <= sin (t1 - deg a)) by (apply sin_ge_0; lra).
  assert (i * sin (t1 - deg a) <= r * sin (t - deg a)) by (apply Rmult_le_compat; lra). nra.
Qed.

Lemma C148_wall_proof i o a j k sx sy : 0 < i -> i + 8 / 1000 < o -> 0 <= a < 90 -> (j < 4)%nat -> (k < 32)%nat ->
  (sx = 1 \/ sx = -1) -> (sy = 1 \/ sy = -1) ->
  let c := reflect sx sy (annulus_cell i o j k) in
  (INR k * (360 / 128) <= a -> removed i o a c = true) /\
  (a < INR k * (360 / 128) -> 1 / 10 ^ 8 <= i * sin (deg (INR k * (360 / 128) - a)) -> removed i o a c = false).
Proof.
  intros Hi Ho Ha Hj Hk Hx Hy. cbv zeta. rewrite C148_reflect_proof by assumption. unfold annulus_cell.
  set (w := (o - i) / 4). pose proof PI_RGT_0 as P. assert (W : 2 / 1000 < w) by (unfold w; lra).
  assert (Eo : o = i + 4 * w) by (unfold w; field).
  assert (J : 0 <= INR j <= 3). { split; [apply pos_INR|]. replace 3 with (INR 3) by (cbn; ring). apply le_INR. lia. }
  assert (K : 0 <= INR k <= 31). { split; [apply pos_INR|]. replace 31 with (INR 31) by (cbn; ring). apply le_INR. lia. }
  rewrite !S_INR.
  assert (T : INR k * (2 * PI / 128) = deg (INR k * (360 / 128))) by (unfold deg; field).
  assert (R1 : 0 < i + INR j * w < i + (INR j + 1) * w) by nra. split.
  - intros H. apply polar_removed; [exact Ha| |exact R1|].
    + rewrite T. split; [unfold deg|unfold deg; apply Rmult_le_compat_l; lra]. apply Rmult_le_pos; lra.
    + rewrite e3, e8', Eo. nra.
  - intros H Hs. apply polar_kept; [exact Ha|exact Hi| | |exact R1| |].
    + split; [apply Rmult_le_pos; lra|]. assert (0 < 2 * PI / 128) by lra. nra.
    + assert ((INR k + 1) * (2 * PI / 128) <= 32 * (2 * PI / 128)) by (apply Rmult_le_compat_r; lra). lra.
    + rewrite T. unfold deg. apply Rmult_le_compat_l; lra.
    + rewrite T. replace (deg (INR k * (360 / 128)) - deg a) with (deg (INR k * (360 / 128) - a)) by (unfold deg; ring). exact Hs.
Qed.

(** ** Cells inside and outside *)
Lemma norm_le r p : 0 <= r -> inside r p -> norm p <= r.
Proof. intros Hr H. unfold norm. rewrite <- (sqrt_square r Hr). apply sqrt_le_1_alt. exact H. Qed.
Lemma norm_ge r p : 0 <= r -> outside r p -> r <= norm p.
Proof. intros Hr H. unfold norm. rewrite <- (sqrt_square r Hr) at 1. apply sqrt_le_1_alt. exact H. Qed.

Lemma mid_inside a b c d s : a * a + b * b <= s -> c * c + d * d <= s -> (a + c) / 2 * ((a + c) / 2) + (b + d) / 2 * ((b + d) / 2) <= s.
Proof.
  intros H1 H2. pose proof (Rle_0_sqr (a - c)) as Q1. pose proof (Rle_0_sqr (b - d)) as Q2. unfold Rsqr in *.
  replace ((a + c) / 2 * ((a + c) / 2)) with ((a * a + c * c + 2 * (a * c)) / 4) by field.
  replace ((b + d) / 2 * ((b + d) / 2)) with ((b * b + d * d + 2 * (b * d)) / 4) by field. lra.
Qed.

Lemma C148_inside_proof i o a c : 0 <= i -> vertices_all (inside i) c -> removed i o a c = false.
Proof.
  intros Hi (H0 & H1 & H2 & H3). apply not_true_is_false. intros H. apply removed_iff in H as (f & Hf & [Hn _] & _). pose proof e8.
  assert (I : inside i (center f)).
  { unfold inside in *. cbn in Hf. destruct Hf as [<-|[<-|[<-|[<-|[]]]]]; cbn [center fst snd]; apply mid_inside; assumption. }
  apply (norm_le i) in I; [lra|exact Hi].
Qed.

Lemma sin_sq_le x : sin x * sin x <= x * x.
Proof.
  assert (P : forall u, 0 < u -> sin u * sin u <= u * u).
  { intros u U. pose proof (SIN_bound u). pose proof PI2_1. destruct (Rle_dec 1 u) as [G|G]; [nra|].
    assert (0 <= sin u) by (apply sin_ge_0; lra). assert (sin u < u) by (apply sin_lt_x; lra). nra. }
  destruct (Rtotal_order x 0) as [H|[H|H]].
  - specialize (P (- x) ltac:(lra)). rewrite sin_neg in P. nra.
  - rewrite H, sin_0. lra.
  - apply P. exact H.
Qed.

(** A cell outside, with the side between [v0] and [v1] on the outer circle. *)
Lemma C148_outside_proof i o a c t1 t2 : 0 < o -> v0 c = polar o t1 -> v1 c = polar o t2 ->
  outside o (midpoint (v0 c) (v2 c)) -> outside o (midpoint (v1 c) (v3 c)) -> outside o (midpoint (v2 c) (v3 c)) ->
  o * ((t2 - t1) * (t2 - t1)) <= 8 / 1000 -> removed i o a c = false.
Proof.
  intros Ho E0 E1 H02 H13 H23 Hs. apply not_true_is_false. intros H. apply removed_iff in H as (f & Hf & [_ Hn] & _). rewrite e3 in Hn.
  assert (L : forall p, outside o p -> o <= norm p) by (intros p; apply norm_ge; lra).
  cbn in Hf. destruct Hf as [<-|[<-|[<-|[<-|[]]]]].
  - apply L in H02. change (midpoint (v0 c) (v2 c)) with (center (v0 c, v2 c)) in H02. lra.
  - apply L in H13. change (midpoint (v1 c) (v3 c)) with (center (v1 c, v3 c)) in H13. lra.
  - rewrite E0, E1, center_arc in Hn. set (d := (t2 - t1) / 2) in *.
    assert (N : norm (polar (o * cos d) ((t1 + t2) / 2)) = o * Rabs (cos d)).
    { unfold norm, polar. cbn [fst snd]. set (m := (t1 + t2) / 2).
      replace (o * cos d * cos m * (o * cos d * cos m) + o * cos d * sin m * (o * cos d * sin m)) with (o * cos d * (o * cos d) * (sin m * sin m + cos m * cos m)) by ring.
      pose proof (sin2_cos2 m) as Q. unfold Rsqr in Q. rewrite Q, Rmult_1_r. change (sqrt (Rsqr (o * cos d)) = o * Rabs (cos d)). rewrite sqrt_Rsqr_abs, Rabs_mult, (Rabs_pos_eq o) by lra. reflexivity. }
    rewrite N in Hn. assert (B : 1 - d * d / 2 <= cos d).
    { replace d with (2 * (d / 2)) at 3 by field. rewrite cos_2a_sin. pose proof (sin_sq_le (d / 2)).
      nra. }
    pose proof (Rle_abs (cos d)). assert (D4 : (t2 - t1) * (t2 - t1) = 4 * (d * d)) by (unfold d; field). rewrite D4 in Hs.
    assert (o * (1 - d * d / 2) <= o * Rabs (cos d)) by (apply Rmult_le_compat_l; lra). nra.
  - apply L in H23. change (midpoint (v2 c) (v3 c)) with (center (v2 c, v3 c)) in H23. lra.
Qed.

(** ** Large domains *)
Lemma cos_upper x : 0 <= x <= 1 -> cos x <= 1 - x * x / 2 * (11 / 12).
Proof.
  intros H. replace x with (2 * (x / 2)) at 1 by field. rewrite cos_2a_sin.
  assert (S : x / 2 - (x / 2) * (x / 2) * (x / 2) / 6 <= sin (x / 2)).
  { pose proof PI2_1 as P. destruct (SIN (x / 2) ltac:(lra) ltac:(lra)) as [S _]. unfold sin_lb, sin_approx, sum_f_R0, sin_term in S. cbn in S.
    eapply Rle_trans; [|exact S]. set (y := x / 2) in *. assert (0 <= y <= 1 / 2) by (unfold y; lra). assert (0 <= y * y * y) by (repeat apply Rmult_le_pos; lra).
    assert (Q : 0 <= y ^ 5 * (1 - y * y / 42) / 120).
    { apply Rmult_le_pos; [|lra]. apply Rmult_le_pos; [apply pow_le; lra|]. assert (y * y <= 1 / 4) by nra. lra. }
    apply Rminus_le. match goal with |- ?l <= 0 => replace l with (- (y ^ 5 * (1 - y * y / 42) / 120)) by field end. lra. }
  set (y := x / 2) in *. assert (Y : 0 <= y <= 1 / 2) by (unfold y; lra). assert (E : x = 2 * y) by (unfold y; field). rewrite E.
  assert (S0 : 0 <= y - y * y * y / 6) by nra. assert (Q : (y - y * y * y / 6) * (y - y * y * y / 6) <= sin y * sin y) by (apply Rmult_le_compat; lra).
  assert (Q2 : y * y * (11 / 12) <= (y - y * y * y / 6) * (y - y * y * y / 6)).
  { replace ((y - y * y * y / 6) * (y - y * y * y / 6)) with (y * y * ((1 - y * y / 6) * (1 - y * y / 6))) by field.
    apply Rmult_le_compat_l; [nra|]. assert (0 <= y * y <= 1 / 4) by nra. nra. }
  nra.
Qed.

Lemma C148_large_refuted_proof i o a c t : 4 <= o -> 0 <= i -> i <= o * (1 - 1 / 2000) - 1 / 1000 -> 0 <= a < 90 -> 0 <= t -> t + PI / 128 <= deg a ->
  v0 c = polar o t -> v1 c = polar o (t + PI / 64) -> removed i o a c = true.
Proof.
  intros Ho Hi Hio Ha Ht Hta E0 E1. apply removed_iff. exists (v0 c, v1 c). split; [right; right; left; reflexivity|].
  rewrite E0, E1, center_arc. replace ((t + PI / 64 - t) / 2) with (PI / 128) by field. replace ((t + (t + PI / 64)) / 2) with (t + PI / 128) by field.
  pose proof PI_RGT_0 as P. pose proof PI2_3_2 as P3. pose proof PI_4 as P4. set (x := PI / 128).
  assert (X : 3 / 128 < x <= 4 / 128) by (unfold x; lra). assert (C1 : cos x <= 1 - x * x / 2 * (11 / 12)) by (apply cos_upper; lra).
  assert (C2 : 1 - x * x / 2 <= cos x). { replace x with (2 * (x / 2)) at 3 by field. rewrite cos_2a_sin. pose proof (sin_sq_le (x / 2)). nra. }
  assert (X2 : 9 / 16384 < x * x <= 16 / 16384) by (split; nra). assert (CP : 0 < cos x) by lra.
  rewrite norm_polar by (apply Rmult_le_pos; lra). rewrite e3. assert (Q : 1 / 10 ^ 8 < 1 / 1000) by (rewrite e8'; lra).
  split; [split|].
  - assert (o * (1 - 1 / 2000) <= o * cos x) by (apply Rmult_le_compat_l; lra). lra.
  - assert (o * cos x <= o * (1 - 251 / 1000000)) by (apply Rmult_le_compat_l; lra). lra.
  - assert (D : 0 <= deg a < PI / 2) by (unfold deg; nra). assert (CD : 0 < cos (deg a)) by (apply cos_gt_0; lra). unfold x in *.
    apply sector; [apply Rmult_lt_0_compat; lra|lra|exact Ha|]. pose proof e8. assert (sin (t + PI / 128 - deg a) <= 0).
    { replace (t + PI / 128 - deg a) with (- (deg a - (t + PI / 128))) by ring. rewrite sin_neg. assert (0 <= sin (deg a - (t + PI / 128))) by (apply sin_ge_0; lra). lra. }
    assert (0 < 1 / 10 ^ 8 * cos (deg a)) by (apply Rmult_lt_0_compat; assumption). assert (0 < o * cos (PI / 128)) by (apply Rmult_lt_0_compat; lra). nra.
Qed.

(** ** Default parameters: a cell beyond the coverage angle *)
Lemma C148_coverage_refuted_proof j : (j < 4)%nat ->
  exists c r1 r2, c = annulus_cell (6 / 10) (7 / 10) j 16 /\ c = polar_cell r1 r2 (deg 45) (deg (45 + 360 / 128)) /\ 0 < r1 < r2 /\
    removed (6 / 10) (7 / 10) 45 c = true.
Proof.
  intros Hj. exists (annulus_cell (6 / 10) (7 / 10) j 16). unfold annulus_cell. eexists. eexists. split; [reflexivity|].
  assert (J : 0 <= INR j) by apply pos_INR. assert (K : INR 16 = 16) by (cbn; ring). split.
  - f_equal; [|rewrite (S_INR 16)]; rewrite K; unfold deg; field.
  - split; [rewrite S_INR; nra|].
    pose proof (C148_wall_proof (6 / 10) (7 / 10) 45 j 16 1 1) as H. cbv zeta in H. rewrite C148_reflect_proof in H by auto. apply H; try lra; try lia; auto.
Qed.

(** ** The square *)
Lemma shell_values k r : (k < 8)%nat ->
  shell_vertex r k = nth k [(r, 0); (r / sqrt 2, r / sqrt 2); (0, r); (- (r / sqrt 2), r / sqrt 2); (- r, 0); (- (r / sqrt 2), - (r / sqrt 2)); (0, - r); (r / sqrt 2, - (r / sqrt 2))] (0, 0).
Proof.
  intros H.
  assert (B : forall j, (j < 4)%nat -> shell_vertex r j = nth j [(r, 0); (r / sqrt 2, r / sqrt 2); (0, r); (- (r / sqrt 2), r / sqrt 2)] (0, 0)).
  { intros j Hj. unfold shell_vertex, polar. destruct j as [|[|[|[|j]]]]; [| | | |lia]; cbn [INR nth].
    - replace (0 * (2 * PI / 8)) with 0 by ring. rewrite cos_0, sin_0. f_equal; ring.
    - replace (1 * (2 * PI / 8)) with (PI / 4) by field. rewrite cos_PI4, sin_PI4. f_equal; unfold Rdiv; ring.
    - replace ((1 + 1) * (2 * PI / 8)) with (PI / 2) by field. rewrite cos_PI2, sin_PI2. f_equal; ring.
    - replace ((1 + 1 + 1) * (2 * PI / 8)) with (3 * (PI / 4)) by field. rewrite cos_3PI4, sin_3PI4. f_equal; unfold Rdiv; ring. }
  assert (N : forall j, shell_vertex r (4 + j) = (- fst (shell_vertex r j), - snd (shell_vertex r j))).
  { intros j. unfold shell_vertex, polar. cbn [fst snd]. rewrite plus_INR. replace ((INR 4 + INR j) * (2 * PI / 8)) with (INR j * (2 * PI / 8) + PI) by (cbn; field).
    rewrite neg_cos, neg_sin. f_equal; ring. }
  destruct (le_lt_dec 4 k) as [L|L].
  - replace k with (4 + (k - 4))%nat by lia. rewrite N, B by lia. remember (k - 4)%nat as j. assert (Hj : (j < 4)%nat) by lia.
    destruct j as [|[|[|[|j]]]]; [| | | |lia]; cbn [nth fst snd Nat.add]; f_equal; ring.
  - rewrite B by exact L. destruct k as [|[|[|[|k]]]]; [| | | |lia]; reflexivity.
Qed.

Lemma C148_square_proof eps length k : 0 < eps -> eps <= length / 2 -> (k < 8)%nat ->
  let p := fix_up eps length (shell_vertex (length / 2 * sqrt 2) k) in
  on_square length p /\ fix_up eps length p = p /\
  (Nat.Odd k -> Rabs (fst p) = length / 2 /\ Rabs (snd p) = length / 2) /\
  (Nat.Even k -> fst p = 0 \/ snd p = 0).
Proof.
  intros He HL Hk. cbv zeta. rewrite shell_values by exact Hk. set (h := length / 2) in *.
  assert (S2 : 1 < sqrt 2). { rewrite <- sqrt_1 at 1. apply sqrt_lt_1; lra. }
  assert (D : h * sqrt 2 / sqrt 2 = h) by (field; lra). rewrite !D.
  assert (Hh : h < h * sqrt 2) by nra.
  assert (L : forall a b, a < b -> less a b = true) by (intros; apply less_true; assumption).
  assert (G : forall a b, b <= a -> less a b = false) by (intros a b Hab; unfold less; destruct (Rlt_dec a b); [lra|reflexivity]).
  assert (A0 : Rabs 0 = 0) by apply Rabs_R0. assert (Ah : Rabs h = h) by (apply Rabs_pos_eq; lra). assert (Am : Rabs (- h) = h) by (rewrite Rabs_Ropp; exact Ah).
  assert (As : Rabs (h * sqrt 2) = h * sqrt 2) by (apply Rabs_pos_eq; lra). assert (An : Rabs (- (h * sqrt 2)) = h * sqrt 2) by (rewrite Rabs_Ropp; exact As).
  assert (CP : copysign h (h * sqrt 2) = h) by (unfold copysign; destruct (Rlt_dec _ 0); lra).
  assert (CN : copysign h (- (h * sqrt 2)) = - h) by (unfold copysign; destruct (Rlt_dec _ 0); lra).
  assert (V : forall x y, Rabs x = h -> Rabs y = h -> fix_up eps length (x, y) = (x, y)).
  { intros x y Ex Ey. unfold fix_up. cbn [fst snd]. rewrite Ex, Ey. rewrite (G h eps HL). cbn [andb fst snd]. rewrite Ey, (G h eps HL). reflexivity. }
  assert (XA : forall x, Rabs x = h -> fix_up eps length (x, 0) = (x, 0)).
  { intros x Ex. unfold fix_up. cbn [fst snd]. rewrite Ex. rewrite (G h eps HL). cbn [andb fst snd]. rewrite Ex, A0, (L 0 eps He). fold h. rewrite (G h h) by lra. reflexivity. }
  assert (YA : forall x, Rabs x = h -> fix_up eps length (0, x) = (0, x)).
  { intros x Ex. unfold fix_up. cbn [fst snd]. rewrite A0, (L 0 eps He), Ex. fold h. rewrite (G h h) by lra. cbn [andb fst snd]. rewrite Ex, (G h eps HL). reflexivity. }
  assert (XF : forall s, fix_up eps length (s, 0) = (s, 0) \/ Rabs s = h * sqrt 2 -> Rabs s = h * sqrt 2 -> fix_up eps length (s, 0) = (copysign h s, 0)).
  { intros s _ Es. unfold fix_up. cbn [fst snd]. rewrite Es, (G (h * sqrt 2) eps) by lra. cbn [andb fst snd]. rewrite Es, A0, (L 0 eps He). fold h. rewrite (L h (h * sqrt 2)) by lra. reflexivity. }
  assert (YF : forall s, Rabs s = h * sqrt 2 -> Rabs (copysign h s) = h -> fix_up eps length (0, s) = (0, copysign h s)).
  { intros s Es Ec. unfold fix_up. cbn [fst snd]. rewrite A0, (L 0 eps He), Es. fold h. rewrite (L h (h * sqrt 2)) by lra. cbn [andb fst snd]. rewrite Ec, (G h eps HL). reflexivity. }
  assert (MM : Rmax h h = h) by (apply Rmax_left; lra). assert (M0 : Rmax h 0 = h) by (apply Rmax_left; lra). assert (M1 : Rmax 0 h = h) by (apply Rmax_right; lra).
  destruct k as [|[|[|[|[|[|[|[|k]]]]]]]]; [| | | | | | | |lia]; cbn [nth].
  all: first [rewrite (XF (h * sqrt 2)) by auto; rewrite ?CP
             |rewrite (XF (- (h * sqrt 2))) by auto; rewrite ?CN
             |rewrite (YF (h * sqrt 2)) by (rewrite ?CP; auto); rewrite ?CP
             |rewrite (YF (- (h * sqrt 2))) by (rewrite ?CN; auto); rewrite ?CN
             |rewrite V by auto].
  all: first [rewrite XA by auto|rewrite YA by auto|rewrite V by auto].
  all: unfold on_square; cbn [fst snd]; rewrite ?A0, ?Ah, ?Am, ?MM, ?M0, ?M1; split; [reflexivity|]; split; [reflexivity|].
  all: split; [intros [q Hq]; try (exfalso; lia); auto|intros [q Hq]; try (exfalso; lia); auto].
Qed.

Lemma C148_hole_proof eps length r k : 0 < eps -> eps <= r <= length / 2 -> (k < 8)%nat -> fix_up eps length (shell_vertex r k) = shell_vertex r k.
Proof.
  intros He [H1 H2] Hk. assert (N : forall c s, c * c + s * s = 1 -> Rabs (r * c) <= length / 2).
  { intros c s E. rewrite Rabs_mult, (Rabs_pos_eq r) by lra. assert (Rabs c <= 1) by (apply Rabs_le; nra). nra. }
  pose proof (sin2_cos2 (INR k * (2 * PI / 8))) as E. unfold Rsqr in E.
  unfold fix_up, shell_vertex, polar. cbn [fst snd]. set (t := INR k * (2 * PI / 8)) in *.
  assert (G : forall a b, b <= a -> less a b = false) by (intros a b Hab; unfold less; destruct (Rlt_dec a b); [lra|reflexivity]).
  rewrite (G (length / 2) (Rabs (r * sin t))) by (apply (N _ (cos t)); lra). rewrite andb_false_r. cbn [fst snd].
  rewrite (G (length / 2) (Rabs (r * cos t))) by (apply (N _ (sin t)); lra). rewrite andb_false_r. reflexivity.
Qed.

(** ** Examples *)
Lemma sin_lower x : 0 <= x <= 1 -> x / 2 <= sin x.
Proof.
  intros H. pose proof PI2_1 as P. destruct (SIN x ltac:(lra) ltac:(lra)) as [S _]. unfold sin_lb, sin_approx, sum_f_R0, sin_term in S. cbn in S.
  eapply Rle_trans; [|exact S]. apply Rminus_le.
  match goal with |- ?l <= 0 => replace l with (- (x * (1 / 2 - x * x / 6 + x ^ 4 * (1 - x * x / 42) / 120))) by field end.
  assert (X : 0 <= x * x <= 1) by (split; nra). assert (0 <= x ^ 4 * (1 - x * x / 42)) by (apply Rmult_le_pos; [apply pow_le; lra|lra]).
  assert (0 <= x * (1 / 2 - x * x / 6 + x ^ 4 * (1 - x * x / 42) / 120)) by (apply Rmult_le_pos; lra). lra.
Qed.

Lemma wall_case : removed (6 / 10) (7 / 10) 45 (annulus_cell (6 / 10) (7 / 10) 3 10) = true /\
  removed (6 / 10) (7 / 10) 45 (reflect (-1) 1 (annulus_cell (6 / 10) (7 / 10) 2 17)) = false.
Proof.
  assert (K10 : INR 10 = 10) by (cbn; ring). assert (K17 : INR 17 = 17) by (cbn; ring).
  assert (D : 0 < 6 / 10 /\ 6 / 10 + 8 / 1000 < 7 / 10 /\ 0 <= 45 < 90) by lra. destruct D as (D1 & D2 & D3).
  assert (J1 : (3 < 4)%nat) by lia. assert (J2 : (2 < 4)%nat) by lia. assert (J3 : (10 < 32)%nat) by lia. assert (J4 : (17 < 32)%nat) by lia.
  split.
  - destruct (C148_wall_proof (6 / 10) (7 / 10) 45 3 10 1 1 D1 D2 D3 J1 J3 (or_introl eq_refl) (or_introl eq_refl)) as [H _].
    rewrite C148_reflect_proof in H by auto. apply H. rewrite K10. lra.
  - destruct (C148_wall_proof (6 / 10) (7 / 10) 45 2 17 (-1) 1 D1 D2 D3 J2 J4 (or_intror eq_refl) (or_introl eq_refl)) as [_ H].
    apply H; rewrite K17; [lra|]. pose proof PI2_1. pose proof PI_4. assert (X : 1 / 64 <= deg (17 * (360 / 128) - 45) <= 1) by (unfold deg; lra).
    pose proof (sin_lower (deg (17 * (360 / 128) - 45)) ltac:(lra)). rewrite e8'. lra.
Qed.

(** A cell at the outer circle of the default mesh. *)
Lemma outside_case : removed (6 / 10) (7 / 10) 45 (polar_cell (7 / 10) (8 / 10) 0 (PI / 64)) = false.
Proof.
  pose proof PI_4. pose proof PI2_1. assert (C : 9 / 10 <= cos (PI / 128)).
  { replace (PI / 128) with (2 * (PI / 256)) by field. rewrite cos_2a_sin. pose proof (sin_sq_le (PI / 256)). nra. }
  assert (O : forall r t, 7 / 10 <= r -> outside (7 / 10) (polar r t)).
  { intros r t Hr. unfold outside, polar. cbn [fst snd]. replace (r * cos t * (r * cos t) + r * sin t * (r * sin t)) with (r * r * (sin t * sin t + cos t * cos t)) by ring.
    pose proof (sin2_cos2 t) as E. unfold Rsqr in E. rewrite E, Rmult_1_r. apply Rmult_le_compat; lra. }
  apply (C148_outside_proof (6 / 10) (7 / 10) 45 _ 0 (PI / 64)); [lra|reflexivity|reflexivity| | | |].
  - change (outside (7 / 10) (center (polar (7 / 10) 0, polar (8 / 10) 0))). rewrite center_radial. apply O. lra.
  - change (outside (7 / 10) (center (polar (7 / 10) (PI / 64), polar (8 / 10) (PI / 64)))). rewrite center_radial. apply O. lra.
  - change (outside (7 / 10) (center (polar (8 / 10) 0, polar (8 / 10) (PI / 64)))). rewrite center_arc. apply O.
    replace ((PI / 64 - 0) / 2) with (PI / 128) by field. lra.
  - nra.
Qed.

Lemma large_case : removed 4 5 45 (polar_cell 5 6 0 (0 + PI / 64)) = true.
Proof.
  pose proof PI_4. pose proof PI2_1. apply (C148_large_refuted_proof 4 5 45 _ 0); try lra; try reflexivity. unfold deg. lra.
Qed.

Lemma square_case : fix_up (1 / 10 ^ 10) 2 (shell_vertex (2 / 2 * sqrt 2) 2) = (0, 1).
Proof.
  assert (E : 0 < 1 / 10 ^ 10) by (apply Rdiv_lt_0_compat; [lra|apply pow_lt; lra]).
  assert (E1 : 1 / 10 ^ 10 <= 1) by (apply (Rmult_le_reg_r (10 ^ 10)); [apply pow_lt; lra|]; unfold Rdiv; rewrite Rmult_assoc, Rinv_l; [lra|apply Rgt_not_eq; apply pow_lt; lra]).
  assert (S2 : 1 < sqrt 2). { rewrite <- sqrt_1 at 1. apply sqrt_lt_1; lra. }
  rewrite shell_values by lia. cbn [nth]. generalize dependent (1 / 10 ^ 10). intros eps E E1. unfold fix_up. cbn [fst snd]. unfold less, copysign.
  rewrite Rabs_R0, (Rabs_pos_eq (2 / 2 * sqrt 2)) by lra. destruct (Rlt_dec 0 eps); [|lra]. destruct (Rlt_dec (2 / 2) (2 / 2 * sqrt 2)); [|lra].
  cbn [andb fst snd]. destruct (Rlt_dec (2 / 2 * sqrt 2) 0); [lra|]. rewrite Rabs_Rabsolu, (Rabs_pos_eq (2 / 2)) by lra.
  destruct (Rlt_dec (2 / 2) eps); [lra|]. cbn [andb]. f_equal. field.
Qed.

(** ** The remaining cells *)
Definition hit (i o a : R) (p q : point) : Prop :=
  let m := midpoint p q in
  i + 1 / 10 ^ 8 < sqrt (fst m * fst m + snd m * snd m) < o - 1 / 10 ^ 3 /\
  Rabs (snd m) < Rabs (fst m) * tan (deg a) + 1 / 10 ^ 8.

Lemma less_iff x y : less x y = true <-> x < y.
Proof. unfold less. destruct (Rlt_dec x y); split; intros; try assumption; try reflexivity; try discriminate; contradiction. Qed.

Lemma C148_remaining_proof : forall i o a cells c,
  In c (remaining i o a cells) <->
  In c cells /\ forall p q, In (p, q) [(v0 c, v1 c); (v2 c, v3 c); (v0 c, v2 c); (v1 c, v3 c)] ->
    let m := midpoint p q in
    ~ (i + 1 / 10 ^ 8 < sqrt (fst m * fst m + snd m * snd m) < o - 1 / 10 ^ 3 /\
       Rabs (snd m) < Rabs (fst m) * tan (deg a) + 1 / 10 ^ 8).
Proof.
  intros i o a cells c. unfold remaining. rewrite filter_In.
  assert (K : removed i o a c = true <-> exists p q, In (p, q) [(v0 c, v1 c); (v2 c, v3 c); (v0 c, v2 c); (v1 c, v3 c)] /\ hit i o a p q).
  { unfold removed. rewrite existsb_exists. split.
    - intros ([p q] & I & H). exists p, q. split; [cbn in *; tauto|]. apply andb_prop in H. destruct H as [H1 H2]. unfold in_anulus in H1. apply andb_prop in H1. destruct H1 as [H0 H1].
      unfold partial_annulus in H2. rewrite less_iff in H0, H1, H2. unfold hit, midpoint, deg. unfold norm, center in *. cbn [fst snd] in *. lra.
    - intros (p & q & I & H). exists (p, q). split; [cbn in *; tauto|]. unfold hit, midpoint, deg in H. cbn [fst snd] in H.
      unfold in_anulus, partial_annulus. rewrite !andb_true_iff, !less_iff. unfold norm, center. cbn [fst snd]. lra. }
  split.
  - intros [I N]. split; [exact I|]. intros p q Ip. cbv zeta. intros H. apply negb_true_iff in N. assert (T : removed i o a c = true) by (apply K; exists p, q; split; [exact Ip|exact H]). congruence.
  - intros [I N]. split; [exact I|]. apply negb_true_iff. destruct (removed i o a c) eqn:E; [|reflexivity]. exfalso. destruct (proj1 K eq_refl) as (p & q & Ip & H). exact (N p q Ip H).
Qed.

Lemma remaining_case : remaining 4 5 45 [polar_cell 5 6 0 (0 + PI / 64); polar_cell 1 2 0 (PI / 64)] = [polar_cell 1 2 0 (PI / 64)].
Proof.
  unfold remaining. cbn [filter]. rewrite large_case, (C148_inside_proof 4 5 45 (polar_cell 1 2 0 (PI / 64))); [reflexivity|lra|].
  unfold vertices_all, inside, polar_cell, polar. cbn [v0 v1 v2 v3 fst snd].
  pose proof (sin2_cos2 0). pose proof (sin2_cos2 (PI / 64)). unfold Rsqr in *. repeat split; nra.
Qed.
