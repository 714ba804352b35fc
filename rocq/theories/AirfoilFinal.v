(** * Lemmas: graded meshes, extruded meshes, NACA profiles *)
From Coq Require Import Reals List Bool Lra Lia Arith Sorting.Sorted.
From Verif Require Import RVec Airfoil AirfoilSpec AirfoilProofs.
Import ListNotations.
Local Open Scope R_scope.

(** ** Grading *)

Lemma sgn_sq d : sgn d * sgn d = 1.
Proof. unfold sgn. destruct (Rlt_dec d 0); lra. Qed.

Lemma Rpower_incr b c g : 0 < g -> 0 < b -> b < c -> Rpower b g < Rpower c g.
Proof. intros Hg Hb Hc. apply Rlt_Rpower_l; lra. Qed.

Lemma Rpower_step b d g : 1 <= g -> 0 < b -> 0 < d -> Rpower (b + d) g - Rpower b g <= g * d * Rpower (b + d) (g - 1).
Proof.
  intros Hg Hb Hd.
  destruct (MVT_cor2 (fun x => Rpower x g) (fun x => g * Rpower x (g - 1)) b (b + d)) as (c & E & C); [lra|intros x Hx; apply derivable_pt_lim_power; lra|].
  cbv beta in E. rewrite E. replace (b + d - b) with d by ring.
  assert (Rpower c (g - 1) <= Rpower (b + d) (g - 1)) by (apply Rle_Rpower_l; lra).
  replace (g * d * Rpower (b + d) (g - 1)) with (g * Rpower (b + d) (g - 1) * d) by ring.
  apply Rmult_le_compat_r; [lra|]. apply Rmult_le_compat_l; lra.
Qed.

Lemma nudge_pos : 0 < nudge.
Proof. unfold nudge. lra. Qed.

Section Grading.
  Variables center direction grading epsilon : R.
  Hypothesis Hd : / 10000000000 < Rabs direction.
  Hypothesis Hg : 1 <= grading.
  Hypothesis He : 0 < epsilon.

  (** The coordinate along the direction. *)
  Let along p := (p - center) * sgn direction.
  Let hat x := Rpower (x + epsilon) (1 / grading) - Rpower epsilon (1 / grading) + nudge.
  Let unhat h := Rpower (h + Rpower epsilon (1 / grading)) grading - epsilon + nudge.

  Lemma pull_along p : 0 < along p + epsilon -> grading_pull_back center direction grading epsilon p * sgn direction = hat (along p).
  Proof using Hd He.
    intros H. unfold grading_pull_back, hat. cbv zeta. destruct (Rlt_dec _ _) as [_|Q]; [|contradiction].
    fold (along p). rewrite !powr_pos by assumption. unfold along. pose proof (sgn_sq direction) as S.
    set (u := Rpower _ _ - _ + _). transitivity ((p - center) * sgn direction + (u - (p - center) * sgn direction) * (sgn direction * sgn direction)); [ring|].
    rewrite S. ring.
  Qed.

  Lemma push_along q : 0 < q * sgn direction + Rpower epsilon (1 / grading) ->
    along (grading_push_forward center direction grading epsilon q) = unhat (q * sgn direction).
  Proof using Hd He.
    intros H. unfold grading_push_forward, unhat, along. cbv zeta. destruct (Rlt_dec _ _) as [_|Q]; [|contradiction].
    rewrite (powr_pos epsilon) by assumption. rewrite powr_pos by assumption. pose proof (sgn_sq direction) as S.
    set (u := Rpower _ _ - _ + _). transitivity (q * sgn direction + (u - q * sgn direction) * (sgn direction * sgn direction)); [ring|].
    rewrite S. ring.
  Qed.

  Lemma hat_pos x : 0 < x + epsilon -> 0 < hat x + Rpower epsilon (1 / grading).
  Proof using. intros H. unfold hat. pose proof nudge_pos. pose proof (exp_pos (1 / grading * ln (x + epsilon))) as P. change (exp _) with (Rpower (x + epsilon) (1 / grading)) in P. lra. Qed.

  Lemma hat_incr x y : 0 < x + epsilon -> x <= y -> hat x <= hat y.
  Proof using Hg.
    intros H L. unfold hat. assert (0 < 1 / grading) by (apply Rdiv_lt_0_compat; lra).
    assert (Rpower (x + epsilon) (1 / grading) <= Rpower (y + epsilon) (1 / grading)) by (apply Rle_Rpower_l; lra). lra.
  Qed.

  Lemma unhat_incr h k : 0 < h + Rpower epsilon (1 / grading) -> h <= k -> unhat h <= unhat k.
  Proof using Hg.
    intros H L. unfold unhat.
    assert (Rpower (h + Rpower epsilon (1 / grading)) grading <= Rpower (k + Rpower epsilon (1 / grading)) grading) by (apply Rle_Rpower_l; lra). lra.
  Qed.

  Lemma trip x : 0 < x + epsilon ->
    x + nudge < unhat (hat x) <= x + nudge + grading * nudge * Rpower (Rpower (x + epsilon) (1 / grading) + nudge) (grading - 1).
  Proof using Hg.
    intros H. unfold unhat, hat. pose proof nudge_pos as N. set (b := Rpower (x + epsilon) (1 / grading)).
    assert (B : 0 < b) by apply exp_pos.
    assert (E : Rpower b grading = x + epsilon).
    { unfold b. rewrite Rpower_mult. replace (1 / grading * grading) with 1 by (field; lra). apply Rpower_1. exact H. }
    replace (b - Rpower epsilon (1 / grading) + nudge + Rpower epsilon (1 / grading)) with (b + nudge) by ring.
    pose proof (Rpower_incr b (b + nudge) grading ltac:(lra) B ltac:(lra)). pose proof (Rpower_step b nudge grading Hg B N). lra.
  Qed.

  Lemma C139_grading_sec : forall p,
    let x := (p - center) * sgn direction in
    let x' := (grading_push_forward center direction grading epsilon (grading_pull_back center direction grading epsilon p) - center) * sgn direction in
    0 < x + epsilon -> x + nudge < x' <= x + nudge + grading * nudge * Rpower (Rpower (x + epsilon) (1 / grading) + nudge) (grading - 1).
  Proof using Hd Hg He.
    intros p x x' H. unfold x'. fold (along (grading_push_forward center direction grading epsilon (grading_pull_back center direction grading epsilon p))).
    rewrite push_along; [|rewrite pull_along by exact H; apply hat_pos; exact H]. rewrite pull_along by exact H. apply trip. exact H.
  Qed.

  Lemma C139_between_sec : forall p0 p1 w,
    let x p := (p - center) * sgn direction in
    let q := w * grading_pull_back center direction grading epsilon p0 + (1 - w) * grading_pull_back center direction grading epsilon p1 in
    0 <= w <= 1 -> 0 < x p0 + epsilon -> x p0 <= x p1 ->
    x p0 + nudge < x (grading_push_forward center direction grading epsilon q) <=
    x p1 + nudge + grading * nudge * Rpower (Rpower (x p1 + epsilon) (1 / grading) + nudge) (grading - 1).
  Proof using Hd Hg He.
    intros p0 p1 w x q Hw H0 L. assert (H1 : 0 < x p1 + epsilon) by lra.
    assert (Q : q * sgn direction = w * hat (x p0) + (1 - w) * hat (x p1)).
    { change (q * sgn direction = w * hat (along p0) + (1 - w) * hat (along p1)). unfold q. rewrite <- (pull_along p0 H0), <- (pull_along p1 H1). ring. }
    pose proof (hat_incr (x p0) (x p1) H0 L) as M. pose proof (hat_pos _ H0) as P0.
    assert (A : hat (x p0) <= q * sgn direction <= hat (x p1)) by (rewrite Q; nra).
    change (x (grading_push_forward center direction grading epsilon q)) with (along (grading_push_forward center direction grading epsilon q)).
    rewrite push_along by lra.
    pose proof (unhat_incr _ _ P0 (proj1 A)). pose proof (unhat_incr (q * sgn direction) (hat (x p1)) ltac:(lra) (proj2 A)).
    pose proof (trip _ H0). pose proof (trip _ H1). lra.
  Qed.
End Grading.

Lemma sgn_ratio x : x <> 0 -> sgn x = x / Rabs x.
Proof.
  intros H. unfold sgn. destruct (Rlt_dec x 0) as [L|L]; [rewrite Rabs_left by exact L|rewrite Rabs_right by lra]; field; lra.
Qed.
Lemma steep x : / 10000000000 < Rabs x -> x <> 0.
Proof. intros H ->. rewrite Rabs_R0 in H. lra. Qed.

Lemma C139_grading_proof : forall center direction grading epsilon p, / 10000000000 < Rabs direction -> 1 <= grading -> 0 < epsilon ->
  let x := (p - center) * (direction / Rabs direction) in
  let x' := (grading_push_forward center direction grading epsilon (grading_pull_back center direction grading epsilon p) - center) * (direction / Rabs direction) in
  let d := / 100000000000000 in
  0 < x + epsilon -> x + d < x' <= x + d + grading * d * Rpower (Rpower (x + epsilon) (1 / grading) + d) (grading - 1).
Proof. intros center direction grading epsilon p H. rewrite <- (sgn_ratio direction (steep _ H)). intros. apply C139_grading_sec; assumption. Qed.

Lemma C139_between_proof : forall center direction grading epsilon p0 p1 w, / 10000000000 < Rabs direction -> 1 <= grading -> 0 < epsilon ->
  let x p := (p - center) * (direction / Rabs direction) in
  let q := w * grading_pull_back center direction grading epsilon p0 + (1 - w) * grading_pull_back center direction grading epsilon p1 in
  let d := / 100000000000000 in
  0 <= w <= 1 -> 0 < x p0 + epsilon -> x p0 <= x p1 ->
  x p0 + d < x (grading_push_forward center direction grading epsilon q) <=
  x p1 + d + grading * d * Rpower (Rpower (x p1 + epsilon) (1 / grading) + d) (grading - 1).
Proof. intros center direction grading epsilon p0 p1 w H. rewrite <- (sgn_ratio direction (steep _ H)). intros. apply C139_between_sec; assumption. Qed.

Lemma C139_flat_proof : forall center direction grading epsilon p, Rabs direction <= / 10000000000 ->
  grading_pull_back center direction grading epsilon p = p - center /\
  grading_push_forward center direction grading epsilon (p - center) = p.
Proof.
  intros center direction grading epsilon p H. unfold grading_pull_back, grading_push_forward. cbv zeta.
  destruct (Rlt_dec _ _); [lra|]. split; [reflexivity|lra].
Qed.

Lemma C139_cut_proof : forall rest p0 p1 points w0 w1 weights,
  grading_new_point rest (p0 :: p1 :: points) (w0 :: w1 :: weights) <> None /\
  (1 < w0 -> grading_new_point rest (p0 :: p1 :: points) (w0 :: w1 :: weights) = Some p0) /\
  (w0 <= 1 < w1 -> grading_new_point rest (p0 :: p1 :: points) (w0 :: w1 :: weights) = Some p1) /\
  (w0 <= 1 -> w1 <= 1 -> grading_new_point rest (p0 :: p1 :: points) (w0 :: w1 :: weights) = Some (rest (p0 :: p1 :: points) (w0 :: w1 :: weights))).
Proof.
  intros. unfold grading_new_point. split; [discriminate|]. destruct (Rlt_dec 1 w0), (Rlt_dec 1 w1); repeat split; intros; try lra; reflexivity.
Qed.

(** ** Extrusion *)

Lemma C139_extruded_proof : forall flat points weights lo hi, (length points <= 100)%nat -> length weights = length points ->
  (forall w, In w weights -> 0 <= w) -> fold_right Rplus 0 weights = 1 -> (forall p, In p points -> lo <= snd p <= hi) ->
  exists z, extruded_new_point flat points weights = Some (flat (map fst points) weights, z) /\ lo <= z <= hi.
Proof.
  intros flat points weights lo hi H100 Hl Hw Hs Hz. unfold extruded_new_point.
  destruct (Nat.leb_spec (length points) 100); [|lia]. eexists. split; [reflexivity|].
  assert (G : forall points weights, length weights = length points -> (forall w, In w weights -> 0 <= w) -> (forall p : R * R * R, In p points -> lo <= snd p <= hi) ->
     lo * fold_right Rplus 0 weights <= fold_right Rplus 0 (map (fun pw => snd pw * snd (fst pw)) (combine points weights)) <= hi * fold_right Rplus 0 weights).
  { clear. induction points as [|p l IH]; intros [|w ws] Hl Hw Hz; cbn [length] in Hl; try discriminate Hl; cbn [combine map fold_right fst snd]; [lra|].
    destruct (IH ws) as [A B]; [lia|intros; apply Hw; right; assumption|intros; apply Hz; right; assumption|].
    pose proof (Hw w (or_introl eq_refl)). pose proof (Hz p (or_introl eq_refl)). split; nra. }
  specialize (G points weights Hl Hw Hz). rewrite Hs in G. lra.
Qed.

(** ** NACA profiles *)

Lemma thickness_nonneg t x : 0 < t -> 0 <= x <= 1 -> 0 <= naca_thickness t x.
Proof.
  intros Ht Hx. unfold naca_thickness. set (s := sqrt x).
  assert (S : 0 <= s) by apply sqrt_pos. assert (E : x = s * s) by (symmetry; apply sqrt_sqrt; lra).
  assert (S1 : s <= 1) by nra. rewrite E.
  replace (0.2969 * s + s * s * (-0.126 + s * s * (-0.3516 + s * s * (0.2843 + s * s * -0.1036))))
    with (s * ((1 - s) * (0.2969 + 0.1709 * (s + s * s) - 0.1807 * (s * s * s + s * s * s * s) + 0.1036 * (s * s * s * s * s + s * s * s * s * s * s)))) by lra.
  assert (P2 : 0 <= s * s <= 1) by nra. assert (P3 : 0 <= s * s * s <= s) by nra. assert (P4 : 0 <= s * s * s * s <= s * s) by nra.
  assert (P5 : 0 <= s * s * s * s * s) by nra. assert (P6 : 0 <= s * s * s * s * s * s) by nra.
  apply Rmult_le_pos; [lra|]. apply Rmult_le_pos; [lra|]. apply Rmult_le_pos; [lra|]. lra.
Qed.

Lemma thickness_0 t : naca_thickness t 0 = 0.
Proof. unfold naca_thickness. rewrite sqrt_0. ring. Qed.

Lemma thickness_1 t : naca_thickness t 1 = 0.
Proof. unfold naca_thickness. rewrite sqrt_1. lra. Qed.

Lemma thickness_pos t x : 0 < t -> 0 < x < 1 -> 0 < naca_thickness t x.
Proof.
  intros Ht Hx. unfold naca_thickness. set (s := sqrt x).
  assert (S : 0 < s) by (apply sqrt_lt_R0; lra). assert (E : x = s * s) by (symmetry; apply sqrt_sqrt; lra).
  assert (S1 : s < 1) by nra. rewrite E.
  replace (0.2969 * s + s * s * (-0.126 + s * s * (-0.3516 + s * s * (0.2843 + s * s * -0.1036))))
    with (s * ((1 - s) * (0.2969 + 0.1709 * (s + s * s) - 0.1807 * (s * s * s + s * s * s * s) + 0.1036 * (s * s * s * s * s + s * s * s * s * s * s)))) by lra.
  assert (P2 : 0 <= s * s <= 1) by nra. assert (P3 : 0 <= s * s * s <= s) by nra. assert (P4 : 0 <= s * s * s * s <= s * s) by nra.
  assert (P5 : 0 <= s * s * s * s * s) by nra. assert (P6 : 0 <= s * s * s * s * s * s) by nra.
  apply Rmult_lt_0_compat; [lra|]. apply Rmult_lt_0_compat; [lra|]. apply Rmult_lt_0_compat; [lra|]. lra.
Qed.
