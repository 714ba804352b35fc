(** * Proofs about the approximate power function: statements for users *)
From Coq Require Import Reals ZArith Lra Lia List.
From Verif Require Import Discretization DiscretizationProofs FastPow FastPowProofs.
Import ListNotations.
Local Open Scope R_scope.

Lemma two_pow_le a b : (a <= b)%Z -> powerRZ 2 a <= powerRZ 2 b.
Proof.
  intros H. rewrite !powerRZ_Rpower by lra. destruct (Z_le_lt_eq_dec a b H) as [L|<-]; [|lra].
  left. apply Rpower_lt; [lra|apply IZR_lt, L].
Qed.

Lemma two_pow_lt_inv a b : powerRZ 2 a < powerRZ 2 b -> (a < b)%Z.
Proof. intros H. destruct (Z_lt_le_dec a b) as [?|L]; [assumption|]. apply two_pow_le in L. lra. Qed.

(** The result as computed from the parts. *)
Lemma fast_pow_parts b x y ee z : powerRZ 2 (-126) <= Rabs x -> parts (Rabs x) y = (ee, z) -> 3 / 5 <= z <= 3 / 2 ->
  powerRZ 2 (-126) <= z * powerRZ 2 ee < powerRZ 2 128 -> fast_pow b x y = finite (z * powerRZ 2 ee).
Proof.
  intros Hx E Hz [A B]. unfold fast_pow. destruct (Rlt_dec (Rabs x) _); [lra|]. rewrite E.
  pose proof (two_pow_pos ee) as P.
  assert (U : (ee < 130)%Z).
  { apply two_pow_lt_inv. replace 130%Z with (128 + 1 + 1)%Z by lia. rewrite !(two_pow_S (128 + 1)), (two_pow_S 128). nra. }
  assert (V : (-128 < ee)%Z).
  { apply two_pow_lt_inv. replace (-126)%Z with (-128 + 1 + 1)%Z in A by lia. rewrite !(two_pow_S (-128 + 1)), (two_pow_S (-128)) in A. nra. }
  destruct (Rle_dec _ _); [lra|]. destruct (Rlt_dec 300 _) as [C|_]; [apply lt_IZR in C; lia|].
  destruct (Rlt_dec _ (powerRZ 2 (-126))); [lra|]. destruct (Rlt_dec _ (-300)) as [C|_]; [apply lt_IZR in C; lia|]. reflexivity.
Qed.

Lemma Rabs_pos_eq x : 0 < x -> Rabs x = x.
Proof. intros H. apply Rabs_right. lra. Qed.

Lemma C154_accuracy_proof b x y r :
  powerRZ 2 (-126) <= x -> Rabs y <= 1000000 -> fast_pow b x y = finite r -> 0 < r ->
  exists d, Rabs d <= 2 / 10000 * (Rabs y + 1) /\ r = Rpower x y * exp d.
Proof.
  intros Hx Hy E Hr. pose proof (two_pow_pos (-126)) as P.
  unfold fast_pow in E. rewrite Rabs_pos_eq in E by lra. destruct (Rlt_dec x _); [lra|].
  destruct (parts x y) as [ee z] eqn:EP. destruct (parts_accurate x y ee z ltac:(lra) Hy EP) as [Hz A].
  destruct (Rle_dec _ _); [discriminate|]. destruct (Rlt_dec 300 _); [discriminate|].
  destruct (Rlt_dec _ (powerRZ 2 (-126))); [injection E as <-; lra|].
  destruct (Rlt_dec _ (-300)); [injection E as <-; lra|]. injection E as <-.
  exists (ln (z * powerRZ 2 ee) - y * ln x). split; [exact A|].
  unfold Rpower. rewrite <- exp_plus. replace (y * ln x + (ln (z * powerRZ 2 ee) - y * ln x)) with (ln (z * powerRZ 2 ee)) by ring.
  rewrite exp_ln; [reflexivity|exact Hr].
Qed.

Lemma C154_range_proof b x y :
  powerRZ 2 (-126) <= x -> Rabs y <= 1000 -> powerRZ 2 (-125) <= Rpower x y <= powerRZ 2 127 ->
  exists r, 0 < r /\ fast_pow b x y = finite r.
Proof.
  intros Hx Hy [A B]. pose proof (two_pow_pos (-126)) as P.
  destruct (parts x y) as [ee z] eqn:EP. destruct (parts_accurate x y ee z ltac:(lra) ltac:(lra) EP) as [Hz D].
  apply Rabs_le_both in D. pose proof (two_pow_pos ee) as Q. pose proof ln2_between as L2.
  assert (R0 : 0 < z * powerRZ 2 ee) by (apply Rmult_lt_0_compat; lra).
  assert (LP : forall u v, 0 < u -> u <= v -> ln u <= ln v).
  { intros u v Hu [H|H]; [left; apply ln_increasing; assumption|rewrite H; right; reflexivity]. }
  assert (LN : ln (Rpower x y) = y * ln x) by (unfold Rpower; apply ln_exp).
  apply LP in A; [|apply two_pow_pos]. apply LP in B; [|apply exp_pos]. rewrite ln_two_pow, LN in *.
  exists (z * powerRZ 2 ee). split; [exact R0|]. apply fast_pow_parts; rewrite ?Rabs_pos_eq by lra; try assumption.
  split.
  - left. apply ln_lt_inv; [exact P|exact R0|]. rewrite ln_two_pow. lra.
  - apply ln_lt_inv; [exact R0|apply two_pow_pos|]. rewrite ln_two_pow. lra.
Qed.

(** ** Values *)
Lemma log_series_at_0 : log_series 0 = 0.
Proof. unfold log_series. ring. Qed.

Lemma reduced_at x k : powerRZ 2 k <= x < powerRZ 2 (k + 1) -> x / powerRZ 2 (k + 1) <= half_sqrt2 ->
  reduced x = x / powerRZ 2 k - 1 /\ shifted_exponent x = k.
Proof.
  intros H L. pose proof (exponent_unique x k H) as E. unfold reduced, shifted_exponent, fraction_2. rewrite E.
  destruct (Rlt_dec _ _); [lra|]. split; [|reflexivity]. rewrite two_pow_S. pose proof (two_pow_pos k). field. lra.
Qed.

Lemma reduced_at' x k : powerRZ 2 k <= x < powerRZ 2 (k + 1) -> half_sqrt2 < x / powerRZ 2 (k + 1) ->
  reduced x = x / powerRZ 2 (k + 1) - 1 /\ shifted_exponent x = (k + 1)%Z.
Proof.
  intros H L. pose proof (exponent_unique x k H) as E. unfold reduced, shifted_exponent, fraction_2. rewrite E.
  destruct (Rlt_dec _ _); [|lra]. split; reflexivity.
Qed.

Lemma C154_exact_proof b k y n :
  (-126 <= k <= 127)%Z -> (-126 <= n <= 127)%Z -> IZR k * y = IZR n ->
  fast_pow b (powerRZ 2 k) y = finite (powerRZ 2 n).
Proof.
  intros Hk Hn E. pose proof (two_pow_pos k) as P.
  assert (R : reduced (powerRZ 2 k) = 0 /\ shifted_exponent (powerRZ 2 k) = k).
  { destruct (reduced_at (powerRZ 2 k) k) as [A B].
    - rewrite two_pow_S. lra.
    - rewrite two_pow_S. replace (powerRZ 2 k / (2 * powerRZ 2 k)) with (1 / 2) by (field; lra). unfold half_sqrt2. lra.
    - split; [rewrite A; field; lra|exact B]. }
  destruct R as [R S].
  assert (EP : parts (powerRZ 2 k) y = (n, 1)).
  { rewrite parts_eq. unfold last, third, rest, second, first. rewrite R, S, log_series_at_0, E, nearest_int.
    replace (0 * y * log2e) with (IZR 0) by ring. rewrite nearest_int.
    replace (0 * y - 0 * ln2f_hi + (IZR n - IZR n) * ln2) with 0 by ring.
    replace (0 * log2e) with (IZR 0) by ring. rewrite nearest_int. f_equal; [lia|]. unfold exp_series. ring. }
  replace (powerRZ 2 n) with (1 * powerRZ 2 n) by ring.
  apply fast_pow_parts; rewrite ?Rabs_pos_eq by exact P; [apply two_pow_le; lia|exact EP|lra|].
  rewrite Rmult_1_l. split; [apply two_pow_le; lia|].
  apply (Rle_lt_trans _ (powerRZ 2 127)); [apply two_pow_le; lia|]. replace 128%Z with (127 + 1)%Z by lia.
  rewrite two_pow_S. pose proof (two_pow_pos 127). lra.
Qed.

Lemma C154_trivial_proof b x : fast_pow b x 0 = finite 1 /\ (forall y, 0 < y -> fast_pow b 0 y = finite 0) /\
  (forall y, y < 0 -> fast_pow b 0 y = infinite).
Proof.
  split; [|split].
  - destruct (Rlt_dec (Rabs x) (powerRZ 2 (-126))) as [L|L].
    + unfold fast_pow. destruct (Rlt_dec _ _); [|contradiction]. unfold case_x0. destruct (Rlt_dec 0 0); [lra|]. destruct (Req_EM_T 0 0); [reflexivity|lra].
    + assert (EP : parts (Rabs x) 0 = (0%Z, 1)).
      { rewrite parts_eq. unfold last, third, rest, second, first. rewrite !Rmult_0_r, !Rmult_0_l.
        change (nearest 0) with (nearest (IZR 0)). rewrite nearest_int.
        replace (0 - IZR 0 * ln2f_hi + (0 - IZR 0) * ln2) with (IZR 0) by ring. rewrite Rmult_0_l.
        change (nearest 0) with (nearest (IZR 0)). rewrite nearest_int. f_equal. unfold exp_series. ring. }
      replace (finite 1) with (finite (1 * powerRZ 2 0)) by (f_equal; cbn; ring).
      apply fast_pow_parts; [lra|exact EP|lra|]. rewrite Rmult_1_l.
      split; [apply two_pow_le; lia|]. apply (Rlt_le_trans _ (powerRZ 2 1)); [rewrite powerRZ_1; cbn; lra|apply two_pow_le; lia].
  - intros y H. unfold fast_pow. rewrite Rabs_R0. destruct (Rlt_dec 0 (powerRZ 2 (-126))) as [_|n]; [|pose proof (two_pow_pos (-126)); lra].
    unfold case_x0. destruct (Rlt_dec y 0); [lra|]. destruct (Req_EM_T y 0); [lra|reflexivity].
  - intros y H. unfold fast_pow. rewrite Rabs_R0. destruct (Rlt_dec 0 (powerRZ 2 (-126))) as [_|n]; [|pose proof (two_pow_pos (-126)); lra].
    unfold case_x0. destruct (Rlt_dec y 0); [reflexivity|lra].
Qed.

(** ** What does not hold *)

(** The sign of the base is dropped: (-2)^3 = 8. *)
Lemma C154_sign_refuted_proof :
  (forall b x y, fast_pow b (- x) y = fast_pow b x y) /\
  (forall b, fast_pow b (-2) 3 = finite 8 /\ (-2) ^ 3 = -8).
Proof.
  assert (H : forall b x y, fast_pow b (- x) y = fast_pow b x y) by (intros; unfold fast_pow; rewrite Rabs_Ropp; reflexivity).
  split; [exact H|]. intros b. split; [|ring]. replace (-2) with (- (2)) by ring. rewrite H.
  pose proof (C154_exact_proof b 1 3 3 ltac:(lia) ltac:(lia) ltac:(lra)) as E. rewrite powerRZ_1 in E.
  replace (powerRZ 2 3) with 8 in E by (change (powerRZ 2 3) with (2 ^ 3); ring). exact E.
Qed.

(** Evaluation with given roundings, for arguments between 1 and sqrt 2. *)
Lemma small_value b x y e2 e3 l v : 1 <= x <= 14 / 10 ->
  l = log_series (x - 1) -> IZR e2 - 1 / 2 <= l * y * log2e < IZR e2 + 1 / 2 ->
  v = l * y - IZR e2 * ln2f_hi -> IZR e3 - 1 / 2 <= v * log2e < IZR e3 + 1 / 2 ->
  - (2 / 5) <= v - IZR e3 * ln2 <= 2 / 5 -> (-100 <= e2 + e3 <= 100)%Z ->
  fast_pow b x y = finite (exp_series (v - IZR e3 * ln2) * powerRZ 2 (e2 + e3)).
Proof.
  intros Hx El H2 Ev H3 Hw He.
  destruct (reduced_at x 0) as [R S].
  { change (powerRZ 2 0) with 1. change (0 + 1)%Z with 1%Z. rewrite powerRZ_1. lra. }
  { change (0 + 1)%Z with 1%Z. rewrite powerRZ_1. unfold half_sqrt2. lra. }
  assert (R' : reduced x = x - 1) by (rewrite R; change (powerRZ 2 0) with 1; field).
  pose proof (exp_series_range _ Hw) as Z.
  apply fast_pow_parts.
  - rewrite Rabs_pos_eq by lra. apply (Rle_trans _ (powerRZ 2 0)); [apply two_pow_le; lia|cbn; lra].
  - rewrite Rabs_pos_eq by lra. rewrite parts_eq. unfold last, third, rest, second, first. rewrite R', S, <- El.
    rewrite (nearest_unique _ _ H2). replace (0 * y) with (IZR 0) by ring. rewrite nearest_int.
    replace (l * y - IZR e2 * ln2f_hi + (0 - 0) * ln2) with v by (rewrite Ev; ring).
    rewrite (nearest_unique _ _ H3). reflexivity.
  - exact Z.
  - pose proof (two_pow_le (-100) (e2 + e3) ltac:(lia)). pose proof (two_pow_le (e2 + e3) 100 ltac:(lia)).
    assert (powerRZ 2 (-126) <= powerRZ 2 (-101)) by (apply two_pow_le; lia).
    assert (powerRZ 2 (101) <= powerRZ 2 (128)) by (apply two_pow_le; lia).
    pose proof (two_pow_S (-101)) as S1. change (-101 + 1)%Z with (-100)%Z in S1. pose proof (two_pow_S 100) as S2. change (100 + 1)%Z with 101%Z in S2.
    set (t := powerRZ 2 (e2 + e3)) in *. pose proof (two_pow_pos (e2 + e3)). pose proof (two_pow_pos 100). pose proof (two_pow_pos (-101)). nra.
Qed.

Lemma Rpower_2 x : 0 < x -> Rpower x 2 = x * x.
Proof. intros H. replace 2 with (INR 2) by (cbn; ring). rewrite Rpower_pow by exact H. cbn. ring. Qed.

Lemma exp_series_mono a b : - (2 / 5) <= a -> a <= b -> b <= 2 / 5 -> exp_series a <= exp_series b.
Proof.
  intros A H B. destruct (Rle_lt_or_eq_dec a b H) as [L|<-]; [|lra].
  destruct (MVT_cor2 (peval exp_list) (peval (pderiv exp_list)) a b L ltac:(intros; apply pderiv_correct)) as (c & E & Hc).
  rewrite <- !exp_series_list in E. pose proof (exp_series_range c ltac:(lra)) as R.
  pose proof (peval_bound [0; 0; 0; 0; 0; 0; 0; 1] [0; 0; 0; 0; 0; 0; 0; 1] (2 / 5) c ltac:(repeat (constructor; [lra|]); constructor) ltac:(lra)) as Q.
  cbn [peval] in Q. assert (P : peval (pderiv exp_list) c > 0).
  { rewrite exp_list_deriv. replace (c ^ 7) with (0 + c * (0 + c * (0 + c * (0 + c * (0 + c * (0 + c * (0 + c * (1 + c * 0)))))))) by ring. lra. }
  nra.
Qed.

Lemma C154_max_refuted_proof : exists x r, fast_pow max x 2 = finite r /\ r < Rpower x 2 - 3 / 10000.
Proof.
  exists (11 / 8). eexists. split.
  - eapply (small_value max (11 / 8) 2 1 0 _ _); [lra|reflexivity| |reflexivity| | |lia];
      unfold log_series, log_poly, log2e, ln2f_hi, ln2; lra.
  - rewrite Rpower_2 by lra. change (1 + 0)%Z with 1%Z. rewrite powerRZ_1.
    match goal with |- exp_series ?w * 2 < _ => assert (W : - (1 / 10) <= w <= - (5645 / 100000)) by (unfold log_series, log_poly, ln2f_hi, ln2; lra); set (u := w) in * end.
    pose proof (exp_series_mono u (- (5645 / 100000)) ltac:(lra) ltac:(lra) ltac:(lra)) as M.
    assert (E : exp_series (- (5645 / 100000)) < 945115 / 1000000) by (unfold exp_series, exp_poly; lra). lra.
Qed.

(** A base between sqrt(1/2) and 1. *)
Lemma C154_min_refuted_proof : exists x r, fast_pow min x 2 = finite r /\ Rpower x 2 + 1 / 10000 < r.
Proof.
  exists (3 / 4). set (l := log_series (- (1 / 4))).
  assert (L : - (28769 / 100000) <= l <= - (28768 / 100000)) by (unfold l, log_series, log_poly; lra).
  set (v := l * 2 - -1 * ln2f_hi). assert (V : 11797 / 100000 <= v <= 118 / 1000) by (unfold v, ln2f_hi; lra).
  assert (P1 : powerRZ 2 (-1) = 1 / 2) by (change (powerRZ 2 (-1)) with (/ (2 ^ 1)); field).
  destruct (reduced_at' (3 / 4) (-1)) as [R S].
  { change (-1 + 1)%Z with 0%Z. rewrite P1. change (powerRZ 2 0) with 1. lra. }
  { change (-1 + 1)%Z with 0%Z. change (powerRZ 2 0) with 1. unfold half_sqrt2. lra. }
  change (-1 + 1)%Z with 0%Z in R, S. change (powerRZ 2 0) with 1 in R.
  assert (R' : reduced (3 / 4) = - (1 / 4)) by lra.
  assert (EP : parts (3 / 4) 2 = ((-1)%Z, exp_series v)).
  { rewrite parts_eq. unfold last, third, rest, second, first. rewrite R', S. fold l.
    rewrite (nearest_unique (l * 2 * log2e) (-1)) by (unfold log2e; lra). replace (0 * 2) with (IZR 0) by ring. rewrite nearest_int.
    replace (l * 2 - -1 * ln2f_hi + (0 - 0) * ln2) with v by (unfold v; ring).
    rewrite (nearest_unique (v * log2e) 0) by (unfold log2e; lra). replace (v - 0 * ln2) with v by ring. reflexivity. }
  pose proof (exp_series_range v ltac:(lra)) as Z.
  exists (exp_series v * powerRZ 2 (-1)). split.
  - apply fast_pow_parts; rewrite ?Rabs_pos_eq by lra.
    + apply (Rle_trans _ (powerRZ 2 (-1))); [apply two_pow_le; lia|rewrite P1; lra].
    + exact EP.
    + exact Z.
    + rewrite P1. pose proof (two_pow_le (-126) (-2) ltac:(lia)) as A. pose proof (two_pow_le 0 128 ltac:(lia)) as B.
      change (powerRZ 2 0) with 1 in B. assert (P2 : powerRZ 2 (-2) = 1 / 4) by (change (powerRZ 2 (-2)) with (/ (2 ^ 2)); field). rewrite P2 in A. lra.
  - rewrite Rpower_2 by lra. rewrite P1.
    pose proof (exp_series_mono (11797 / 100000) v ltac:(lra) ltac:(lra) ltac:(lra)) as M.
    assert (E : 112520 / 100000 + 1 / 100000 < exp_series (11797 / 100000)) by (unfold exp_series, exp_poly; lra). lra.
Qed.

(** The result decreases where the second rounding changes. *)
Lemma C154_monotone_refuted_proof : forall b, exists x x' r r',
  1 < x < x' /\ fast_pow b x 2 = finite r /\ fast_pow b x' 2 = finite r' /\ r' < r - 5 / 100000.
Proof.
  intros b. exists (38965 / 32768), (4871 / 4096). do 2 eexists. split; [lra|]. split; [|split].
  - eapply (small_value b (38965 / 32768) 2 0 0 _ _); [lra|reflexivity| |reflexivity| | |lia];
      unfold log_series, log_poly, log2e, ln2f_hi, ln2; lra.
  - eapply (small_value b (4871 / 4096) 2 1 (-1) _ _); [lra|reflexivity| |reflexivity| | |lia];
      unfold log_series, log_poly, log2e, ln2f_hi, ln2; lra.
  - change (1 + -1)%Z with 0%Z. change (0 + 0)%Z with 0%Z. change (powerRZ 2 0) with 1.
    match goal with |- exp_series ?a * 1 < exp_series ?c * 1 - _ =>
      assert (A : 34 / 100 <= a <= 346365 / 1000000) by (unfold log_series, log_poly, ln2f_hi, ln2; lra);
      assert (C : 346422 / 1000000 <= c <= 35 / 100) by (unfold log_series, log_poly, ln2f_hi, ln2; lra);
      set (u := a) in *; set (w := c) in * end.
    pose proof (exp_series_mono u (346365 / 1000000) ltac:(lra) ltac:(lra) ltac:(lra)) as M.
    pose proof (exp_series_mono (346422 / 1000000) w ltac:(lra) ltac:(lra) ltac:(lra)) as N.
    assert (E : exp_series (346365 / 1000000) < exp_series (346422 / 1000000) - 5 / 100000) by (unfold exp_series, exp_poly; lra). lra.
Qed.

(** Cases that meet the hypotheses. *)
Lemma C154_accuracy_case : powerRZ 2 (-126) <= 3 /\ Rabs (14 / 10) <= 1000 /\ powerRZ 2 (-125) <= Rpower 3 (14 / 10) <= powerRZ 2 127 /\
  exists r, 0 < r /\ fast_pow none 3 (14 / 10) = finite r /\ Rabs (ln r - 14 / 10 * ln 3) <= 5 / 10000.
Proof.
  assert (A : powerRZ 2 (-126) <= 3) by (apply (Rle_trans _ (powerRZ 2 0)); [apply two_pow_le; lia|cbn; lra]).
  assert (B : Rabs (14 / 10) <= 1000) by (rewrite Rabs_right; lra).
  assert (C : powerRZ 2 (-125) <= Rpower 3 (14 / 10) <= powerRZ 2 127).
  { split.
    - apply (Rle_trans _ 1); [change 1 with (powerRZ 2 0); apply two_pow_le; lia|].
      rewrite <- (Rpower_O 3) by lra. left. apply Rpower_lt; lra.
    - apply (Rle_trans _ (Rpower 3 2)); [left; apply Rpower_lt; lra|]. rewrite Rpower_2 by lra.
      apply (Rle_trans _ (powerRZ 2 4)); [change (powerRZ 2 4) with (2 ^ 4); lra|apply two_pow_le; lia]. }
  split; [exact A|]. split; [exact B|]. split; [exact C|].
  destruct (C154_range_proof none 3 (14 / 10) A B C) as (r & P & E). exists r. split; [exact P|]. split; [exact E|].
  destruct (C154_accuracy_proof none 3 (14 / 10) r A ltac:(lra) E P) as (d & D & ->).
  rewrite ln_mult by apply exp_pos. rewrite ln_exp. unfold Rpower. rewrite ln_exp.
  replace (14 / 10 * ln 3 + d - 14 / 10 * ln 3) with d by ring. rewrite (Rabs_right (14 / 10)) in D by lra. lra.
Qed.

Lemma C154_exact_case : fast_pow none (powerRZ 2 3) (-2 / 3) = finite (powerRZ 2 (-2)).
Proof. apply C154_exact_proof; [lia|lia|field]. Qed.

Lemma C154_overflow_proof b x y :
  powerRZ 2 (-126) <= x -> Rabs y <= 1000 ->
  (powerRZ 2 129 <= Rpower x y -> fast_pow b x y = infinite) /\
  (Rpower x y <= powerRZ 2 (-127) -> fast_pow b x y = finite 0).
Proof.
  intros Hx Hy. pose proof (two_pow_pos (-126)) as P.
  destruct (parts x y) as [ee z] eqn:EP. destruct (parts_accurate x y ee z ltac:(lra) ltac:(lra) EP) as [Hz D].
  apply Rabs_le_both in D. pose proof (two_pow_pos ee) as Q. pose proof ln2_between as L2.
  assert (R0 : 0 < z * powerRZ 2 ee) by (apply Rmult_lt_0_compat; lra).
  assert (LP : forall u v, 0 < u -> u <= v -> ln u <= ln v).
  { intros u v Hu [H|H]; [left; apply ln_increasing; assumption|rewrite H; right; reflexivity]. }
  assert (LN : ln (Rpower x y) = y * ln x) by (unfold Rpower; apply ln_exp).
  split; intros H; apply LP in H; try apply two_pow_pos; try apply exp_pos; rewrite ln_two_pow, LN in H;
    unfold fast_pow; rewrite Rabs_pos_eq by lra; (destruct (Rlt_dec x _); [lra|]); rewrite EP.
  - assert (powerRZ 2 128 < z * powerRZ 2 ee) by (apply ln_lt_inv; [apply two_pow_pos|exact R0|rewrite ln_two_pow; lra]).
    destruct (Rle_dec _ _); [reflexivity|lra].
  - assert (z * powerRZ 2 ee < powerRZ 2 (-126)) by (apply ln_lt_inv; [exact R0|apply two_pow_pos|rewrite ln_two_pow; lra]).
    assert (A : powerRZ 2 (-126) < powerRZ 2 128) by (apply ln_lt_inv; [apply two_pow_pos|apply two_pow_pos|rewrite !ln_two_pow; lra]).
    assert (U : (ee < 130)%Z).
    { apply two_pow_lt_inv. replace 130%Z with (128 + 1 + 1)%Z by lia. rewrite !(two_pow_S (128 + 1)), (two_pow_S 128). nra. }
    destruct (Rle_dec _ _); [lra|]. destruct (Rlt_dec 300 _) as [C|_]; [apply lt_IZR in C; lia|].
    destruct (Rlt_dec _ (powerRZ 2 (-126))); [reflexivity|lra].
Qed.

Lemma C154_overflow_case : fast_pow none (powerRZ 2 50) 3 = infinite /\ fast_pow none (powerRZ 2 50) (-3) = finite 0.
Proof.
  assert (A : powerRZ 2 (-126) <= powerRZ 2 50) by (apply two_pow_le; lia).
  assert (E : forall y, Rpower (powerRZ 2 50) y = Rpower 2 (50 * y)) by (intros y; rewrite powerRZ_Rpower by lra; apply Rpower_mult).
  split.
  - apply (proj1 (C154_overflow_proof none (powerRZ 2 50) 3 A ltac:(rewrite Rabs_right; lra))). rewrite E, powerRZ_Rpower by lra. left. apply Rpower_lt; lra.
  - apply (proj2 (C154_overflow_proof none (powerRZ 2 50) (-3) A ltac:(rewrite Rabs_left; lra))). rewrite E, powerRZ_Rpower by lra. left. apply Rpower_lt; lra.
Qed.
