(** * Proofs about the approximate power function *)
From Coq Require Import Reals ZArith Lra Lia List.
From Verif Require Import Discretization DiscretizationProofs FastPow.
Import ListNotations.
Local Open Scope R_scope.

(** ** Rounding and splitting *)
Lemma nearest_spec r : r - 1 / 2 < IZR (nearest r) <= r + 1 / 2.
Proof. unfold nearest. destruct (archimed (r - 1 / 2)) as [A B]. lra. Qed.

Lemma nearest_unique r k : IZR k - 1 / 2 <= r < IZR k + 1 / 2 -> nearest r = k.
Proof.
  intros H. destruct (nearest_spec r) as [A B].
  assert (C : IZR (k - 1) < IZR (nearest r)) by (rewrite minus_IZR; lra).
  assert (D : IZR (nearest r) < IZR (k + 1)) by (rewrite plus_IZR; lra).
  apply lt_IZR in C. apply lt_IZR in D. lia.
Qed.

Lemma nearest_int k : nearest (IZR k) = k.
Proof. apply nearest_unique. lra. Qed.

Lemma ln2_pos : 0 < ln 2.
Proof. rewrite <- ln_1. apply ln_increasing; lra. Qed.

Lemma two_pow_pos k : 0 < powerRZ 2 k.
Proof. apply powerRZ_lt. lra. Qed.

Lemma ln_two_pow k : ln (powerRZ 2 k) = IZR k * ln 2.
Proof. rewrite powerRZ_Rpower by lra. unfold Rpower. apply ln_exp. Qed.

Lemma exponent_spec x : 0 < x -> powerRZ 2 (exponent x) <= x < powerRZ 2 (exponent x + 1).
Proof.
  intros Hx. pose proof ln2_pos as L. unfold exponent. destruct (archimed (ln x / ln 2)) as [A B].
  set (u := up (ln x / ln 2)) in *.
  assert (E : ln x = ln x / ln 2 * ln 2) by (field; lra).
  split.
  - rewrite <- (exp_ln x) by exact Hx. rewrite <- (exp_ln (powerRZ 2 _)) by apply two_pow_pos.
    rewrite ln_two_pow, minus_IZR.
    assert (Q : (IZR u - 1) * ln 2 <= ln x) by (set (q := ln x / ln 2) in *; rewrite E; apply Rmult_le_compat_r; lra).
    destruct Q as [H|H].
    + left. apply exp_increasing. exact H.
    + rewrite H. right. reflexivity.
  - apply ln_lt_inv; [exact Hx|apply two_pow_pos|]. rewrite ln_two_pow. replace (u - 1 + 1)%Z with u by lia.
    set (q := ln x / ln 2) in *. rewrite E. apply Rmult_lt_compat_r; lra.
Qed.

Lemma two_pow_S k : powerRZ 2 (k + 1) = 2 * powerRZ 2 k.
Proof. rewrite powerRZ_add by lra. rewrite powerRZ_1. ring. Qed.

Lemma exponent_unique x k : powerRZ 2 k <= x < powerRZ 2 (k + 1) -> exponent x = k.
Proof.
  intros [A B]. pose proof ln2_pos as L. pose proof (two_pow_pos k) as P.
  unfold exponent. assert (Hx : 0 < x) by lra.
  assert (E : ln x = ln x / ln 2 * ln 2) by (field; lra).
  assert (A' : IZR k <= ln x / ln 2).
  { apply (Rmult_le_reg_r (ln 2)); [exact L|]. rewrite <- E, <- ln_two_pow.
    destruct A as [A|A]; [left; apply ln_increasing; assumption|rewrite A; right; reflexivity]. }
  assert (B' : ln x / ln 2 < IZR (k + 1)).
  { apply (Rmult_lt_reg_r (ln 2)); [exact L|]. rewrite <- E, <- ln_two_pow. apply ln_increasing; assumption. }
  rewrite plus_IZR in B'.
  destruct (archimed (ln x / ln 2)) as [C D]. set (u := up (ln x / ln 2)) in *.
  assert (F : IZR k < IZR u) by lra. assert (G : IZR u < IZR (k + 2)) by (rewrite plus_IZR; lra).
  apply lt_IZR in F. apply lt_IZR in G. lia.
Qed.

Lemma fraction_range x : 0 < x -> 1 / 2 <= fraction_2 x < 1.
Proof.
  intros Hx. destruct (exponent_spec x Hx) as [A B]. unfold fraction_2. rewrite two_pow_S in *.
  pose proof (two_pow_pos (exponent x)) as P. set (t := powerRZ 2 (exponent x)) in *. split.
  - apply (Rmult_le_reg_r (2 * t)); [lra|]. replace (x / (2 * t) * (2 * t)) with x by (field; lra). lra.
  - apply (Rmult_lt_reg_r (2 * t)); [lra|]. replace (x / (2 * t) * (2 * t)) with x by (field; lra). lra.
Qed.

Lemma Rabs_le_both a b : Rabs a <= b -> - b <= a /\ a <= b.
Proof. intros H. pose proof (Rle_abs a). pose proof (Rle_abs (- a)). rewrite Rabs_Ropp in *. lra. Qed.

(** ** Bounds of polynomials and the mean value theorem *)
Lemma peval_bound P B a x : Forall2 (fun c b => - b <= c <= b) P B -> - a <= x <= a ->
  - peval B a <= peval P x <= peval B a.
Proof.
  intros F. induction F as [|c b P B C F IH]; intros H; cbn [peval]; [lra|].
  specialize (IH H). set (u := peval P x) in *. set (v := peval B a) in *. nra.
Qed.

Lemma mean_value f f' c a b : a <= b -> 0 <= c ->
  (forall x, a <= x <= b -> derivable_pt_lim f x (f' x)) -> (forall x, a <= x <= b -> - c <= f' x <= c) ->
  - (c * (b - a)) <= f b - f a <= c * (b - a).
Proof.
  intros H Hc D B. destruct (Rle_lt_or_eq_dec a b H) as [L|L].
  - destruct (MVT_cor2 f f' a b L D) as (y & E & Hy). specialize (B y ltac:(lra)). rewrite E. nra.
  - subst. lra.
Qed.

Lemma lim_ext f g x l : (forall y, f y = g y) -> derivable_pt_lim f x l -> derivable_pt_lim g x l.
Proof. intros E D. apply (derivable_pt_lim_locally_ext f g x (x - 1) (x + 1)); [lra|intros; apply E|exact D]. Qed.

(** ** The logarithm *)

(** What the code takes for ln(1 + x). *)
Definition log_series (x : R) : R := - (1 / 2 * (x * x)) + x + log_poly x * (x * x * x).

Definition log_list : list R :=
  [0; 1; -1 / 2; 33333331174 / 100000000000; -24999993993 / 100000000000; 20000714765 / 100000000000;
   -16668057665 / 100000000000; 14249322787 / 100000000000; -12420140846 / 100000000000;
   11676998740 / 100000000000; -11514610310 / 100000000000; 70376836292 / 1000000000000].

Lemma log_series_list x : log_series x = peval log_list x.
Proof. unfold log_series, log_poly, log_list. cbn [peval]. field. Qed.

Definition log_error : list R :=
  [0; 0; -64780 / 1000000000000; 175500 / 1000000000000; 35978530 / 1000000000000; -47721650 / 1000000000000;
   -2630864810 / 1000000000000; 3841327410 / 1000000000000; 57318618920 / 1000000000000; -100531144400 / 1000000000000;
   -377315831788 / 1000000000000; 774145199212 / 1000000000000].

Lemma log_error_eq x : (1 + x) * peval (pderiv log_list) x - 1 = peval log_error x.
Proof. unfold log_list, log_error. cbn [peval pderiv padd]. field. Qed.

Definition log_error_bound : list R :=
  [0; 0; 64780 / 1000000000000; 175500 / 1000000000000; 35978530 / 1000000000000; 47721650 / 1000000000000;
   2630864810 / 1000000000000; 3841327410 / 1000000000000; 57318618920 / 1000000000000; 100531144400 / 1000000000000;
   377315831788 / 1000000000000; 774145199212 / 1000000000000].

Lemma log_error_bounded : Forall2 (fun c b => - b <= c <= b) log_error log_error_bound.
Proof. unfold log_error, log_error_bound. repeat (constructor; [lra|]). constructor. Qed.

Lemma log_difference x : -1 < x ->
  derivable_pt_lim (fun x => log_series x - ln (1 + x)) x (peval log_error x / (1 + x)).
Proof.
  intros H. rewrite <- log_error_eq.
  replace (((1 + x) * peval (pderiv log_list) x - 1) / (1 + x)) with (peval (pderiv log_list) x - / (1 + x) * (0 + 1)) by (field; lra).
  apply derivable_pt_lim_minus.
  - apply (lim_ext (peval log_list)); [intros; symmetry; apply log_series_list|]. apply pderiv_correct.
  - apply (derivable_pt_lim_comp (fun x => 1 + x) ln).
    + apply derivable_pt_lim_plus; [apply derivable_pt_lim_const|apply derivable_pt_lim_id].
    + apply derivable_pt_lim_ln. lra.
Qed.

Lemma log_series_0 : log_series 0 - ln (1 + 0) = 0.
Proof. rewrite Rplus_0_r, ln_1. unfold log_series. ring. Qed.

(** The error of the logarithm. *)
Lemma log_accurate x : - (293 / 1000) <= x <= 41422 / 100000 -> Rabs (log_series x - ln (1 + x)) <= 9 / 100000.
Proof.
  intros H. apply Rabs_le. destruct (Rle_dec 0 x) as [P|P].
  - pose proof (mean_value (fun x => log_series x - ln (1 + x)) (fun x => peval log_error x / (1 + x)) (213 / 1000000) 0 x P ltac:(lra)
      ltac:(intros y Hy; apply log_difference; lra)) as M. cbn beta in M. rewrite log_series_0 in M.
    enough (E : forall y, 0 <= y <= x -> - (213 / 1000000) <= peval log_error y / (1 + y) <= 213 / 1000000) by (specialize (M E); lra).
    intros y Hy. pose proof (peval_bound log_error log_error_bound (41422 / 100000) y log_error_bounded ltac:(lra)) as B.
    assert (C : peval log_error_bound (41422 / 100000) <= 213 / 1000000) by (unfold log_error_bound; cbn [peval]; lra).
    set (u := peval log_error y) in *. split.
    + apply (Rmult_le_reg_r (1 + y)); [lra|]. replace (u / (1 + y) * (1 + y)) with u by (field; lra). nra.
    + apply (Rmult_le_reg_r (1 + y)); [lra|]. replace (u / (1 + y) * (1 + y)) with u by (field; lra). nra.
  - pose proof (mean_value (fun x => log_series x - ln (1 + x)) (fun x => peval log_error x / (1 + x)) (2 / 100000) x 0 ltac:(lra) ltac:(lra)
      ltac:(intros y Hy; apply log_difference; lra)) as M. cbn beta in M. rewrite log_series_0 in M.
    enough (E : forall y, x <= y <= 0 -> - (2 / 100000) <= peval log_error y / (1 + y) <= 2 / 100000) by (specialize (M E); lra).
    intros y Hy. pose proof (peval_bound log_error log_error_bound (293 / 1000) y log_error_bounded ltac:(lra)) as B.
    assert (C : peval log_error_bound (293 / 1000) <= 11 / 1000000) by (unfold log_error_bound; cbn [peval]; lra).
    set (u := peval log_error y) in *. split.
    + apply (Rmult_le_reg_r (1 + y)); [lra|]. replace (u / (1 + y) * (1 + y)) with u by (field; lra). nra.
    + apply (Rmult_le_reg_r (1 + y)); [lra|]. replace (u / (1 + y) * (1 + y)) with u by (field; lra). nra.
Qed.

(** ** The exponential function *)
Definition exp_series (x : R) : R := exp_poly x * (x * x) + x + 1.

Definition exp_list : list R := [1; 1; 1 / 2; 1 / 6; 1 / 24; 1 / 120; 1 / 720; 1 / 5040].

Lemma exp_series_list x : exp_series x = peval exp_list x.
Proof. unfold exp_series, exp_poly, exp_list. cbn [peval]. field. Qed.

Lemma exp_list_deriv x : peval (pderiv exp_list) x = exp_series x - x ^ 7 / 5040.
Proof. rewrite exp_series_list. unfold exp_list. cbn [peval pderiv padd]. field. Qed.

Lemma exp_series_range x : - (2 / 5) <= x <= 2 / 5 -> 3 / 5 <= exp_series x <= 3 / 2.
Proof.
  intros H. rewrite exp_series_list.
  pose proof (peval_bound [1 / 2; 1 / 6; 1 / 24; 1 / 120; 1 / 720; 1 / 5040] [1 / 2; 1 / 6; 1 / 24; 1 / 120; 1 / 720; 1 / 5040] (2 / 5) x) as B.
  specialize (B ltac:(repeat (constructor; [lra|]); constructor) H).
  assert (C : peval [1 / 2; 1 / 6; 1 / 24; 1 / 120; 1 / 720; 1 / 5040] (2 / 5) <= 3 / 5) by (cbn [peval]; lra).
  pose proof (peval_bound [1 / 6; 1 / 24; 1 / 120; 1 / 720; 1 / 5040] [1 / 6; 1 / 24; 1 / 120; 1 / 720; 1 / 5040] (2 / 5) x) as B'.
  specialize (B' ltac:(repeat (constructor; [lra|]); constructor) H).
  assert (C' : peval [1 / 6; 1 / 24; 1 / 120; 1 / 720; 1 / 5040] (2 / 5) <= 1 / 5) by (cbn [peval]; lra).
  unfold exp_list.
  change (peval [1; 1; 1 / 2; 1 / 6; 1 / 24; 1 / 120; 1 / 720; 1 / 5040] x) with (1 + x * (1 + x * (1 / 2 + x * peval [1 / 6; 1 / 24; 1 / 120; 1 / 720; 1 / 5040] x))).
  set (u := peval [1 / 6; 1 / 24; 1 / 120; 1 / 720; 1 / 5040] x) in *. clear B C.
  assert (U : - (1 / 5) <= u <= 1 / 5) by lra.
  assert (W : 42 / 100 <= 1 / 2 + x * u <= 58 / 100) by nra.
  set (w := 1 / 2 + x * u) in *. assert (X : 0 <= x * x <= 4 / 25) by nra. nra.
Qed.

(** The error of the exponential function, as a relative one. *)
Lemma exp_accurate x : - (2 / 5) <= x <= 2 / 5 -> Rabs (ln (exp_series x) - x) <= 3 / 10000000.
Proof.
  intros H. apply Rabs_le.
  set (f := fun x => ln (exp_series x) - x). set (f' := fun x => - (x ^ 7 / 5040) / exp_series x).
  assert (D : forall y, - (2 / 5) <= y <= 2 / 5 -> derivable_pt_lim f y (f' y)).
  { intros y Hy. pose proof (exp_series_range y Hy) as E. unfold f, f'.
    replace (- (y ^ 7 / 5040) / exp_series y) with (/ exp_series y * peval (pderiv exp_list) y - 1) by (rewrite exp_list_deriv; field; lra).
    apply derivable_pt_lim_minus; [|apply derivable_pt_lim_id].
    apply (derivable_pt_lim_comp exp_series ln).
    - apply (lim_ext (peval exp_list)); [intros; symmetry; apply exp_series_list|]. apply pderiv_correct.
    - apply derivable_pt_lim_ln. lra. }
  assert (B : forall y, - (2 / 5) <= y <= 2 / 5 -> - (6 / 10000000) <= f' y <= 6 / 10000000).
  { intros y Hy. pose proof (exp_series_range y Hy) as E. unfold f'.
    assert (P : - (17 / 10000) <= y ^ 7 <= 17 / 10000).
    { pose proof (peval_bound [0; 0; 0; 0; 0; 0; 0; 1] [0; 0; 0; 0; 0; 0; 0; 1] (2 / 5) y ltac:(repeat (constructor; [lra|]); constructor) Hy) as Q.
      cbn [peval] in Q. replace (y ^ 7) with (0 + y * (0 + y * (0 + y * (0 + y * (0 + y * (0 + y * (0 + y * (1 + y * 0)))))))) by ring. lra. }
    set (p := y ^ 7) in *. set (e := exp_series y) in *. split.
    - apply (Rmult_le_reg_r e); [lra|]. replace (- (p / 5040) / e * e) with (- (p / 5040)) by (field; lra). lra.
    - apply (Rmult_le_reg_r e); [lra|]. replace (- (p / 5040) / e * e) with (- (p / 5040)) by (field; lra). lra. }
  assert (Z : f 0 = 0) by (unfold f, exp_series; replace (exp_poly 0 * (0 * 0) + 0 + 1) with 1 by ring; rewrite ln_1; ring).
  change (ln (exp_series x) - x) with (f x).
  destruct (Rle_dec 0 x) as [P|P].
  - pose proof (mean_value f f' (6 / 10000000) 0 x P ltac:(lra) ltac:(intros y Hy; apply D; lra) ltac:(intros y Hy; apply B; lra)). lra.
  - pose proof (mean_value f f' (6 / 10000000) x 0 ltac:(lra) ltac:(lra) ltac:(intros y Hy; apply D; lra) ltac:(intros y Hy; apply B; lra)). lra.
Qed.

(** ** The logarithm of two *)
Lemma ln_quotient a b : 0 < a -> 0 < b -> ln (a / b) = ln a - ln b.
Proof. intros A B. unfold Rdiv. rewrite ln_mult, ln_Rinv; [ring|exact B|exact A|apply Rinv_0_lt_compat, B]. Qed.

Lemma ln2_value : Rabs (ln 2 - ln2) <= 1 / 1000000.
Proof.
  set (w := 34657359 / 100000000).
  pose proof (exp_accurate w ltac:(unfold w; lra)) as A. destruct (Rabs_le_both _ _ A) as [A1 A2].
  pose proof (exp_series_range w ltac:(unfold w; lra)) as B.
  set (t := exp_series w) in *.
  assert (T : 2 - 1 / 10000000 <= t * t <= 2 + 1 / 10000000).
  { unfold t. rewrite exp_series_list. unfold exp_list, w. cbn [peval]. lra. }
  assert (E : ln (t * t) = 2 * ln t) by (rewrite ln_mult by lra; ring).
  assert (L : forall z, 0 < z -> ln z <= z - 1).
  { intros z Hz. pose proof (exp_ineq1_le (ln z)) as X. rewrite exp_ln in X by exact Hz. lra. }
  assert (U : ln 2 - ln (t * t) <= 2 / (t * t) - 1) by (rewrite <- ln_quotient by lra; apply L; apply Rdiv_lt_0_compat; lra).
  assert (V : ln (t * t) - ln 2 <= t * t / 2 - 1) by (rewrite <- ln_quotient by lra; apply L; apply Rdiv_lt_0_compat; lra).
  assert (U' : 2 / (t * t) <= 1 + 1 / 10000000).
  { apply (Rmult_le_reg_r (t * t)); [lra|]. replace (2 / (t * t) * (t * t)) with 2 by (field; nra). lra. }
  apply Rabs_le. unfold ln2, w in *. lra.
Qed.

(** ** The result *)

(** Argument and exponent of the logarithm. *)
Definition reduced (x : R) : R :=
  (if Rlt_dec half_sqrt2 (fraction_2 x) then fraction_2 x else fraction_2 x + fraction_2 x) - 1.
Definition shifted_exponent (x : R) : Z :=
  if Rlt_dec half_sqrt2 (fraction_2 x) then (exponent x + 1)%Z else exponent x.

Lemma reduced_range x : 0 < x -> - (293 / 1000) <= reduced x <= 41422 / 100000.
Proof.
  intros H. pose proof (fraction_range x H). unfold reduced. destruct (Rlt_dec _ _); unfold half_sqrt2 in *; lra.
Qed.

Lemma reduced_split x : 0 < x -> x = (1 + reduced x) * powerRZ 2 (shifted_exponent x).
Proof.
  intros H. unfold reduced, shifted_exponent, fraction_2. pose proof (two_pow_pos (exponent x)) as P.
  destruct (Rlt_dec _ _); rewrite !two_pow_S; field; lra.
Qed.

Lemma ln_split x : 0 < x -> ln x = ln (1 + reduced x) + IZR (shifted_exponent x) * ln 2.
Proof.
  intros H. pose proof (reduced_range x H). rewrite (reduced_split x H) at 1.
  rewrite ln_mult, ln_two_pow; [reflexivity|lra|apply two_pow_pos].
Qed.

(** The parts in terms of the series; all compensations vanish. *)
Definition first (x y : R) : Z := nearest (IZR (shifted_exponent x) * y).
Definition second (x y : R) : Z := nearest (log_series (reduced x) * y * log2e).
Definition rest (x y : R) : R :=
  log_series (reduced x) * y - IZR (second x y) * ln2f_hi + (IZR (shifted_exponent x) * y - IZR (first x y)) * ln2.
Definition third (x y : R) : Z := nearest (rest x y * log2e).
Definition last (x y : R) : R := rest x y - IZR (third x y) * ln2.

Lemma parts_eq x y : parts x y = ((first x y + second x y + third x y)%Z, exp_series (last x y)).
Proof.
  unfold parts.
  assert (EF : (if (if Rlt_dec half_sqrt2 (fraction_2 x) then true else false) then IZR (exponent x) + 1 else IZR (exponent x))
               = IZR (shifted_exponent x)).
  { unfold shifted_exponent. destruct (Rlt_dec _ _); [rewrite plus_IZR|]; reflexivity. }
  assert (EX : (if (if Rlt_dec half_sqrt2 (fraction_2 x) then true else false) then fraction_2 x else fraction_2 x + fraction_2 x) - 1
               = reduced x).
  { unfold reduced. destruct (Rlt_dec _ _); reflexivity. }
  rewrite EF, EX. cbn zeta. fold (first x y).
  assert (EL : - (1 / 2 * (reduced x * reduced x)) + reduced x + log_poly (reduced x) * (reduced x * reduced x * reduced x) = log_series (reduced x))
    by reflexivity.
  rewrite EL. fold (second x y).
  set (v := log_series (reduced x) * y - _ - _).
  assert (EV : v = rest x y).
  { unfold v, rest. rewrite <- EL. field. }
  rewrite EV. fold (third x y). reflexivity.
Qed.

(** Size of the numbers. *)
Lemma ln2_between : 693146 / 1000000 <= ln 2 <= 693149 / 1000000.
Proof. pose proof (Rabs_le_both _ _ ln2_value) as H. unfold ln2 in H. lra. Qed.

Lemma log_size x : 0 < x -> Rabs (log_series (reduced x)) <= 34687 / 100000.
Proof.
  intros H. pose proof (reduced_range x H) as R. pose proof (Rabs_le_both _ _ (log_accurate _ R)) as A.
  pose proof ln2_between as L2.
  assert (LE : forall z, 0 < z -> ln z <= z - 1).
  { intros z Hz. pose proof (exp_ineq1_le (ln z)) as X. rewrite exp_ln in X by exact Hz. lra. }
  set (t := 1 + reduced x) in *. assert (T : 707 / 1000 <= t <= 141422 / 100000) by (unfold t; lra).
  assert (E : ln (t * t) = 2 * ln t) by (rewrite ln_mult by lra; ring).
  assert (U : ln (t * t) - ln 2 <= t * t / 2 - 1) by (rewrite <- ln_quotient by nra; apply LE; apply Rdiv_lt_0_compat; nra).
  assert (V : - ln 2 - ln (t * t) <= 1 / 2 / (t * t) - 1).
  { replace (- ln 2) with (ln (1 / 2)) by (unfold Rdiv; rewrite Rmult_1_l, ln_Rinv; lra).
    rewrite <- ln_quotient by nra. apply LE. apply Rdiv_lt_0_compat; nra. }
  assert (V' : 1 / 2 / (t * t) <= 10004 / 10000).
  { apply (Rmult_le_reg_r (t * t)); [nra|]. replace (1 / 2 / (t * t) * (t * t)) with (1 / 2) by (field; nra). nra. }
  assert (U' : t * t <= 20001 / 10000) by nra.
  apply Rabs_le. lra.
Qed.

Lemma second_size x y : 0 < x -> Rabs (IZR (second x y)) <= 50044 / 100000 * Rabs y + 1 / 2.
Proof.
  intros H. pose proof (log_size x H) as L. unfold second.
  set (l := log_series (reduced x)) in *. pose proof (nearest_spec (l * y * log2e)) as N. set (n := nearest _) in *.
  assert (P : Rabs (l * y * log2e) <= 50044 / 100000 * Rabs y).
  { rewrite !Rabs_mult. pose proof (Rabs_pos y). pose proof (Rabs_pos l). rewrite (Rabs_right log2e) by (unfold log2e; lra).
    unfold log2e. nra. }
  apply Rabs_le_both in P. apply Rabs_le. lra.
Qed.

(** The remainder before the last reduction. *)
Lemma rest_size x y : 0 < x -> Rabs (rest x y) <= 7 / 10 + 12 / 100000 * Rabs y.
Proof.
  intros H. pose proof (second_size x y H) as S2. unfold rest, second in *.
  set (l := log_series (reduced x) * y) in *. pose proof (nearest_spec (l * log2e)) as N. set (n := nearest (l * log2e)) in *.
  unfold first. set (a := IZR (shifted_exponent x) * y). pose proof (nearest_spec a) as M. set (m := nearest a) in *.
  apply Rabs_le_both in S2. pose proof (Rabs_pos y) as P. apply Rabs_le.
  assert (E : l = (l * log2e) * (8388608 / 12102203)) by (unfold log2e; field).
  set (w := l * log2e) in *. rewrite E. unfold ln2f_hi, ln2. lra.
Qed.

Lemma third_size x y : 0 < x -> Rabs (IZR (third x y)) <= 2 + 18 / 100000 * Rabs y.
Proof.
  intros H. pose proof (Rabs_le_both _ _ (rest_size x y H)) as S. unfold third.
  pose proof (nearest_spec (rest x y * log2e)) as N. set (n := nearest _) in *. pose proof (Rabs_pos y). apply Rabs_le.
  unfold log2e in *. lra.
Qed.

Lemma last_range x y : 0 < x -> Rabs y <= 1000000 -> - (2 / 5) <= last x y <= 2 / 5.
Proof.
  intros H Hy. pose proof (Rabs_le_both _ _ (third_size x y H)) as S. unfold last, third in *.
  pose proof (nearest_spec (rest x y * log2e)) as N. set (n := nearest _) in *.
  assert (E : rest x y = (rest x y * log2e) * (8388608 / 12102203)) by (unfold log2e; field).
  set (w := rest x y * log2e) in *. rewrite E. unfold ln2. lra.
Qed.

(** The logarithm of the result differs from that of the power by 2e-4 (|y| + 1) at most. *)
Lemma parts_accurate x y ee z : 0 < x -> Rabs y <= 1000000 -> parts x y = (ee, z) ->
  3 / 5 <= z <= 3 / 2 /\ Rabs (ln (z * powerRZ 2 ee) - y * ln x) <= 2 / 10000 * (Rabs y + 1).
Proof.
  intros H Hy E. rewrite parts_eq in E. injection E as <- <-.
  pose proof (last_range x y H Hy) as LR. pose proof (exp_series_range _ LR) as ER. split; [exact ER|].
  pose proof (Rabs_le_both _ _ (exp_accurate _ LR)) as EA.
  pose proof (Rabs_le_both _ _ (log_accurate _ (reduced_range x H))) as LA.
  rewrite ln_mult, ln_two_pow by (try apply two_pow_pos; lra). rewrite (ln_split x H). rewrite !plus_IZR.
  pose proof (Rabs_le_both _ _ (second_size x y H)) as S2. pose proof (Rabs_le_both _ _ (third_size x y H)) as S3.
  pose proof (nearest_spec (IZR (shifted_exponent x) * y)) as N1. fold (first x y) in N1.
  set (lz := ln (exp_series (last x y))) in *.
  unfold last, rest in EA. 
  set (e1 := IZR (first x y)) in *. set (e2 := IZR (second x y)) in *. set (e3 := IZR (third x y)) in *.
  set (l := log_series (reduced x)) in *. set (t := ln (1 + reduced x)) in *. set (k := IZR (shifted_exponent x)) in *.
  pose proof ln2_between as B2. pose proof (Rabs_le_both _ _ ln2_value) as B3.
  set (L := ln 2) in *.
  pose proof (Rabs_pos y) as Py.
  assert (D : Rabs (y * (l - t)) <= 9 / 100000 * Rabs y).
  { rewrite Rabs_mult, Rmult_comm. apply Rmult_le_compat_r; [exact Py|]. apply Rabs_le. lra. }
  apply Rabs_le_both in D.
  replace (lz + (e1 + e2 + e3) * L - y * (t + k * L))
    with ((lz - (l * y - e2 * ln2f_hi + (k * y - e1) * ln2 - e3 * ln2)) + y * (l - t) + e2 * (L - ln2f_hi) + (e3 - (k * y - e1)) * (L - ln2)) by ring.
  assert (Q2 : Rabs (e2 * (L - ln2f_hi)) <= (50044 / 100000 * Rabs y + 1 / 2) * (2134 / 10000000)).
  { rewrite Rabs_mult. apply Rmult_le_compat; try apply Rabs_pos; apply Rabs_le; unfold ln2f_hi; lra. }
  assert (Q3 : Rabs ((e3 - (k * y - e1)) * (L - ln2)) <= (3 + 18 / 100000 * Rabs y) * (1 / 1000000)).
  { rewrite Rabs_mult. apply Rmult_le_compat; try apply Rabs_pos; apply Rabs_le; lra. }
  apply Rabs_le_both in Q2. apply Rabs_le_both in Q3. apply Rabs_le. lra.
Qed.
