(** * The left end of the bracket stays admissible (C24) *)
From Coq Require Import Reals Lra Psatz.
From Verif Require Import Newton NewtonProofs.
Local Open Scope R_scope.

Lemma regularisation_error eps h D d M y :
  0 <= eps -> 0 < h -> Rabs D <= M * h -> Rabs d <= M -> Rabs y <= h ->
  Rabs (y * y * ((D * (1 / (h + eps)) - d) * (1 / (h + eps)) - (D / h - d) / h)) <= 3 * M * eps.
Proof.
  intros He Hh HD Hd Hy.
  set (L := h + eps). assert (HL : 0 < L) by (unfold L; lra).
  assert (HM : 0 <= M) by (assert (X := Rabs_pos d); lra).
  replace ((D * (1 / L) - d) * (1 / L) - (D / h - d) / h) with
    ((d / (L * h) - D * (2 * h + eps) / (L * L * (h * h))) * eps)
    by (unfold L; field; split; unfold L in *; lra).
  assert (Y : Rabs (y * y) <= h * h).
  { rewrite Rabs_mult. apply Rmult_le_compat; try apply Rabs_pos; assumption. }
  rewrite Rabs_mult.
  apply Rle_trans with (h * h * Rabs ((d / (L * h) - D * (2 * h + eps) / (L * L * (h * h))) * eps)).
  { apply Rmult_le_compat_r; [apply Rabs_pos|exact Y]. }
  rewrite Rabs_mult, (Rabs_right eps) by lra.
  assert (A1 : Rabs (d / (L * h)) <= M / (L * h)).
  { unfold Rdiv. rewrite Rabs_mult, (Rabs_right (/ (L * h))).
    - apply Rmult_le_compat_r; [left; apply Rinv_0_lt_compat; nra|exact Hd].
    - apply Rle_ge. left. apply Rinv_0_lt_compat; nra. }
  assert (HP : 0 < L * L * (h * h)).
  { apply Rmult_lt_0_compat; apply Rmult_lt_0_compat; lra. }
  assert (A2 : Rabs (D * (2 * h + eps) / (L * L * (h * h))) <= M * h * (2 * h + eps) / (L * L * (h * h))).
  { unfold Rdiv. rewrite Rabs_mult, (Rabs_right (/ (L * L * (h * h)))).
    - apply Rmult_le_compat_r; [left; apply Rinv_0_lt_compat; exact HP|].
      rewrite Rabs_mult, (Rabs_right (2 * h + eps)) by lra.
      apply Rmult_le_compat_r; lra.
    - apply Rle_ge. left. apply Rinv_0_lt_compat; exact HP. }
  assert (A3 : Rabs (d / (L * h) - D * (2 * h + eps) / (L * L * (h * h))) <=
               M / (L * h) + M * h * (2 * h + eps) / (L * L * (h * h))).
  { unfold Rminus. eapply Rle_trans; [apply Rabs_triang|]. rewrite Rabs_Ropp. lra. }
  apply Rle_trans with (h * h * (M / (L * h) + M * h * (2 * h + eps) / (L * L * (h * h))) * eps).
  { rewrite <- Rmult_assoc. apply Rmult_le_compat_r; [lra|].
    apply Rmult_le_compat_l; [nra|exact A3]. }
  apply Rmult_le_compat_r; [lra|].
  replace (h * h * (M / (L * h) + M * h * (2 * h + eps) / (L * L * (h * h)))) with
    (M * (h / L) + M * ((h / L) * ((2 * h + eps) / L))) by (field; lra).
  assert (B1 : h / L <= 1).
  { apply Rmult_le_reg_r with L; [lra|]. unfold Rdiv. rewrite Rmult_assoc, Rinv_l by lra. unfold L; lra. }
  assert (B0 : 0 <= h / L) by (apply Rlt_le, Rdiv_lt_0_compat; lra).
  assert (B2 : (2 * h + eps) / L <= 2).
  { apply Rmult_le_reg_r with L; [lra|]. unfold Rdiv. rewrite Rmult_assoc, Rinv_l by lra. unfold L; lra. }
  assert (B3 : 0 <= (2 * h + eps) / L) by (apply Rlt_le, Rdiv_lt_0_compat; lra).
  assert (h / L * ((2 * h + eps) / L) <= 1 * 2) by (apply Rmult_le_compat; lra).
  assert (M * (h / L) <= M * 1) by (apply Rmult_le_compat_l; lra).
  assert (M * (h / L * ((2 * h + eps) / L)) <= M * 2) by (apply Rmult_le_compat_l; lra).
  lra.
Qed.

(** The guard of the right candidate is harmless if the right value is not
    within eps of zero. *)
Lemma guard_inactive eps L f1 f2 d2 :
  0 <= eps -> 0 < L -> 0 <= f1 -> f2 < 0 -> 0 < d2 -> f2 <= - eps * L ->
  let b := (d2 - (f2 - f1) * (1 / L)) * (1 / L) in
  let den := d2 + -1 * sqrt (Rabs (d2 * d2 - 4 * f2 * b)) in
  eps <= Rabs den /\ den <> 0.
Proof.
  intros He HL Hf1 Hf2 Hd Hf b den.
  assert (Hb : b * (L * L) = d2 * L + (f1 - f2)) by (unfold b; field; lra).
  assert (Hbpos : 0 < b).
  { destruct (Rlt_le_dec 0 b); [assumption|]. nra. }
  set (disc := d2 * d2 - 4 * f2 * b) in *.
  assert (Hdisc : 0 < disc) by (unfold disc; nra).
  assert (Hs := sqrt_abs_sq disc). assert (Hs0 := sqrt_pos (Rabs disc)).
  unfold den in *. set (s := sqrt (Rabs disc)) in *. clearbody s.
  rewrite Rabs_right in Hs by lra.
  assert (K : 2 * d2 * eps + eps * eps <= 4 * (- f2) * b).
  { apply Rmult_le_reg_r with (L * L); [nra|].
    replace (4 * - f2 * b * (L * L)) with (4 * (- f2) * (b * (L * L))) by ring.
    rewrite Hb.
    assert (0 <= eps * L) by nra.
    assert (A : eps * L * (eps * L) <= (- f2) * (f1 - f2)) by (apply Rmult_le_compat; lra).
    assert (B : (eps * L) * (d2 * L) <= (- f2) * (d2 * L)).
    { apply Rmult_le_compat_r; [nra|lra]. }
    assert (0 <= eps * L * (d2 * L)) by (apply Rmult_le_pos; nra).
    assert (0 <= eps * L * (eps * L)) by (apply Rmult_le_pos; nra).
    nra. }
  assert (S : d2 + eps <= s).
  { destruct (Rle_lt_dec (d2 + eps) s); [assumption|].
    assert (s * s < (d2 + eps) * (d2 + eps)) by nra.
    unfold disc in Hs. nra. }
  assert (S1 : d2 < s).
  { destruct (Rlt_le_dec d2 s); [assumption|].
    assert (s * s <= d2 * d2) by nra. unfold disc in Hs. nra. }
  split.
  - rewrite Rabs_left by lra. lra.
  - lra.
Qed.

Section Main.
  Variables (eps : R) (psi psi1 psi2 psi3 : R -> R) (p1 p2 : R).
  Hypothesis He : 0 <= eps.
  Hypothesis D1 : forall x, p1 <= x <= p2 -> derivable_pt_lim psi x (psi1 x).
  Hypothesis D2 : forall x, p1 <= x <= p2 -> derivable_pt_lim psi1 x (psi2 x).
  Hypothesis D3 : forall x, p1 <= x <= p2 -> derivable_pt_lim psi2 x (psi3 x).

  Section Proper.
  Hypothesis Hp : p1 < p2.
  Variable M : R.
  Hypothesis HM : forall x, p1 <= x <= p2 -> Rabs (psi1 x) <= M.

  Lemma psi_diff : Rabs (psi p2 - psi p1) <= M * (p2 - p1).
  Proof using Hp D1 HM.
    destruct (MVT_cor2 psi psi1 p1 p2 Hp) as (c & E & Hc); [intros; apply D1; lra|].
    rewrite E, Rabs_mult, (Rabs_right (p2 - p1)) by lra.
    apply Rmult_le_compat_r; [lra|]. apply HM. lra.
  Qed.

  Let L := p2 - p1 + eps.
  Let dd := (psi p2 - psi p1) * (1 / L).
  Let b1 := (dd - psi1 p1) * (1 / L).
  Let b2 := (psi1 p2 - dd) * (1 / L).
  Let h := p2 - p1.
  Let DD := (psi p2 - psi p1) / h.

  Lemma err1 x : p1 <= x <= p2 ->
    Rabs (quad p1 (psi p1) (psi1 p1) b1 x - quad p1 (psi p1) (psi1 p1) ((DD - psi1 p1) / h) x)
      <= 3 * M * eps.
  Proof using He Hp D1 HM.
    intros Hx.
    assert (R := regularisation_error eps (p2 - p1) (psi p2 - psi p1) (psi1 p1) M (x - p1) He
      ltac:(lra) psi_diff (HM p1 ltac:(lra)) ltac:(rewrite Rabs_right; lra)).
    unfold quad, b1, dd, DD, L, h.
    match goal with |- Rabs ?a <= _ => match type of R with Rabs ?b <= _ =>
      replace a with b by ring end end. exact R.
  Qed.

  Lemma err2 x : p1 <= x <= p2 ->
    Rabs (quad p2 (psi p2) (psi1 p2) b2 x - quad p2 (psi p2) (psi1 p2) ((psi1 p2 - DD) / h) x)
      <= 3 * M * eps.
  Proof using He Hp D1 HM.
    intros Hx.
    assert (R := regularisation_error eps (p2 - p1) (psi p2 - psi p1) (psi1 p2) M (x - p2) He
      ltac:(lra) psi_diff (HM p2 ltac:(lra)) ltac:(rewrite Rabs_left1; lra)).
    rewrite <- Rabs_Ropp in R.
    unfold quad, b2, dd, DD, L, h.
    match goal with |- Rabs ?a <= _ => match type of R with Rabs ?b <= _ =>
      replace a with b by (field; lra) end end. exact R.
  Qed.

  Let t1 := clamp p1 p2 (newton_candidate eps (-1) p1 (psi p1) (psi1 p1) b1).
  Let t2 := clamp p1 p2 (newton_candidate eps (-1) p2 (psi p2) (psi1 p2) b2).

  Lemma M_pos : 0 <= M.
  Proof using Hp HM.
    assert (X := Rabs_pos (psi1 p1)). assert (Y := HM p1 ltac:(lra)). lra.
  Qed.

  Lemma left_of_t1 x :
    (forall x, p1 <= x <= p2 -> psi3 x <= 0) ->
    0 <= psi p1 -> p1 <= x <= t1 -> - (3 * M * eps) <= psi x.
  Proof using He Hp D1 D2 D3 HM.
    intros S H0 Hx.
    assert (Hxp : p1 <= x <= p2).
    { split; [lra|]. eapply Rle_trans; [apply Hx|]. apply clamp_range. lra. }
    assert (A := left_quad_nonneg eps p1 p2 (psi p1) (psi1 p1) b1 x H0 (proj1 Hx) (proj2 Hx)).
    assert (B := psi_ge_q112 psi psi1 psi2 psi3 p1 p2 Hp D1 D2 D3 S x Hxp).
    assert (C := err1 x Hxp). apply Rabs_le_inv in C || idtac.
    cbv zeta in B. fold h in B. fold DD in B.
    assert (C' := Rle_trans _ _ _ (Rle_abs _) C). lra.
  Qed.

  Lemma left_of_t2 x :
    (forall x, p1 <= x <= p2 -> 0 <= psi3 x) ->
    0 <= psi p1 -> psi p2 <= 0 ->
    (psi1 p2 <= 0 \/ (psi p2 < 0 /\ psi p2 <= - eps * (p2 - p1 + eps))) ->
    p1 <= x <= t2 -> - ((9 * M + 2 * (p2 - p1)) * eps) <= psi x.
  Proof using He Hp D1 D2 D3 HM.
    intros S H0 H2 Hopt Hx.
    assert (Hxp : p1 <= x <= p2).
    { split; [lra|]. eapply Rle_trans; [apply Hx|]. apply clamp_range. lra. }
    assert (HM0 := M_pos).
    assert (Hme : 0 <= 3 * M * eps) by (apply Rmult_le_pos; lra).
    assert (B := psi_ge_q122 psi psi1 psi2 psi3 p1 p2 Hp D1 D2 D3 S x Hxp).
    cbv zeta in B. fold h in B. fold DD in B.
    assert (C := err2 x Hxp).
    assert (C' := Rle_trans _ _ _ (Rle_abs _) C).
    assert (E1 := err2 p1 ltac:(lra)).
    rewrite <- Rabs_Ropp in E1.
    assert (E1' := Rle_trans _ _ _ (Rle_abs _) E1).
    assert (Q := q122_left psi psi1 p1 p2 Hp). cbv zeta in Q. fold h in Q. fold DD in Q.
    assert (A := right_quad_bound eps p1 p2 (psi p2) (psi1 p2) b2 (3 * M * eps) x).
    cbv zeta in A.
    assert (- (2 * (3 * M * eps) + 2 * eps * (p2 - p1)) <= quad p2 (psi p2) (psi1 p2) b2 x).
    { apply A; try assumption; try lra; [|apply Hx].
      destruct Hopt as [Hd|[Hf Hf']]; [left; exact Hd|].
      destruct (Rle_lt_dec (psi1 p2) 0) as [Hd|Hd]; [left; exact Hd|].
      right; right. unfold b2, dd, L.
      apply (guard_inactive eps (p2 - p1 + eps) (psi p1) (psi p2) (psi1 p2)); try assumption; lra. }
    lra.
  Qed.
  End Proper.

  Lemma newton_left_end M q1 q2 :
    p1 <= p2 ->
    (forall x, p1 <= x <= p2 -> Rabs (psi1 x) <= M) ->
    (forall x, p1 <= x <= p2 -> psi3 x <= 0) \/
    ((forall x, p1 <= x <= p2 -> 0 <= psi3 x) /\ psi p2 <= 0 /\
     (psi1 p2 <= 0 \/ (psi p2 < 0 /\ psi p2 <= - eps * (p2 - p1 + eps)))) ->
    0 <= psi p1 ->
    quadratic_newton_step eps (-1) p1 p2 (psi p1) (psi p2) (psi1 p1) (psi1 p2) = (q1, q2) ->
    forall x, p1 <= x <= q1 -> - ((9 * M + 2 * (p2 - p1)) * eps) <= psi x.
  Proof using He D1 D2 D3.
    intros Hp HM S H0 E x Hx.
    assert (HM0 : 0 <= M).
    { assert (X := Rabs_pos (psi1 p1)). assert (Y := HM p1 ltac:(lra)). lra. }
    assert (Hm : 0 <= M * eps) by (apply Rmult_le_pos; lra).
    assert (Hn : 0 <= (p2 - p1) * eps) by (apply Rmult_le_pos; lra).
    destruct (Req_dec p1 p2) as [Hpp|Hpp].
    { apply newton_shrinks in E; [|lra]. replace x with p1 by lra. lra. }
    unfold quadratic_newton_step in E. injection E as E1 E2.
    destruct S as [S|(S & H2 & Hopt)].
    - assert (A := left_of_t1 ltac:(lra) M HM x S H0). cbv zeta in A.
      assert (- (3 * M * eps) <= psi x).
      { apply A. split; [lra|]. eapply Rle_trans; [apply Hx|]. rewrite <- E1. apply Rmin_l. }
      lra.
    - assert (A := left_of_t2 ltac:(lra) M HM x S H0 H2 Hopt). cbv zeta in A.
      apply A. split; [lra|]. eapply Rle_trans; [apply Hx|]. rewrite <- E1. apply Rmin_r.
  Qed.
End Main.

(** ** Exact arithmetic: [eps = 0] *)

Lemma bounded_on psi1 psi2 p1 p2 :
  p1 <= p2 -> (forall x, p1 <= x <= p2 -> derivable_pt_lim psi1 x (psi2 x)) ->
  exists M, forall x, p1 <= x <= p2 -> Rabs (psi1 x) <= M.
Proof.
  intros Hp D.
  assert (C : forall x, p1 <= x <= p2 -> continuity_pt (fun x => Rabs (psi1 x)) x).
  { intros x Hx. apply (continuity_pt_comp psi1 Rabs).
    - apply derivable_continuous_pt. exists (psi2 x). apply D. exact Hx.
    - apply Rcontinuity_abs. }
  destruct (continuity_ab_maj (fun x => Rabs (psi1 x)) p1 p2 Hp C) as (m & Hm & _).
  exists (Rabs (psi1 m)). intros x Hx. apply Hm. exact Hx.
Qed.

Lemma newton_left_end_exact psi psi1 psi2 psi3 p1 p2 q1 q2 :
  p1 <= p2 ->
  (forall x, p1 <= x <= p2 -> derivable_pt_lim psi x (psi1 x)) ->
  (forall x, p1 <= x <= p2 -> derivable_pt_lim psi1 x (psi2 x)) ->
  (forall x, p1 <= x <= p2 -> derivable_pt_lim psi2 x (psi3 x)) ->
  (forall x, p1 <= x <= p2 -> psi3 x <= 0) \/
  ((forall x, p1 <= x <= p2 -> 0 <= psi3 x) /\ psi p2 <= 0 /\
   (psi p2 = 0 -> psi1 p2 <= 0)) ->
  0 <= psi p1 ->
  quadratic_newton_step 0 (-1) p1 p2 (psi p1) (psi p2) (psi1 p1) (psi1 p2) = (q1, q2) ->
  forall x, p1 <= x <= q1 -> 0 <= psi x.
Proof.
  intros Hp D1 D2 D3 S H0 E x Hx.
  destruct (bounded_on psi1 psi2 p1 p2 Hp D2) as [M HM].
  assert (A := newton_left_end 0 psi psi1 psi2 psi3 p1 p2 (Rle_refl 0) D1 D2 D3 M q1 q2 Hp HM).
  assert (- ((9 * M + 2 * (p2 - p1)) * 0) <= psi x).
  { apply A; try assumption.
    destruct S as [S|(S & H2 & Hz)]; [left; exact S|right].
    split; [exact S|]. split; [exact H2|].
    destruct (Req_dec (psi p2) 0) as [Z|Z]; [left; auto|right]. split; lra. }
  lra.
Qed.

Lemma interior_min g dg a b t :
  a < t < b -> derivable_pt_lim g t dg ->
  (forall x, a <= x <= b -> 0 <= g x) -> g t = 0 -> dg = 0.
Proof.
  intros Ht D P Z.
  assert (pr : derivable_pt g t) by (exists dg; exact D).
  assert (E := deriv_minimum g a b t pr ltac:(lra) ltac:(lra)).
  assert (E2 : derive_pt g t pr = dg) by (apply derive_pt_eq; exact D).
  rewrite <- E2. apply E. intros x Hx1 Hx2. rewrite Z. apply P. lra.
Qed.

Lemma clamp_interior p1 p2 t : p1 < clamp p1 p2 t < p2 -> clamp p1 p2 t = t.
Proof.
  unfold clamp, Rmin, Rmax. destruct (Rle_dec p1 t), (Rle_dec p2 _); lra.
Qed.

(** A root taken with the minus sign has slope -s. *)
Lemma root_slope f d b s z :
  s * s = d * d - 4 * f * b -> (d - s) * z = - (2 * f) -> d - s <> 0 ->
  d + 2 * b * z = - s.
Proof.
  intros Hs Hz Hd.
  apply Rmult_eq_reg_l with (d - s); [|exact Hd].
  replace ((d - s) * (d + 2 * b * z)) with ((d - s) * d + 2 * b * ((d - s) * z)) by ring.
  rewrite Hz. nra.
Qed.

Lemma newton_right_end_exact psi psi1 psi2 psi3 p1 p2 q1 q2 :
  p1 <= p2 ->
  (forall x, p1 <= x <= p2 -> derivable_pt_lim psi x (psi1 x)) ->
  (forall x, p1 <= x <= p2 -> derivable_pt_lim psi1 x (psi2 x)) ->
  (forall x, p1 <= x <= p2 -> derivable_pt_lim psi2 x (psi3 x)) ->
  (forall x, p1 <= x <= p2 -> 0 <= psi3 x) -> psi p2 <= 0 ->
  (psi p2 = 0 -> psi1 p2 <= 0) ->
  0 <= psi p1 ->
  quadratic_newton_step 0 (-1) p1 p2 (psi p1) (psi p2) (psi1 p1) (psi1 p2) = (q1, q2) ->
  q1 = q2 \/ (psi q2 = 0 -> psi1 q2 <= 0).
Proof.
  intros Hp D1 D2 D3 S H2 Hz H0 E.
  assert (R := newton_shrinks _ _ _ _ _ _ _ _ _ _ Hp E).
  destruct (Req_dec p1 p2) as [Hpp|Hpp]; [left; lra|].
  assert (Hlt : p1 < p2) by lra.
  unfold quadratic_newton_step in E. injection E as E1 E2.
  replace (p2 - p1 + 0) with (p2 - p1) in * by ring.
  set (DD := (psi p2 - psi p1) * (1 / (p2 - p1))) in *.
  destruct (Req_dec q2 p1) as [Q1|Q1]; [left; lra|].
  destruct (Req_dec q2 p2) as [Q2|Q2]; [right; rewrite Q2; exact Hz|].
  right. intros Zq.
  set (b1 := (DD - psi1 p1) * (1 / (p2 - p1))) in *.
  set (b2 := (psi1 p2 - DD) * (1 / (p2 - p1))) in *.
  set (c1 := newton_candidate 0 (-1) p1 (psi p1) (psi1 p1) b1) in *.
  set (c2 := newton_candidate 0 (-1) p2 (psi p2) (psi1 p2) b2) in *.
  destruct (Rle_dec (clamp p1 p2 c1) (clamp p1 p2 c2)) as [Hm|Hm].
  - rewrite Rmax_right in E2 by exact Hm.
    assert (Ec : clamp p1 p2 c2 = c2) by (apply clamp_interior; lra).
    rewrite Ec in E2. unfold c2, newton_candidate, mask_lt in E2.
    assert (Hs := sqrt_abs_sq (psi1 p2 * psi1 p2 - 4 * psi p2 * b2)).
    assert (Hs0 := sqrt_pos (Rabs (psi1 p2 * psi1 p2 - 4 * psi p2 * b2))).
    set (s := sqrt (Rabs (psi1 p2 * psi1 p2 - 4 * psi p2 * b2))) in *. clearbody s.
    destruct (Rlt_dec _ _) as [C|_]; [assert (X := Rabs_pos (psi1 p2 + -1 * s)); lra|].
    set (den := psi1 p2 + -1 * s) in *.
    destruct (Req_dec den 0) as [Hden|Hden].
    { exfalso. rewrite Hden in E2. unfold Rdiv in E2. rewrite Rinv_0 in E2. lra. }
    assert (Ez := Rdiv_mult_r (2 * psi p2) den Hden).
    set (z := 2 * psi p2 / den) in *. clearbody z.
    assert (Eq : q2 = p2 - z) by lra.
    assert (Hf : psi p2 < 0) by nra.
    assert (Ql := q122_left psi psi1 p1 p2 Hlt).
    assert (Hq := psi_ge_q122 psi psi1 psi2 psi3 p1 p2 Hlt D1 D2 D3 S).
    replace ((psi1 p2 - (psi p2 - psi p1) / (p2 - p1)) / (p2 - p1)) with b2 in *
      by (unfold b2, DD; field; lra).
    cbv zeta in Ql, Hq.
    replace ((psi1 p2 - (psi p2 - psi p1) / (p2 - p1)) / (p2 - p1)) with b2 in *
      by (unfold b2, DD; field; lra).
    destruct (Rlt_le_dec (psi1 p2 * psi1 p2 - 4 * psi p2 * b2) 0) as [Hd|Hd].
    { exfalso. set (y := p1 - p2). unfold quad in Ql. fold y in Ql.
      assert (4 * psi p2 * (psi p2 + psi1 p2 * y + b2 * (y * y)) =
        (2 * psi p2 + psi1 p2 * y) * (2 * psi p2 + psi1 p2 * y) +
        - (psi1 p2 * psi1 p2 - 4 * psi p2 * b2) * (y * y)) by ring.
      assert (0 <= (2 * psi p2 + psi1 p2 * y) * (2 * psi p2 + psi1 p2 * y)) by apply Rle_0_sqr.
      assert (0 < y * y) by (unfold y; nra).
      assert (0 < - (psi1 p2 * psi1 p2 - 4 * psi p2 * b2) * (y * y)) by nra. nra. }
    rewrite Rabs_right in Hs by lra.
    assert (Sl := root_slope (psi p2) (psi1 p2) b2 s (- z) Hs).
    replace (psi1 p2 - s) with den in Sl by (unfold den; ring).
    specialize (Sl ltac:(lra) Hden).
    assert (Qz : quad p2 (psi p2) (psi1 p2) b2 q2 = 0).
    { unfold quad. rewrite Eq. replace (p2 - z - p2) with (- z) by ring.
      replace (psi p2 + psi1 p2 * - z + b2 * (- z * - z)) with
        (psi p2 + (- z) * (psi1 p2 + (psi1 p2 + 2 * b2 * - z)) / 2) by field.
      rewrite Sl. unfold den in Ez. nra. }
    assert (G := interior_min (fun x => psi x - quad p2 (psi p2) (psi1 p2) b2 x)
      (psi1 q2 - (psi1 p2 + 2 * b2 * (q2 - p2))) p1 p2 q2 ltac:(lra)).
    assert (psi1 q2 - (psi1 p2 + 2 * b2 * (q2 - p2)) = 0).
    { apply G.
      - apply derivable_pt_lim_minus; [apply D1; lra|apply quad_deriv].
      - intros x Hx. assert (X := Hq x Hx). lra.
      - lra. }
    replace (q2 - p2) with (- z) in H by lra. lra.
  - rewrite Rmax_left in E2 by lra.
    assert (Ec : clamp p1 p2 c1 = c1) by (apply clamp_interior; lra).
    rewrite Ec in E2. unfold c1, newton_candidate, mask_lt in E2.
    assert (Hs := sqrt_abs_sq (psi1 p1 * psi1 p1 - 4 * psi p1 * b1)).
    assert (Hs0 := sqrt_pos (Rabs (psi1 p1 * psi1 p1 - 4 * psi p1 * b1))).
    set (s := sqrt (Rabs (psi1 p1 * psi1 p1 - 4 * psi p1 * b1))) in *. clearbody s.
    destruct (Rlt_dec _ _) as [C|_]; [assert (X := Rabs_pos (psi1 p1 + -1 * s)); lra|].
    set (den := psi1 p1 + -1 * s) in *.
    destruct (Req_dec den 0) as [Hden|Hden].
    { exfalso. rewrite Hden in E2. unfold Rdiv in E2. rewrite Rinv_0 in E2. lra. }
    assert (Ez := Rdiv_mult_r (2 * psi p1) den Hden).
    set (z := 2 * psi p1 / den) in *. clearbody z.
    assert (Eq : q2 = p1 - z) by lra.
    assert (Hf : 0 < psi p1) by nra.
    assert (Ql := q112_right psi psi1 p1 p2 Hlt).
    assert (Hq := psi_le_q112 psi psi1 psi2 psi3 p1 p2 Hlt D1 D2 D3 S).
    cbv zeta in Ql, Hq.
    replace (((psi p2 - psi p1) / (p2 - p1) - psi1 p1) / (p2 - p1)) with b1 in *
      by (unfold b1, DD; field; lra).
    destruct (Rlt_le_dec (psi1 p1 * psi1 p1 - 4 * psi p1 * b1) 0) as [Hd|Hd].
    { exfalso. set (y := p2 - p1). unfold quad in Ql. fold y in Ql.
      assert (4 * psi p1 * (psi p1 + psi1 p1 * y + b1 * (y * y)) =
        (2 * psi p1 + psi1 p1 * y) * (2 * psi p1 + psi1 p1 * y) +
        - (psi1 p1 * psi1 p1 - 4 * psi p1 * b1) * (y * y)) by ring.
      assert (0 <= (2 * psi p1 + psi1 p1 * y) * (2 * psi p1 + psi1 p1 * y)) by apply Rle_0_sqr.
      assert (0 < y * y) by (unfold y; nra).
      assert (0 < - (psi1 p1 * psi1 p1 - 4 * psi p1 * b1) * (y * y)) by nra. nra. }
    rewrite Rabs_right in Hs by lra.
    assert (Sl := root_slope (psi p1) (psi1 p1) b1 s (- z) Hs).
    replace (psi1 p1 - s) with den in Sl by (unfold den; ring).
    specialize (Sl ltac:(lra) Hden).
    assert (Qz : quad p1 (psi p1) (psi1 p1) b1 q2 = 0).
    { unfold quad. rewrite Eq. replace (p1 - z - p1) with (- z) by ring.
      replace (psi p1 + psi1 p1 * - z + b1 * (- z * - z)) with
        (psi p1 + (- z) * (psi1 p1 + (psi1 p1 + 2 * b1 * - z)) / 2) by field.
      rewrite Sl. unfold den in Ez. nra. }
    assert (G := interior_min (fun x => quad p1 (psi p1) (psi1 p1) b1 x - psi x)
      ((psi1 p1 + 2 * b1 * (q2 - p1)) - psi1 q2) p1 p2 q2 ltac:(lra)).
    assert ((psi1 p1 + 2 * b1 * (q2 - p1)) - psi1 q2 = 0).
    { apply G.
      - apply derivable_pt_lim_minus; [apply quad_deriv|apply D1; lra].
      - intros x Hx. assert (X := Hq x Hx). lra.
      - lra. }
    replace (q2 - p1) with (- z) in H by lra. lra.
Qed.
