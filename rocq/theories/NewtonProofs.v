(** * Lemmas about the quadratic Newton step *)
From Coq Require Import Reals Lra Psatz.
From Verif Require Import Newton.
Local Open Scope R_scope.

(** ** C23 *)

Lemma clamp_range p1 p2 t : p1 <= p2 -> p1 <= clamp p1 p2 t <= p2.
Proof.
  intros H. unfold clamp. split.
  - apply Rmin_glb; [lra|apply Rmax_l].
  - apply Rmin_l.
Qed.

Lemma newton_shrinks eps sign p1 p2 f1 f2 d1 d2 q1 q2 :
  p1 <= p2 ->
  quadratic_newton_step eps sign p1 p2 f1 f2 d1 d2 = (q1, q2) ->
  p1 <= q1 /\ q1 <= q2 /\ q2 <= p2.
Proof.
  intros H E. unfold quadratic_newton_step in E.
  injection E as <- <-.
  match goal with |- p1 <= Rmin ?a ?b /\ _ => set (t1 := a); set (t2 := b) end.
  assert (H1 : p1 <= t1 <= p2) by (apply clamp_range; lra).
  assert (H2 : p1 <= t2 <= p2) by (apply clamp_range; lra).
  clearbody t1 t2. unfold Rmin, Rmax.
  destruct (Rle_dec t1 t2); lra.
Qed.

(** ** Interpolation error signs *)

Section Interp.
  Variables (g g1 g2 : R -> R) (a b : R).
  Hypothesis D1 : forall x, a <= x <= b -> derivable_pt_lim g x (g1 x).
  Hypothesis D2 : forall x, a <= x <= b -> derivable_pt_lim g1 x (g2 x).

  Lemma mvt0 u v : a <= u -> u < v -> v <= b ->
    exists c, u < c < v /\ g v - g u = g1 c * (v - u).
  Proof using D1.
    intros Hu Huv Hv.
    destruct (MVT_cor2 g g1 u v Huv) as (c & E & Hc).
    { intros c Hc. apply D1. lra. }
    exists c. split; [lra|exact E].
  Qed.

  Lemma mvt1 u v : a <= u -> u < v -> v <= b ->
    exists c, u < c < v /\ g1 v - g1 u = g2 c * (v - u).
  Proof using D2.
    intros Hu Huv Hv.
    destruct (MVT_cor2 g1 g2 u v Huv) as (c & E & Hc).
    { intros c Hc. apply D2. lra. }
    exists c. split; [lra|exact E].
  Qed.

  Lemma interp_left :
    g a = 0 -> g1 a = 0 -> g b = 0 ->
    (forall x y, a <= x <= y -> y <= b -> g2 y <= g2 x) ->
    forall x, a <= x <= b -> 0 <= g x.
  Proof using D1 D2.
    intros Ga G1a Gb Mono x Hx.
    destruct (Rle_lt_dec 0 (g x)) as [|Hneg]; [assumption|exfalso].
    assert (a < x) by (destruct (Req_dec a x); [subst; lra|lra]).
    assert (x < b) by (destruct (Req_dec x b); [subst; lra|lra]).
    destruct (mvt0 a x) as (c1 & Hc1 & E1); try lra.
    assert (G1 : g1 c1 < 0) by nra.
    destruct (mvt1 a c1) as (e1 & He1 & F1); try lra.
    assert (G2 : g2 e1 < 0) by nra.
    destruct (mvt0 x b) as (c2 & Hc2 & E2); try lra.
    assert (G3 : g1 c2 > 0) by nra.
    destruct (mvt1 c1 c2) as (e2 & He2 & F2); try lra.
    assert (G4 : g2 e2 > 0) by nra.
    assert (g2 e2 <= g2 e1) by (apply Mono; lra). lra.
  Qed.

  Lemma interp_right :
    g a = 0 -> g b = 0 -> g1 b = 0 ->
    (forall x y, a <= x <= y -> y <= b -> g2 x <= g2 y) ->
    forall x, a <= x <= b -> 0 <= g x.
  Proof using D1 D2.
    intros Ga Gb G1b Mono x Hx.
    destruct (Rle_lt_dec 0 (g x)) as [|Hneg]; [assumption|exfalso].
    assert (a < x) by (destruct (Req_dec a x); [subst; lra|lra]).
    assert (x < b) by (destruct (Req_dec x b); [subst; lra|lra]).
    destruct (mvt0 x b) as (c1 & Hc1 & E1); try lra.
    assert (G1 : g1 c1 > 0) by nra.
    destruct (mvt1 c1 b) as (e1 & He1 & F1); try lra.
    assert (G2 : g2 e1 < 0) by nra.
    destruct (mvt0 a x) as (c2 & Hc2 & E2); try lra.
    assert (G3 : g1 c2 < 0) by nra.
    destruct (mvt1 c2 c1) as (e2 & He2 & F2); try lra.
    assert (G4 : g2 e2 > 0) by nra.
    assert (g2 e2 <= g2 e1) by (apply Mono; lra). lra.
  Qed.
End Interp.

(** A third derivative of one sign makes the second derivative monotone. *)
Lemma mono_incr (g g1 : R -> R) a b :
  (forall x, a <= x <= b -> derivable_pt_lim g x (g1 x)) ->
  (forall x, a <= x <= b -> 0 <= g1 x) ->
  forall x y, a <= x <= y -> y <= b -> g x <= g y.
Proof.
  intros D P x y Hx Hy.
  destruct (Req_dec x y) as [->|Hne]; [lra|].
  destruct (MVT_cor2 g g1 x y) as (c & E & Hc); [lra|intros; apply D; lra|].
  assert (0 <= g1 c) by (apply P; lra). nra.
Qed.

Lemma mono_decr (g g1 : R -> R) a b :
  (forall x, a <= x <= b -> derivable_pt_lim g x (g1 x)) ->
  (forall x, a <= x <= b -> g1 x <= 0) ->
  forall x y, a <= x <= y -> y <= b -> g y <= g x.
Proof.
  intros D P x y Hx Hy.
  destruct (Req_dec x y) as [->|Hne]; [lra|].
  destruct (MVT_cor2 g g1 x y) as (c & E & Hc); [lra|intros; apply D; lra|].
  assert (g1 c <= 0) by (apply P; lra). nra.
Qed.

(** Quadratic polynomials centered at p. *)
Definition quad (p f d b x : R) : R := f + d * (x - p) + b * ((x - p) * (x - p)).

Lemma quad_deriv p f d b x :
  derivable_pt_lim (quad p f d b) x (d + 2 * b * (x - p)).
Proof.
  unfold quad.
  replace (d + 2 * b * (x - p)) with
    (0 + d * (1 - 0) + b * ((1 - 0) * (x - p) + (x - p) * (1 - 0))) by ring.
  apply derivable_pt_lim_plus; [apply derivable_pt_lim_plus|].
  - apply derivable_pt_lim_const.
  - apply (derivable_pt_lim_scal (fun x => x - p)).
    apply derivable_pt_lim_minus;
      [apply derivable_pt_lim_id|apply derivable_pt_lim_const].
  - apply (derivable_pt_lim_scal (fun x => (x - p) * (x - p))).
    apply (derivable_pt_lim_mult (fun x => x - p) (fun x => x - p));
    apply derivable_pt_lim_minus;
      try apply derivable_pt_lim_id; apply derivable_pt_lim_const.
Qed.

Lemma quad_deriv2 p d b x :
  derivable_pt_lim (fun x => d + 2 * b * (x - p)) x (2 * b).
Proof.
  cut (derivable_pt_lim (fun x => d + 2 * b * (x - p)) x (0 + 2 * b * (1 - 0))).
  { intros H. replace (0 + 2 * b * (1 - 0)) with (2 * b) in H by ring. exact H. }
  apply derivable_pt_lim_plus; [apply derivable_pt_lim_const|].
  apply (derivable_pt_lim_scal (fun x => x - p)).
  apply derivable_pt_lim_minus;
    [apply derivable_pt_lim_id|apply derivable_pt_lim_const].
Qed.

Section Sign.
  Variables (psi psi1 psi2 psi3 : R -> R) (p1 p2 : R).
  Hypothesis Hp : p1 < p2.
  Hypothesis D1 : forall x, p1 <= x <= p2 -> derivable_pt_lim psi x (psi1 x).
  Hypothesis D2 : forall x, p1 <= x <= p2 -> derivable_pt_lim psi1 x (psi2 x).
  Hypothesis D3 : forall x, p1 <= x <= p2 -> derivable_pt_lim psi2 x (psi3 x).

  Let h := p2 - p1.
  Let D := (psi p2 - psi p1) / h.
  (** The exact interpolants. *)
  Let q112 := quad p1 (psi p1) (psi1 p1) ((D - psi1 p1) / h).
  Let q122 := quad p2 (psi p2) (psi1 p2) ((psi1 p2 - D) / h).

  Lemma q112_left : q112 p1 = psi p1.
  Proof using Type. unfold q112, quad. ring. Qed.
  Lemma q112_right : q112 p2 = psi p2.
  Proof using Hp. unfold q112, quad, D, h. field. lra. Qed.
  Lemma q122_right : q122 p2 = psi p2.
  Proof using Type. unfold q122, quad. ring. Qed.
  Lemma q122_left : q122 p1 = psi p1.
  Proof using Hp. unfold q122, quad, D, h. field. lra. Qed.

  Lemma psi_ge_q112 : (forall x, p1 <= x <= p2 -> psi3 x <= 0) ->
    forall x, p1 <= x <= p2 -> q112 x <= psi x.
  Proof using Hp D1 D2 D3.
    intros S x Hx.
    cut (0 <= psi x - q112 x); [lra|].
    revert x Hx.
    apply (interp_left (fun x => psi x - q112 x)
             (fun x => psi1 x - (psi1 p1 + 2 * ((D - psi1 p1) / h) * (x - p1)))
             (fun x => psi2 x - 2 * ((D - psi1 p1) / h)) p1 p2).
    - intros x Hx. apply derivable_pt_lim_minus; [apply D1; exact Hx|apply quad_deriv].
    - intros x Hx. apply derivable_pt_lim_minus; [apply D2; exact Hx|apply quad_deriv2].
    - rewrite q112_left. ring.
    - ring.
    - rewrite q112_right. ring.
    - intros x y Hx Hy.
      assert (psi2 y <= psi2 x) by (apply (mono_decr psi2 psi3 p1 p2); auto). lra.
  Qed.

  Lemma psi_le_q112 : (forall x, p1 <= x <= p2 -> 0 <= psi3 x) ->
    forall x, p1 <= x <= p2 -> psi x <= q112 x.
  Proof using Hp D1 D2 D3.
    intros S x Hx.
    cut (0 <= q112 x - psi x); [lra|].
    revert x Hx.
    apply (interp_left (fun x => q112 x - psi x)
             (fun x => (psi1 p1 + 2 * ((D - psi1 p1) / h) * (x - p1)) - psi1 x)
             (fun x => 2 * ((D - psi1 p1) / h) - psi2 x) p1 p2).
    - intros x Hx. apply derivable_pt_lim_minus; [apply quad_deriv|apply D1; exact Hx].
    - intros x Hx. apply derivable_pt_lim_minus; [apply quad_deriv2|apply D2; exact Hx].
    - rewrite q112_left. ring.
    - ring.
    - rewrite q112_right. ring.
    - intros x y Hx Hy.
      assert (psi2 x <= psi2 y) by (apply (mono_incr psi2 psi3 p1 p2); auto). lra.
  Qed.

  Lemma psi_ge_q122 : (forall x, p1 <= x <= p2 -> 0 <= psi3 x) ->
    forall x, p1 <= x <= p2 -> q122 x <= psi x.
  Proof using Hp D1 D2 D3.
    intros S x Hx.
    cut (0 <= psi x - q122 x); [lra|].
    revert x Hx.
    apply (interp_right (fun x => psi x - q122 x)
             (fun x => psi1 x - (psi1 p2 + 2 * ((psi1 p2 - D) / h) * (x - p2)))
             (fun x => psi2 x - 2 * ((psi1 p2 - D) / h)) p1 p2).
    - intros x Hx. apply derivable_pt_lim_minus; [apply D1; exact Hx|apply quad_deriv].
    - intros x Hx. apply derivable_pt_lim_minus; [apply D2; exact Hx|apply quad_deriv2].
    - rewrite q122_left. ring.
    - rewrite q122_right. ring.
    - ring.
    - intros x y Hx Hy.
      assert (psi2 x <= psi2 y) by (apply (mono_incr psi2 psi3 p1 p2); auto). lra.
  Qed.
End Sign.

(** ** The interpolants between the old left point and the candidates *)

Lemma clamp_gt p1 p2 t x : p1 < x -> x <= clamp p1 p2 t -> x <= t /\ x <= p2.
Proof.
  unfold clamp. intros H1 H2.
  assert (x <= p2) by (eapply Rle_trans; [exact H2|apply Rmin_l]).
  assert (x <= Rmax p1 t) by (eapply Rle_trans; [exact H2|apply Rmin_r]).
  unfold Rmax in *. destruct (Rle_dec p1 t); lra.
Qed.

Lemma sqrt_abs_sq x : sqrt (Rabs x) * sqrt (Rabs x) = Rabs x.
Proof. apply sqrt_sqrt. apply Rabs_pos. Qed.

Lemma Rdiv_mult_r a b : b <> 0 -> a / b * b = a.
Proof. intros; field; assumption. Qed.

Lemma left_quad_nonneg eps p1 p2 f1 d1 b x :
  0 <= f1 -> p1 <= x -> x <= clamp p1 p2 (newton_candidate eps (-1) p1 f1 d1 b) ->
  0 <= quad p1 f1 d1 b x.
Proof.
  intros Hf Hx Hc.
  destruct (Req_dec x p1) as [->|Hne].
  { unfold quad. replace (p1 - p1) with 0 by ring. lra. }
  apply clamp_gt in Hc; [|lra]. destruct Hc as [Hc _].
  unfold newton_candidate, mask_lt in Hc.
  set (disc := d1 * d1 - 4 * f1 * b) in *.
  assert (Hs := sqrt_abs_sq disc). assert (Hs0 := sqrt_pos (Rabs disc)).
  set (s := sqrt (Rabs disc)) in *. clearbody s.
  destruct (Rlt_dec _ _) as [|_]; [lra|].
  set (den := d1 + -1 * s) in *.
  set (y := x - p1).
  assert (Hy : 0 < y) by (unfold y; lra).
  assert (Hyl : y <= - (2 * f1 / den)) by (unfold y; lra).
  assert (Hden0 : den <> 0).
  { intros E. rewrite E in Hyl. unfold Rdiv in Hyl. rewrite Rinv_0 in Hyl. lra. }
  assert (Ez := Rdiv_mult_r (2 * f1) den Hden0).
  set (z := 2 * f1 / den) in *. clearbody z.
  assert (Hden : den < 0) by (destruct (Rlt_dec den 0); [assumption|nra]).
  assert (F1 : 0 <= 2 * f1 + den * y) by nra.
  assert (Hf1 : 0 < f1) by nra.
  unfold quad. fold y.
  apply Rmult_le_reg_l with (4 * f1); [lra|]. rewrite Rmult_0_r.
  destruct (Rle_lt_dec 0 disc) as [Hd|Hd].
  - rewrite Rabs_right in Hs by lra.
    replace (4 * f1 * (f1 + d1 * y + b * (y * y))) with
      ((2 * f1 + den * y) * (2 * f1 + (d1 + s) * y) + (s * s - disc) * (y * y))
      by (unfold den, disc; ring).
    rewrite Hs. unfold Rminus at 1.
    assert (0 <= 2 * f1 + (d1 + s) * y) by (unfold den in *; nra).
    assert (0 <= (2 * f1 + den * y) * (2 * f1 + (d1 + s) * y)) by (apply Rmult_le_pos; lra).
    lra.
  - replace (4 * f1 * (f1 + d1 * y + b * (y * y))) with
      ((2 * f1 + d1 * y) * (2 * f1 + d1 * y) + (- disc) * (y * y))
      by (unfold disc; ring).
    assert (0 <= (2 * f1 + d1 * y) * (2 * f1 + d1 * y)) by apply Rle_0_sqr.
    assert (0 <= - disc * (y * y)) by (apply Rmult_le_pos; nra). lra.
Qed.

Lemma quad_increasing p1 p2 f2 d2 b x :
  0 <= d2 -> b <= 0 -> p1 <= x <= p2 -> quad p2 f2 d2 b p1 <= quad p2 f2 d2 b x.
Proof.
  intros Hd Hb Hx. unfold quad.
  assert (E : forall y0 y, (f2 + d2 * y + b * (y * y)) - (f2 + d2 * y0 + b * (y0 * y0)) =
              (y - y0) * (d2 + b * (y + y0))) by (intros; ring).
  specialize (E (p1 - p2) (x - p2)).
  assert (0 <= (x - p2 - (p1 - p2)) * (d2 + b * (x - p2 + (p1 - p2)))).
  { apply Rmult_le_pos; [lra|]. nra. }
  lra.
Qed.

Lemma right_quad_bound eps p1 p2 f2 d2 b e x :
  let den := d2 + -1 * sqrt (Rabs (d2 * d2 - 4 * f2 * b)) in
  0 <= eps -> p1 < p2 -> f2 <= 0 -> 0 <= e -> - e <= quad p2 f2 d2 b p1 ->
  (d2 <= 0 \/ b <= 0 \/ (eps <= Rabs den /\ den <> 0)) ->
  p1 <= x -> x <= clamp p1 p2 (newton_candidate eps (-1) p2 f2 d2 b) ->
  - (2 * e + 2 * eps * (p2 - p1)) <= quad p2 f2 d2 b x.
Proof.
  intros den Heps Hp Hf He Hq Hopt Hx Hc.
  assert (Hxp : x <= p2) by (eapply Rle_trans; [exact Hc|apply Rmin_l]).
  assert (Heh : 0 <= eps * (p2 - p1)) by (apply Rmult_le_pos; lra).
  destruct (Req_dec x p1) as [->|Hne]; [lra|].
  apply clamp_gt in Hc; [|lra]. destruct Hc as [Hc _].
  assert (Incr : 0 <= d2 -> b <= 0 ->
                 - (2 * e + 2 * eps * (p2 - p1)) <= quad p2 f2 d2 b x).
  { intros A B. assert (Z := quad_increasing p1 p2 f2 d2 b x A B ltac:(lra)). lra. }
  unfold newton_candidate in Hc. fold den in Hc. unfold mask_lt in Hc.
  set (disc := d2 * d2 - 4 * f2 * b) in *.
  assert (Hs := sqrt_abs_sq disc). assert (Hs0 := sqrt_pos (Rabs disc)).
  set (s := sqrt (Rabs disc)) in *. clearbody s.
  set (h := p2 - p1) in *. set (y := x - p2).
  assert (Hy : - h < y <= 0) by (unfold h, y; lra).
  assert (Hh : 0 < h) by (unfold h; lra).
  assert (Q0 : quad p2 f2 d2 b p1 = f2 - d2 * h + b * (h * h)).
  { unfold quad, h. ring. }
  rewrite Q0 in Hq.
  assert (Qx : quad p2 f2 d2 b x = f2 + d2 * y + b * (y * y)) by reflexivity.
  (* concave, with nonpositive slope at p2 *)
  assert (Conc : b <= 0 -> d2 <= 0 -> forall m, 0 <= m -> - m <= f2 ->
            e <= m -> - m <= f2 + d2 * y + b * (y * y)).
  { intros Hb Hd m Hm Hfm Hem.
    assert (E : h * (f2 + d2 * y + b * (y * y)) =
                (- y) * (f2 - d2 * h + b * (h * h)) + (y + h) * f2 +
                (- b) * ((- y) * (h * (y + h)))) by ring.
    assert (0 <= (- b) * ((- y) * (h * (y + h)))).
    { apply Rmult_le_pos; [lra|]. apply Rmult_le_pos; [lra|]. apply Rmult_le_pos; lra. }
    assert ((- y) * (- m) <= (- y) * (f2 - d2 * h + b * (h * h)))
      by (apply Rmult_le_compat_l; lra).
    assert ((y + h) * (- m) <= (y + h) * f2) by (apply Rmult_le_compat_l; lra).
    apply Rmult_le_reg_l with h; [lra|]. rewrite E. lra. }
  destruct (Rlt_dec (Rabs den) eps) as [G|G].
  - (* guard *)
    destruct Hopt as [Hd|[Hb|[Hc1 _]]].
    + assert (Hd' : - eps < den) by (apply Rabs_def2 in G; lra).
      assert (Hd2 : - eps < d2) by (unfold den in Hd'; lra).
      assert (Hse : s < eps) by (unfold den in Hd'; lra).
      rewrite Qx.
      destruct (Rle_lt_dec b 0) as [Hb|Hb].
      * assert (d2 * h <= 0) by nra. assert (b * (h * h) <= 0) by nra.
        assert (- (eps * h) <= d2 * h) by nra.
        apply Conc; lra.
      * assert (D1 : Rabs disc <= eps * eps) by (rewrite <- Hs; nra).
        assert (D0 : disc <= eps * eps) by (eapply Rle_trans; [apply Rle_abs|exact D1]).
        assert (Hfb : - (eps * eps) <= 4 * f2 * b) by (unfold disc in D0; nra).
        assert (Hlow : - (e + 2 * (eps * h)) <= f2).
        { destruct (Rle_lt_dec (b * h) eps) as [Hbh|Hbh].
          - assert (b * (h * h) <= eps * h) by nra.
            assert (- (eps * h) <= d2 * h) by nra. lra.
          - assert (- (eps * h) <= f2).
            { apply Rmult_le_reg_l with (4 * b); [lra|].
              destruct (Req_dec eps 0) as [->|Hne0]; [nra|].
              assert (eps * eps <= eps * (b * h)) by nra. nra. }
            lra. }
        assert (0 <= d2 * y) by nra. assert (0 <= b * (y * y)) by nra. lra.
    + destruct (Rle_lt_dec 0 d2) as [Hd|Hd]; [auto|].
      (* d2 < 0 and b <= 0, guard *)
      assert (Hd' : - eps < den) by (apply Rabs_def2 in G; lra).
      assert (Hd2 : - eps < d2) by (unfold den in Hd'; lra).
      rewrite Qx.
      assert (d2 * h <= 0) by nra. assert (b * (h * h) <= 0) by nra.
      assert (- (eps * h) <= d2 * h) by nra.
      apply Conc; lra.
    + lra.
  - destruct (Rtotal_order den 0) as [Hden|[Hden|Hden]].
    + (* den < 0 *)
      assert (Ez := Rdiv_mult_r (2 * f2) den ltac:(lra)).
      set (z := 2 * f2 / den) in *. clearbody z.
      assert (Hyz : y <= - z) by (unfold y; lra).
      assert (F1 : 0 <= 2 * f2 + den * y) by nra.
      rewrite Qx.
      destruct (Req_dec f2 0) as [Hf0|Hf0].
      { assert (d2 <= 0) by (unfold den, disc in *; subst f2;
          replace (d2 * d2 - 4 * 0 * b) with (d2 * d2) in Hs by ring;
          rewrite Rabs_right in Hs by nra;
          destruct (Rle_lt_dec d2 0); [assumption|nra]).
        destruct (Rle_lt_dec b 0) as [Hb|Hb].
        - apply Conc; lra.
        - subst f2. assert (0 <= d2 * y) by nra. assert (0 <= b * (y * y)) by nra. lra. }
      destruct (Rle_lt_dec 0 disc) as [Hd|Hd].
      * rewrite Rabs_right in Hs by lra.
        assert (E : 4 * f2 * (f2 + d2 * y + b * (y * y)) =
                    (2 * f2 + den * y) * (2 * f2 + (d2 + s) * y)).
        { transitivity ((2 * f2 + den * y) * (2 * f2 + (d2 + s) * y) + (s * s - disc) * (y * y)).
          - unfold den, disc. ring.
          - rewrite Hs. ring. }
        destruct (Rle_lt_dec (2 * f2 + (d2 + s) * y) 0) as [F2|F2].
        -- assert (0 <= f2 + d2 * y + b * (y * y)).
           { destruct (Rle_lt_dec 0 (f2 + d2 * y + b * (y * y))) as [|N]; [assumption|].
             exfalso.
             assert (0 < 4 * f2 * (f2 + d2 * y + b * (y * y))) by nra.
             assert (0 <= (2 * f2 + den * y) * (- (2 * f2 + (d2 + s) * y)))
               by (apply Rmult_le_pos; lra). lra. }
           lra.
        -- assert (Hds : d2 + s < 0) by nra.
           assert (Eb : 4 * f2 * b = den * (d2 + s)).
           { unfold den. unfold disc in Hs. nra. }
           assert (Hb : b < 0).
           { assert (0 < den * (d2 + s)) by nra. nra. }
           assert (Hdy : 0 <= d2 + 2 * b * y).
           { (* 2 f2 (2 b y) = den (d2+s) y *)
             assert (Z : 2 * f2 * (2 * b * y) = den * ((d2 + s) * y)) by nra.
             assert (den * ((d2 + s) * y) <= den * (- 2 * f2)) by nra.
             assert (2 * b * y >= - den).
             { destruct (Rle_lt_dec (- den) (2 * b * y)); [lra|]. nra. }
             unfold den in *. lra. }
           assert (E2 : (f2 + d2 * y + b * (y * y)) - (f2 - d2 * h + b * (h * h)) =
                        (y + h) * (d2 + b * (y - h))) by ring.
           assert (0 <= (y + h) * (d2 + b * (y - h))).
           { apply Rmult_le_pos; [lra|]. nra. }
           lra.
      * rewrite Rabs_left in Hs by lra.
        assert (Hb : b < 0).
        { unfold disc in Hd. assert (0 <= d2 * d2) by nra. nra. }
        assert (E : 4 * f2 * (f2 + d2 * y + b * (y * y)) =
                    (2 * f2 + d2 * y) * (2 * f2 + d2 * y) + (s * y) * (s * y)).
        { transitivity ((2 * f2 + d2 * y) * (2 * f2 + d2 * y) + (- disc) * (y * y)).
          - unfold disc. ring.
          - rewrite <- Hs. ring. }
        assert (F1' : s * y <= 2 * f2 + d2 * y) by (unfold den in F1; lra).
        destruct (Rle_lt_dec (2 * f2 + d2 * y) (- (s * y))) as [F2|F2].
        -- assert (Sq : (2 * f2 + d2 * y) * (2 * f2 + d2 * y) <= (s * y) * (s * y)).
           { assert (s * y <= 0) by nra. nra. }
           (* s^2 h^2 <= 4 |f2| e *)
           assert (S2 : s * s * (h * h) <= 4 * (- f2) * e).
           { rewrite Hs. unfold disc.
             assert (A : (- f2) * (- b * (h * h)) <= (- f2) * (e - (- f2) - d2 * h))
               by (apply Rmult_le_compat_l; lra).
             assert (0 <= (2 * f2 + d2 * h) * (2 * f2 + d2 * h)) by apply Rle_0_sqr.
             assert (0 <= (2 * f2 - d2 * h) * (2 * f2 - d2 * h)) by apply Rle_0_sqr.
             nra. }
           assert (S3 : (s * y) * (s * y) <= 4 * (- f2) * e).
           { assert (y * y <= h * h) by nra.
             assert (s * s * (y * y) <= s * s * (h * h)) by (apply Rmult_le_compat_l; nra).
             lra. }
           assert (- (2 * e) <= f2 + d2 * y + b * (y * y)).
           { apply Rmult_le_reg_l with (4 * (- f2)); [lra|]. lra. }
           lra.
        -- assert (d2 < 0) by nra.
           assert (Hdy : 0 <= d2 + 2 * b * y).
           { assert (s * y <= 0) by nra.
             assert (K : d2 * d2 <= 4 * f2 * b) by (unfold disc in Hd; lra).
             assert (K2 : 2 * (- f2) <= d2 * y) by lra.
             (* (-d2)(2 b y) >= 4 f2 b *)
             assert (K3 : 4 * f2 * b <= (- d2) * (2 * b * y)) by nra.
             destruct (Rle_lt_dec 0 (d2 + 2 * b * y)); [assumption|]. nra. }
           assert (E2 : (f2 + d2 * y + b * (y * y)) - (f2 - d2 * h + b * (h * h)) =
                        (y + h) * (d2 + b * (y - h))) by ring.
           assert (0 <= (y + h) * (d2 + b * (y - h))).
           { apply Rmult_le_pos; [lra|]. nra. }
           lra.
    + (* den = 0 *)
      assert (Hds : d2 = s) by (unfold den in Hden; lra).
      destruct Hopt as [Hd|[Hb|[_ Hc1]]]; [|apply Incr; lra|contradiction].
      assert (d2 = 0) by lra.
      assert (D0 : Rabs disc = 0) by (rewrite <- Hs; nra).
      assert (D1 : disc = 0).
      { destruct (Req_dec disc 0); [assumption|]. apply Rabs_no_R0 in H0. lra. }
      assert (D2 : f2 * b = 0) by (unfold disc in D1; nra).
      rewrite Qx.
      apply Rmult_integral in D2. destruct D2 as [D2|D2].
      * destruct (Rle_lt_dec b 0); [apply Conc; lra|].
        assert (0 <= b * (y * y)) by nra. rewrite D2, H. lra.
      * rewrite D2, H in *. lra.
    + (* den > 0 *)
      assert (Hd2 : 0 < d2) by (unfold den in Hden; lra).
      apply Incr; [lra|].
      destruct (Rle_lt_dec b 0) as [|Hb]; [assumption|exfalso].
      assert (0 <= disc) by (unfold disc; nra).
      rewrite Rabs_right in Hs by lra.
      assert (s * s < d2 * d2) by (unfold den in Hden; nra).
      unfold disc in Hs. nra.
Qed.
