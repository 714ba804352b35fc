(** * Bounds of the star pressure for two gases with different gamma *)
From Coq Require Import Reals Ranalysis5 Lra Lia Arith Psatz.
From Verif Require Import RVec Simd SimdProofs Newton NewtonProofs EulerSystem PhysLib GasWaves SWRiemannProofs EulerRiemann EulerRiemannSpec EulerRiemannProofs EulerRiemannExist AeosSystem AeosRiemann AeosRiemannSpec.
Local Open Scope R_scope.

(** ** The factor c(gamma) *)

Lemma ar_c_range g : 0 < ar_c g <= 1.
Proof.
  unfold ar_c. set (r := Rmax (1 / 2) _).
  assert (1 / 2 <= r) by apply Rmax_l.
  assert (r <= 1) by (apply Rmax_lub; [lra|apply Rmin_l]).
  split; [apply sqrt_lt_R0; lra|]. rewrite <- sqrt_1. apply sqrt_le_1_alt. lra.
Qed.

Lemma ar_c_square g : ar_c g * ar_c g = Rmax (1 / 2) (Rmin 1 (Rmin ((3 * g + 11) / (6 * g + 6))
  (5 / 6 + - (34976871477801828189920753948709 / 100000000000000000000000000000000) * (g - 3)))).
Proof.
  unfold ar_c. apply sqrt_sqrt. eapply Rle_trans; [|apply Rmax_l]. lra.
Qed.

Lemma ar_c_bound g x : 1 < g -> 1 <= x -> ar_c g * rare_curve g x <= shock_curve g x.
Proof.
  intros Hg Hx. pose proof (ar_c_range g). pose proof (ar_c_square g) as S.
  apply c_bound; try assumption; try lra.
  intros G. set (f := (3 * g + 11) / (6 * g + 6)) in *. set (sc := 5 / 6 + _) in S.
  destruct (Rle_dec g 4) as [L|L].
  - right. split; [exact L|]. rewrite S. apply Rmax_lub.
    + unfold f. apply Rmult_le_reg_r with (6 * g + 6); [lra|].
      replace ((3 * g + 11) / (6 * g + 6) * (6 * g + 6)) with (3 * g + 11) by (field; lra). lra.
    + eapply Rle_trans; [apply Rmin_r|apply Rmin_l].
  - left. rewrite S. apply Rmax_lub; [lra|]. eapply Rle_trans; [apply Rmin_r|]. eapply Rle_trans; [apply Rmin_r|].
    unfold sc. lra.
Qed.

(** The shock curve of a gas above c times its rarefaction curve. *)
Definition alpha_of (g rho p : R) : R := 2 * sound g rho p / (g - 1).

Lemma alpha_pos g rho p : 1 < g -> 0 < rho -> 0 < p -> 0 < alpha_of g rho p.
Proof. intros. unfold alpha_of. pose proof (sound_pos g rho p). apply Rdiv_lt_0_compat; [nra|lra]. Qed.

Lemma f_ge_c_rare g rho u p x : 1 < g -> 0 < rho -> 0 < p -> p <= x ->
  ar_c g * alpha_of g rho p * (powr (x / p) ((g - 1) / (2 * g)) - 1) <= er_f g (gas g rho u p) x.
Proof.
  intros Hg Hr Hp C. rewrite f_above by lra.
  assert (X1 : 1 <= x / p).
  { apply Rmult_le_reg_r with p; [lra|]. unfold Rdiv. rewrite Rmult_assoc, Rinv_l by lra. lra. }
  pose proof (ar_c_bound g (x / p) Hg X1) as L. unfold rare_curve, shock_curve in L.
  assert (PA : 0 < sound g rho p).
  { apply sqrt_lt_R0. apply Rdiv_lt_0_compat; [nra|lra]. }
  apply Rmult_le_compat_l with (r := sound g rho p) in L; [|lra]. unfold alpha_of.
  match goal with |- ?l <= ?r => replace l with (sound g rho p * (ar_c g * (2 / (g - 1) * (powr (x / p) ((g - 1) / (2 * g)) - 1)))) by (field; lra) end.
  eapply Rle_trans; [exact L|]. apply Req_le.
  set (D := (g + 1) * (x / p) + (g - 1)).
  assert (PD : 0 < D) by (unfold D; nra).
  rewrite powr_opp by exact PD. rewrite (powr_pos D) by exact PD.
  replace (1 / 2) with (/ 2) by field. rewrite Rpower_sqrt by exact PD.
  unfold sound. rewrite <- sqrt_inv.
  replace (sqrt (g * p / rho) * ((x / p - 1) * (sqrt (2 / g) * sqrt (/ D))))
    with ((x / p - 1) * (sqrt (g * p / rho) * sqrt (2 / g) * sqrt (/ D))) by ring.
  assert (P1 : 0 <= g * p / rho) by (apply Rlt_le, Rdiv_lt_0_compat; nra).
  assert (P2 : 0 <= 2 / g) by (apply Rlt_le, Rdiv_lt_0_compat; lra).
  rewrite <- (sqrt_mult_alt (g * p / rho)) by exact P1.
  rewrite <- sqrt_mult_alt by (apply Rmult_le_pos; assumption).
  replace (g * p / rho * (2 / g) * / D) with (p * p * (2 / (rho * ((g + 1) * x + (g - 1) * p)))).
  2:{ unfold D. field. repeat split; try lra. assert (0 < (g + 1) * x) by nra. assert (0 < (g - 1) * p) by nra. lra. }
  rewrite (sqrt_mult_alt (p * p)), sqrt_square by nra. field. lra.
Qed.

Lemma f_eq_rare g rho u p x : 1 < g -> 0 < p -> x <= p ->
  er_f g (gas g rho u p) x = alpha_of g rho p * (powr (x / p) ((g - 1) / (2 * g)) - 1).
Proof. intros. rewrite f_below by lra. reflexivity. Qed.

Lemma f_nonneg g rho u p x : 1 < g -> 0 < rho -> 0 < p -> p <= x -> 0 <= er_f g (gas g rho u p) x.
Proof. intros. rewrite f_above by lra. apply Rmult_le_pos; [lra|apply sqrt_pos]. Qed.

(** f grows without bound. *)
Lemma f_large g rho u p x K : 1 < g -> 0 < rho -> 0 < p -> 0 < K -> 4 * p <= x -> (2 * K) * (2 * K) * (rho * g) <= x ->
  K <= er_f g (gas g rho u p) x.
Proof.
  intros Hg Hr Hp HK H4 HX. rewrite f_above by lra.
  assert (Px : 0 < x) by lra. assert (Prg : 0 < rho * g) by nra.
  set (s := sqrt (x / (rho * g))).
  assert (Ss : s * s = x / (rho * g)) by (apply sqrt_sqrt, Rlt_le, Rdiv_lt_0_compat; lra).
  assert (Ps : 0 < s) by (apply sqrt_lt_R0, Rdiv_lt_0_compat; lra).
  assert (Ks : 2 * K <= s).
  { replace (2 * K) with (sqrt ((2 * K) * (2 * K))) by (apply sqrt_square; lra). apply sqrt_le_1_alt.
    apply Rmult_le_reg_r with (rho * g); [exact Prg|]. replace (x / (rho * g) * (rho * g)) with x by (field; lra). exact HX. }
  assert (Q : s / x <= sqrt (2 / (rho * ((g + 1) * x + (g - 1) * p)))).
  { replace (s / x) with (sqrt ((s / x) * (s / x))) by (apply sqrt_square, Rlt_le, Rdiv_lt_0_compat; lra).
    apply sqrt_le_1_alt. replace (s / x * (s / x)) with (s * s / (x * x)) by (field; lra). rewrite Ss.
    assert (0 < (g + 1) * x + (g - 1) * p) by nra.
    replace (x / (rho * g) / (x * x)) with (1 / (rho * g * x)) by (field; lra).
    set (B := (g + 1) * x + (g - 1) * p) in *.
    assert (B <= 2 * (g * x)) by (unfold B; nra).
    apply Rmult_le_reg_r with (rho * g * x * B); [repeat apply Rmult_lt_0_compat; lra|].
    replace (1 / (rho * g * x) * (rho * g * x * B)) with B by (field; lra).
    replace (2 / (rho * B) * (rho * g * x * B)) with (2 * (g * x)) by (field; lra). lra. }
  apply Rle_trans with ((x - p) * (s / x)); [|apply Rmult_le_compat_l; lra].
  apply Rle_trans with (x / 2 * (s / x)).
  - replace (x / 2 * (s / x)) with (s / 2) by (field; lra). lra.
  - apply Rmult_le_compat_r; [apply Rlt_le, Rdiv_lt_0_compat; lra|lra].
Qed.

(** ** Existence *)

Lemma exact_exists2 gi ri ui pi gj rj uj pj : 1 < gi -> 1 < gj -> 0 < ri -> 0 < pi -> 0 < rj -> 0 < pj ->
  ui + alpha_of gi ri pi <= uj - alpha_of gj rj pj \/
  exists us ps sl sr, e_left_wave gi ri ui pi us ps sl /\ e_right_wave gj rj uj pj us ps sr.
Proof.
  intros Hgi Hgj Hri Hpi Hrj Hpj.
  destruct (Rle_dec (ui + alpha_of gi ri pi) (uj - alpha_of gj rj pj)) as [V|V]; [left; exact V|right].
  apply Rnot_le_lt in V.
  pose proof (alpha_pos gi ri pi Hgi Hri Hpi) as Ai. pose proof (alpha_pos gj rj pj Hgj Hrj Hpj) as Aj.
  set (ai := alpha_of gi ri pi) in *. set (aj := alpha_of gj rj pj) in *.
  set (ki := (gi - 1) / (2 * gi)). assert (Pki : 0 < ki) by (unfold ki; apply Rdiv_lt_0_compat; lra).
  set (kj := (gj - 1) / (2 * gj)). assert (Pkj : 0 < kj) by (unfold kj; apply Rdiv_lt_0_compat; lra).
  set (F := fun x => efc gi ri pi x + efc gj rj pj x + (uj - ui)).
  assert (PR : forall c k, 0 < k -> 0 < c -> powr (powr c (/ k)) k = c).
  { intros c k Hk Hc. rewrite powr_mult by exact Hc. rewrite Rinv_l by lra. apply powr_1. exact Hc. }
  (* a small pressure *)
  set (d := Rmin 1 ((ai + aj - (uj - ui)) / (2 * (ai + aj)))).
  assert (Pd : 0 < d) by (apply Rmin_glb_lt; [lra|apply Rdiv_lt_0_compat; lra]).
  assert (Ld : d * (ai + aj) < ai + aj - (uj - ui)).
  { apply Rle_lt_trans with ((ai + aj - (uj - ui)) / (2 * (ai + aj)) * (ai + aj)).
    - apply Rmult_le_compat_r; [lra|apply Rmin_r].
    - replace ((ai + aj - (uj - ui)) / (2 * (ai + aj)) * (ai + aj)) with ((ai + aj - (uj - ui)) / 2) by (field; lra). lra. }
  assert (Sm : forall k p, 0 < k -> 0 < p -> exists q, 0 < q <= p /\ forall x, 0 < x <= q -> powr (x / p) k <= d).
  { intros k p Hk Hp. exists (Rmin p (p * powr d (/ k))).
    assert (0 < powr d (/ k)) by (apply powr_gt0; exact Pd).
    split; [split; [apply Rmin_glb_lt; [lra|apply Rmult_lt_0_compat; lra]|apply Rmin_l]|].
    intros x [Hx Hq]. rewrite <- (PR d k Hk Pd). apply powr_mono; [lra|]. split; [apply Rdiv_lt_0_compat; lra|].
    apply Rmult_le_reg_r with p; [lra|]. unfold Rdiv. rewrite Rmult_assoc, Rinv_l by lra.
    pose proof (Rmin_r p (p * powr d (/ k))). lra. }
  destruct (Sm ki pi Pki Hpi) as (qi & [Qi1 Qi2] & Qi3). destruct (Sm kj pj Pkj Hpj) as (qj & [Qj1 Qj2] & Qj3).
  set (p0 := Rmin qi qj).
  assert (Pp0 : 0 < p0) by (apply Rmin_glb_lt; lra).
  assert (L1 : p0 <= qi) by apply Rmin_l. assert (L2 : p0 <= qj) by apply Rmin_r.
  assert (F0 : F p0 < 0).
  { unfold F. rewrite (efc_f gi ri ui pi), (efc_f gj rj uj pj), !f_eq_rare by lra. fold ai aj ki kj.
    pose proof (Qi3 p0 ltac:(lra)). pose proof (Qj3 p0 ltac:(lra)). nra. }
  (* a large pressure *)
  set (K := Rabs (uj - ui) + 1). assert (PK : 0 < K) by (unfold K; pose proof (Rabs_pos (uj - ui)); lra).
  set (P := 4 * pi + 4 * pj + (2 * K) * (2 * K) * (ri * gi)).
  assert (0 < (2 * K) * (2 * K) * (ri * gi)) by (repeat apply Rmult_lt_0_compat; lra).
  assert (F1 : 0 < F P).
  { unfold F. rewrite (efc_f gi ri ui pi), (efc_f gj rj uj pj) by lra.
    pose proof (f_large gi ri ui pi P K Hgi Hri Hpi PK ltac:(unfold P; lra) ltac:(unfold P; lra)).
    pose proof (f_nonneg gj rj uj pj P Hgj Hrj Hpj ltac:(unfold P; lra)).
    pose proof (Rle_abs (- (uj - ui))). rewrite Rabs_Ropp in *. unfold K in *. lra. }
  assert (p0P : p0 < P) by (unfold P; lra).
  assert (CF : forall a, p0 <= a <= P -> continuity_pt F a).
  { intros a Ha. apply (continuity_pt_plus (fun x => efc gi ri pi x + efc gj rj pj x) (fun _ => uj - ui)); [|apply const_cont].
    apply (continuity_pt_plus (efc gi ri pi) (efc gj rj pj)); apply efc_cont; lra. }
  destruct (IVT_interv F p0 P CF p0P F0 F1) as (ps & [S1 S2] & Z).
  assert (Pps : 0 < ps) by lra.
  destruct (e_wave_exists gi ri ui pi ps ltac:(lra) Hri Hpi Pps) as [sl L].
  destruct (e_wave_exists gj rj (- uj) pj ps ltac:(lra) Hrj Hpj Pps) as [sr W].
  exists (ui - er_f gi (gas gi ri ui pi) ps), ps, sl, (- sr). split; [exact L|].
  unfold e_right_wave. rewrite Ropp_involutive.
  replace (- (ui - er_f gi (gas gi ri ui pi) ps)) with (- uj - er_f gj (gas gj rj (- uj) pj) ps); [exact W|].
  unfold F in Z. rewrite (efc_f gi ri ui pi), (efc_f gj rj (- uj) pj) in Z by lra. lra.
Qed.

(** ** Upper bounds *)

Lemma power_bound P den num e z : 0 < P -> 0 < den -> 0 < e -> 0 < z ->
  powr (z / P) e * den <= num -> z <= P * powr (positive_part num / den) (1 / e).
Proof.
  intros HP Hd He Hz L.
  assert (Px : 0 < z / P) by (apply Rdiv_lt_0_compat; lra).
  pose proof (powr_gt0 (z / P) e Px) as Xk. pose proof (pp_ge num) as PP.
  assert (B : powr (z / P) e <= positive_part num / den).
  { apply Rmult_le_reg_r with den; [exact Hd|]. unfold Rdiv at 2. rewrite Rmult_assoc, Rinv_l by lra. lra. }
  apply Rle_trans with (P * powr (powr (z / P) e) (1 / e)).
  - rewrite powr_mult by exact Px. replace (e * (1 / e)) with 1 by (field; lra).
    rewrite powr_1 by exact Px. right. field. lra.
  - apply Rmult_le_compat_l; [lra|]. apply powr_mono; [|lra]. apply Rlt_le, Rdiv_lt_0_compat; lra.
Qed.

Definition expo (g : R) : R := (g - 1) / (2 * g).

Lemma expo_pos g : 1 < g -> 0 < expo g.
Proof. intros. unfold expo. apply Rdiv_lt_0_compat; lra. Qed.

Lemma expo_le g h : 1 < g -> g <= h -> expo g <= expo h.
Proof.
  intros. unfold expo. apply Rmult_le_reg_r with (2 * g * h); [nra|].
  replace ((g - 1) / (2 * g) * (2 * g * h)) with ((g - 1) * h) by (field; lra).
  replace ((h - 1) / (2 * h) * (2 * g * h)) with ((h - 1) * g) by (field; lra). nra.
Qed.

Lemma powr_exp_ge x a b : 1 <= x -> a <= b -> powr x a <= powr x b.
Proof.
  intros Hx H. rewrite !powr_pos by lra. unfold Rpower. apply exp_le.
  assert (0 <= ln x) by (rewrite <- ln_1; destruct Hx as [Hx| <-]; [left; apply ln_increasing; lra|lra]). nra.
Qed.

Lemma powr_exp_le x a b : 0 < x <= 1 -> a <= b -> powr x b <= powr x a.
Proof.
  intros Hx H. rewrite !powr_pos by lra. unfold Rpower. apply exp_le.
  assert (ln x <= 0) by (rewrite <- ln_1; destruct Hx as [H0 [H1| ->]]; [left; apply ln_increasing; lra|lra]). nra.
Qed.

Lemma div_le_1 a b : 0 < b -> a <= b -> a / b <= 1.
Proof. intros. apply Rmult_le_reg_r with b; [lra|]. unfold Rdiv. rewrite Rmult_assoc, Rinv_l by lra. lra. Qed.

Lemma div_ge_1 a b : 0 < b -> b <= a -> 1 <= a / b.
Proof. intros. apply Rmult_le_reg_r with b; [lra|]. unfold Rdiv. rewrite Rmult_assoc, Rinv_l by lra. lra. Qed.

(** Between the pressures: side 1 with the smaller pressure, side 2 with the larger one. *)
Section Between.
  Variables (g1 A1 P1 g2 A2 P2 z D : R).
  Hypothesis H1 : 1 < g1.
  Hypothesis H2 : 1 < g2.
  Hypothesis HA1 : 0 < A1.
  Hypothesis HA2 : 0 < A2.
  Hypothesis HP1 : 0 < P1.
  Hypothesis HP2 : P1 <= P2.
  Hypothesis Hz : P1 <= z <= P2.
  Hypothesis L : A1 * (powr (z / P1) (expo g1) - 1) + A2 * (powr (z / P2) (expo g2) - 1) + D <= 0.
  Let gM := Rmax g1 g2.
  Let gm := Rmin g1 g2.
  Let r := (gM - g1) / (2 * g1 * gM).

  Lemma r_eq : r = expo gM - expo g1.
  Proof. unfold r, expo. assert (1 < gM) by (unfold gM; pose proof (Rmax_l g1 g2); lra). field. lra. Qed.

  Lemma ratio_split e : powr (z / P1) e = powr (z / P2) e * powr (P1 / P2) (- e).
  Proof.
    rewrite powr_opp by (apply Rdiv_lt_0_compat; lra). rewrite <- powr_inv by (apply Rdiv_lt_0_compat; lra).
    rewrite <- powr_mult_base; [|apply Rdiv_lt_0_compat; lra|apply Rinv_0_lt_compat, Rdiv_lt_0_compat; lra].
    f_equal. field. lra.
  Qed.

  Lemma first_bound :
    z <= P2 * powr (positive_part (A1 + A2 - D) / (A1 * powr (P1 / P2) (r - expo gM) + A2)) (1 / expo gM).
  Proof.
    assert (HM : g1 <= gM /\ g2 <= gM) by (unfold gM; pose proof (Rmax_l g1 g2); pose proof (Rmax_r g1 g2); lra).
    replace (r - expo gM) with (- expo g1) by (rewrite r_eq; ring).
    pose proof (powr_gt0 (P1 / P2) (- expo g1) ltac:(apply Rdiv_lt_0_compat; lra)).
    apply power_bound; try lra; [nra|apply expo_pos; lra|].
    assert (X : 0 < z / P2 <= 1) by (split; [apply Rdiv_lt_0_compat; lra|apply div_le_1; lra]).
    rewrite ratio_split in L.
    pose proof (powr_exp_le (z / P2) (expo g1) (expo gM) X (expo_le g1 gM H1 (proj1 HM))).
    pose proof (powr_exp_le (z / P2) (expo g2) (expo gM) X (expo_le g2 gM H2 (proj2 HM))).
    assert (A1 * (powr (z / P2) (expo gM) * powr (P1 / P2) (- expo g1)) <= A1 * (powr (z / P2) (expo g1) * powr (P1 / P2) (- expo g1))).
    { apply Rmult_le_compat_l; [lra|]. apply Rmult_le_compat_r; lra. }
    assert (A2 * powr (z / P2) (expo gM) <= A2 * powr (z / P2) (expo g2)) by (apply Rmult_le_compat_l; lra).
    lra.
  Qed.

  Lemma second_key : powr (z / P2) (expo gm) * (A1 * powr (P1 / P2) (- expo gm) + A2 * powr (P1 / P2) r) <= A1 + A2 - D.
  Proof.
    assert (Hm : gm <= g1 /\ gm <= g2 /\ 1 < gm).
    { unfold gm. pose proof (Rmin_l g1 g2); pose proof (Rmin_r g1 g2). repeat split; try lra. apply Rmin_glb_lt; lra. }
    assert (X : P1 / P2 <= z / P2).
    { apply Rmult_le_compat_r; [apply Rlt_le, Rinv_0_lt_compat; lra|lra]. }
    assert (PX : 0 < P1 / P2) by (apply Rdiv_lt_0_compat; lra).
    assert (X1 : 0 < z / P2 <= 1) by (split; [lra|apply div_le_1; lra]).
    (* side 1 *)
    assert (S1 : powr (z / P2) (expo gm) * powr (P1 / P2) (- expo gm) <= powr (z / P1) (expo g1)).
    { rewrite <- ratio_split. apply powr_exp_ge; [apply div_ge_1; lra|apply expo_le; lra]. }
    (* side 2 *)
    assert (S2 : powr (z / P2) (expo gm) * powr (P1 / P2) r <= powr (z / P2) (expo g2)).
    { rewrite r_eq. unfold gM, gm. destruct (Rle_dec g1 g2) as [C|C].
      - rewrite Rmin_left, Rmax_right by lra.
        replace (expo g2) with (expo g1 + (expo g2 - expo g1)) at 2 by ring. rewrite powr_plus by lra.
        apply Rmult_le_compat_l; [apply Rlt_le, powr_gt0; lra|]. apply powr_mono; [|lra].
        pose proof (expo_le g1 g2 H1 C). lra.
      - rewrite Rmin_right, Rmax_left by lra. replace (expo g1 - expo g1) with 0 by ring.
        rewrite (powr_pos (P1 / P2)), Rpower_O by lra. lra. }
    apply Rmult_le_compat_l with (r := A1) in S1; [|lra]. apply Rmult_le_compat_l with (r := A2) in S2; [|lra]. lra.
  Qed.

  Lemma second_den A3 : 0 < A3 -> 0 < A1 * powr (P1 / P2) (- expo gm) + A3 * powr (P1 / P2) r.
  Proof.
    intros. pose proof (powr_gt0 (P1 / P2) (- expo gm) ltac:(apply Rdiv_lt_0_compat; lra)).
    pose proof (powr_gt0 (P1 / P2) r ltac:(apply Rdiv_lt_0_compat; lra)). nra.
  Qed.

  (** p_2_tilde, and with A3 <= A2 in the denominator the interpolated pressure. *)
  Lemma second_bound A3 : 0 < A3 <= A2 ->
    z <= P2 * powr (positive_part (A1 + A2 - D) / (A1 * powr (P1 / P2) (- expo gm) + A3 * powr (P1 / P2) r)) (1 / expo gm).
  Proof.
    intros H3. apply power_bound; try lra; [apply second_den; lra|apply expo_pos, Rmin_glb_lt; lra|].
    eapply Rle_trans; [|exact second_key].
    apply Rmult_le_compat_l; [apply Rlt_le, powr_gt0, Rdiv_lt_0_compat; lra|].
    pose proof (powr_gt0 (P1 / P2) r ltac:(apply Rdiv_lt_0_compat; lra)). nra.
  Qed.
End Between.

(** Above both pressures. *)
Section Above.
  Variables (g1 A1 P1 g2 A2 P2 z D : R).
  Hypothesis H1 : 1 < g1.
  Hypothesis H2 : 1 < g2.
  Hypothesis HA1 : 0 < A1.
  Hypothesis HA2 : 0 < A2.
  Hypothesis HP1 : 0 < P1.
  Hypothesis HP2 : 0 < P2.
  Hypothesis Hz1 : P1 <= z.
  Hypothesis Hz2 : P2 <= z.
  Hypothesis L : A1 * (powr (z / P1) (expo g1) - 1) + A2 * (powr (z / P2) (expo g2) - 1) + D <= 0.
  Let gm := Rmin g1 g2.

  Lemma above_key : powr (z / P2) (expo gm) * (A1 * powr (P1 / P2) (- expo gm) + A2) <= A1 + A2 - D.
  Proof.
    assert (Hm : gm <= g1 /\ gm <= g2 /\ 1 < gm).
    { unfold gm. pose proof (Rmin_l g1 g2); pose proof (Rmin_r g1 g2). repeat split; try lra. apply Rmin_glb_lt; lra. }
    assert (S1 : powr (z / P2) (expo gm) * powr (P1 / P2) (- expo gm) <= powr (z / P1) (expo g1)).
    { rewrite powr_opp by (apply Rdiv_lt_0_compat; lra). rewrite <- powr_inv by (apply Rdiv_lt_0_compat; lra).
      rewrite <- powr_mult_base; [|apply Rdiv_lt_0_compat; lra|apply Rinv_0_lt_compat, Rdiv_lt_0_compat; lra].
      replace (z / P2 * / (P1 / P2)) with (z / P1) by (field; lra).
      apply powr_exp_ge; [apply div_ge_1; lra|apply expo_le; lra]. }
    assert (S2 : powr (z / P2) (expo gm) <= powr (z / P2) (expo g2)).
    { apply powr_exp_ge; [apply div_ge_1; lra|apply expo_le; lra]. }
    apply Rmult_le_compat_l with (r := A1) in S1; [|lra]. apply Rmult_le_compat_l with (r := A2) in S2; [|lra]. lra.
  Qed.

  Lemma above_bound : z <= P2 * powr (positive_part (A1 + A2 - D) / (A1 * powr (P1 / P2) (- expo gm) + A2)) (1 / expo gm).
  Proof.
    pose proof (powr_gt0 (P1 / P2) (- expo gm) ltac:(apply Rdiv_lt_0_compat; lra)).
    apply power_bound; try lra; [nra|apply expo_pos, Rmin_glb_lt; lra|exact above_key].
  Qed.

  (** The interpolated pressure: larger numerator, smaller denominator. *)
  Lemma above_interpolated A3 r : P1 <= P2 -> 0 <= r -> A2 <= A3 ->
    z <= P2 * powr (positive_part (A1 + A3 - D) / (A1 * powr (P1 / P2) (- expo gm) + A2 * powr (P1 / P2) r)) (1 / expo gm).
  Proof.
    intros HP Hr HA.
    assert (X : 0 < P1 / P2 <= 1) by (split; [apply Rdiv_lt_0_compat; lra|apply div_le_1; lra]).
    pose proof (powr_gt0 (P1 / P2) (- expo gm) ltac:(lra)).
    pose proof (powr_gt0 (P1 / P2) r ltac:(lra)).
    assert (powr (P1 / P2) r <= 1).
    { pose proof (powr_exp_le (P1 / P2) 0 r X Hr) as Q. rewrite (powr_pos _ 0), Rpower_O in Q by lra. exact Q. }
    apply power_bound; try lra; [nra|apply expo_pos, Rmin_glb_lt; lra|].
    apply Rle_trans with (A1 + A2 - D); [|lra]. eapply Rle_trans; [|exact above_key].
    apply Rmult_le_compat_l; [apply Rlt_le, powr_gt0, Rdiv_lt_0_compat; lra|]. nra.
  Qed.
End Above.

(** The failsafe pressure above both pressures. *)
Definition fs_x (g r p m : R) : R := sqrt (2 * m / (r * ((g + 1) * m + (g - 1) * p))).

Lemma failsafe2 gi ri pi gj rj pj ui uj ps : 1 < gi -> 1 < gj -> 0 < ri -> 0 < pi -> 0 < rj -> 0 < pj ->
  er_f gi (gas gi ri ui pi) ps + er_f gj (gas gj rj uj pj) ps + uj - ui = 0 -> Rmax pi pj <= ps ->
  let x_i := fs_x gi ri pi (Rmax pi pj) in
  let x_j := fs_x gj rj pj (Rmax pi pj) in
  let a := x_i + x_j in
  let b := uj - ui in
  let c := - pi * x_i - pj * x_j in
  let base := (- b + sqrt (b * b - 4 * a * c)) / (2 * a) in
  ps <= base * base.
Proof.
  intros Hgi Hgj Hri Hpi Hrj Hpj Root Hm. cbv zeta. pose proof (Rmax_l pi pj) as Ml. pose proof (Rmax_r pi pj) as Mr.
  rewrite !f_above in Root by lra.
  set (m := Rmax pi pj) in *. assert (Hps : 0 < ps) by lra.
  set (s := sqrt ps). assert (Ps : 0 < s) by (apply sqrt_lt_R0; exact Hps).
  assert (Ss : s * s = ps) by (apply sqrt_sqrt; lra).
  assert (K : forall g r p, 1 < g -> 0 < r -> 0 < p -> p <= m ->
    (ps - p) * fs_x g r p m <= s * ((ps - p) * sqrt (2 / (r * ((g + 1) * ps + (g - 1) * p))))).
  { intros g r p Hg Hr Hp Hpm. unfold fs_x.
    replace (s * ((ps - p) * sqrt (2 / (r * ((g + 1) * ps + (g - 1) * p)))))
      with ((ps - p) * (s * sqrt (2 / (r * ((g + 1) * ps + (g - 1) * p))))) by ring.
    apply Rmult_le_compat_l; [lra|]. unfold s. rewrite <- sqrt_mult_alt by lra.
    apply sqrt_le_1_alt.
    set (A := (g + 1) * m + (g - 1) * p). set (B := (g + 1) * ps + (g - 1) * p).
    assert (PA : 0 < A) by (unfold A; nra). assert (PB : 0 < B) by (unfold B; nra).
    apply Rmult_le_reg_r with (r * A * B); [repeat apply Rmult_lt_0_compat; lra|].
    replace (2 * m / (r * A) * (r * A * B)) with (2 * (m * B)) by (field; lra).
    replace (ps * (2 / (r * B)) * (r * A * B)) with (2 * (ps * A)) by (field; lra).
    apply Rmult_le_compat_l; [lra|]. unfold A, B.
    assert (0 <= (g - 1) * p * (ps - m)) by (apply Rmult_le_pos; [nra|lra]). lra. }
  assert (X : forall g r p, 1 < g -> 0 < r -> 0 < p -> 0 < fs_x g r p m).
  { intros g r p Hg Hr Hp. apply sqrt_lt_R0. apply Rdiv_lt_0_compat; [lra|]. apply Rmult_lt_0_compat; [lra|nra]. }
  pose proof (K gi ri pi Hgi Hri Hpi Ml) as Ki. pose proof (K gj rj pj Hgj Hrj Hpj Mr) as Kj.
  pose proof (X gi ri pi Hgi Hri Hpi) as Xi. pose proof (X gj rj pj Hgj Hrj Hpj) as Xj.
  set (xi := fs_x gi ri pi m) in *. set (xj := fs_x gj rj pj m) in *.
  set (Fi := (ps - pi) * sqrt (2 / (ri * ((gi + 1) * ps + (gi - 1) * pi)))) in *.
  set (Fj := (ps - pj) * sqrt (2 / (rj * ((gj + 1) * ps + (gj - 1) * pj)))) in *.
  set (a := xi + xj). set (b := uj - ui). set (c := - pi * xi - pj * xj).
  assert (Pa : 0 < a) by (unfold a; lra).
  assert (Q : a * (s * s) + b * s + c <= 0).
  { assert (s * Fi + s * Fj + s * b = 0) by (unfold b; nra). unfold a, c. rewrite Ss. unfold b in *. lra. }
  assert (Nc : c <= 0) by (unfold c; nra).
  assert (Dp : 0 <= b * b - 4 * a * c) by nra.
  set (r := sqrt (b * b - 4 * a * c)).
  assert (Rr : r * r = b * b - 4 * a * c) by (apply sqrt_sqrt; exact Dp).
  assert (R0 : 0 <= r) by apply sqrt_pos.
  assert (S : s <= (- b + r) / (2 * a)).
  { apply Rmult_le_reg_r with (2 * a); [lra|].
    replace ((- b + r) / (2 * a) * (2 * a)) with (- b + r) by (field; lra).
    assert ((2 * a * s + b) * (2 * a * s + b) <= r * r) by (rewrite Rr; nra).
    destruct (Rle_dec (2 * a * s + b) r); [lra|]. exfalso. nra. }
  rewrite <- Ss. apply Rmult_le_compat; lra.
Qed.
