(** * Existence of the exact solution of the Euler Riemann problem *)
From Coq Require Import Reals Ranalysis5 Lra Lia Arith Psatz.
From Verif Require Import RVec Simd SimdProofs Newton NewtonProofs EulerSystem PhysLib GasWaves SWRiemannProofs EulerRiemann EulerRiemannSpec EulerRiemannProofs.
Local Open Scope R_scope.

Definition rmin2 (x p : R) : R := (x + p - Rabs (x - p)) / 2.
Definition rmax2 (x p : R) : R := (x + p + Rabs (x - p)) / 2.

Lemma rmin2_eq x p : rmin2 x p = Rmin x p.
Proof. unfold rmin2, Rmin. destruct (Rle_dec x p); [rewrite Rabs_left1|rewrite Rabs_right]; lra. Qed.

Lemma rmax2_eq x p : rmax2 x p = Rmax x p.
Proof. unfold rmax2, Rmax. destruct (Rle_dec x p); [rewrite Rabs_left1|rewrite Rabs_right]; lra. Qed.

Lemma const_cont c : continuity (fun _ => c).
Proof. apply continuity_const. intros ? ?; reflexivity. Qed.

Lemma rmin2_cont p : continuity (fun x => rmin2 x p).
Proof.
  assert (C1 : continuity (fun x => x - p)) by reg.
  assert (C2 : continuity (fun x => x + p)) by reg.
  exact (continuity_mult _ _ (continuity_minus _ _ C2 (cont_abs _ C1)) (const_cont (/ 2))).
Qed.

Lemma rmax2_cont p : continuity (fun x => rmax2 x p).
Proof.
  assert (C1 : continuity (fun x => x - p)) by reg.
  assert (C2 : continuity (fun x => x + p)) by reg.
  exact (continuity_mult _ _ (continuity_plus _ _ C2 (cont_abs _ C1)) (const_cont (/ 2))).
Qed.

(** f as a continuous expression. *)
Definition efc (g rho p x : R) : R :=
  2 * sound g rho p / (g - 1) * (powr (rmin2 x p / p) ((g - 1) / (2 * g)) - 1) +
  (rmax2 x p - p) * sqrt (2 / (rho * ((g + 1) * rmax2 x p + (g - 1) * p))).

Lemma efc_f g rho u p x : 1 < g -> 0 < rho -> 0 < p -> efc g rho p x = er_f g (gas g rho u p) x.
Proof.
  intros Hg Hr Hp. unfold efc. rewrite rmin2_eq, rmax2_eq. destruct (Rle_dec x p) as [C|C].
  - rewrite f_below, Rmin_left, Rmax_right by lra. ring.
  - rewrite f_above, Rmin_right, Rmax_left by lra.
    replace (p / p) with 1 by (field; lra). rewrite powr_pos, Rpower_base_1 by lra. ring.
Qed.

Lemma efc_cont g rho p x : 1 < g -> 0 < rho -> 0 < p -> 0 < x -> continuity_pt (efc g rho p) x.
Proof.
  intros Hg Hr Hp Hx. unfold efc.
  assert (Pm : 0 < rmin2 x p) by (rewrite rmin2_eq; apply Rmin_glb_lt; lra).
  assert (PM : p <= rmax2 x p) by (rewrite rmax2_eq; apply Rmax_r).
  apply (continuity_pt_plus
    (fun x => 2 * sound g rho p / (g - 1) * (powr (rmin2 x p / p) ((g - 1) / (2 * g)) - 1))
    (fun x => (rmax2 x p - p) * sqrt (2 / (rho * ((g + 1) * rmax2 x p + (g - 1) * p))))).
  - apply (continuity_pt_mult (fun _ => 2 * sound g rho p / (g - 1)) (fun x => powr (rmin2 x p / p) ((g - 1) / (2 * g)) - 1));
      [apply const_cont|].
    apply (continuity_pt_minus (fun x => powr (rmin2 x p / p) ((g - 1) / (2 * g))) (fun _ => 1)); [|apply const_cont].
    apply (continuity_pt_comp (fun x => rmin2 x p / p) (fun y => powr y ((g - 1) / (2 * g)))).
    + apply (continuity_pt_mult (fun x => rmin2 x p) (fun _ => / p)); [apply rmin2_cont|apply const_cont].
    + apply derivable_continuous_pt. eexists. apply powr_deriv. apply Rdiv_lt_0_compat; lra.
  - apply (continuity_pt_mult (fun x => rmax2 x p - p) (fun x => sqrt (2 / (rho * ((g + 1) * rmax2 x p + (g - 1) * p))))).
    + apply (continuity_pt_minus (fun x => rmax2 x p) (fun _ => p)); [apply rmax2_cont|apply const_cont].
    + assert (PB : 0 < rho * ((g + 1) * rmax2 x p + (g - 1) * p)) by (apply Rmult_lt_0_compat; [lra|nra]).
      apply (continuity_pt_comp (fun x => 2 / (rho * ((g + 1) * rmax2 x p + (g - 1) * p))) sqrt).
      * apply (continuity_pt_mult (fun _ => 2) (fun x => / (rho * ((g + 1) * rmax2 x p + (g - 1) * p)))); [apply const_cont|].
        apply (continuity_pt_inv (fun x => rho * ((g + 1) * rmax2 x p + (g - 1) * p))); [|lra].
        apply (continuity_pt_mult (fun _ => rho) (fun x => (g + 1) * rmax2 x p + (g - 1) * p)); [apply const_cont|].
        apply (continuity_pt_plus (fun x => (g + 1) * rmax2 x p) (fun _ => (g - 1) * p)); [|apply const_cont].
        apply (continuity_pt_mult (fun _ => g + 1) (fun x => rmax2 x p)); [apply const_cont|apply rmax2_cont].
      * apply continuity_pt_sqrt. apply Rlt_le, Rdiv_lt_0_compat; lra.
Qed.

(** A wave with a prescribed pressure behind it. *)
Lemma e_wave_exists g rho u p ps : 1 < g -> 0 < rho -> 0 < p -> 0 < ps ->
  exists sp, e_left_wave g rho u p (u - er_f g (gas g rho u p) ps) ps sp.
Proof.
  intros Hg Hr Hp Hps. destruct (Rle_dec ps p) as [C|C].
  - exists (u - sound g rho p). left. exists (rho * Rpower (ps / p) (/ g)).
    assert (X : 0 < ps / p) by (apply Rdiv_lt_0_compat; lra).
    assert (P : 0 < Rpower (ps / p) (/ g)) by apply exp_pos.
    assert (Prs : 0 < rho * Rpower (ps / p) (/ g)) by (apply Rmult_lt_0_compat; lra).
    assert (E : ps / Rpower (rho * Rpower (ps / p) (/ g)) g = p / Rpower rho g).
    { rewrite <- Rpower_mult_distr, Rpower_mult, Rinv_l, Rpower_1 by lra.
      assert (0 < Rpower rho g) by apply exp_pos. field. repeat split; lra. }
    repeat split; try lra.
    rewrite (rarefaction_sound g rho p _ ps Hg Hr Hp Prs Hps E). rewrite f_below by lra. field. lra.
  - set (A := (g + 1) * ps + (g - 1) * p). set (B := (g + 1) * p + (g - 1) * ps).
    assert (PA : 0 < A) by (unfold A; nra). assert (PB : 0 < B) by (unfold B; nra).
    set (v := sqrt (A / (2 * rho))).
    assert (V2 : v * v = A / (2 * rho)) by (apply sqrt_sqrt, Rlt_le, Rdiv_lt_0_compat; lra).
    assert (Pv : 0 < v) by (apply sqrt_lt_R0, Rdiv_lt_0_compat; lra).
    set (w := v * B / A).
    assert (F : er_f g (gas g rho u p) ps = v - w).
    { rewrite f_above by lra. fold A.
      assert (S : sqrt (2 / (rho * A)) = 1 / (rho * v)).
      { symmetry. apply sqrt_uniq; [apply Rlt_le, Rdiv_lt_0_compat; nra|].
        replace (1 / (rho * v) * (1 / (rho * v))) with (1 / (rho * rho * (v * v))) by (field; lra).
        rewrite V2. field. lra. }
      rewrite S. apply Rmult_eq_reg_r with (rho * v); [|nra].
      replace ((ps - p) * (1 / (rho * v)) * (rho * v)) with (ps - p) by (field; lra).
      unfold w. replace ((v - v * B / A) * (rho * v)) with (rho * (v * v) * (1 - B / A)) by (field; lra).
      rewrite V2. replace (rho * (A / (2 * rho)) * (1 - B / A)) with ((A - B) / 2) by (field; lra).
      unfold A, B. field. }
    rewrite F. set (us := u - (v - w)). set (rhos := rho * A / B).
    exists (u - v). right. exists rhos.
    assert (M1 : rho * v = rhos * w) by (unfold rhos, w; field; lra).
    assert (M2 : rho * v * (v - w) = ps - p).
    { unfold w. replace (rho * v * (v - v * B / A)) with (rho * (v * v) * (1 - B / A)) by (field; lra).
      rewrite V2. replace (rho * (A / (2 * rho)) * (1 - B / A)) with ((A - B) / 2) by (field; lra).
      unfold A, B. field. }
    assert (W : us - (u - v) = w) by (unfold us; ring).
    split; [unfold rhos; apply Rdiv_lt_0_compat; [nra|lra]|]. split; [lra|]. split; [lra|]. split; [|split].
    + assert (rhos * (us - (u - v)) = rho * v) by (rewrite W; lra). lra.
    + assert (rhos * us * (us - (u - v)) = us * (rho * v)) by (rewrite W, M1; ring).
      assert (rho * v * (u - us) = ps - p) by (rewrite <- M2; unfold us; ring). lra.
    + assert (E : w * A = v * B) by (unfold w; field; lra).
      assert (T : v * energy g rho u p + u * p - (w * energy g rhos us ps + us * ps) = 0).
      { apply Rmult_eq_reg_r with (2 * (g - 1)); [|lra]. rewrite Rmult_0_l. unfold energy.
        replace ((v * (p / (g - 1) + rho * u * u / 2) + u * p - (w * (ps / (g - 1) + rhos * us * us / 2) + us * ps)) * (2 * (g - 1)))
          with (2 * (v * p - w * ps) + (g - 1) * (rho * v * (u * u) - rhos * w * (us * us) + 2 * (u * p - us * ps))) by (field; lra).
        rewrite <- M1.
        replace (rho * v * (u * u) - rho * v * (us * us)) with (rho * v * (v - w) * (u + us)) by (unfold us; ring).
        rewrite M2. unfold A, B in E.
        replace ((ps - p) * (u + us) + 2 * (u * p - us * ps)) with ((ps + p) * (v - w)) by (unfold us; ring).
        lra. }
      rewrite <- W in T. lra.
Qed.

Lemma e_exact_exists g ri ui pi rj uj pj : 1 < g <= 5 / 3 -> 0 < ri -> 0 < pi -> 0 < rj -> 0 < pj ->
  exists sl sr, (exists us ps, e_fan g ri ui pi rj uj pj us ps sl sr) \/ e_vacuum g ri ui pi rj uj pj sl sr.
Proof.
  intros Hg Hri Hpi Hrj Hpj.
  destruct (Rle_dec (ui + 2 * sound g ri pi / (g - 1)) (uj - 2 * sound g rj pj / (g - 1))) as [V|V].
  { exists (ui - sound g ri pi), (uj + sound g rj pj). right. unfold e_vacuum. lra. }
  pose proof (sound_pos g ri pi ltac:(lra) Hri Hpi) as Ai. pose proof (sound_pos g rj pj ltac:(lra) Hrj Hpj) as Aj.
  set (ai := sound g ri pi) in *. set (aj := sound g rj pj) in *.
  set (k := (g - 1) / (2 * g)). assert (Pk : 0 < k) by (unfold k; apply Rdiv_lt_0_compat; lra).
  set (num := ai + aj - (g - 1) / 2 * (uj - ui)).
  assert (Pn : 0 < num).
  { apply Rnot_le_lt in V.
    apply Rmult_lt_compat_r with (r := (g - 1) / 2) in V; [|lra].
    replace ((uj - 2 * aj / (g - 1)) * ((g - 1) / 2)) with (uj * ((g - 1) / 2) - aj) in V by (field; lra).
    replace ((ui + 2 * ai / (g - 1)) * ((g - 1) / 2)) with (ui * ((g - 1) / 2) + ai) in V by (field; lra).
    unfold num. lra. }
  set (Q := ai * powr (/ pi) k + aj * powr (/ pj) k).
  assert (PQ : 0 < Q).
  { unfold Q. assert (0 < powr (/ pi) k) by (apply powr_gt0, Rinv_0_lt_compat; lra).
    assert (0 < powr (/ pj) k) by (apply powr_gt0, Rinv_0_lt_compat; lra). nra. }
  (* the two-rarefaction expression *)
  assert (TR : forall x, 0 < x ->
    2 * ai / (g - 1) * (powr (x / pi) k - 1) + 2 * aj / (g - 1) * (powr (x / pj) k - 1) + uj - ui =
    2 / (g - 1) * (powr x k * Q - num)).
  { intros x Hx. unfold Rdiv at 2 4.
    rewrite !powr_mult_base by (try apply Rinv_0_lt_compat; lra). unfold Q, num. field. lra. }
  set (F := fun x => efc g ri pi x + efc g rj pj x + (uj - ui)).
  assert (PR : forall c, 0 < c -> powr (powr c (/ k)) k = c).
  { intros c Hc. rewrite powr_mult by exact Hc. rewrite Rinv_l by lra. apply powr_1. exact Hc. }
  set (c0 := num / (2 * Q)). assert (Pc0 : 0 < c0) by (apply Rdiv_lt_0_compat; lra).
  set (c1 := (num + 1) / Q). assert (Pc1 : 0 < c1) by (apply Rdiv_lt_0_compat; lra).
  assert (c01 : c0 < c1).
  { apply Rmult_lt_reg_r with (2 * Q); [lra|]. unfold c0, c1.
    replace (num / (2 * Q) * (2 * Q)) with num by (field; lra).
    replace ((num + 1) / Q * (2 * Q)) with (2 * (num + 1)) by (field; lra). lra. }
  set (p0 := Rmin (Rmin pi pj) (powr c0 (/ k))).
  set (P := powr c1 (/ k)).
  assert (Pp0 : 0 < p0).
  { unfold p0. apply Rmin_glb_lt; [apply Rmin_glb_lt; lra|]. apply powr_gt0. exact Pc0. }
  assert (PP : 0 < P) by (apply powr_gt0; exact Pc1).
  assert (p0k : powr p0 k <= c0).
  { rewrite <- (PR c0 Pc0). apply powr_mono; [lra|]. split; [exact Pp0|]. apply Rmin_r. }
  assert (p0i : p0 <= pi) by (unfold p0; eapply Rle_trans; [apply Rmin_l|apply Rmin_l]).
  assert (p0j : p0 <= pj) by (unfold p0; eapply Rle_trans; [apply Rmin_l|apply Rmin_r]).
  assert (p0P : p0 < P).
  { destruct (Rlt_dec p0 P) as [L|L]; [exact L|exfalso].
    assert (powr P k <= powr p0 k) by (apply powr_mono; lra). unfold P in H. rewrite PR in H by exact Pc1. lra. }
  assert (F0 : F p0 < 0).
  { unfold F. rewrite (efc_f g ri ui pi), (efc_f g rj uj pj), !f_below by lra. fold ai aj k.
    replace (2 * ai / (g - 1) * (powr (p0 / pi) k - 1) + 2 * aj / (g - 1) * (powr (p0 / pj) k - 1) + (uj - ui))
      with (2 * ai / (g - 1) * (powr (p0 / pi) k - 1) + 2 * aj / (g - 1) * (powr (p0 / pj) k - 1) + uj - ui) by ring.
    rewrite TR by exact Pp0.
    assert (powr p0 k * Q <= num / 2).
    { apply Rle_trans with (c0 * Q); [apply Rmult_le_compat_r; lra|]. unfold c0. right. field. lra. }
    assert (0 < 2 / (g - 1)) by (apply Rdiv_lt_0_compat; lra). nra. }
  assert (F1 : 0 < F P).
  { unfold F. rewrite (efc_f g ri ui pi), (efc_f g rj uj pj) by lra.
    pose proof (f_ge_rare g ri ui pi P Hg Hri Hpi PP) as Fi. pose proof (f_ge_rare g rj uj pj P Hg Hrj Hpj PP) as Fj.
    fold ai k in Fi. fold aj k in Fj. pose proof (TR P PP) as T.
    assert (powr P k * Q = num + 1) by (unfold P; rewrite PR by exact Pc1; unfold c1; field; lra).
    rewrite H in T. assert (0 < 2 / (g - 1)) by (apply Rdiv_lt_0_compat; lra). nra. }
  assert (CF : forall a, p0 <= a <= P -> continuity_pt F a).
  { intros a Ha. apply (continuity_pt_plus (fun x => efc g ri pi x + efc g rj pj x) (fun _ => uj - ui)); [|apply const_cont].
    apply (continuity_pt_plus (efc g ri pi) (efc g rj pj)); apply efc_cont; lra. }
  destruct (IVT_interv F p0 P CF p0P F0 F1) as (ps & [S1 S2] & Z).
  assert (Pps : 0 < ps) by lra.
  destruct (e_wave_exists g ri ui pi ps ltac:(lra) Hri Hpi Pps) as [sl L].
  destruct (e_wave_exists g rj (- uj) pj ps ltac:(lra) Hrj Hpj Pps) as [sr W].
  exists sl, (- sr). left. exists (ui - er_f g (gas g ri ui pi) ps), ps. split; [exact L|].
  unfold e_right_wave. rewrite Ropp_involutive.
  replace (- (ui - er_f g (gas g ri ui pi) ps)) with (- uj - er_f g (gas g rj (- uj) pj) ps); [exact W|].
  unfold F in Z. rewrite (efc_f g ri ui pi), (efc_f g rj (- uj) pj) in Z by lra. lra.
Qed.
