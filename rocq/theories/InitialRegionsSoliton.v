(** * Proofs about the solitary wave *)
From Coq Require Import Reals Arith List Bool Lia Lra.
From Verif Require Import RVec EulerSystem EulerInitialStates BalanceSpec InitialRegions.
Import ListNotations.
Local Open Scope R_scope.

Lemma cosh_ge_1 x : 1 <= cosh x.
Proof.
  unfold cosh. rewrite exp_Ropp. pose proof (exp_pos x) as P. set (e := exp x) in *.
  assert (2 <= e + / e); [|lra]. apply (Rmult_le_reg_l e); [exact P|]. rewrite Rmult_plus_distr_l, Rinv_r by lra.
  pose proof (Rle_0_sqr (e - 1)) as Q. unfold Rsqr in Q. lra.
Qed.

Section Wave.
  Variables (g d A : R).
  Hypothesis Hg : 0 < g.
  Hypothesis Hd : 0 < d.
  Hypothesis HA : 0 < A.

  Let c := sqrt (g * (A + d)).
  Let w := sqrt (3 * A / (4 * d * d * (A + d))).
  Let prof (xi : R) : R := d + A * (1 / (cosh (w * xi) * cosh (w * xi))).
  Let prof' (xi : R) : R := - (2 * A * w * sinh (w * xi) / (cosh (w * xi) * cosh (w * xi) * cosh (w * xi))).

  Lemma c_pos : 0 < c.
  Proof. apply sqrt_lt_R0. apply Rmult_lt_0_compat; lra. Qed.
  Lemma c_sq : c * c = g * (A + d).
  Proof. apply sqrt_sqrt. apply Rmult_le_pos; lra. Qed.
  Lemma w_pos : 0 < w.
  Proof. apply sqrt_lt_R0. apply Rdiv_lt_0_compat; [lra|]. apply Rmult_lt_0_compat; [|lra]. apply Rmult_lt_0_compat; lra. Qed.

  Lemma prof_range xi : d < prof xi <= d + A.
  Proof.
    unfold prof. pose proof (cosh_ge_1 (w * xi)) as C. set (k := cosh (w * xi)) in *.
    assert (K : 1 <= k * k) by nra. assert (0 < 1 / (k * k)) by (apply Rdiv_lt_0_compat; lra).
    assert (1 / (k * k) <= 1) by (apply (Rmult_le_reg_r (k * k)); [lra|]; unfold Rdiv; rewrite Rmult_assoc, Rinv_l by lra; lra). nra.
  Qed.

  Lemma prof_deriv xi : derivable_pt_lim prof xi (prof' xi).
  Proof.
    assert (C : 0 < cosh (w * xi)) by (pose proof (cosh_ge_1 (w * xi)); lra).
    assert (L : derivable_pt_lim (fun y => w * y) xi w).
    { pose proof (derivable_pt_lim_scal id w xi 1 (derivable_pt_lim_id xi)) as Q. rewrite Rmult_1_r in Q. exact Q. }
    assert (K : derivable_pt_lim (fun y => cosh (w * y)) xi (sinh (w * xi) * w)).
    { apply (derivable_pt_lim_comp (fun y => w * y) cosh xi w (sinh (w * xi)) L). apply derivable_pt_lim_cosh. }
    pose proof (derivable_pt_lim_mult _ _ xi _ _ K K) as K2.
    assert (N : cosh (w * xi) * cosh (w * xi) <> 0) by nra.
    pose proof (derivable_pt_lim_div (fct_cte 1) _ xi 0 _ (derivable_pt_lim_const 1 xi) K2 N) as K3.
    pose proof (derivable_pt_lim_scal _ A xi _ K3) as K4.
    pose proof (derivable_pt_lim_plus (fct_cte d) _ xi 0 _ (derivable_pt_lim_const d xi) K4) as K5.
    replace (prof' xi) with (0 + A * ((0 * (cosh (w * xi) * cosh (w * xi)) -
      (sinh (w * xi) * w * cosh (w * xi) + cosh (w * xi) * (sinh (w * xi) * w)) * fct_cte 1 xi) / Rsqr (cosh (w * xi) * cosh (w * xi)))).
    - exact K5.
    - unfold prof', fct_cte, Rsqr. field. lra.
  Qed.

  Lemma sinh_pos x : 0 < x -> 0 < sinh x.
  Proof. intros H. unfold sinh. assert (exp (- x) < exp x) by (apply exp_increasing; lra). lra. Qed.

  Lemma cosh_lt a b : 0 < a < b -> cosh a < cosh b.
  Proof.
    intros H. unfold cosh. rewrite !exp_Ropp. assert (E : exp a < exp b) by (apply exp_increasing; lra).
    assert (1 < exp a) by (rewrite <- exp_0; apply exp_increasing; lra). set (x := exp a) in *. set (y := exp b) in *.
    assert (x + / x < y + / y); [|lra]. apply (Rmult_lt_reg_r (x * y)); [nra|].
    replace ((x + / x) * (x * y)) with (x * x * y + y) by (field; lra). replace ((y + / y) * (x * y)) with (x * y * y + x) by (field; lra).
    assert (K : 0 < (x * y - 1) * (y - x)) by (apply Rmult_lt_0_compat; [nra|lra]). nra.
  Qed.

  Lemma prof_lt a b : 0 < a < b -> prof b < prof a.
  Proof.
    intros H. unfold prof. pose proof w_pos as W. assert (K : cosh (w * a) < cosh (w * b)) by (apply cosh_lt; nra).
    pose proof (cosh_ge_1 (w * a)). set (p := cosh (w * a)) in *. set (q := cosh (w * b)) in *.
    assert (1 / (q * q) < 1 / (p * p)); [|nra]. unfold Rdiv. rewrite !Rmult_1_l. assert (p * p < q * q) by nra. apply Rinv_lt_contravar; [|assumption]. apply Rmult_lt_0_compat; nra.
  Qed.

  Lemma prof'_neg xi : 0 < xi -> prof' xi < 0.
  Proof.
    intros H. unfold prof'. pose proof w_pos as W. assert (S0 : 0 < sinh (w * xi)) by (apply sinh_pos; nra).
    pose proof (cosh_ge_1 (w * xi)) as C. set (k := cosh (w * xi)) in *.
    assert (0 < 2 * A * w * sinh (w * xi) / (k * k * k)); [|lra].
    apply Rdiv_lt_0_compat; [|apply Rmult_lt_0_compat; nra]. apply Rmult_lt_0_compat; [|exact S0]. nra.
  Qed.

  Lemma soliton_depth x t : soliton g d A x t 0%nat = prof (x 0%nat - c * t).
  Proof.
    unfold soliton, tensor. cbn [nth]. fold c w. fold (prof (x 0%nat - c * t)). apply Rmax_left. pose proof (prof_range (x 0%nat - c * t)). lra.
  Qed.

  Lemma soliton_momentum x t : soliton g d A x t 1%nat = c * (prof (x 0%nat - c * t) - d).
  Proof.
    unfold soliton, tensor. cbn [nth]. fold c w. fold (prof (x 0%nat - c * t)). pose proof (prof_range (x 0%nat - c * t)).
    rewrite Rmax_left by lra. field. lra.
  Qed.

  Lemma soliton_rest x t k : (2 <= k)%nat -> soliton g d A x t k = 0.
  Proof. intros H. unfold soliton, tensor. destruct k as [|[|[|k]]]; try lia; reflexivity. Qed.

  Lemma inner_t x0 t : derivable_pt_lim (fun s => x0 - c * s) t (- c).
  Proof.
    pose proof (derivable_pt_lim_minus (fct_cte x0) (fun s => c * s) t 0 c (derivable_pt_lim_const x0 t)) as Q.
    assert (L : derivable_pt_lim (fun s => c * s) t c).
    { pose proof (derivable_pt_lim_scal id c t 1 (derivable_pt_lim_id t)) as Q'. rewrite Rmult_1_r in Q'. exact Q'. }
    specialize (Q L). replace (- c) with (0 - c) by ring. exact Q.
  Qed.

  Lemma depth_t x t : derivable_pt_lim (fun s => soliton g d A x s 0%nat) t (- c * prof' (x 0%nat - c * t)).
  Proof.
    pose proof (derivable_pt_lim_comp (fun s => x 0%nat - c * s) prof t (- c) _ (inner_t (x 0%nat) t) (prof_deriv (x 0%nat - c * t))) as Q.
    rewrite Rmult_comm. intros e He. destruct (Q e He) as [dl D]. exists dl. intros h H0 H1. rewrite !soliton_depth. apply D; assumption.
  Qed.

  Lemma momentum_t x t : derivable_pt_lim (fun s => soliton g d A x s 1%nat) t (- (c * c) * prof' (x 0%nat - c * t)).
  Proof.
    pose proof (derivable_pt_lim_comp (fun s => x 0%nat - c * s) prof t (- c) _ (inner_t (x 0%nat) t) (prof_deriv (x 0%nat - c * t))) as Q.
    pose proof (derivable_pt_lim_minus _ (fct_cte d) t _ 0 Q (derivable_pt_lim_const d t)) as Q1.
    pose proof (derivable_pt_lim_scal _ c t _ Q1) as Q2.
    replace (- (c * c) * prof' (x 0%nat - c * t)) with (c * (prof' (x 0%nat - c * t) * - c - 0)) by ring.
    intros e He. destruct (Q2 e He) as [dl D]. exists dl. intros h H0 H1. rewrite !soliton_momentum. apply D; assumption.
  Qed.

  Lemma inner_x x0 : derivable_pt_lim (fun s => x0 + s * 1) 0 1.
  Proof. apply affine_deriv. Qed.

  Lemma prof_x x t : derivable_pt_lim (fun s => prof (along x 0 s 0%nat - c * t)) 0 (prof' (x 0%nat - c * t)).
  Proof.
    assert (L : derivable_pt_lim (fun s => along x 0 s 0%nat - c * t) 0 1).
    { unfold along. cbn [Nat.eqb]. pose proof (derivable_pt_lim_minus _ (fct_cte (c * t)) 0 _ 0 (inner_x (x 0%nat)) (derivable_pt_lim_const (c * t) 0)) as Q.
      rewrite Rminus_0_r in Q. exact Q. }
    pose proof (prof_deriv (x 0%nat - c * t)) as P. replace (x 0%nat - c * t) with (along x 0 0 0%nat - c * t) in P at 1 by (unfold along; cbn; ring).
    pose proof (derivable_pt_lim_comp _ prof 0 1 _ L P) as Q. rewrite Rmult_1_r in Q. exact Q.
  Qed.

  Lemma momentum_x x t j : derivable_pt_lim (fun s => soliton g d A (along x j s) t (S j)) 0
    (if Nat.eqb j 0 then c * prof' (x 0%nat - c * t) else 0).
  Proof.
    destruct (Nat.eqb_spec j 0) as [->|N].
    - pose proof (derivable_pt_lim_scal _ c 0 _ (derivable_pt_lim_minus _ (fct_cte d) 0 _ 0 (prof_x x t) (derivable_pt_lim_const d 0))) as Q.
      replace (c * prof' (x 0%nat - c * t)) with (c * (prof' (x 0%nat - c * t) - 0)) by ring.
      intros e He. destruct (Q e He) as [dl D]. exists dl. intros h H0 H1. rewrite !soliton_momentum. apply D; assumption.
    - pose proof (derivable_pt_lim_const 0 0) as Q. intros e He. destruct (Q e He) as [dl D]. exists dl. intros h H0 H1.
      rewrite !soliton_rest by lia. apply D; assumption.
  Qed.

  Lemma rsum_head dim f : (1 <= dim)%nat -> (forall j, (1 <= j < dim)%nat -> f j = 0) -> rsum dim f = f 0%nat.
  Proof.
    intros H E. destruct dim as [|n]; [lia|]. clear H. induction n as [|n IH]; [cbn; ring|].
    change (rsum (S (S n)) f) with (rsum (S n) f + f (S n)). rewrite IH by (intros j Hj; apply E; lia). rewrite (E (S n)) by lia. ring.
  Qed.

  Lemma soliton_mass dim t x : (1 <= dim)%nat ->
    balance_at dim 1 (water_flux g dim) no_source (fun t x => soliton g d A x t) t x.
  Proof.
    intros Hdim. exists (fun _ => - c * prof' (x 0%nat - c * t)), (fun _ j => if Nat.eqb j 0 then c * prof' (x 0%nat - c * t) else 0).
    intros k Hk. assert (k = 0)%nat by lia. subst k. split; [apply depth_t|]. split.
    - intros j Hj. unfold water_flux. cbn [Nat.eqb]. apply momentum_x.
    - rewrite rsum_head; [cbn; unfold no_source; ring|exact Hdim|]. intros j Hj. destruct (Nat.eqb_spec j 0); [lia|reflexivity].
  Qed.

  Lemma flux_x x t : derivable_pt_lim (fun s => water_flux g 1 (soliton g d A (along x 0 s) t) 1 0) 0
    (let h := prof (x 0%nat - c * t) in (c * c * (1 - d * d / (h * h)) + g * h) * prof' (x 0%nat - c * t)).
  Proof.
    set (X := x 0%nat - c * t). pose proof (prof_range X) as PR. cbn zeta.
    pose proof (prof_x x t) as P. fold X in P.
    set (f := fun s => prof (along x 0 s 0%nat - c * t)) in *.
    assert (F0 : f 0 = prof X) by (unfold f, X, along; cbn [Nat.eqb]; f_equal; ring).
    pose proof (derivable_pt_lim_scal _ c 0 _ (derivable_pt_lim_minus _ (fct_cte d) 0 _ 0 P (derivable_pt_lim_const d 0))) as M.
    pose proof (derivable_pt_lim_mult _ _ 0 _ _ M M) as MM.
    assert (N : f 0 <> 0) by (rewrite F0; lra).
    pose proof (derivable_pt_lim_div _ _ 0 _ _ MM P N) as Q1.
    pose proof (derivable_pt_lim_scal _ (g / 2) 0 _ (derivable_pt_lim_mult _ _ 0 _ _ P P)) as Q2.
    pose proof (derivable_pt_lim_plus _ _ 0 _ _ Q1 Q2) as Q.
    unfold mult_real_fct, minus_fct, fct_cte, mult_fct, div_fct, plus_fct in Q. rewrite !F0 in Q.
    match type of Q with derivable_pt_lim _ _ ?v => replace ((c * c * (1 - d * d / (prof X * prof X)) + g * prof X) * prof' X) with v end.
    - intros e He. destruct (Q e He) as [dl D]. exists dl. intros h H0 H1. specialize (D h H0 H1).
      assert (E : forall s, water_flux g 1 (soliton g d A (along x 0 s) t) 1 0 = c * (f s - d) * (c * (f s - d)) / f s + g / 2 * (f s * f s)).
      { intros s. unfold water_flux. cbn [Nat.eqb]. rewrite soliton_momentum, soliton_depth. reflexivity. }
      rewrite !E. exact D.
    - unfold Rsqr. field. lra.
  Qed.

  Lemma not_solution dim t x : (1 <= dim)%nat -> let h := prof (x 0%nat - c * t) in
    0 < x 0%nat - c * t -> h * h * h <> (A + d) * (d * d) ->
    ~ solves_shallow_water g dim (fun _ => 0) no_friction (fun t x => soliton g d A x t) t x.
  Proof.
    intros Hdim h Hx Hh (dz & Hz & dt & dx & B). pose proof (prof_range (x 0%nat - c * t)) as PR. fold h in PR.
    destruct (B 1%nat ltac:(lia)) as (Bt & Bx & BE). cbn [Nat.eqb] in BE.
    assert (Z0 : dz 0%nat = 0).
    { apply (uniqueness_limite (fun s => 0) 0); [apply Hz; lia|apply (derivable_pt_lim_const 0 0)]. }
    pose proof (uniqueness_limite _ _ _ _ Bt (momentum_t x t)) as E1.
    assert (E2 : forall j, (1 <= j < dim)%nat -> dx 1%nat j = 0).
    { intros j Hj. pose proof (Bx j ltac:(lia)) as Q. eapply uniqueness_limite; [exact Q|].
      pose proof (derivable_pt_lim_const 0 0) as Q0. intros e He. destruct (Q0 e He) as [dl D]. exists dl. intros s H0 H1.
      assert (E : forall s, water_flux g dim (soliton g d A (along x j s) t) 1 j = 0).
      { intros s'. unfold water_flux. cbn [Nat.eqb]. rewrite (soliton_rest _ _ (S j)) by lia. destruct j; [lia|]. cbn [Nat.eqb]. unfold Rdiv. ring. }
      rewrite !E. apply D; assumption. }
    assert (E3 : dx 1%nat 0%nat = (c * c * (1 - d * d / (h * h)) + g * h) * prof' (x 0%nat - c * t)).
    { eapply uniqueness_limite; [apply (Bx 0%nat); lia|]. pose proof (flux_x x t) as Q. cbn zeta in Q. fold h in Q. exact Q. }
    rewrite rsum_head in BE by assumption. rewrite E1, E3, Nat.sub_diag, Z0 in BE. unfold no_friction in BE.
    pose proof (prof'_neg _ Hx) as NEG. set (p := prof' (x 0%nat - c * t)) in *.
    assert (K : (- (c * c) * (d * d / (h * h)) + g * h) * p = 0) by lra.
    apply Rmult_integral in K. destruct K as [K|K]; [|lra]. apply Hh.
    rewrite c_sq in K. apply (Rmult_eq_reg_l g); [|lra].
    assert (K2 : (- (g * (A + d)) * (d * d / (h * h)) + g * h) * (h * h) = 0) by (rewrite K; ring).
    replace ((- (g * (A + d)) * (d * d / (h * h)) + g * h) * (h * h)) with (g * (h * h * h) - g * ((A + d) * (d * d))) in K2 by (field; lra). lra.
  Qed.

  Lemma wave_proof dim t x : (1 <= dim)%nat ->
    let W := fun t x => soliton g d A x t in
    exists speed, 0 < speed /\ speed * speed = g * (A + d) /\
    d < W t x 0%nat <= d + A /\ W t x 1%nat = speed * (W t x 0%nat - d) /\ (forall k, (2 <= k)%nat -> W t x k = 0) /\
    (x 0%nat = speed * t -> W t x 0%nat = d + A) /\
    (forall s y, y 0%nat - speed * s = x 0%nat - speed * t -> forall k, W s y k = W t x k) /\
    balance_at dim 1 (water_flux g dim) no_source W t x.
  Proof.
    intros Hdim W. exists c. split; [apply c_pos|]. split; [apply c_sq|]. unfold W. rewrite soliton_depth, soliton_momentum.
    split; [apply prof_range|]. split; [reflexivity|]. split; [intros k Hk; apply soliton_rest; exact Hk|]. split.
    { intros E. rewrite E. unfold prof. replace (w * (c * t - c * t)) with 0 by ring. rewrite cosh_0. field. }
    split; [|apply soliton_mass; exact Hdim].
    intros s y E k. destruct k as [|[|k]].
    - rewrite !soliton_depth. rewrite E. reflexivity.
    - rewrite !soliton_momentum. rewrite E. reflexivity.
    - rewrite !soliton_rest by lia. reflexivity.
  Qed.

  Lemma solution_refuted dim t : (1 <= dim)%nat ->
    exists x, ~ solves_shallow_water g dim (fun _ => 0) no_friction (fun t x => soliton g d A x t) t x.
  Proof.
    intros Hdim. set (P := fun xi => prof xi * prof xi * prof xi).
    destruct (Req_EM_T (P 1) ((A + d) * (d * d))) as [E|N].
    - exists (fun _ => 2 + c * t). apply not_solution; [exact Hdim|lra|]. replace (2 + c * t - c * t) with 2 by ring.
      intros E2. pose proof (prof_lt 1 2 ltac:(lra)) as L. pose proof (prof_range 2) as R2. unfold P in E. rewrite <- E in E2.
      assert (prof 2 * prof 2 < prof 1 * prof 1) by nra. assert (prof 2 * prof 2 * prof 2 < prof 1 * prof 1 * prof 1) by nra. lra.
    - exists (fun _ => 1 + c * t). apply not_solution; [exact Hdim|lra|]. replace (1 + c * t - c * t) with 1 by ring. exact N.
  Qed.
End Wave.

Lemma C146_wave_proof g d A dim t x : 0 < g -> 0 < d -> 0 < A -> (1 <= dim)%nat ->
  let W := fun t x => soliton g d A x t in
  exists speed, 0 < speed /\ speed * speed = g * (A + d) /\
  d < W t x 0%nat <= d + A /\ W t x 1%nat = speed * (W t x 0%nat - d) /\ (forall k, (2 <= k)%nat -> W t x k = 0) /\
  (x 0%nat = speed * t -> W t x 0%nat = d + A) /\
  (forall s y, y 0%nat - speed * s = x 0%nat - speed * t -> forall k, W s y k = W t x k) /\
  balance_at dim 1 (water_flux g dim) no_source W t x.
Proof. intros. apply wave_proof; assumption. Qed.

Lemma C146_solution_refuted_proof g d A dim t : 0 < g -> 0 < d -> 0 < A -> (1 <= dim)%nat ->
  exists x, ~ solves_shallow_water g dim (fun _ => 0) no_friction (fun t x => soliton g d A x t) t x.
Proof. intros. apply solution_refuted; assumption. Qed.
