(** * Lemmas about steps 4 to 7 *)
From Coq Require Import Reals List Arith Bool Lia Lra Permutation FunctionalExtensionality.
From Verif Require Import Scheme SchemeSpec SchemeProofs.
Import ListNotations.
Local Open Scope R_scope.

(** ** Convex combinations *)

Lemma lsum_zero_weights {A} (w : A -> R) l :
  (forall j, In j l -> 0 <= w j) -> lsum w l = 0 -> forall j, In j l -> w j = 0.
Proof.
  induction l as [|x r IH]; intros Hw E j Hj; [destruct Hj|]. simpl in E.
  assert (0 <= w x) by (apply Hw; left; reflexivity).
  assert (0 <= lsum w r) by (apply lsum_nonneg; intros; apply Hw; right; assumption).
  destruct Hj as [->|Hj]; [lra|]. apply IH; [intros; apply Hw; right; assumption|lra|assumption].
Qed.

Lemma convex_combination {A K} (X : state K -> Prop) (w : A -> R) (g : A -> state K) l :
  convex_set X ->
  (forall j, In j l -> 0 <= w j /\ (w j = 0 \/ X (g j))) ->
  0 < lsum w l ->
  X (fun k => lsum (fun j => w j * g j k) l / lsum w l).
Proof.
  intros HX. induction l as [|x r IH]; intros Hw Hpos; [simpl in Hpos; lra|].
  destruct (Hw x (or_introl eq_refl)) as [Hx0 Hx].
  assert (Hr : forall j, In j r -> 0 <= w j /\ (w j = 0 \/ X (g j)))
    by (intros j Hj; apply Hw; right; exact Hj).
  assert (Hrn : 0 <= lsum w r) by (apply lsum_nonneg; intros j Hj; apply Hr; exact Hj).
  simpl in Hpos.
  destruct (Rle_lt_dec (lsum w r) 0) as [Hz|Hp].
  - assert (Ez : lsum w r = 0) by lra.
    assert (Eall : forall j, In j r -> w j = 0)
      by (apply lsum_zero_weights; [intros; apply Hr; assumption|exact Ez]).
    assert (Hwx : w x <> 0) by lra. destruct Hx as [Hx|Hx]; [contradiction|].
    replace (fun k => lsum (fun j => w j * g j k) (x :: r) / lsum w (x :: r)) with (g x);
      [exact Hx|].
    apply functional_extensionality. intros k. simpl. rewrite Ez.
    rewrite (lsum_zero (fun j => w j * g j k) r).
    + field. exact Hwx.
    + intros j Hj. rewrite (Eall j Hj). ring.
  - specialize (IH Hr Hp). destruct (Rle_lt_dec (w x) 0) as [Hz|Hpx].
    + assert (w x = 0) by lra.
      replace (fun k => lsum (fun j => w j * g j k) (x :: r) / lsum w (x :: r))
        with (fun k => lsum (fun j => w j * g j k) r / lsum w r); [exact IH|].
      apply functional_extensionality. intros k. simpl. rewrite H. f_equal; [ring|f_equal;ring].
    + destruct Hx as [Hx|Hx]; [lra|].
      set (a := w x / (w x + lsum w r)).
      assert (Ha : 0 <= a <= 1).
      { unfold a. split.
        - apply Rlt_le, Rdiv_lt_0_compat; lra.
        - apply Rmult_le_reg_r with (w x + lsum w r); [lra|].
          unfold Rdiv. rewrite Rmult_assoc, Rinv_l; lra. }
      pose proof (HX _ _ a Hx IH Ha) as HH.
      replace (fun k => lsum (fun j => w j * g j k) (x :: r) / lsum w (x :: r))
        with (fun k => a * g x k + (1 - a) * (lsum (fun j => w j * g j k) r / lsum w r));
        [exact HH|].
      apply functional_extensionality. intros k. unfold a. simpl. field. lra.
Qed.

Lemma convex_combination_1 {A K} (X : state K -> Prop) (w : A -> R) (g : A -> state K) l
  (w0 : R) (g0 v : state K) :
  convex_set X ->
  (forall j, In j l -> 0 <= w j /\ (w j = 0 \/ X (g j))) ->
  0 <= w0 -> X g0 -> w0 + lsum w l = 1 ->
  (forall k, v k = w0 * g0 k + lsum (fun j => w j * g j k) l) -> X v.
Proof.
  intros HX Hw Hw0 Hg0 E Hv.
  destruct (Rle_lt_dec (lsum w l) 0) as [Hz|Hp].
  - assert (Ez : lsum w l = 0).
    { assert (0 <= lsum w l) by (apply lsum_nonneg; intros j Hj; apply Hw; exact Hj). lra. }
    replace v with g0; [exact Hg0|]. apply functional_extensionality. intros k.
    rewrite Hv, (lsum_zero (fun j => w j * g j k) l).
    + replace w0 with 1 by lra. lra.
    + intros j Hj. rewrite (lsum_zero_weights w l); [lra|intros; apply Hw; assumption|exact Ez|exact Hj].
  - pose proof (convex_combination X w g l HX Hw Hp) as HC.
    assert (Hle : 0 <= w0 <= 1) by lra.
    pose proof (HX _ _ w0 Hg0 HC Hle) as HH.
    replace v with (fun k => w0 * g0 k + (1 - w0) * (lsum (fun j => w j * g j k) l / lsum w l));
      [exact HH|].
    apply functional_extensionality. intros k. rewrite Hv.
    replace (1 - w0) with (lsum w l) by lra. field. lra.
Qed.

(** ** Closed forms *)
Section Forms.
Context {K : Type}.
Variable Sy : system K.
Variable M : mesh.
Variable nm : R.
Variable old : (nat -> state K) * PC K Sy.
Variable stages : list ((nat -> state K) * PC K Sy * R).
Variable alpha : nat -> R.
Variable d : nat -> nat -> R.
Variable tau : R.

Lemma weight_value : weight Sy stages = 1 - lsum snd stages.
Proof using Type. unfold weight. rewrite fold_left_plus, lsum_map.
  change (lsum (fun x => snd x) stages) with (lsum snd stages). lra. Qed.

Lemma low_order_form new0 i k :
  constrained M i = false ->
  low_order_update Sy M old d tau new0 i k =
  fst old i k + tau * source Sy tau old i k
  + lsum (fun j => tau * mass_inv M i * (low_order_flux Sy M old i j k + d i j * jump Sy old i j k))
      (columns M i).
Proof using Type.
  intros Hc. unfold low_order_update. rewrite Hc.
  erewrite (fold_add _ (fun j => fun k => tau * mass_inv M i *
     (low_order_flux Sy M old i j k + d i j * jump Sy old i j k))).
  - unfold splus, smult. reflexivity.
  - intros u j. unfold splus, smult. ring.
Qed.

Lemma stages_form (m : R) i j (p : state K) k :
  fold_left (fun p st =>
    splus (splus p (smult (snd st) (high_order_flux Sy M (fst st) i j)))
          (smult (snd st * m) (source Sy tau (fst st) j))) stages p k
  = p k + lsum (fun st => snd st * (high_order_flux Sy M (fst st) i j k
                                    + m * source Sy tau (fst st) j k)) stages.
Proof using Type.
  erewrite (fold_add _ (fun st => fun k => snd st * (high_order_flux Sy M (fst st) i j k
                                    + m * source Sy tau (fst st) j k))).
  - reflexivity.
  - intros u st. unfold splus, smult. ring.
Qed.

(** Weighted fluxes of old state and stages. *)
Definition flux_H (i j : nat) (k : K) : R :=
  weight Sy stages * high_order_flux Sy M old i j k
  + lsum (fun st => snd st * high_order_flux Sy M (fst st) i j k) stages.

(** Weighted sources. *)
Definition src_H (j : nat) (k : K) : R :=
  weight Sy stages * source Sy tau old j k
  + lsum (fun st => snd st * source Sy tau (fst st) j k) stages.

Lemma stage_sum (m : R) i j k :
  lsum (fun st => snd st * (high_order_flux Sy M (fst st) i j k + m * source Sy tau (fst st) j k))
    stages
  = lsum (fun st => snd st * high_order_flux Sy M (fst st) i j k) stages
    + m * lsum (fun st => snd st * source Sy tau (fst st) j k) stages.
Proof using Type.
  rewrite <- lsum_scal, <- lsum_plus. apply lsum_ext. intros. ring.
Qed.

Lemma source_H_form i k : source_H Sy old stages tau i k = src_H i k.
Proof using Type.
  unfold source_H, src_H, splus at 1.
  erewrite (fold_add _ (fun st => fun k => snd st * source Sy tau (fst st) i k)).
  - unfold szero, smult. ring.
  - intros u st. unfold splus, smult. ring.
Qed.

Lemma pij_step4_form i j k :
  pij_step4 Sy M old stages alpha d tau i j k =
  - low_order_flux Sy M old i j k
  + (dijH M alpha d i j - d i j) * jump Sy old i j k
  - mass_ij M i j * source Sy tau old i k
  + flux_H i j k + mass_ij M i j * src_H j k.
Proof using Type.
  unfold pij_step4. cbv zeta. rewrite stages_form, stage_sum.
  unfold flux_H, src_H, splus, sminus, sopp, smult. ring.
Qed.

Lemma high_order_rhs_form i k :
  high_order_rhs Sy M old stages alpha d tau i k =
  mass M i * src_H i k
  + lsum (fun j => dijH M alpha d i j * jump Sy old i j k - mass_ij M i j * src_H i k
                   + flux_H i j k + mass_ij M i j * src_H j k) (columns M i).
Proof using Type.
  unfold high_order_rhs.
  erewrite (fold_add _ (fun j => fun k =>
     dijH M alpha d i j * jump Sy old i j k - mass_ij M i j * src_H i k
                   + flux_H i j k + mass_ij M i j * src_H j k)).
  - unfold smult. rewrite source_H_form. reflexivity.
  - intros u j. rewrite stages_form, stage_sum.
    unfold splus, sminus, smult. rewrite source_H_form. unfold flux_H, src_H. ring.
Qed.

(** The pair correction without the row factor. *)
Definition corr (i j : nat) (k : K) : R :=
  pij_step4 Sy M old stages alpha d tau i j k
  + ((if discontinuous M then mass M i * mass_ij_inv M i j else - (mass_ij M i j * mass_inv M j))
       * high_order_rhs Sy M old stages alpha d tau j k
     - (if discontinuous M then mass M j * mass_ij_inv M i j else - (mass_ij M i j * mass_inv M i))
       * high_order_rhs Sy M old stages alpha d tau i k).

Lemma pij_form i j k :
  pij Sy M old stages alpha d tau i j k =
  tau * mass_inv M i * lambda_inv M i * corr i j k.
Proof using Type.
  unfold pij, corr. destruct (discontinuous M); unfold smult, splus, sminus; ring.
Qed.

Lemma high_order_update_form l V i k :
  constrained M i = false ->
  high_order_update Sy M old stages alpha d tau l V i k =
  V i k + lsum (fun j => symmetrized l i j * (1 / lambda_inv M i)
                         * pij Sy M old stages alpha d tau i j k) (neighbours M i).
Proof using Type.
  intros Hc. unfold high_order_update. rewrite Hc.
  erewrite (fold_add _ (fun j => fun k => symmetrized l i j * (1 / lambda_inv M i)
                         * pij Sy M old stages alpha d tau i j k)).
  - reflexivity.
  - intros u j. unfold splus, smult. ring.
Qed.

Lemma lambda_inv_pos i :
  symmetric_pattern M -> (i < n_rows M)%nat -> constrained M i = false ->
  lambda_inv M i = INR (length (neighbours M i)) /\ 0 < lambda_inv M i.
Proof using Type.
  intros H Hi Hc. unfold lambda_inv. rewrite (columns_split M i H Hi). simpl length.
  replace (Datatypes.S (length (neighbours M i)) - 1)%nat with (length (neighbours M i)) by lia.
  split; [reflexivity|]. apply lt_0_INR.
  apply constrained_false in Hc; auto. destruct (neighbours M i); [congruence|simpl; lia].
Qed.

Lemma high_order_update_corr l V i k :
  symmetric_pattern M -> (i < n_rows M)%nat -> constrained M i = false ->
  high_order_update Sy M old stages alpha d tau l V i k =
  V i k + tau * mass_inv M i * lsum (fun j => symmetrized l i j * corr i j k) (neighbours M i).
Proof using Type.
  intros H Hi Hc. rewrite high_order_update_form by assumption. f_equal.
  rewrite <- lsum_scal. apply lsum_ext. intros j Hj. rewrite pij_form.
  destruct (lambda_inv_pos i H Hi Hc) as [_ HL]. field. lra.
Qed.

Lemma symmetrized_sym l i j : symmetrized l j i = symmetrized l i j.
Proof using Type. apply Rmin_comm. Qed.

(** ** Conservation *)

Section Conservation.
Variable k : K.
Hypothesis Hpat : symmetric_pattern M.
Hypothesis Hmass : positive_masses M.
Hypothesis Hcorr : forall i j, (i < n_rows M)%nat -> In j (neighbours M i) ->
  corr j i k = - corr i j k.

Lemma pass_conservation l V :
  total M (active_rows M) (high_order_update Sy M old stages alpha d tau l V) k =
  total M (active_rows M) V k.
Proof using Hpat Hmass Hcorr.
  unfold total.
  rewrite (lsum_ext _ (fun i => mass M i * V i k
     + lsum (fun j => tau * (symmetrized l i j * corr i j k)) (neighbours M i))).
  - rewrite lsum_plus, pattern_sum; [ring|exact Hpat|].
    intros i j Hi Hj. rewrite symmetrized_sym, (Hcorr i j Hi Hj). ring.
  - intros i Hi. apply active_rows_in in Hi. destruct Hi as [Hi Hc].
    rewrite (high_order_update_corr l V i k Hpat Hi Hc), lsum_scal.
    destruct (Hmass i (constrained_active M i Hi Hc)) as [Hm ->]. field. lra.
Qed.

Lemma passes_conservation order n r : forall l lnext V,
  total M (active_rows M) (passes Sy M nm old stages alpha d tau order n r l lnext V) k =
  total M (active_rows M) V k.
Proof using Hpat Hmass Hcorr.
  induction r as [|r IH]; intros l lnext V; [reflexivity|]. cbn [passes].
  destruct ((n =? 2)%nat && (r =? 0)%nat); rewrite IH; apply pass_conservation.
Qed.
End Conservation.

Lemma low_order_conservation k new0 :
  symmetric_pattern M -> positive_masses M -> source_free Sy k ->
  (forall i j, (i < n_rows M)%nat -> In j (neighbours M i) -> d j i = d i j) ->
  swapped_equilibrated Sy ->
  total M (active_rows M) (low_order_update Sy M old d tau new0) k =
  total M (active_rows M) (fst old) k
  + tau * lsum (fun i => lsum (fun j => low_order_flux Sy M old i j k) (columns M i)) (active_rows M).
Proof using Type.
  intros Hpat Hmass Hsrc Hd Hsw. unfold total.
  assert (Hs : forall i, source Sy tau old i k = 0).
  { intros i. unfold source. destruct (have_source_terms K Sy) eqn:E; [|reflexivity].
    apply Hsrc; exact E. }
  assert (Hj : forall i j, jump Sy old j i k = - jump Sy old i j k).
  { intros i j. unfold jump. destruct (shallow_water K Sy) eqn:E.
    - rewrite (Hsw E). destruct (equilibrated_states K Sy _ _) as [a b]. simpl.
      unfold sminus. ring.
    - unfold sminus. ring. }
  rewrite (lsum_ext _ (fun i => mass M i * fst old i k
     + (tau * lsum (fun j => low_order_flux Sy M old i j k) (columns M i)
     + lsum (fun j => tau * (d i j * jump Sy old i j k)) (neighbours M i)))).
  - rewrite !lsum_plus, lsum_scal, pattern_sum; [ring|exact Hpat|].
    intros i j Hi Hn. rewrite (Hd i j Hi Hn), Hj. ring.
  - intros i Hi. apply active_rows_in in Hi. destruct Hi as [Hi Hc].
    rewrite (low_order_form new0 i k Hc), Hs.
    assert (Hjj : jump Sy old i i k = 0) by (specialize (Hj i i); lra).
    rewrite <- lsum_scal.
    rewrite (columns_split M i Hpat Hi). cbn [lsum]. rewrite Hjj.
    rewrite (lsum_ext _ (fun j => mass_inv M i *
       (tau * low_order_flux Sy M old i j k + tau * (d i j * jump Sy old i j k))))
      by (intros; ring).
    rewrite lsum_scal, lsum_plus.
    destruct (Hmass i (constrained_active M i Hi Hc)) as [Hm ->]. field. lra.
Qed.

Lemma corr_antisymmetric k :
  symmetric_pattern M -> source_free Sy k -> swapped_equilibrated Sy -> symmetric_matrices M ->
  (forall i j, (i < n_rows M)%nat -> In j (neighbours M i) -> d j i = d i j) ->
  (skew_divergence Sy M (flux_divergence K Sy) k /\
   (have_high_order_flux K Sy = true ->
    skew_divergence Sy M (high_order_flux_divergence K Sy) k)
   \/ (stages = [] /\ have_high_order_flux K Sy = false)) ->
  forall i j, (i < n_rows M)%nat -> In j (neighbours M i) -> corr j i k = - corr i j k.
Proof using Type.
  intros Hpat Hsrc Hsw Hsm Hd Hskew i j Hi Hn.
  destruct (neighbours_bound M i j Hpat Hi Hn) as [Hjb [Hnj Hne]].
  assert (Hin : In j (columns M i)) by (apply neighbours_in in Hn; tauto).
  destruct (Hsm i j (row_active M i j Hpat Hi Hn) Hin) as [Em [Emi Einc]].
  assert (Hs : forall v i, source Sy tau v i k = 0).
  { intros v l. unfold source. destruct (have_source_terms K Sy) eqn:E; [|reflexivity].
    apply Hsrc; exact E. }
  assert (Hj : jump Sy old j i k = - jump Sy old i j k).
  { unfold jump. destruct (shallow_water K Sy) eqn:E.
    - rewrite (Hsw E). destruct (equilibrated_states K Sy _ _) as [a b]. simpl.
      unfold sminus. ring.
    - unfold sminus. ring. }
  assert (EH : dijH M alpha d j i = dijH M alpha d i j).
  { unfold dijH. cbv zeta. rewrite (Hd i j Hi Hn), Einc, (Rplus_comm (alpha j)). reflexivity. }
  assert (Hf : - low_order_flux Sy M old j i k + flux_H j i k =
               - (- low_order_flux Sy M old i j k + flux_H i j k)).
  { destruct Hskew as [[S1 S2]|[S0 S2]].
    - assert (S3 : forall v, high_order_flux Sy M v j i k = - high_order_flux Sy M v i j k).
      { intros v. unfold high_order_flux. destruct (have_high_order_flux K Sy).
        - apply S2; auto.
        - apply S1; auto. }
      unfold flux_H. rewrite S3.
      rewrite (lsum_ext _ (fun st => - (snd st * high_order_flux Sy M (fst st) i j k)))
        by (intros; rewrite S3; ring).
      rewrite lsum_opp. unfold low_order_flux at 1. rewrite (S1 i j _ _ Hi Hin Hne).
      unfold low_order_flux. ring.
    - unfold flux_H, high_order_flux, low_order_flux. rewrite weight_value, S0, S2. cbn [lsum]. ring. }
  unfold corr. rewrite !pij_step4_form.
  unfold src_H. rewrite !Hs.
  rewrite !(lsum_zero (fun st => snd st * source Sy tau (fst st) _ k) stages)
    by (intros; rewrite Hs; ring).
  rewrite Hj, EH, (Hd i j Hi Hn), Em, Emi.
  destruct (discontinuous M);
    rewrite <- Ropp_mult_distr_r; rewrite !Rmult_0_r, !Rplus_0_r, !Rminus_0_r; lra.
Qed.
End Forms.
