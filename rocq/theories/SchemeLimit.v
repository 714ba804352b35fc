(** * Lemmas: convexity of the low-order update, limiting, uniform states,
    verdict, unlimited update *)
From Coq Require Import Reals List Arith Bool Lia Lra Permutation FunctionalExtensionality.
From Verif Require Import Scheme SchemeSpec SchemeProofs SchemeUpdate.
Import ListNotations.
Local Open Scope R_scope.

Lemma dotp_row_sum {A} dim f (c : A -> cvec) l :
  (forall x, lsum (fun j => nth x (c j) 0) l = 0) ->
  lsum (fun j => dotp dim f (c j)) l = 0.
Proof.
  intros H. unfold dotp. rewrite lsum_swap. apply lsum_zero. intros x _.
  rewrite lsum_scal, H. ring.
Qed.

Section Limit.
Context {K : Type}.
Variable Sy : system K.
Variable M : mesh.
Variable nm : R.
Variable old : (nat -> state K) * PC K Sy.
Variable stages : list ((nat -> state K) * PC K Sy * R).
Variable alpha : nat -> R.
Variable d : nat -> nat -> R.
Variable tau : R.

(** ** C18 *)
Lemma low_order_convex dim F X new0 i :
  plain Sy -> central_flux Sy dim F -> symmetric_pattern M -> positive_masses M ->
  zero_row_sum M i -> (i < n_rows M)%nat -> constrained M i = false ->
  0 <= tau -> tau * (2 * lsum (fun j => d i j) (neighbours M i)) <= mass M i ->
  convex_set X -> X (fst old i) ->
  (forall j, In j (neighbours M i) ->
     (0 < d i j /\ X (bar_state Sy M dim F old (d i j) i j)) \/
     (d i j = 0 /\ forall k,
        dotp dim (F (flux_contribution K Sy (snd old) j (fst old j)) k) (c_ij M i j) =
        dotp dim (F (flux_contribution K Sy (snd old) i (fst old i)) k) (c_ij M i j))) ->
  X (low_order_update Sy M old d tau new0 i).
Proof using Type.
  intros [HS HW] HF Hpat Hmass Hz Hi Hc Ht HT HX HU Hbar.
  destruct (Hmass i (constrained_active M i Hi Hc)) as [Hm Emi].
  assert (Hdn : forall j, In j (neighbours M i) -> 0 <= d i j).
  { intros j Hj. destruct (Hbar j Hj) as [[? _]|[? _]]; lra. }
  assert (Hinv : 0 < / mass M i) by (apply Rinv_0_lt_compat; lra).
  assert (Htm : 0 <= tau * / mass M i) by (apply Rmult_le_pos; lra).
  apply (convex_combination_1 X (fun j => 2 * tau * / mass M i * d i j)
           (fun j => bar_state Sy M dim F old (d i j) i j) (neighbours M i)
           (1 - lsum (fun j => 2 * tau * / mass M i * d i j) (neighbours M i)) (fst old i)).
  - exact HX.
  - intros j Hj. split.
    + replace (2 * tau * / mass M i * d i j) with (2 * (tau * / mass M i) * d i j) by ring.
      apply Rmult_le_pos; [lra|auto].
    + destruct (Hbar j Hj) as [[_ H]|[-> _]]; [right; exact H|left; ring].
  - rewrite lsum_scal.
    assert (tau * / mass M i * (2 * lsum (fun j => d i j) (neighbours M i)) <= 1).
    { apply Rmult_le_reg_l with (mass M i); [lra|].
      replace (mass M i * (tau * / mass M i * (2 * lsum (fun j => d i j) (neighbours M i))))
        with (tau * (2 * lsum (fun j => d i j) (neighbours M i))) by (field; lra). lra. }
    change (lsum (fun j => d i j) (neighbours M i)) with (lsum (d i) (neighbours M i)) in *.
    lra.
  - exact HU.
  - lra.
  - intros k. rewrite (low_order_form Sy M old d tau new0 i k Hc).
    unfold source. rewrite HS. unfold szero. rewrite Emi.
    set (fi := flux_contribution K Sy (snd old) i (fst old i)).
    set (fj := fun j => flux_contribution K Sy (snd old) j (fst old j)).
    rewrite (lsum_ext _ (fun j => tau * / mass M i *
       ((- 2 * dotp dim (F fi k) (c_ij M i j))
        + ((dotp dim (F fi k) (c_ij M i j) - dotp dim (F (fj j) k) (c_ij M i j))
           + d i j * (fst old j k - fst old i k))))).
    2:{ intros j _. unfold low_order_flux, jump. rewrite HW, HF. unfold sminus. fold fi.
        unfold flux. fold fi. fold (fj j). ring. }
    rewrite lsum_scal, lsum_plus, lsum_scal, (dotp_row_sum dim (F fi k) (c_ij M i) (columns M i) Hz).
    rewrite (columns_split M i Hpat Hi). cbn [lsum]. change (fj i) with fi.
    rewrite Rmult_minus_distr_r, Rmult_1_l.
    replace (lsum (fun j => 2 * tau * / mass M i * d i j) (neighbours M i) * fst old i k)
      with (lsum (fun j => 2 * tau * / mass M i * d i j * fst old i k) (neighbours M i)).
    2:{ rewrite (Rmult_comm (lsum _ _)), <- lsum_scal. apply lsum_ext. intros; ring. }
    replace (fst old i k + tau * 0 +
      tau * / mass M i * (-2 * 0 + (dotp dim (F fi k) (c_ij M i i) - dotp dim (F fi k) (c_ij M i i) +
      d i i * (fst old i k - fst old i k) +
      lsum (fun j => dotp dim (F fi k) (c_ij M i j) - dotp dim (F (fj j) k) (c_ij M i j) +
                     d i j * (fst old j k - fst old i k)) (neighbours M i))))
    with (fst old i k + lsum (fun j => tau * / mass M i *
      (dotp dim (F fi k) (c_ij M i j) - dotp dim (F (fj j) k) (c_ij M i j) +
                     d i j * (fst old j k - fst old i k))) (neighbours M i))
      by (rewrite lsum_scal; ring).
    enough (E : lsum (fun j => tau * / mass M i *
      (dotp dim (F fi k) (c_ij M i j) - dotp dim (F (fj j) k) (c_ij M i j) +
                     d i j * (fst old j k - fst old i k))) (neighbours M i)
      = lsum (fun j => 2 * tau * / mass M i * d i j * bar_state Sy M dim F old (d i j) i j k)
          (neighbours M i)
        - lsum (fun j => 2 * tau * / mass M i * d i j * fst old i k) (neighbours M i)) by lra.
    rewrite <- lsum_minus. apply lsum_ext. intros j Hj. unfold bar_state. fold fi. fold (fj j).
    destruct (Hbar j Hj) as [[Hd _]|[Hd Hf]].
    + field. lra.
    + specialize (Hf k). fold fi in Hf. fold (fj j) in Hf. rewrite Hf, Hd. ring.
Qed.

(** ** C20 *)

Lemma high_order_inside X l V i :
  symmetric_pattern M -> (i < n_rows M)%nat -> constrained M i = false ->
  convex_set X ->
  (forall j, In j (neighbours M i) -> 0 <= l i j /\ 0 <= l j i /\
     forall s, 0 <= s <= l i j ->
       X (fun k => V i k + s * pij Sy M old stages alpha d tau i j k)) ->
  X (high_order_update Sy M old stages alpha d tau l V i).
Proof using Type.
  intros Hpat Hi Hc HX Hl.
  destruct (lambda_inv_pos M i Hpat Hi Hc) as [EL HL].
  assert (Hne : neighbours M i <> []) by (apply constrained_false; assumption).
  replace (high_order_update Sy M old stages alpha d tau l V i) with
    (fun k => lsum (fun j => 1 * (V i k + symmetrized l i j *
                                  pij Sy M old stages alpha d tau i j k)) (neighbours M i)
              / lsum (fun _ => 1) (neighbours M i)).
  - apply (convex_combination X (fun _ => 1)
             (fun j k => V i k + symmetrized l i j * pij Sy M old stages alpha d tau i j k)); auto.
    + intros j Hj. split; [lra|]. right. destruct (Hl j Hj) as [H1 [H2 H3]]. apply H3.
      unfold symmetrized. split; [apply Rmin_glb; assumption|apply Rmin_l].
    + rewrite lsum_const, <- EL. lra.
  - apply functional_extensionality. intros k.
    rewrite high_order_update_form by assumption.
    rewrite (lsum_ext _ (fun j => V i k + symmetrized l i j *
                                  pij Sy M old stages alpha d tau i j k)) by (intros; ring).
    rewrite lsum_plus, !lsum_const, <- EL, Rmult_1_r.
    rewrite (lsum_ext (fun j => symmetrized l i j * (1 / lambda_inv M i) *
        pij Sy M old stages alpha d tau i j k)
      (fun j => / lambda_inv M i * (symmetrized l i j * pij Sy M old stages alpha d tau i j k)))
      by (intros; field; lra).
    rewrite lsum_scal. field. lra.
Qed.

Section Inside.
Variable order : list nat.
Variable inside : BD K Sy -> state K -> Prop.
Hypothesis Hpat : symmetric_pattern M.
Hypothesis Hconv : forall b, convex_set (inside b).
Hypothesis Hlim : limiter_guarantee Sy inside.
Let b := limiter_bounds_i Sy M nm old d tau order.

Definition row_ok (V : nat -> state K) : Prop :=
  forall i, (i < n_rows M)%nat -> constrained M i = false -> inside (b i) (V i).

(** [l] is admissible for the vector [V]. *)
Definition l_ok (l : nat -> nat -> R) (V : nat -> state K) : Prop :=
  forall i j, (i < n_rows M)%nat -> In j (neighbours M i) ->
    0 <= l i j <= 1 /\
    forall s, 0 <= s <= l i j ->
      inside (b i) (fun k => V i k + s * pij Sy M old stages alpha d tau i j k).

Lemma pass_inside l V :
  l_ok l V -> row_ok (high_order_update Sy M old stages alpha d tau l V).
Proof using Hpat Hconv.
  intros Hl i Hi Hc. apply high_order_inside; auto.
  intros j Hj. destruct (neighbours_bound M i j Hpat Hi Hj) as [Hjb [Hji _]].
  destruct (Hl i j Hi Hj) as [[H1 _] H2]. destruct (Hl j i Hjb Hji) as [[H3 _] _]. auto.
Qed.

Lemma next_ok l lnext V' :
  (forall i j, (i < n_rows M)%nat -> In j (neighbours M i) -> 0 <= l i j <= 1) ->
  row_ok V' ->
  l_ok (limit_next Sy M nm old stages alpha d tau order l lnext V') V'.
Proof using Hpat Hlim.
  intros Hl HV i j Hi Hj. destruct (neighbours_bound M i j Hpat Hi Hj) as [Hjb [Hji _]].
  pose proof (proj1 (neighbour_active M i j Hpat Hi Hj)) as Hc.
  unfold limit_next. rewrite Hc. fold b.
  set (o := symmetrized l i j).
  assert (Ho : 0 <= o <= 1).
  { unfold o, symmetrized. destruct (Hl i j Hi Hj), (Hl j i Hjb Hji).
    split; [apply Rmin_glb; lra|]. eapply Rle_trans; [apply Rmin_l|lra]. }
  destruct (Hlim (b i) (V' i) (smult (1 - o) (pij Sy M old stages alpha d tau i j)) (HV i Hi Hc))
    as [Hn Hs].
  set (n := fst (limiter_limit K Sy (b i) (V' i)
                   (smult (1 - o) (pij Sy M old stages alpha d tau i j)))) in *.
  split.
  - split; [apply Rmult_le_pos; lra|].
    replace 1 with (1 * 1) at 2 by ring. apply Rmult_le_compat; lra.
  - intros s Hsb. destruct (Rle_lt_dec (1 - o) 0) as [Hz|Hp].
    + replace s with 0.
      * replace (fun k => V' i k + 0 * pij Sy M old stages alpha d tau i j k) with (V' i);
          [apply HV; assumption|]. apply functional_extensionality. intros k. ring.
      * replace (1 - o) with 0 in Hsb by lra. lra.
    + specialize (Hs (s / (1 - o))). unfold smult in Hs.
      replace (fun k => V' i k + s * pij Sy M old stages alpha d tau i j k)
        with (fun k => V' i k + s / (1 - o) * ((1 - o) * pij Sy M old stages alpha d tau i j k)).
      * apply Hs. split.
        -- apply Rmult_le_pos; [lra|]. apply Rlt_le, Rinv_0_lt_compat; exact Hp.
        -- apply Rmult_le_reg_r with (1 - o); [exact Hp|].
           unfold Rdiv. rewrite Rmult_assoc, Rinv_l by lra. lra.
      * apply functional_extensionality. intros k. field. lra.
Qed.

Lemma update_inside n l0 lnext0 new0 :
  (n <= 2)%nat ->
  row_ok (low_order_update Sy M old d tau new0) ->
  row_ok (fst (update Sy M nm old stages alpha d tau order n l0 lnext0 new0)).
Proof using Hpat Hconv Hlim.
  intros Hn HV. unfold update. cbn [fst].
  set (l := fun i j => if constrained M i then l0 i j
              else fst (limit_first Sy M nm old stages alpha d tau order new0 i j)).
  assert (Hl : l_ok l (low_order_update Sy M old d tau new0)).
  { intros i j Hi Hj. unfold l. pose proof (proj1 (neighbour_active M i j Hpat Hi Hj)) as Hc.
    rewrite Hc. unfold limit_first. fold b.
    apply (Hlim (b i) (low_order_update Sy M old d tau new0 i)
             (pij Sy M old stages alpha d tau i j)). apply HV; assumption. }
  destruct n as [|[|[|n]]]; [| | |lia].
  - exact HV.
  - cbn [passes Nat.eqb andb]. apply pass_inside. exact Hl.
  - cbn [passes Nat.eqb andb]. apply pass_inside. apply next_ok.
    + intros i j Hi Hj. apply Hl; assumption.
    + apply pass_inside. exact Hl.
Qed.
End Inside.

(** ** C21 *)
Section Uniform.
Variables (dim : nat) (F : FC K Sy -> K -> nat -> R) (u : state K) (f : FC K Sy).
Hypothesis Hpat : symmetric_pattern M.
Hypothesis Hplain : plain Sy.
Hypothesis Hho : have_high_order_flux K Sy = false.
Hypothesis HF : central_flux Sy dim F.
Hypothesis Hsum : forall i, active M i -> zero_row_sum M i.
Definition uniform_vector (v : (nat -> state K) * PC K Sy) : Prop :=
  forall j, active M j -> fst v j = u /\ flux_contribution K Sy (snd v) j u = f.
Hypothesis Hold : uniform_vector old.
Hypothesis Hst : forall st, In st stages -> uniform_vector (fst st).

Lemma uniform_flux v i j k :
  uniform_vector v -> active M i -> active M j ->
  flux_divergence K Sy (flux Sy v i) (flux Sy v j) (c_ij M i j) k =
  -2 * dotp dim (F f k) (c_ij M i j).
Proof using HF.
  intros Hv Hi Hj. unfold flux. destruct (Hv i Hi) as [-> ->], (Hv j Hj) as [-> ->].
  rewrite HF. ring.
Qed.

Lemma uniform_jump i j k : active M i -> active M j -> jump Sy old i j k = 0.
Proof using Hplain Hold.
  intros Hi Hj. unfold jump. rewrite (proj2 Hplain). unfold sminus.
  destruct (Hold i Hi) as [-> _], (Hold j Hj) as [-> _]. ring.
Qed.

Lemma uniform_columns i j : (i < n_rows M)%nat -> In j (columns M i) -> (j < n_rows M)%nat.
Proof using Hpat.
  intros Hi Hj. rewrite (columns_split M i Hpat Hi) in Hj. destruct Hj as [<-|Hj]; [exact Hi|].
  apply (neighbours_bound M i j Hpat Hi Hj).
Qed.

Lemma uniform_flux_H i j k : active M i -> active M j ->
  flux_H Sy M old stages i j k = -2 * dotp dim (F f k) (c_ij M i j).
Proof using Hho HF Hold Hst.
  intros Hi Hj. unfold flux_H. unfold high_order_flux. rewrite Hho.
  rewrite (uniform_flux old i j k Hold Hi Hj), weight_value.
  rewrite (lsum_ext (fun st => snd st * flux_divergence K Sy (flux Sy (fst st) i)
             (flux Sy (fst st) j) (c_ij M i j) k) (fun st => (-2 * dotp dim (F f k) (c_ij M i j)) * snd st)).
  - rewrite (lsum_scal _ snd stages). ring.
  - intros st Hin. rewrite (uniform_flux (fst st) i j k (Hst st Hin) Hi Hj). ring.
Qed.

Lemma uniform_src v i k : source Sy tau v i k = 0.
Proof using Hplain. unfold source. rewrite (proj1 Hplain). reflexivity. Qed.

Lemma uniform_src_H i k : src_H Sy old stages tau i k = 0.
Proof using Hplain.
  unfold src_H. rewrite uniform_src, lsum_zero; [ring|]. intros. rewrite uniform_src. ring.
Qed.

Lemma uniform_low new0 i :
  active M i ->
  low_order_update Sy M old d tau new0 i = u.
Proof using Hpat Hplain HF Hsum Hold.
  intros Hi. pose proof (proj2 (proj1 (active_rows_in M i) (proj1 (active_spec M i) Hi))) as Hc. apply functional_extensionality. intros k.
  rewrite (low_order_form Sy M old d tau new0 i k Hc), uniform_src.
  destruct (Hold i Hi) as [-> _].
  rewrite (lsum_ext _ (fun j => tau * mass_inv M i * -2 * dotp dim (F f k) (c_ij M i j))).
  - rewrite lsum_scal, (dotp_row_sum dim (F f k) (c_ij M i) (columns M i) (Hsum i Hi)). ring.
  - intros j Hj. pose proof (cols_active M i j Hpat Hi Hj). unfold low_order_flux.
    rewrite (uniform_flux old i j k Hold), uniform_jump by assumption. ring.
Qed.

Lemma uniform_rhs i k : active M i -> high_order_rhs Sy M old stages alpha d tau i k = 0.
Proof using Hpat Hplain Hho HF Hsum Hold Hst.
  intros Hi. rewrite high_order_rhs_form, !uniform_src_H.
  rewrite (lsum_ext _ (fun j => -2 * dotp dim (F f k) (c_ij M i j))).
  - rewrite lsum_scal, (dotp_row_sum dim (F f k) (c_ij M i) (columns M i) (Hsum i Hi)). ring.
  - intros j Hj. pose proof (cols_active M i j Hpat Hi Hj).
    rewrite uniform_jump, uniform_flux_H, !uniform_src_H by assumption. ring.
Qed.

Lemma uniform_pij i j k : active M i -> In j (neighbours M i) ->
  pij Sy M old stages alpha d tau i j k = 0.
Proof using Hpat Hplain Hho HF Hsum Hold Hst.
  intros Hi Hj. pose proof (col_active M i j Hpat (proj1 Hi) Hj) as Hb.
  rewrite pij_form. unfold corr. rewrite pij_step4_form, !uniform_rhs by assumption.
  rewrite uniform_src_H, uniform_src, uniform_jump, uniform_flux_H by assumption.
  unfold low_order_flux. rewrite (uniform_flux old i j k Hold) by assumption. ring.
Qed.

Lemma uniform_pass l V i :
  active M i ->
  high_order_update Sy M old stages alpha d tau l V i = V i.
Proof using Hpat Hplain Hho HF Hsum Hold Hst.
  intros Hi. pose proof (proj2 (proj1 (active_rows_in M i) (proj1 (active_spec M i) Hi))) as Hc. apply functional_extensionality. intros k.
  rewrite high_order_update_form by (assumption || apply Hi). rewrite lsum_zero; [ring|].
  intros j Hj. rewrite uniform_pij by assumption. ring.
Qed.

Lemma uniform_passes order n r i :
  active M i ->
  forall l lnext V, passes Sy M nm old stages alpha d tau order n r l lnext V i = V i.
Proof using Hpat Hplain Hho HF Hsum Hold Hst.
  intros Hi. induction r as [|r IH]; intros l lnext V; [reflexivity|]. cbn [passes].
  destruct ((n =? 2)%nat && (r =? 0)%nat); rewrite IH; apply uniform_pass; assumption.
Qed.

Lemma uniform_update order n l0 lnext0 new0 i :
  active M i ->
  fst (update Sy M nm old stages alpha d tau order n l0 lnext0 new0) i = u.
Proof using Hpat Hplain Hho HF Hsum Hold Hst.
  intros Hi. unfold update. cbn [fst]. rewrite uniform_passes by assumption.
  apply uniform_low; assumption.
Qed.
End Uniform.

(** ** C22 *)
Lemma restart_spec order new0 n :
  restart_needed Sy M nm old stages alpha d tau order new0 n = true <->
  n <> 0%nat /\ exists i j, active M i /\ In j (neighbours M i) /\
    snd (limit_first Sy M nm old stages alpha d tau order new0 i j) = false.
Proof using Type.
  unfold restart_needed. rewrite andb_true_iff, negb_true_iff, Nat.eqb_neq, existsb_exists.
  split; intros [Hn H]; (split; [exact Hn|]).
  - destruct H as [i [Hi H]]. apply existsb_exists in H. destruct H as [j [Hj H]].
    exists i, j. rewrite active_spec, <- negb_true_iff. auto.
  - destruct H as [i [j [Hi [Hj H]]]]. exists i. rewrite <- active_spec. split; [exact Hi|].
    apply existsb_exists. exists j. rewrite negb_true_iff. auto.
Qed.

(** ** C61 *)
Lemma unlimited_update order n l0 lnext0 new0 i k :
  plain Sy -> symmetric_pattern M -> positive_masses M -> symmetric_matrices M ->
  (forall i a k, active M i ->
     flux_divergence K Sy a a (c_ij M i i) k = 0 /\
     (have_high_order_flux K Sy = true ->
      high_order_flux_divergence K Sy a a (c_ij M i i) k = 0)) ->
  (forall b u p, fst (limiter_limit K Sy b u p) = 1) ->
  (n = 1 \/ n = 2)%nat -> (i < n_rows M)%nat -> constrained M i = false ->
  fst (update Sy M nm old stages alpha d tau order n l0 lnext0 new0) i k =
  fst old i k + tau *
   (corrected M (fun i j => smult (dijH M alpha d i j) (jump Sy old i j)) i k
    + (1 - lsum snd stages) * corrected M (high_order_flux Sy M old) i k
    + lsum (fun st => snd st * corrected M (high_order_flux Sy M (fst st)) i k) stages).
Proof using Type.
  intros [HS HW] Hpat Hmass Hsm Hdiag Hl Hn Hi Hc.
  assert (Hsrc : forall v i k, source Sy tau v i k = 0)
    by (intros; unfold source; rewrite HS; reflexivity).
  assert (HsrcH : forall i k, src_H Sy old stages tau i k = 0).
  { intros. unfold src_H. rewrite Hsrc, lsum_zero; [ring|]. intros; rewrite Hsrc; ring. }
  destruct (Hmass i (constrained_active M i Hi Hc)) as [Hm Emi].
  assert (Hpass : forall l V, (forall j, In j (neighbours M i) -> symmetrized l i j = 1) ->
    high_order_update Sy M old stages alpha d tau l V i k =
    V i k + tau * / mass M i * lsum (fun j => corr Sy M old stages alpha d tau i j k) (neighbours M i)).
  { intros l V Hs. rewrite high_order_update_corr by assumption. rewrite Emi. do 2 f_equal.
    apply lsum_ext. intros j Hj. rewrite (Hs j Hj). ring. }
  assert (Hpass0 : forall l V, (forall j, In j (neighbours M i) -> symmetrized l i j = 0) ->
    high_order_update Sy M old stages alpha d tau l V i k = V i k).
  { intros l V Hs. rewrite high_order_update_corr by assumption.
    rewrite lsum_zero; [ring|]. intros j Hj. rewrite (Hs j Hj). ring. }
  set (l := fun i j => if constrained M i then l0 i j
              else fst (limit_first Sy M nm old stages alpha d tau order new0 i j)).
  assert (Hl1 : forall i j, (i < n_rows M)%nat -> In j (neighbours M i) -> symmetrized l i j = 1).
  { intros i' j Hi' Hj. destruct (neighbour_active M i' j Hpat Hi' Hj) as [H1 H2].
    unfold symmetrized, l. rewrite H1, H2. unfold limit_first. rewrite !Hl. apply Rmin_left. lra. }
  assert (E : fst (update Sy M nm old stages alpha d tau order n l0 lnext0 new0) i k =
    low_order_update Sy M old d tau new0 i k
    + tau * / mass M i * lsum (fun j => corr Sy M old stages alpha d tau i j k) (neighbours M i)).
  { unfold update. cbn [fst]. fold l. destruct Hn as [-> | ->]; cbn [passes Nat.eqb andb].
    - apply Hpass. intros; apply Hl1; assumption.
    - rewrite Hpass0.
      + apply Hpass. intros; apply Hl1; assumption.
      + intros j Hj. destruct (neighbour_active M i j Hpat Hi Hj) as [H1 H2].
        destruct (neighbours_bound M i j Hpat Hi Hj) as [Hjb [Hji _]].
        unfold symmetrized at 1, limit_next. rewrite H1, H2, (Hl1 i j Hi Hj), (Hl1 j i Hjb Hji).
        rewrite !Rminus_eq_0, !Rmult_0_l. apply Rmin_left. lra. }
  rewrite E, (low_order_form Sy M old d tau new0 i k Hc), Hsrc, Emi.
  assert (Hjj : forall i k, jump Sy old i i k = 0)
    by (intros; unfold jump; rewrite HW; unfold sminus; ring).
  assert (Hll : forall i k, active M i -> low_order_flux Sy M old i i k = 0)
    by (intros i' k' Hi'; unfold low_order_flux; apply (Hdiag i' _ k' Hi')).
  assert (Hhh : forall v i k, active M i -> high_order_flux Sy M v i i k = 0).
  { intros v i' k' Hi'. unfold high_order_flux. destruct (have_high_order_flux K Sy) eqn:Eh.
    - apply (Hdiag i' _ k' Hi'); reflexivity.
    - apply (Hdiag i' _ k' Hi'). }
  (* right hand sides *)
  set (HD := fun i j => smult (dijH M alpha d i j) (jump Sy old i j)).
  set (RR := fun (r : nat -> nat -> state K) i => lsum (fun j => r i j k) (columns M i)).
  assert (ER : forall i, high_order_rhs Sy M old stages alpha d tau i k =
     RR HD i + weight Sy stages * RR (high_order_flux Sy M old) i
     + lsum (fun st => snd st * RR (high_order_flux Sy M (fst st)) i) stages).
  { intros i'. rewrite high_order_rhs_form. rewrite HsrcH.
    rewrite (lsum_ext _ (fun j => HD i' j k + (weight Sy stages * high_order_flux Sy M old i' j k
       + lsum (fun st => snd st * high_order_flux Sy M (fst st) i' j k) stages))).
    2:{ intros j _. rewrite HsrcH. unfold HD, smult, flux_H. ring. }
    rewrite !lsum_plus, lsum_scal, lsum_swap. unfold RR.
    rewrite (lsum_ext (fun st => lsum (fun j => snd st * high_order_flux Sy M (fst st) i' j k) (columns M i'))
       (fun st => snd st * lsum (fun j => high_order_flux Sy M (fst st) i' j k) (columns M i')))
      by (intros; apply lsum_scal). ring. }
  assert (EC : forall j, In j (neighbours M i) ->
     corr Sy M old stages alpha d tau i j k =
     - low_order_flux Sy M old i j k - d i j * jump Sy old i j k
     + (HD i j k + (mass_correction M i j * RR HD j - mass_correction M j i * RR HD i))
     + weight Sy stages * (high_order_flux Sy M old i j k
        + (mass_correction M i j * RR (high_order_flux Sy M old) j
           - mass_correction M j i * RR (high_order_flux Sy M old) i))
     + lsum (fun st => snd st * (high_order_flux Sy M (fst st) i j k
        + (mass_correction M i j * RR (high_order_flux Sy M (fst st)) j
           - mass_correction M j i * RR (high_order_flux Sy M (fst st)) i))) stages).
  { intros j Hj. unfold corr. rewrite pij_step4_form, Hsrc, HsrcH, !ER.
    destruct (neighbours_bound M i j Hpat Hi Hj) as [Hjb _].
    assert (Hin : In j (columns M i)) by (apply neighbours_in in Hj; tauto).
    destruct (Hsm i j (constrained_active M i Hi Hc) Hin) as [Em [Emv _]].
    destruct (Hmass j (col_active M i j Hpat Hi Hj)) as [Hmj Emj].
    unfold mass_correction. rewrite Em, Emv, Emi, Emj.
    set (b1 := if discontinuous M then _ else - (_ * / mass M j)).
    set (b2 := if discontinuous M then _ else - (_ * / mass M i)).
    replace (if discontinuous M then mass M i * mass_ij_inv M i j else - (mass_ij M i j / mass M j))
      with b1 by reflexivity.
    replace (if discontinuous M then mass M j * mass_ij_inv M i j else - (mass_ij M i j / mass M i))
      with b2 by reflexivity.
    unfold flux_H.
    rewrite (lsum_ext (fun st => snd st * (high_order_flux Sy M (fst st) i j k
        + (b1 * RR (high_order_flux Sy M (fst st)) j - b2 * RR (high_order_flux Sy M (fst st)) i)))
      (fun st => snd st * high_order_flux Sy M (fst st) i j k
        + (b1 * (snd st * RR (high_order_flux Sy M (fst st)) j)
           - b2 * (snd st * RR (high_order_flux Sy M (fst st)) i)))) by (intros; ring).
    rewrite lsum_plus, lsum_minus, !lsum_scal. change (HD i j k) with (dijH M alpha d i j * jump Sy old i j k). ring. }
  rewrite (lsum_ext _ _ _ EC). clear EC ER E.
  rewrite !lsum_plus, lsum_minus, lsum_opp, lsum_scal.
  rewrite (lsum_swap (fun j st => snd st * (high_order_flux Sy M (fst st) i j k
        + (mass_correction M i j * RR (high_order_flux Sy M (fst st)) j
           - mass_correction M j i * RR (high_order_flux Sy M (fst st)) i)))).
  (* corrected, in terms of neighbours *)
  assert (EK : forall r, r i i k = 0 -> corrected M r i k =
     / mass M i * lsum (fun j => r i j k + (mass_correction M i j * RR r j - mass_correction M j i * RR r i))
       (neighbours M i)).
  { intros r Hr. unfold corrected. rewrite lsum_plus. f_equal. f_equal.
    rewrite (columns_split M i Hpat Hi) at 1. cbn [lsum]. rewrite Hr. ring. }
  rewrite (EK HD) by (unfold HD, smult; rewrite Hjj; ring).
  rewrite (EK (high_order_flux Sy M old)) by (apply Hhh, constrained_active; assumption).
  rewrite (lsum_ext (fun st => snd st * corrected M (high_order_flux Sy M (fst st)) i k)
    (fun st => / mass M i * lsum (fun j => snd st * (high_order_flux Sy M (fst st) i j k
        + (mass_correction M i j * RR (high_order_flux Sy M (fst st)) j
           - mass_correction M j i * RR (high_order_flux Sy M (fst st)) i))) (neighbours M i))).
  2:{ intros st _. rewrite (EK (high_order_flux Sy M (fst st))) by (apply Hhh, constrained_active; assumption).
      rewrite lsum_scal. ring. }
  rewrite lsum_scal, <- weight_value.
  rewrite (columns_split M i Hpat Hi). cbn [lsum].
  rewrite Hll, Hjj by (apply constrained_active; assumption). rewrite lsum_scal, !lsum_plus. ring.
Qed.
End Limit.
