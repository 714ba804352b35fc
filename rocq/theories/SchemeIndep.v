(** * The update does not depend on the distribution of rows, their numbering,
    the SIMD groups and stale content of temporary objects *)
From Coq Require Import Reals List Arith Bool Lia Lra Permutation FunctionalExtensionality.
From Verif Require Import Scheme SchemeSpec SchemeProofs SchemeUpdate SchemeLimit.
Import ListNotations.
Local Open Scope R_scope.

Lemma fold_left_perm {A B} (f : A -> B -> A) l l' :
  (forall s x y, f (f s x) y = f (f s y) x) -> Permutation l l' ->
  forall s, fold_left f l s = fold_left f l' s.
Proof.
  intros Hf HP. induction HP as [|x l l' HP IH|x y l|l l' l'' H1 IH1 H2 IH2]; intros s; simpl.
  - reflexivity.
  - apply IH.
  - rewrite Hf. reflexivity.
  - rewrite IH1. apply IH2.
Qed.

Lemma fold_left_ext {A B} (f g : A -> B -> A) l :
  (forall s x, In x l -> f s x = g s x) -> forall s, fold_left f l s = fold_left g l s.
Proof.
  induction l as [|x r IH]; intros H s; simpl; [reflexivity|].
  rewrite (H s x) by (left; reflexivity). apply IH. intros; apply H; right; assumption.
Qed.

Section Indep.
Context {K : Type}.
Variable Sy : system K.
Variables M M' : mesh.
Variable nm : R.
Hypothesis Hsame : same_problem M M'.
Hypothesis Hpat : symmetric_pattern M.
Hypothesis Hpat' : symmetric_pattern M'.
Hypothesis Hord : order_independent Sy.

Lemma En : n_rows M' = n_rows M. Proof using Hsame. apply Hsame. Qed.
Lemma Ecols i : (i < n_rows M)%nat -> Permutation (columns M i) (columns M' i).
Proof using Hsame. apply Hsame. Qed.
Lemma Emass : mass M' = mass M. Proof using Hsame. apply Hsame. Qed.
Lemma Emassi : mass_inv M' = mass_inv M. Proof using Hsame. apply Hsame. Qed.
Lemma Emij : mass_ij M' = mass_ij M. Proof using Hsame. apply Hsame. Qed.
Lemma Emiji : mass_ij_inv M' = mass_ij_inv M. Proof using Hsame. apply Hsame. Qed.
Lemma Ec : c_ij M' = c_ij M. Proof using Hsame. apply Hsame. Qed.
Lemma Einc : incidence M' = incidence M. Proof using Hsame. apply Hsame. Qed.
Lemma Eom : measure_of_omega M' = measure_of_omega M. Proof using Hsame. apply Hsame. Qed.
Lemma Edg : discontinuous M' = discontinuous M. Proof using Hsame. apply Hsame. Qed.

Lemma Enb i : (i < n_rows M)%nat -> Permutation (neighbours M i) (neighbours M' i).
Proof using Hsame Hpat Hpat'.
  intros Hi. pose proof (Ecols i Hi) as HP.
  assert (Hi' : (i < n_rows M')%nat) by (rewrite En; exact Hi).
  rewrite (columns_split M i Hpat Hi), (columns_split M' i Hpat' Hi') in HP.
  apply Permutation_cons_inv in HP. exact HP.
Qed.

Lemma Econ i : (i < n_rows M)%nat -> constrained M' i = constrained M i.
Proof using Hsame.
  intros Hi. unfold constrained. rewrite (Permutation_length (Ecols i Hi)). reflexivity.
Qed.

Lemma Elam i : (i < n_rows M)%nat -> lambda_inv M' i = lambda_inv M i.
Proof using Hsame.
  intros Hi. unfold lambda_inv. rewrite (Permutation_length (Ecols i Hi)). reflexivity.
Qed.

Lemma lsum_cols i f : (i < n_rows M)%nat -> lsum f (columns M' i) = lsum f (columns M i).
Proof using Hsame. intros Hi. symmetry. apply lsum_perm, Ecols, Hi. Qed.

Lemma lsum_nbs i f : (i < n_rows M)%nat -> lsum f (neighbours M' i) = lsum f (neighbours M i).
Proof using Hsame Hpat Hpat'. intros Hi. symmetry. apply lsum_perm, Enb, Hi. Qed.

Lemma alpha_indep old a0 a0' i :
  (i < n_rows M)%nat -> constrained M i = false ->
  compute_alpha Sy M' old a0' i = compute_alpha Sy M old a0 i.
Proof using Hsame Hord.
  intros Hi Hc. destruct old as [U pc]. unfold compute_alpha. rewrite (Econ i Hi), Hc.
  rewrite Ec, Emass, Eom. f_equal. symmetry. apply fold_left_perm; [|apply Ecols, Hi].
  intros s x y. apply (proj1 Hord).
Qed.

Lemma dij_indep old d0 d0' i j :
  valid_numbering M -> valid_numbering M' -> pairs_listed M -> pairs_listed M' ->
  symmetric_riemann Sy M old ->
  (i < n_rows M)%nat -> In j (columns M i) ->
  dij_matrix Sy M' nm old d0' i j = dij_matrix Sy M nm old d0 i j.
Proof using Hsame Hpat Hpat'.
  intros HV HV' HP HP' HR Hi.
  assert (Hi' : (i < n_rows M')%nat) by (rewrite En; exact Hi).
  assert (Hoff : forall j, In j (neighbours M i) ->
    dij_matrix Sy M' nm old d0' i j = dij_matrix Sy M nm old d0 i j).
  { assert (HR' : symmetric_riemann Sy M' old) by (intros a b [Ha Hc] Hb; rewrite En in Ha; rewrite Ec; apply HR; [split; [exact Ha|rewrite <- (Permutation_length (Ecols a Ha)) in Hc; exact Hc]|]; apply (Permutation_in b (Permutation_sym (Ecols a Ha)) Hb)).
    intros l Hl. rewrite (dij_value Sy M nm old d0 i l), (dij_value Sy M' nm old d0' i l); auto.
    - unfold wave_viscosity. rewrite Ec. reflexivity.
    - apply (Permutation_in l (Enb i Hi) Hl). }
  intros Hj. rewrite (columns_split M i Hpat Hi) in Hj. destruct Hj as [<-|Hj]; [|auto].
  rewrite (dij_diag Sy M nm old d0 i), (dij_diag Sy M' nm old d0' i) by assumption.
  rewrite (lsum_nbs i _ Hi). do 2 f_equal. apply lsum_ext. exact Hoff.
Qed.

Section Fixed.
Variable old : (nat -> state K) * PC K Sy.
Variable stages : list ((nat -> state K) * PC K Sy * R).
Variables alpha alpha' : nat -> R.
Variables d d' : nat -> nat -> R.
Variable tau : R.
Hypothesis Ha : forall i, (i < n_rows M)%nat -> constrained M i = false -> alpha' i = alpha i.
Hypothesis Hd : forall i j, (i < n_rows M)%nat -> In j (columns M i) -> d' i j = d i j.

Lemma col_active i j :
  (i < n_rows M)%nat -> constrained M i = false -> In j (columns M i) ->
  (j < n_rows M)%nat /\ constrained M j = false.
Proof using Hpat.
  intros Hi Hc Hj. rewrite (columns_split M i Hpat Hi) in Hj. destruct Hj as [<-|Hj]; [auto|].
  split; [apply (neighbours_bound M i j Hpat Hi Hj)|apply (neighbour_active M i j Hpat Hi Hj)].
Qed.

Lemma dijH_indep i j :
  (i < n_rows M)%nat -> constrained M i = false -> In j (columns M i) ->
  dijH M' alpha' d' i j = dijH M alpha d i j.
Proof using Hsame Hpat Ha Hd.
  intros Hi Hc Hj. destruct (col_active i j Hi Hc Hj) as [Hjb Hjc].
  unfold dijH. rewrite Edg, Einc, (Ha i Hi Hc), (Ha j Hjb Hjc), (Hd i j Hi Hj). reflexivity.
Qed.

Lemma hof_indep v i j : high_order_flux Sy M' v i j = high_order_flux Sy M v i j.
Proof using Hsame. unfold high_order_flux. rewrite Ec. reflexivity. Qed.

Lemma lof_indep i j : low_order_flux Sy M' old i j = low_order_flux Sy M old i j.
Proof using Hsame. unfold low_order_flux. rewrite Ec. reflexivity. Qed.

Lemma flux_H_indep i j k : flux_H Sy M' old stages i j k = flux_H Sy M old stages i j k.
Proof using Hsame.
  unfold flux_H. rewrite hof_indep. f_equal. apply lsum_ext. intros. rewrite hof_indep. reflexivity.
Qed.

Lemma low_indep new0 new0' i :
  (i < n_rows M)%nat -> constrained M i = false ->
  low_order_update Sy M' old d' tau new0' i = low_order_update Sy M old d tau new0 i.
Proof using Hsame Hd.
  intros Hi Hc. apply functional_extensionality. intros k.
  rewrite (low_order_form Sy M old d tau new0 i k Hc).
  rewrite (low_order_form Sy M' old d' tau new0' i k) by (rewrite Econ; assumption).
  rewrite (lsum_cols i _ Hi). f_equal. apply lsum_ext. intros j Hj.
  rewrite Emassi, lof_indep, (Hd i j Hi Hj). reflexivity.
Qed.

Lemma rhs_indep i k :
  (i < n_rows M)%nat -> constrained M i = false ->
  high_order_rhs Sy M' old stages alpha' d' tau i k = high_order_rhs Sy M old stages alpha d tau i k.
Proof using Hsame Hpat Ha Hd.
  intros Hi Hc. rewrite !high_order_rhs_form, (lsum_cols i _ Hi), Emass. f_equal.
  apply lsum_ext. intros j Hj. rewrite (dijH_indep i j Hi Hc Hj), flux_H_indep, Emij. reflexivity.
Qed.

Lemma pij_indep i j :
  (i < n_rows M)%nat -> In j (neighbours M i) ->
  pij Sy M' old stages alpha' d' tau i j = pij Sy M old stages alpha d tau i j.
Proof using Hsame Hpat Ha Hd.
  intros Hi Hj. destruct (neighbour_active M i j Hpat Hi Hj) as [Hc Hcj].
  destruct (neighbours_bound M i j Hpat Hi Hj) as [Hjb _].
  assert (Hin : In j (columns M i)) by (apply neighbours_in in Hj; tauto).
  apply functional_extensionality. intros k. rewrite !pij_form. unfold corr.
  rewrite !pij_step4_form, !rhs_indep, dijH_indep, flux_H_indep, lof_indep, (Hd i j Hi Hin),
    Emassi, Emass, Emij, Emiji, Edg, (Elam i Hi) by assumption. reflexivity.
Qed.

Lemma shift_indep i :
  (i < n_rows M)%nat -> affine_shift_i Sy M' old d' tau i = affine_shift_i Sy M old d tau i.
Proof using Hsame Hd.
  intros Hi. apply functional_extensionality. intros k. unfold affine_shift_i.
  destruct (shallow_water K Sy); [|reflexivity]. unfold splus at 1 3. f_equal.
  unfold smult. rewrite Emassi. f_equal.
  rewrite (fold_add _ (fun j => affine_shift K Sy (flux Sy old i) (flux Sy old j) (c_ij M' i j) (d' i j)))
    by (intros; reflexivity).
  rewrite (fold_add _ (fun j => affine_shift K Sy (flux Sy old i) (flux Sy old j) (c_ij M i j) (d i j)))
    by (intros; reflexivity).
  f_equal. rewrite (lsum_cols i _ Hi), Ec. apply lsum_ext. intros j Hj. rewrite (Hd i j Hi Hj).
  reflexivity.
Qed.

Lemma bounds4_indep i :
  (i < n_rows M)%nat -> bounds_step4 Sy M' nm old d' tau i = bounds_step4 Sy M nm old d tau i.
Proof using Hsame Hord Hd.
  intros Hi. unfold bounds_step4. rewrite (shift_indep i Hi), Emass, Eom. f_equal.
  rewrite <- (fold_left_perm _ (columns M i) (columns M' i)).
  - apply fold_left_ext. intros s j Hj. rewrite Ec, (Hd i j Hi Hj). reflexivity.
  - intros s x y. destruct (shallow_water K Sy).
    + destruct (equilibrated_states K Sy (flux Sy old i) (flux Sy old x)).
      destruct (equilibrated_states K Sy (flux Sy old i) (flux Sy old y)). apply Hord.
    + apply Hord.
  - apply Ecols, Hi.
Qed.

Hypothesis Hcg : discontinuous M = false.

Lemma bounds_indep order order' i :
  (i < n_rows M)%nat ->
  limiter_bounds_i Sy M' nm old d' tau order' i = limiter_bounds_i Sy M nm old d tau order i.
Proof using Hsame Hord Hd Hcg.
  intros Hi. unfold limiter_bounds_i. rewrite Edg, Hcg. apply bounds4_indep, Hi.
Qed.

Lemma limit_first_indep order order' new0 new0' i j :
  (i < n_rows M)%nat -> In j (neighbours M i) ->
  limit_first Sy M' nm old stages alpha' d' tau order' new0' i j =
  limit_first Sy M nm old stages alpha d tau order new0 i j.
Proof using Hsame Hpat Hord Ha Hd Hcg.
  intros Hi Hj. destruct (neighbour_active M i j Hpat Hi Hj) as [Hc _].
  unfold limit_first. rewrite (bounds_indep order order' i Hi), (pij_indep i j Hi Hj).
  rewrite (low_indep new0 new0' i Hi Hc). reflexivity.
Qed.

Definition l_same (l l' : nat -> nat -> R) :=
  forall i j, (i < n_rows M)%nat -> In j (neighbours M i) -> l' i j = l i j.
Definition v_same (V V' : nat -> state K) :=
  forall i, (i < n_rows M)%nat -> constrained M i = false -> V' i = V i.

Lemma sym_same l l' : l_same l l' -> l_same (symmetrized l) (symmetrized l').
Proof using Hpat.
  intros H i j Hi Hj. destruct (neighbours_bound M i j Hpat Hi Hj) as [Hb [Hji _]].
  unfold symmetrized. rewrite (H i j), (H j i) by assumption. reflexivity.
Qed.

Lemma pass_same l l' V V' :
  l_same l l' -> v_same V V' ->
  v_same (high_order_update Sy M old stages alpha d tau l V)
         (high_order_update Sy M' old stages alpha' d' tau l' V').
Proof using Hsame Hpat Hpat' Ha Hd.
  intros Hl HV i Hi Hc. apply functional_extensionality. intros k.
  rewrite (high_order_update_form Sy M) by assumption.
  rewrite (high_order_update_form Sy M') by (rewrite Econ; assumption).
  rewrite (HV i Hi Hc), (lsum_nbs i _ Hi). f_equal. apply lsum_ext. intros j Hj.
  rewrite (sym_same l l' Hl i j Hi Hj), (pij_indep i j Hi Hj), (Elam i Hi). reflexivity.
Qed.

Lemma next_same order order' l l' ln ln' V V' :
  l_same l l' -> v_same V V' ->
  l_same (limit_next Sy M nm old stages alpha d tau order l ln V)
         (limit_next Sy M' nm old stages alpha' d' tau order' l' ln' V').
Proof using Hsame Hpat Hord Ha Hd Hcg.
  intros Hl HV i j Hi Hj. destruct (neighbour_active M i j Hpat Hi Hj) as [Hc _].
  unfold limit_next. rewrite (Econ i Hi), Hc.
  rewrite (sym_same l l' Hl i j Hi Hj), (bounds_indep order order' i Hi), (HV i Hi Hc),
    (pij_indep i j Hi Hj). reflexivity.
Qed.

(** For two iterations the second pass only reads entries that have been
    written in the first one. *)
Lemma passes_same order order' n l l' ln ln' V V' :
  (n <= 2)%nat -> l_same l l' -> v_same V V' ->
  v_same (passes Sy M nm old stages alpha d tau order n n l ln V)
         (passes Sy M' nm old stages alpha' d' tau order' n n l' ln' V').
Proof using Hsame Hpat Hpat' Hord Ha Hd Hcg.
  intros Hn Hl HV. destruct n as [|[|[|n]]]; [| | |lia]; cbn [passes Nat.eqb andb].
  - exact HV.
  - apply pass_same; assumption.
  - pose proof (pass_same l l' V V' Hl HV) as HV1.
    apply pass_same; [apply next_same; assumption|exact HV1].
Qed.

Lemma update_indep order order' n l0 l0' ln0 ln0' new0 new0' :
  (n <= 2)%nat ->
  v_same (fst (update Sy M nm old stages alpha d tau order n l0 ln0 new0))
         (fst (update Sy M' nm old stages alpha' d' tau order' n l0' ln0' new0')) /\
  snd (update Sy M' nm old stages alpha' d' tau order' n l0' ln0' new0') =
  snd (update Sy M nm old stages alpha d tau order n l0 ln0 new0).
Proof using Hsame Hpat Hpat' Hord Ha Hd Hcg.
  intros Hn. unfold update. cbn [fst snd]. split.
  - apply passes_same; [exact Hn| |].
    + intros i j Hi Hj. destruct (neighbour_active M i j Hpat Hi Hj) as [Hc _].
      rewrite (Econ i Hi), Hc. rewrite (limit_first_indep order order' new0 new0' i j Hi Hj).
      reflexivity.
    + intros i Hi Hc. apply low_indep; assumption.
  - apply eq_true_iff_eq. rewrite !restart_spec. unfold active. rewrite En.
    split; intros [H1 [i [j [[Hi Hc] [Hj H2]]]]]; (split; [exact H1|]); exists i, j.
    + assert (Hj' : In j (neighbours M i)) by (apply (Permutation_in j (Permutation_sym (Enb i Hi)) Hj)).
      rewrite <- (Permutation_length (Ecols i Hi)) in Hc.
      rewrite (limit_first_indep order order' new0 new0' i j Hi Hj') in H2. auto.
    + rewrite (Permutation_length (Ecols i Hi)) in Hc.
      rewrite <- (limit_first_indep order order' new0 new0' i j Hi Hj) in H2.
      pose proof (Permutation_in j (Enb i Hi) Hj). auto.
Qed.
End Fixed.

Lemma hyperbolic_update_indep old stages tau n
  order order' a0 a0' d0 d0' l0 l0' ln0 ln0' new0 new0' :
  valid_numbering M -> valid_numbering M' -> pairs_listed M -> pairs_listed M' ->
  symmetric_riemann Sy M old -> discontinuous M = false -> (n <= 2)%nat ->
  let r := hyperbolic_update Sy M nm order n a0 d0 l0 ln0 new0 old stages tau in
  let r' := hyperbolic_update Sy M' nm order' n a0' d0' l0' ln0' new0' old stages tau in
  (forall i, active M i -> fst r' i = fst r i) /\ snd r' = snd r.
Proof using Hsame Hpat Hpat' Hord.
  intros HV HV' HP HP' HR Hcg Hn r r'. unfold r, r', hyperbolic_update.
  destruct (update_indep old stages (compute_alpha Sy M old a0) (compute_alpha Sy M' old a0')
    (dij_matrix Sy M nm old d0) (dij_matrix Sy M' nm old d0') tau) with
    (order := order) (order' := order') (n := n) (l0 := l0) (l0' := l0') (ln0 := ln0)
    (ln0' := ln0') (new0 := new0) (new0' := new0') as [H1 H2].
  - intros i Hi Hc. apply alpha_indep; assumption.
  - intros i j Hi Hj. apply dij_indep; assumption.
  - exact Hcg.
  - exact Hn.
  - split; [|exact H2]. intros i [Hi Hc]. apply H1; [exact Hi|].
    unfold constrained. apply Nat.eqb_neq. exact Hc.
Qed.

Lemma row_tau_indep cfl old d0 d0' :
  valid_numbering M -> valid_numbering M' -> pairs_listed M -> pairs_listed M' ->
  symmetric_riemann Sy M old ->
  row_tau Sy M' nm cfl old d0' = row_tau Sy M nm cfl old d0.
Proof using Hsame Hpat Hpat'.
  intros HV HV' HP HP' HR. unfold row_tau.
  assert (E : active_rows M' = active_rows M).
  { unfold active_rows. rewrite En. apply filter_ext_in. intros i Hi. apply in_seq in Hi.
    rewrite Econ by lia. reflexivity. }
  rewrite E. apply map_ext_in. intros i Hi. apply active_rows_in in Hi. destruct Hi as [Hi _].
  rewrite Emass, (dij_indep old d0 d0' i i); auto.
  rewrite (columns_split M i Hpat Hi). left; reflexivity.
Qed.
End Indep.
