(** * The smoothness indicators: proofs *)
From Coq Require Import Reals List Bool Arith Lia Lra Psatz Permutation FunctionalExtensionality.
From Verif Require Import RVec Newton EulerSystem EulerLimiter EulerLimiterBounds AeosSystem SWSystem Scalar Indicator.
Import ListNotations.
Local Open Scope R_scope.

(** ** Generic part *)

Lemma scaled_min_range evc n d a : 0 <= evc -> 0 <= n <= d ->
  scaled_min evc (quotient n d) = Some a -> 0 <= a <= Rmin 1 evc.
Proof.
  intros He Hn. unfold quotient. destruct (Req_EM_T d 0) as [E|E]; [discriminate|].
  intros H. injection H as <-.
  assert (Hd : 0 < d) by lra.
  assert (Q : 0 <= n / d <= 1).
  { assert (I : / d * d = 1) by (field; lra). assert (0 < / d) by (apply Rinv_0_lt_compat; lra).
    unfold Rdiv. split; nra. }
  assert (evc * (n / d) <= evc) by nra. assert (0 <= evc * (n / d)) by (apply Rmult_le_pos; lra).
  split; [apply Rmin_glb; lra|].
  apply Rmin_glb; [apply Rmin_l|eapply Rle_trans; [apply Rmin_r|lra]].
Qed.

Lemma scaled_min_zero evc d : d <> 0 -> scaled_min evc (quotient (Rabs 0) d) = Some 0.
Proof.
  intros Hd. unfold quotient. destruct (Req_EM_T d 0); [contradiction|]. cbn [scaled_min].
  rewrite Rabs_R0. unfold Rdiv. rewrite Rmult_0_l, Rmult_0_r, Rmin_right by lra. reflexivity.
Qed.

Lemma quotient_defined evc n d : d <> 0 -> exists a, scaled_min evc (quotient n d) = Some a.
Proof. intros Hd. unfold quotient. destruct (Req_EM_T d 0); [contradiction|]. eexists. reflexivity. Qed.

Lemma rsum_abs n f : Rabs (rsum n f) <= rsum n (fun k => Rabs (f k)).
Proof.
  induction n; simpl; [rewrite Rabs_R0; lra|].
  eapply Rle_trans; [apply Rabs_triang|]. lra.
Qed.

Lemma rsum_abs_nonneg n f : 0 <= rsum n (fun k => Rabs (f k)).
Proof. induction n; simpl; [lra|]. assert (X := Rabs_pos (f n)). lra. Qed.

Lemma rsum_zero n f : (forall k, (k < n)%nat -> f k = 0) -> rsum n f = 0.
Proof. intros H. rewrite (rsum_ext n f (fun _ => 0 * 0)) by (intros; rewrite H by assumption; ring). rewrite rsum_scal. ring. Qed.

(** ** Euler and EulerAEOS *)

Lemma e_alpha_range evc dim l hd a : 0 <= evc -> 0 <= hd -> e_alpha evc dim l hd = Some a -> 0 <= a <= Rmin 1 evc.
Proof.
  intros He Hh. apply scaled_min_range; [exact He|]. split; [apply Rabs_pos|].
  assert (X := Rabs_triang (ei_left l) (- rsum (dim + 2) (fun k => ei_d_eta l k * ei_right l k))).
  rewrite Rabs_Ropp in X.
  assert (Y := rsum_abs (dim + 2) (fun k => ei_d_eta l k * ei_right l k)).
  assert (Z : 0 <= hd * Rabs (ei_eta l)) by (apply Rmult_le_pos; [lra|apply Rabs_pos]).
  unfold Rminus. lra.
Qed.

Lemma e_alpha_den dim l hd : 0 < hd -> ei_eta l <> 0 ->
  Rabs (ei_left l) + rsum (dim + 2) (fun k => Rabs (ei_d_eta l k * ei_right l k)) + hd * Rabs (ei_eta l) <> 0.
Proof.
  intros Hh He.
  assert (X := Rabs_pos (ei_left l)). assert (Y := rsum_abs_nonneg (dim + 2) (fun k => ei_d_eta l k * ei_right l k)).
  assert (0 < hd * Rabs (ei_eta l)) by (apply Rmult_lt_0_compat; [lra|apply Rabs_pos_lt; exact He]). lra.
Qed.

Lemma e_alpha_defined evc dim l hd : 0 < hd -> ei_eta l <> 0 -> exists a, e_alpha evc dim l hd = Some a.
Proof. intros Hh He. apply quotient_defined. apply e_alpha_den; assumption. Qed.

Lemma e_alpha_zero evc dim l hd : 0 < hd -> ei_eta l <> 0 -> ei_left l = 0 -> (forall k, ei_right l k = 0) ->
  e_alpha evc dim l hd = Some 0.
Proof.
  intros Hh He HL HR. unfold e_alpha.
  assert (D := e_alpha_den dim l hd Hh He).
  replace (ei_left l - rsum (dim + 2) (fun k => ei_d_eta l k * ei_right l k)) with 0.
  - apply scaled_min_zero. exact D.
  - rewrite HL, rsum_zero; [ring|]. intros k _. rewrite HR. ring.
Qed.

Lemma e_add_swap dim l U eta f c U' eta' f' c' :
  e_add dim (e_add dim l U eta f c) U' eta' f' c' = e_add dim (e_add dim l U' eta' f' c') U eta f c.
Proof.
  unfold e_add; cbn [ei_rho_inverse ei_eta ei_f ei_d_eta ei_left ei_right]. f_equal.
  - ring.
  - apply functional_extensionality. intros k. ring.
Qed.

Lemma e_uniform_fold dim eta0 rho_inv f0 (acc : eindicator -> ientry -> eindicator) U :
  (forall l x, ei_eta l = eta0 -> ei_rho_inverse l = rho_inv -> ei_f l = f0 -> ie_U x = U ->
     acc l x = e_add dim l U (ie_eta x) f0 (ie_c x) \/ acc l x = e_add dim l U eta0 f0 (ie_c x)) ->
  rho_inv = 1 / U 0%nat ->
  forall st l, ei_eta l = eta0 -> ei_rho_inverse l = rho_inv -> ei_f l = f0 ->
  (forall x, In x st -> ie_U x = U /\ ie_eta x = eta0) ->
  ei_left l = 0 -> (forall k, ei_right l k = 0) ->
  let r := fold_left acc st l in ei_eta r = eta0 /\ ei_left r = 0 /\ forall k, ei_right r k = 0.
Proof.
  intros Hacc Hr. induction st as [|x st IH]; intros l H1 H2 H3 Hst HL HR r.
  - repeat split; assumption.
  - unfold r. simpl.
    assert (Hx := Hst x (or_introl eq_refl)). destruct Hx as [HU Heta].
    assert (E : acc l x = e_add dim l U eta0 f0 (ie_c x)).
    { destruct (Hacc l x H1 H2 H3 HU) as [E|E]; rewrite E; [rewrite Heta|]; reflexivity. }
    apply IH; rewrite ?E; unfold e_add; cbn [ei_rho_inverse ei_eta ei_f ei_left ei_right]; try assumption.
    + intros y Hy. apply Hst. right. exact Hy.
    + rewrite HL, H1, H2, <- Hr. ring.
    + intros k. rewrite HR, H3.
      rewrite dot_sub_l. ring.
Qed.

Lemma euler_indicator_range s evc dim U eta st hd a : 0 <= evc -> 0 <= hd ->
  euler_indicator s evc dim U eta st hd = Some a -> 0 <= a <= Rmin 1 evc.
Proof. apply e_alpha_range. Qed.

Lemma euler_fold_eta s dim st : forall l, ei_eta (fold_left (e_accumulate s dim) st l) = ei_eta l.
Proof. induction st; intros; simpl; [reflexivity|]. rewrite IHst. reflexivity. Qed.

Lemma euler_indicator_defined s evc dim U eta st hd : 0 < hd -> eta <> 0 ->
  exists a, euler_indicator s evc dim U eta st hd = Some a.
Proof. intros Hh He. apply e_alpha_defined; [exact Hh|]. rewrite euler_fold_eta. exact He. Qed.

Lemma euler_indicator_uniform s evc dim U st hd : 0 < hd -> harten_entropy s dim U <> 0 ->
  (forall x, In x st -> ie_U x = U /\ ie_eta x = harten_entropy s dim (ie_U x)) ->
  euler_indicator s evc dim U (harten_entropy s dim U) st hd = Some 0.
Proof.
  intros Hh He Hst. unfold euler_indicator.
  destruct (e_uniform_fold dim (harten_entropy s dim U) (1 / U 0%nat) (EulerSystem.flux s dim U) (e_accumulate s dim) U)
    with (st := st) (l := e_reset s dim U (harten_entropy s dim U)) as (A & B & C); try reflexivity.
  - intros l x _ _ _ HU. left. unfold e_accumulate. rewrite HU. reflexivity.
  - intros x Hx. destruct (Hst x Hx) as [E1 E2]. split; [exact E1|]. rewrite E2, E1. reflexivity.
  - apply e_alpha_zero; [exact Hh| |exact B|exact C]. rewrite A. exact He.
Qed.

Lemma euler_indicator_order s evc dim U eta st st' hd : Permutation st st' ->
  euler_indicator s evc dim U eta st hd = euler_indicator s evc dim U eta st' hd.
Proof.
  intros H. unfold euler_indicator. f_equal. apply fold_left_perm; [|exact H].
  intros. apply e_add_swap.
Qed.

Lemma aeos_indicator_range e evc dim gm U eta st hd a : 0 <= evc -> 0 <= hd ->
  aeos_indicator e evc dim gm U eta st hd = Some a -> 0 <= a <= Rmin 1 evc.
Proof. apply e_alpha_range. Qed.

Lemma aeos_fold_eta e dim gm st : forall l, ei_eta (fold_left (a_accumulate_indicator e dim gm) st l) = ei_eta l.
Proof. induction st; intros; simpl; [reflexivity|]. rewrite IHst. reflexivity. Qed.

Lemma aeos_indicator_defined e evc dim gm U eta st hd : 0 < hd -> eta <> 0 ->
  exists a, aeos_indicator e evc dim gm U eta st hd = Some a.
Proof. intros Hh He. apply e_alpha_defined; [exact Hh|]. rewrite aeos_fold_eta. exact He. Qed.

Lemma aeos_indicator_uniform e evc dim gm U st hd : 0 < hd -> surrogate_harten_entropy e dim U gm <> 0 ->
  (forall x, In x st -> ie_U x = U) ->
  aeos_indicator e evc dim gm U (surrogate_harten_entropy e dim U gm) st hd = Some 0.
Proof.
  intros Hh He Hst. unfold aeos_indicator.
  (* the precomputed entropy of j is not used *)
  set (st' := map (fun x => {| ie_U := ie_U x; ie_eta := surrogate_harten_entropy e dim U gm; ie_c := ie_c x |}) st).
  assert (E : forall l, fold_left (a_accumulate_indicator e dim gm) st l = fold_left (a_accumulate_indicator e dim gm) st' l).
  { unfold st'. clear. induction st; intros l; simpl; [reflexivity|]. apply IHst. }
  rewrite E.
  destruct (e_uniform_fold dim (surrogate_harten_entropy e dim U gm) (1 / U 0%nat)
      (a_flux dim U (surrogate_pressure e dim U gm)) (a_accumulate_indicator e dim gm) U)
    with (st := st') (l := a_reset_indicator e dim gm U (surrogate_harten_entropy e dim U gm))
    as (A & B & C); try reflexivity.
  - intros l x _ _ _ HU. right. unfold a_accumulate_indicator. rewrite HU. reflexivity.
  - intros x Hx. unfold st' in Hx. apply in_map_iff in Hx. destruct Hx as (y & <- & Hy). cbn [ie_U ie_eta].
    split; [apply Hst; exact Hy|reflexivity].
  - apply e_alpha_zero; [exact Hh| |exact B|exact C]. rewrite A. exact He.
Qed.

Lemma aeos_indicator_order e evc dim gm U eta st st' hd : Permutation st st' ->
  aeos_indicator e evc dim gm U eta st hd = aeos_indicator e evc dim gm U eta st' hd.
Proof.
  intros H. unfold aeos_indicator. f_equal. apply fold_left_perm; [|exact H].
  intros. apply e_add_swap.
Qed.

(** ** ShallowWater *)

Lemma w_alpha_range tiny evc dim l hd a : 0 < tiny -> 0 <= evc ->
  w_alpha tiny evc dim l hd = Some a -> 0 <= a <= Rmin 1 evc.
Proof.
  intros Ht He. apply scaled_min_range; [exact He|]. split; [apply Rabs_pos|].
  set (m := rsum (dim + 1) _). rewrite Rabs_Rabsolu.
  assert (X := Rabs_triang (wi_left l) (- m)). rewrite Rabs_Ropp in X.
  assert (Y := Rmax_r (hd * Rabs (wi_eta l)) (100 * tiny)). unfold Rminus. lra.
Qed.

Lemma w_alpha_den tiny dim l hd : 0 < tiny ->
  Rabs (wi_left l) + Rabs (rsum (dim + 1) (fun k => wi_d_eta l k * wi_right l k)) +
  Rmax (hd * Rabs (wi_eta l)) (100 * tiny) <> 0.
Proof.
  intros Ht. set (m := rsum (dim + 1) _).
  assert (X := Rabs_pos (wi_left l)). assert (Z := Rabs_pos m).
  assert (Y := Rmax_r (hd * Rabs (wi_eta l)) (100 * tiny)). lra.
Qed.

Lemma sw_indicator_range s eps tiny evc dim U eta st hd : 0 < tiny -> 0 <= evc ->
  exists a, sw_indicator s eps tiny evc dim U eta st hd = Some a /\ 0 <= a <= Rmin 1 evc.
Proof.
  intros Ht He. unfold sw_indicator. set (l := fold_left _ _ _).
  assert (X : exists a, w_alpha tiny evc dim l hd = Some a).
  { unfold w_alpha. apply quotient_defined. apply w_alpha_den. exact Ht. }
  destruct X as (a & Ha). exists a. split; [exact Ha|]. eapply w_alpha_range; [exact Ht|exact He|exact Ha].
Qed.

Lemma sw_uniform_fold s eps dim U eta : forall st l,
  wi_f l = w_f s eps U -> (forall x, In x st -> ie_U x = U /\ ie_eta x = eta) ->
  (forall k, wi_right l k = 0) ->
  let r := fold_left (w_accumulate_indicator s eps dim) st l in
  (wi_left r = wi_left l + (eta + w_pressure s U) * inverse_water_depth_sharp s eps U *
     dot dim (w_momentum U) (fun k => fold_right Rplus 0 (map (fun x => ie_c x k) st))) /\
  forall k, wi_right r k = 0.
Proof.
  induction st as [|x st IH]; intros l HF Hst HR r.
  - unfold r. simpl. split; [|exact HR].
    replace (dot dim (w_momentum U) (fun _ => 0)) with 0; [ring|].
    unfold dot. rewrite rsum_zero; [reflexivity|intros; ring].
  - destruct (Hst x (or_introl eq_refl)) as [HU Heta].
    unfold r. simpl.
    destruct (IH (w_accumulate_indicator s eps dim l x)) as [A B].
    + exact HF.
    + intros y Hy. apply Hst. right. exact Hy.
    + intros k. unfold w_accumulate_indicator. cbn [wi_right]. rewrite HR, HU, HF, dot_sub_l. ring.
    + split; [|exact B]. rewrite A. unfold w_accumulate_indicator at 1. cbn [wi_left].
      rewrite HU, Heta, dot_scal_l.
      change (fun k => ie_c x k + fold_right Rplus 0 (map (fun x => ie_c x k) st))
        with (vadd (ie_c x) (fun k => fold_right Rplus 0 (map (fun x => ie_c x k) st))).
      rewrite dot_add_r. ring.
Qed.

Lemma sw_indicator_uniform s eps tiny evc dim U eta st hd : 0 < tiny ->
  (forall x, In x st -> ie_U x = U /\ ie_eta x = eta) ->
  (forall k, (k < dim)%nat -> fold_right Rplus 0 (map (fun x => ie_c x k) st) = 0) ->
  sw_indicator s eps tiny evc dim U eta st hd = Some 0.
Proof.
  intros Ht Hst HC. unfold sw_indicator, w_alpha.
  set (r := fold_left _ st _).
  assert (D := w_alpha_den tiny dim r hd Ht).
  destruct (sw_uniform_fold s eps dim U eta st (w_reset_indicator s eps dim U eta)) as [A B];
    [reflexivity|exact Hst|reflexivity|]. fold r in A, B.
  assert (S0 : rsum (dim + 1) (fun k => wi_d_eta r k * wi_right r k) = 0)
    by (apply rsum_zero; intros; rewrite B; ring).
  assert (L0 : wi_left r = 0).
  { rewrite A. simpl (wi_left _).
    replace (dot dim (w_momentum U) (fun k => fold_right Rplus 0 (map (fun x => ie_c x k) st))) with 0; [ring|].
    unfold dot. rewrite rsum_zero; [reflexivity|]. intros k Hk. rewrite HC by exact Hk. ring. }
  rewrite S0 in D |- *. rewrite L0 in D |- *. rewrite Rminus_0_r.
  rewrite (Rabs_right (Rabs 0)) by (rewrite Rabs_R0; lra).
  apply scaled_min_zero. exact D.
Qed.

Lemma sw_indicator_order s eps tiny evc dim U eta st st' hd : Permutation st st' ->
  sw_indicator s eps tiny evc dim U eta st hd = sw_indicator s eps tiny evc dim U eta st' hd.
Proof.
  intros H. unfold sw_indicator. f_equal. apply fold_left_perm; [|exact H].
  intros l x y. unfold w_accumulate_indicator. cbn [wi_eta wi_f wi_d_eta wi_left wi_right]. f_equal; [ring|].
  apply functional_extensionality. intros k. ring.
Qed.

(** ** ScalarConservation *)

Lemma scalar_indicator_range tiny evc dim u p st hd : 0 < tiny -> 0 <= evc ->
  exists a, scalar_indicator tiny evc dim u p st hd = Some a /\ 0 <= a <= Rmin 1 evc.
Proof.
  intros Ht He. unfold scalar_indicator, sc_alpha. set (l := fold_left _ _ _).
  assert (X := Rabs_triang (si_left l) (- si_right l)). rewrite Rabs_Ropp in X.
  assert (Y := Rmax_r (hd * Rabs (si_abs_max l)) (100 * tiny)).
  assert (Z1 := Rabs_pos (si_left l)). assert (Z2 := Rabs_pos (si_right l)).
  assert (Z3 := Rabs_pos (si_left l - si_right l)).
  match goal with |- context [quotient ?n ?d] =>
    destruct (quotient_defined evc n d ltac:(lra)) as (a & Ha);
    exists a; split; [exact Ha|]; apply (scaled_min_range evc n d a He); [unfold Rminus in *; lra|exact Ha] end.
Qed.

Lemma scalar_indicator_uniform tiny evc dim u p st hd : 0 < tiny ->
  (forall x, In x st -> sie_u x = u /\ sie_prec x = p) ->
  scalar_indicator tiny evc dim u p st hd = Some 0.
Proof.
  intros Ht Hst. unfold scalar_indicator, sc_alpha.
  assert (E : forall l, si_f l = construct_flux_tensor dim p -> si_left l = si_right l ->
     si_left (fold_left (sc_accumulate_indicator dim) st l) = si_right (fold_left (sc_accumulate_indicator dim) st l)).
  { induction st as [|x st IH]; intros l HF HE; simpl; [exact HE|]. apply IH.
    - intros y Hy. apply Hst. right. exact Hy.
    - exact HF.
    - unfold sc_accumulate_indicator. cbn [si_left si_right].
      destruct (Hst x (or_introl eq_refl)) as [_ ->]. rewrite HF, HE. reflexivity. }
  specialize (E (sc_reset_indicator dim u p) eq_refl eq_refl). set (l := fold_left _ _ _) in *.
  rewrite E, Rminus_eq_0. apply scaled_min_zero.
  assert (Y := Rmax_r (hd * Rabs (si_abs_max l)) (100 * tiny)).
  assert (Z2 := Rabs_pos (si_right l)). lra.
Qed.

Lemma scalar_indicator_order tiny evc dim u p st st' hd : Permutation st st' ->
  scalar_indicator tiny evc dim u p st hd = scalar_indicator tiny evc dim u p st' hd.
Proof.
  intros H. unfold scalar_indicator. f_equal. apply fold_left_perm; [|exact H].
  intros l x y. unfold sc_accumulate_indicator. cbn [si_u si_abs_max si_f si_left si_right].
  f_equal; [apply Rmax_swap|ring|ring].
Qed.
