(** * Proofs about the flux functions *)
From Coq Require Import Reals List Arith Lia Lra FunctionalExtensionality.
From Verif Require Import Scalar ScalarFlux.
Import ListNotations.
Local Open Scope R_scope.

Lemma C128_burgers_proof : forall delta u k,
  derivable_pt_lim (fun x => fl_value (burgers delta) x k) u (fl_gradient (burgers delta) u k).
Proof.
  intros delta u k. cbn.
  pose proof (derivable_pt_lim_scal _ (1 / 2) _ _ (derivable_pt_lim_mult _ _ u _ _ (derivable_pt_lim_id u) (derivable_pt_lim_id u))) as D.
  intros e He. destruct (D e He) as (d & Hd). exists d. intros h H1 H2. specialize (Hd h H1 H2).
  unfold mult_real_fct, mult_fct, id in Hd.
  replace ((1 / 2 * (u + h) * (u + h) - 1 / 2 * u * u) / h - u) with
    ((1 / 2 * ((u + h) * (u + h)) - 1 / 2 * (u * u)) / h - 1 / 2 * (1 * u + u * 1)); [exact Hd|]. field. exact H1.
Qed.

Lemma C128_kpp_proof : forall delta u k, (k < 2)%nat ->
  derivable_pt_lim (fun x => fl_value (kpp delta) x k) u (fl_gradient (kpp delta) u k).
Proof.
  intros delta u k Hk. destruct k as [|[|k]]; [| |lia]; cbn; [apply derivable_pt_lim_sin|apply derivable_pt_lim_cos].
Qed.

Lemma C128_quadratic_proof : forall delta expressions k a b c,
  delta <> 0 -> (forall u, nth k expressions (fun _ => 0) u = a + b * u + c * (u * u)) ->
  forall u, fl_gradient (function_flux delta expressions) u k = b + 2 * c * u.
Proof.
  intros delta ex k a b c Hd H u. cbn. unfold central_difference. rewrite !H. field. exact Hd.
Qed.

Lemma C128_default_proof : forall delta delta' u, delta <> 0 ->
  let F := function_flux delta [fun u => 1 / 2 * u * u] in
  fl_value F u 0%nat = fl_value (burgers delta') u 0%nat /\
  fl_gradient F u 0%nat = fl_gradient (burgers delta') u 0%nat.
Proof. intros delta delta' u Hd. cbn. unfold central_difference. split; [reflexivity|field; exact Hd]. Qed.

Lemma C128_between_proof : forall delta expressions k u f',
  0 < delta -> 
  (forall x, u - delta <= x <= u + delta -> derivable_pt_lim (nth k expressions (fun _ => 0)) x (f' x)) ->
  exists c, u - delta < c < u + delta /\ fl_gradient (function_flux delta expressions) u k = f' c.
Proof.
  intros delta ex k u f' Hd H. set (f := nth k ex (fun _ => 0)) in *.
  destruct (MVT_cor2 f f' (u - delta) (u + delta) ltac:(lra)) as (c & E & Hc).
  { intros x Hx. apply H, Hx. }
  exists c. split; [exact Hc|]. cbn. unfold central_difference. fold f. rewrite E. field. lra.
Qed.

Lemma C128_between_setting : forall x, 1 - 1 / 10 <= x <= 1 + 1 / 10 ->
  derivable_pt_lim (nth 1 [fun u => 1 / 2 * u * u; fun u => sin u] (fun _ => 0)) x (cos x).
Proof. intros x _. cbn. apply derivable_pt_lim_sin. Qed.

Lemma C128_quadratic_setting : forall u,
  nth 1 [fun u => sin u; fun u => u * (1 - u)] (fun _ => 0) u = 0 + 1 * u + -1 * (u * u).
Proof. intros u. cbn. ring. Qed.

Lemma C128_direction_proof : forall delta delta' u, fl_value (burgers delta) u 0%nat = 1 / 2 * u * u /\
  fl_value (kpp delta') u 0%nat = sin u /\ fl_value (kpp delta') u 1%nat = cos u.
Proof. intros. cbn. auto. Qed.
