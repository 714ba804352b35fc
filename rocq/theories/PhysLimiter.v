(** * The derivatives used by the limiters, proofs for C35 *)
From Coq Require Import Reals Lra Psatz.
From Verif Require Import RVec Newton EulerSystem EulerLimiter EulerLimiterProofs EulerLimiterEntropy AeosSystem AeosLimiter
  AeosLimiterEntropy.
Local Open Scope R_scope.

Lemma deriv_local f g x l d : 0 < d -> (forall u, Rabs (u - x) < d -> f u = g u) ->
  derivable_pt_lim g x l -> derivable_pt_lim f x l.
Proof.
  intros Hd E D e He. destruct (D e He) as (del & Hdel).
  assert (Hm : 0 < Rmin del d) by (apply Rmin_glb_lt; [apply cond_pos|exact Hd]).
  exists (mkposreal _ Hm). intros t Ht0 Ht. simpl in Ht.
  assert (M1 := Rmin_l del d). assert (M2 := Rmin_r del d).
  rewrite !E; [apply Hdel; [exact Ht0|lra]|rewrite Rminus_eq_0, Rabs_R0; exact Hd|].
  replace (x + t - x) with t by ring. lra.
Qed.

Lemma affine_pos a b t : 0 < a + t * b -> exists d, 0 < d /\ forall u, Rabs (u - t) < d -> 0 < a + u * b.
Proof.
  intros H. assert (Hb := Rabs_pos b). exists ((a + t * b) / (Rabs b + 1)).
  split; [apply Rdiv_lt_0_compat; lra|]. intros u Hu.
  assert (X : Rabs ((u - t) * b) < a + t * b).
  { rewrite Rabs_mult.
    assert (Y : Rabs (u - t) * (Rabs b + 1) < a + t * b).
    { apply (Rmult_lt_compat_r (Rabs b + 1)) in Hu; [|lra].
      replace ((a + t * b) / (Rabs b + 1) * (Rabs b + 1)) with (a + t * b) in Hu by (field; lra). exact Hu. }
    assert (Z : Rabs (u - t) * Rabs b <= Rabs (u - t) * (Rabs b + 1)) by (apply Rmult_le_compat_l; [apply Rabs_pos|lra]). lra. }
  apply Rabs_def2 in X. lra.
Qed.

Lemma euler_dpsi s dim L t : 0 < density (along L t) ->
  derivable_pt_lim (psi s 0 dim L) t (dpsi s dim L t).
Proof.
  rewrite density_along. intros H. rewrite dpsi_psi0 by exact H.
  destruct (affine_pos _ _ _ H) as (d & Hd & P).
  apply (deriv_local _ (psi0 s dim L) t _ d Hd); [|apply psi0_deriv1; exact H].
  intros u Hu. apply psi_psi0. apply P. exact Hu.
Qed.

Lemma aeos_dpsi s dim L t : 0 < a_density (a_along L t) -> 0 < 1 - interp_b (a_eos s) * a_density (a_along L t) ->
  derivable_pt_lim (a_psi s 0 dim L) t (a_dpsi s dim L t).
Proof.
  change (a_density (a_along L t)) with (a_density (al_U L) + t * a_density (al_P L)).
  intros H Hc. rewrite a_dpsi_ap1 by assumption.
  destruct (affine_pos _ _ _ H) as (d & Hd & P).
  destruct (affine_pos (1 - interp_b (a_eos s) * a_density (al_U L)) (- interp_b (a_eos s) * a_density (al_P L)) t)
    as (d' & Hd' & P'); [lra|].
  apply (deriv_local _ (ap0 s dim L) t _ (Rmin d d')); [apply Rmin_glb_lt; assumption| |apply ap0_deriv; assumption].
  assert (M1 := Rmin_l d d'). assert (M2 := Rmin_r d d').
  intros u Hu. apply a_psi_ap0; [apply P; lra|]. assert (X := P' u ltac:(lra)). lra.
Qed.
