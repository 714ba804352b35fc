(** * Lemmas on states and derivatives used for the physical properties *)
From Coq Require Import Reals Arith Lia Lra Psatz.
From Verif Require Import RVec EulerSystem.
From Verif Require Export PhysSpec.
Local Open Scope R_scope.

Lemma mkstate_0 dim r m E : mkstate dim r m E 0%nat = r.
Proof. reflexivity. Qed.

Lemma mkstate_m dim r m E k : (k < dim)%nat -> mkstate dim r m E (S k) = m k.
Proof.
  intros H. unfold mkstate. simpl (Nat.eqb (S k) 0). cbv iota.
  destruct (Nat.eqb_spec (S k) (S dim)); [lia|]. f_equal. lia.
Qed.

Lemma mkstate_E dim r m E : mkstate dim r m E (S dim) = E.
Proof. unfold mkstate. simpl (Nat.eqb (S dim) 0). cbv iota. rewrite Nat.eqb_refl. reflexivity. Qed.

(** A sum over the components of a state. *)
Lemma rsum_state dim f : rsum (dim + 2) f = f 0%nat + rsum dim (fun k => f (S k)) + f (S dim).
Proof.
  replace (dim + 2)%nat with (S (S dim)) by lia. simpl.
  assert (H : forall n, rsum n f + f n = f 0%nat + rsum n (fun k => f (S k))).
  { induction n; simpl; [ring|]. rewrite IHn. ring. }
  rewrite H. ring.
Qed.

Lemma rsum_water dim f : rsum (dim + 1) f = f 0%nat + rsum dim (fun k => f (S k)).
Proof.
  replace (dim + 1)%nat with (S dim) by lia.
  assert (H : forall n, rsum n f + f n = f 0%nat + rsum n (fun k => f (S k))).
  { induction n; simpl; [ring|]. rewrite IHn. ring. }
  simpl. apply H.
Qed.

Lemma dot_mkstate dim r m E P :
  dot (dim + 2) (mkstate dim r m E) P = r * P 0%nat + dot dim m (fun k => P (S k)) + E * P (S dim).
Proof.
  unfold dot at 1. rewrite rsum_state, mkstate_0, mkstate_E. f_equal. f_equal.
  apply rsum_ext. intros k Hk. rewrite mkstate_m by exact Hk. reflexivity.
Qed.

Lemma norm2_line dim a b t : norm2 dim (vadd a (vscal t b)) = norm2 dim a + 2 * t * dot dim a b + t * t * norm2 dim b.
Proof. rewrite norm2_add, dot_scal_r, norm2_scal. ring. Qed.

Lemma quad_deriv a b c x : derivable_pt_lim (fun t => a + t * b + t * t * c) x (b + 2 * x * c).
Proof.
  replace (b + 2 * x * c) with (b + ((1 * x + x * 1) * c + x * x * 0)) by ring.
  apply (derivable_pt_lim_plus (fun t => a + t * b) (fun t => t * t * c)); [apply affine_deriv|].
  apply (derivable_pt_lim_mult (fun t => t * t) (fun _ => c)); [|apply derivable_pt_lim_const].
  apply (derivable_pt_lim_mult id id); apply derivable_pt_lim_id.
Qed.

(** A derivative at 0 only depends on the function and its value. *)
Lemma deriv_transfer f g x l l' : (forall t, g t = f t) -> l' = l ->
  derivable_pt_lim g x l' -> derivable_pt_lim f x l.
Proof.
  intros H -> D e He. destruct (D e He) as (d & Hd). exists d. intros h Hh1 Hh2.
  rewrite <- !H. apply Hd; assumption.
Qed.

Lemma powr_comp_deriv f x l b : 0 < f x -> derivable_pt_lim f x l ->
  derivable_pt_lim (fun t => powr (f t) b) x (b * powr (f x) (b - 1) * l).
Proof.
  intros H D. apply (derivable_pt_lim_comp f (fun y => powr y b) x l (b * powr (f x) (b - 1)) D).
  apply powr_deriv. exact H.
Qed.

Lemma inv_comp_deriv f x l : f x <> 0 -> derivable_pt_lim f x l ->
  derivable_pt_lim (fun t => 1 / f t) x (- l / (f x * f x)).
Proof.
  intros H D.
  replace (- l / (f x * f x)) with ((0 * f x - l * 1) / Rsqr (f x)) by (unfold Rsqr; field; exact H).
  apply (derivable_pt_lim_div (fun _ => 1) f x 0 l); [apply derivable_pt_lim_const|exact D|exact H].
Qed.
