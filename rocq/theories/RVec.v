(** * Tensors of real numbers

    dealii::Tensor<1, n, Number>: a vector is a function of the component; only
    the components below the dimension are meaningful. *)
From Coq Require Import Reals Arith Lia Lra Psatz.
Local Open Scope R_scope.

(** Tensor<1, n, Number> of deal.II, e.g. state_type of source/euler/hyperbolic_system.h. *)
Definition vec := nat -> R.

(** Equality of the components of Tensor<1, n, Number>.
    deal.II, used for all tensors of source/*/hyperbolic_system.h. *)
Definition veq (n : nat) (a b : vec) : Prop := forall k, (k < n)%nat -> a k = b k.

(** A loop [for (k = 0; k < n; ++k) s += f(k)].
    Such loops occur in many places, e.g. source/convenience_macros.h:79-104. *)
Fixpoint rsum (n : nat) (f : nat -> R) : R :=
  match n with O => 0 | S k => rsum k f + f k end.

(** Tensor arithmetic of deal.II: +, -, scaling, the contraction of two rank-1
    tensors and norm_square.  Used throughout source/*/hyperbolic_system.h. *)
Definition vadd (a b : vec) : vec := fun k => a k + b k.
(** Difference, see above; used throughout source/*/hyperbolic_system.h. *)
Definition vsub (a b : vec) : vec := fun k => a k - b k.
(** Scaling, see above; used throughout source/*/hyperbolic_system.h. *)
Definition vscal (c : R) (a : vec) : vec := fun k => c * a k.
(** Contraction, see above; used throughout source/*/hyperbolic_system.h. *)
Definition dot (n : nat) (a b : vec) : R := rsum n (fun k => a k * b k).
(** norm_square(), see above; used throughout source/*/hyperbolic_system.h. *)
Definition norm2 (n : nat) (a : vec) : R := dot n a a.

(** std::pow / ryujin::pow (source/simd.h:149-160) for a positive base; 0 for a
    nonpositive base (this is pow(0, b) for b > 0; for a negative base the code
    obtains a NaN). *)
Definition powr (x b : R) : R := if Rlt_dec 0 x then Rpower x b else 0.

Lemma rsum_ext n f g : (forall k, (k < n)%nat -> f k = g k) -> rsum n f = rsum n g.
Proof.
  induction n as [|n IH]; intros H; simpl; [reflexivity|].
  rewrite IH by (intros; apply H; lia). rewrite H by lia. reflexivity.
Qed.

Lemma rsum_plus n f g : rsum n (fun k => f k + g k) = rsum n f + rsum n g.
Proof. induction n as [|n IH]; simpl; [ring|rewrite IH; ring]. Qed.

Lemma rsum_scal n c f : rsum n (fun k => c * f k) = c * rsum n f.
Proof. induction n as [|n IH]; simpl; [ring|rewrite IH; ring]. Qed.

Lemma rsum_0 n : rsum n (fun _ => 0) = 0.
Proof. induction n as [|n IH]; simpl; [reflexivity|rewrite IH; ring]. Qed.

Lemma rsum_nonneg n f : (forall k, (k < n)%nat -> 0 <= f k) -> 0 <= rsum n f.
Proof.
  induction n as [|n IH]; intros H; simpl; [lra|].
  assert (0 <= f n) by (apply H; lia).
  assert (0 <= rsum n f) by (apply IH; intros; apply H; lia). lra.
Qed.

Lemma dot_ext n a a' b b' : veq n a a' -> veq n b b' -> dot n a b = dot n a' b'.
Proof. intros Ha Hb. apply rsum_ext. intros k Hk. now rewrite Ha, Hb. Qed.

Lemma dot_comm n a b : dot n a b = dot n b a.
Proof. apply rsum_ext. intros; ring. Qed.

Lemma dot_add_l n a b c : dot n (vadd a b) c = dot n a c + dot n b c.
Proof. unfold dot, vadd. rewrite <- rsum_plus. apply rsum_ext; intros; ring. Qed.

Lemma dot_scal_l n x a c : dot n (vscal x a) c = x * dot n a c.
Proof. unfold dot, vscal. rewrite <- rsum_scal. apply rsum_ext; intros; ring. Qed.

Lemma dot_sub_l n a b c : dot n (vsub a b) c = dot n a c - dot n b c.
Proof.
  replace (dot n a c - dot n b c) with (dot n a c + (-1) * dot n b c) by ring.
  rewrite <- dot_scal_l, <- dot_add_l. apply rsum_ext.
  intros; unfold vsub, vadd, vscal; ring.
Qed.

Lemma dot_add_r n a b c : dot n c (vadd a b) = dot n c a + dot n c b.
Proof. rewrite dot_comm, dot_add_l, (dot_comm n a), (dot_comm n b). reflexivity. Qed.
Lemma dot_scal_r n x a c : dot n c (vscal x a) = x * dot n c a.
Proof. rewrite dot_comm, dot_scal_l, (dot_comm n a). reflexivity. Qed.
Lemma dot_sub_r n a b c : dot n c (vsub a b) = dot n c a - dot n c b.
Proof. rewrite dot_comm, dot_sub_l, (dot_comm n a), (dot_comm n b). reflexivity. Qed.

Lemma norm2_nonneg n a : 0 <= norm2 n a.
Proof. apply rsum_nonneg. intros. nra. Qed.

Lemma norm2_scal n x a : norm2 n (vscal x a) = x * x * norm2 n a.
Proof. unfold norm2. rewrite dot_scal_l, dot_scal_r. ring. Qed.

Lemma norm2_add n a b : norm2 n (vadd a b) = norm2 n a + 2 * dot n a b + norm2 n b.
Proof. unfold norm2. rewrite dot_add_l, !dot_add_r, (dot_comm n b a). ring. Qed.

Lemma norm2_sub n a b : norm2 n (vsub a b) = norm2 n a - 2 * dot n a b + norm2 n b.
Proof. unfold norm2. rewrite dot_sub_l, !dot_sub_r, (dot_comm n b a). ring. Qed.

(** A unit vector: removing the normal component. *)
Lemma norm2_proj n a nu : norm2 n nu = 1 ->
  norm2 n (vsub a (vscal (dot n a nu) nu)) = norm2 n a - dot n a nu * dot n a nu.
Proof.
  intros H. rewrite norm2_sub, norm2_scal, dot_scal_r, H. ring.
Qed.

Lemma cauchy_schwarz n a b : dot n a b * dot n a b <= norm2 n a * norm2 n b.
Proof.
  destruct (Req_dec (norm2 n b) 0) as [Z|Z].
  - (* b vanishes *)
    assert (B : forall k, (k < n)%nat -> b k = 0).
    { clear a. induction n as [|m IH]; intros k Hk; [lia|].
      unfold norm2, dot in Z; simpl in Z.
      assert (0 <= rsum m (fun k => b k * b k)) by (apply rsum_nonneg; intros; nra).
      assert (0 <= b m * b m) by nra.
      destruct (Nat.eq_dec k m) as [->|Hne]; [nra|].
      apply IH; [|lia]. unfold norm2, dot. lra. }
    assert (D : dot n a b = 0).
    { unfold dot. rewrite <- (rsum_0 n). apply rsum_ext. intros k Hk. rewrite B by exact Hk. ring. }
    rewrite D, Z. lra.
  - assert (P := norm2_nonneg n b).
    assert (Q := norm2_nonneg n (vsub a (vscal (dot n a b / norm2 n b) b))).
    rewrite norm2_sub, norm2_scal, dot_scal_r in Q.
    replace (norm2 n a - 2 * (dot n a b / norm2 n b * dot n a b) +
             dot n a b / norm2 n b * (dot n a b / norm2 n b) * norm2 n b)
      with (norm2 n a - dot n a b * dot n a b / norm2 n b) in Q by (field; exact Z).
    apply Rmult_le_compat_r with (r := norm2 n b) in Q; [|exact P].
    replace ((norm2 n a - dot n a b * dot n a b / norm2 n b) * norm2 n b)
      with (norm2 n a * norm2 n b - dot n a b * dot n a b) in Q by (field; exact Z).
    lra.
Qed.

(** ** Powers *)

Lemma powr_pos x b : 0 < x -> powr x b = Rpower x b.
Proof. intros H. unfold powr. destruct (Rlt_dec 0 x); [reflexivity|lra]. Qed.

Lemma powr_gt0 x b : 0 < x -> 0 < powr x b.
Proof. intros H. rewrite powr_pos by exact H. apply exp_pos. Qed.

Lemma powr_plus x a b : 0 < x -> powr x (a + b) = powr x a * powr x b.
Proof. intros H. rewrite !powr_pos by exact H. apply Rpower_plus. Qed.

Lemma powr_1 x : 0 < x -> powr x 1 = x.
Proof. intros H. rewrite powr_pos by exact H. apply Rpower_1. exact H. Qed.

Lemma powr_mult x a b : 0 < x -> powr (powr x a) b = powr x (a * b).
Proof.
  intros H. rewrite (powr_pos x) by exact H.
  rewrite (powr_pos (Rpower x a)) by apply exp_pos.
  rewrite powr_pos by exact H. apply Rpower_mult.
Qed.

Lemma powr_mult_base x y a : 0 < x -> 0 < y -> powr (x * y) a = powr x a * powr y a.
Proof.
  intros Hx Hy. rewrite !powr_pos by (assumption || (apply Rmult_lt_0_compat; assumption)).
  symmetry. apply Rpower_mult_distr; assumption.
Qed.

Lemma powr_opp x a : 0 < x -> powr x (- a) = / powr x a.
Proof. intros H. rewrite !powr_pos by exact H. apply Rpower_Ropp. Qed.

Lemma powr_inv x a : 0 < x -> powr (/ x) a = / powr x a.
Proof.
  intros H. rewrite !powr_pos by (assumption || (apply Rinv_0_lt_compat; assumption)).
  unfold Rpower. rewrite ln_Rinv by exact H. rewrite <- exp_Ropp. f_equal. ring.
Qed.

Lemma powr_2 x : 0 < x -> powr x 2 = x * x.
Proof.
  intros H. replace 2 with (1 + 1) by ring. rewrite powr_plus by exact H.
  rewrite powr_1 by exact H. reflexivity.
Qed.

Lemma powr_mono x y a : 0 <= a -> 0 < x <= y -> powr x a <= powr y a.
Proof.
  intros Ha Hx. rewrite !powr_pos by lra. apply Rle_Rpower_l; lra.
Qed.

Lemma powr_deriv x b : 0 < x ->
  derivable_pt_lim (fun y => powr y b) x (b * powr x (b - 1)).
Proof.
  intros H. rewrite (powr_pos x (b - 1)) by exact H.
  apply (derivable_pt_lim_locally_ext (fun y => Rpower y b) (fun y => powr y b) x (x / 2) (x + 1)).
  - lra.
  - intros z Hz. rewrite powr_pos by lra. reflexivity.
  - apply derivable_pt_lim_power. exact H.
Qed.

(** Derivative of an affine function. *)
Lemma affine_deriv a b x : derivable_pt_lim (fun t => a + t * b) x b.
Proof.
  cut (derivable_pt_lim (fun t => a + t * b) x (0 + (1 * b + x * 0))).
  { intros H. replace (0 + (1 * b + x * 0)) with b in H by ring. exact H. }
  apply derivable_pt_lim_plus; [apply derivable_pt_lim_const|].
  apply (derivable_pt_lim_mult (fun t => t) (fun _ => b));
    [apply derivable_pt_lim_id|apply derivable_pt_lim_const].
Qed.
