(** * Tensor products of elements and quadratures: proofs *)
From Coq Require Import Reals List Arith Bool Lia Lra.
From Verif Require Import RVec Assembly AssemblySpec Discretization DiscretizationSpec DiscretizationProofs.
Import ListNotations.
Local Open Scope R_scope.

(** ** Products and sums *)
Lemma rprod_ext n f g : (forall k, (k < n)%nat -> f k = g k) -> rprod n f = rprod n g.
Proof. induction n as [|n IH]; intros H; cbn; [reflexivity|]. rewrite IH, H by auto. reflexivity. Qed.
Lemma rprod_mult n f g : rprod n (fun k => f k * g k) = rprod n f * rprod n g.
Proof. induction n as [|n IH]; cbn; [ring|]. rewrite IH. ring. Qed.
Lemma rprod_1 n : rprod n (fun _ => 1) = 1.
Proof. induction n as [|n IH]; cbn; [ring|]. rewrite IH. ring. Qed.
Lemma rprod_0 n f k : (k < n)%nat -> f k = 0 -> rprod n f = 0.
Proof.
  induction n as [|n IH]; intros Hk H; [lia|]. cbn. destruct (Nat.eq_dec k n) as [->|N]; [rewrite H; ring|]. rewrite IH by (auto; lia). ring.
Qed.
Lemma rprod_pos n f : (forall k, (k < n)%nat -> 0 < f k) -> 0 < rprod n f.
Proof. induction n as [|n IH]; intros H; cbn; [lra|]. apply Rmult_lt_0_compat; auto. Qed.

Definition skip (d m : nat) : nat := if Nat.ltb m d then m else S m.

Lemma rprod_skip n d f : (d <= n)%nat -> rprod (S n) f = f d * rprod n (fun m => f (skip d m)).
Proof.
  induction n as [|n IH]; intros H.
  - replace d with 0%nat by lia. cbn. ring.
  - destruct (Nat.eq_dec d (S n)) as [->|N].
    + change (rprod (S (S n)) f) with (rprod (S n) f * f (S n)). rewrite (rprod_ext (S n) (fun m => f (skip (S n) m)) f); [ring|].
      intros k Hk. unfold skip. destruct (Nat.ltb_spec k (S n)); [reflexivity|lia].
    + change (rprod (S (S n)) f) with (rprod (S n) f * f (S n)). rewrite IH by lia.
      change (rprod (S n) (fun m => f (skip d m))) with (rprod n (fun m => f (skip d m)) * f (skip d n)).
      replace (skip d n) with (S n); [ring|]. unfold skip. destruct (Nat.ltb_spec n d); [lia|reflexivity].
Qed.

Lemma rsum_block m b f : rsum (m * b) f = rsum m (fun j => rsum b (fun r => f (j * b + r)%nat)).
Proof.
  assert (A : forall x y g, rsum (x + y) g = rsum x g + rsum y (fun r => g (x + r)%nat)).
  { clear. intros x y g. induction y as [|y IH]; [rewrite Nat.add_0_r; cbn; ring|]. rewrite Nat.add_succ_r. cbn. rewrite IH. ring. }
  induction m as [|m IH]; [reflexivity|]. cbn [Nat.mul]. rewrite Nat.add_comm, A, IH. reflexivity.
Qed.

Lemma rsum_single n d x : (d < n)%nat -> rsum n (fun k => if Nat.eqb k d then x else 0) = x.
Proof.
  induction n as [|n IH]; intros H; [lia|]. cbn [rsum]. destruct (Nat.eqb_spec n d) as [->|N].
  - rewrite (rsum_ext d _ (fun _ => 0)); [rewrite rsum_0; ring|]. intros k Hk. destruct (Nat.eqb_spec k d); [lia|reflexivity].
  - rewrite IH by lia. ring.
Qed.

Lemma rsum_scal_r n c f : rsum n (fun k => f k * c) = rsum n f * c.
Proof. rewrite Rmult_comm, <- rsum_scal. apply rsum_ext. intros; ring. Qed.

Lemma pow_pos' n k : (0 < n)%nat -> (0 < n ^ k)%nat.
Proof. intros H. apply Nat.neq_0_lt_0, Nat.pow_nonzero. lia. Qed.

Lemma digit_low n j r d k : (0 < n)%nat -> (k < d)%nat -> digit n (j * n ^ d + r) k = digit n r k.
Proof.
  intros Hn Hk. unfold digit. pose proof (pow_pos' n k Hn).
  replace (j * n ^ d)%nat with ((j * n ^ (d - k - 1) * n) * n ^ k)%nat.
  - rewrite Nat.div_add_l by lia. rewrite Nat.add_comm, Nat.mod_add by lia. reflexivity.
  - replace d with ((d - k - 1) + (1 + k))%nat at 2 by lia. rewrite !Nat.pow_add_r, Nat.pow_1_r. lia.
Qed.
Lemma digit_high n j r d : (j < n)%nat -> (r < n ^ d)%nat -> digit n (j * n ^ d + r) d = j.
Proof.
  intros Hj Hr. unfold digit. rewrite Nat.div_add_l by lia. rewrite (Nat.div_small r) by exact Hr. rewrite Nat.add_0_r. apply Nat.mod_small. exact Hj.
Qed.
Lemma digit_lt n i k : (0 < n)%nat -> (digit n i k < n)%nat.
Proof. intros H. apply Nat.mod_upper_bound. lia. Qed.

(** The sum over all tuples of the product is the product of the sums. *)
Lemma tensor n d (F : nat -> nat -> R) : (0 < n)%nat ->
  rsum (n ^ d) (fun i => rprod d (fun k => F k (digit n i k))) = rprod d (fun k => rsum n (F k)).
Proof.
  intros Hn. induction d as [|d IH]; [cbn; ring|].
  cbn [Nat.pow rprod]. rewrite rsum_block.
  rewrite (rsum_ext n _ (fun j => F d j * rsum (n ^ d) (fun r => rprod d (fun k => F k (digit n r k))))).
  - rewrite rsum_scal_r, IH. ring.
  - intros j Hj. rewrite <- rsum_scal. apply rsum_ext. intros r Hr. rewrite digit_high by assumption.
    rewrite (rprod_ext d _ (fun k => F k (digit n r k))); [ring|]. intros k Hk. rewrite digit_low by lia. reflexivity.
Qed.

(** Index with given digits. *)
Lemma from_digits n d (g : nat -> nat) : (0 < n)%nat -> (forall k, (k < d)%nat -> (g k < n)%nat) ->
  exists i, (i < n ^ d)%nat /\ forall k, (k < d)%nat -> digit n i k = g k.
Proof.
  intros Hn. induction d as [|d IH]; intros Hg.
  - exists 0%nat. split; [cbn; lia|lia].
  - destruct IH as (r & Hr & E); [auto|]. exists (g d * n ^ d + r)%nat. split.
    + cbn. specialize (Hg d ltac:(lia)). nia.
    + intros k Hk. destruct (Nat.eq_dec k d) as [->|N]; [apply digit_high; auto|]. rewrite digit_low by lia. apply E. lia.
Qed.
Lemma digits_unique n d : (0 < n)%nat -> forall i j, (i < n ^ d)%nat -> (j < n ^ d)%nat -> (forall k, (k < d)%nat -> digit n i k = digit n j k) -> i = j.
Proof.
  intros Hn. induction d as [|d IH]; intros i j Hi Hj E; [cbn in *; lia|].
  pose proof (pow_pos' n d Hn) as P. cbn [Nat.pow] in Hi, Hj.
  pose proof (Nat.div_mod i (n ^ d) ltac:(lia)) as Ei. pose proof (Nat.div_mod j (n ^ d) ltac:(lia)) as Ej.
  assert (Ri := Nat.mod_upper_bound i (n ^ d) ltac:(lia)). assert (Rj := Nat.mod_upper_bound j (n ^ d) ltac:(lia)).
  assert (Qi : (i / n ^ d < n)%nat) by (apply Nat.div_lt_upper_bound; lia). assert (Qj : (j / n ^ d < n)%nat) by (apply Nat.div_lt_upper_bound; lia).
  assert (T : (i / n ^ d)%nat = (j / n ^ d)%nat).
  { specialize (E d ltac:(lia)). unfold digit in E. rewrite !Nat.mod_small in E by assumption. exact E. }
  assert (L : (i mod n ^ d)%nat = (j mod n ^ d)%nat).
  { apply IH; try assumption. intros k Hk. specialize (E k ltac:(lia)).
    rewrite Ei, Ej, (Nat.mul_comm (n ^ d) (i / n ^ d)), (Nat.mul_comm (n ^ d) (j / n ^ d)), !digit_low in E by lia. exact E. }
  rewrite Ei, Ej, T, L. reflexivity.
Qed.

Lemma digits_differ n d i j : (forall k, (k < d)%nat -> digit n i k = digit n j k) \/ exists k, (k < d)%nat /\ digit n i k <> digit n j k.
Proof.
  induction d as [|d [IH|(k & Hk & E)]]; [left; lia| |right; exists k; auto].
  destruct (Nat.eq_dec (digit n i d) (digit n j d)) as [E|E]; [left|right; exists d; auto].
  intros k Hk. destruct (Nat.eq_dec k d) as [->|]; [exact E|apply IH; lia].
Qed.

(** ** Boxes *)
Lemma degree_le a : (degree a <= 3)%nat. Proof. destruct a; cbn; lia. Qed.
Lemma gauss_degree a : n_gauss a = S (degree a). Proof. destruct a; reflexivity. Qed.
Lemma lobatto_degree a : n_lobatto a = S (degree a). Proof. destruct a; reflexivity. Qed.

Section Box.
Variables (a : ansatz) (dim : nat) (h : nat -> R).
Hypothesis Hh : forall k, 0 < h k.
Let p := degree a.
Let n := n_gauss a.
Let l i k := lagrange p (digit (S p) i k).

Lemma n_eq : n = S p. Proof. apply gauss_degree. Qed.
Lemma n_range : (1 <= n <= 4)%nat. Proof. rewrite n_eq. pose proof (degree_le a). fold p in H. lia. Qed.
Lemma p_le : (p <= 3)%nat. Proof. apply degree_le. Qed.
Lemma l_len i k : length (l i k) = S p.
Proof. apply length_lagrange; [apply p_le|]. pose proof (digit_lt (S p) i k). lia. Qed.

Lemma sum_points (x : nat -> R) : rsum (S p ^ dim) (fun i => rprod dim (fun k => peval (l i k) (x k))) = 1.
Proof.
  unfold l. rewrite (tensor (S p) dim (fun k i => peval (lagrange p i) (x k))) by lia.
  rewrite (rprod_ext dim _ (fun _ => 1)); [apply rprod_1|]. intros k _. apply lagrange_sum, p_le.
Qed.

Lemma box_value_sum q : rsum (box_n_local a dim) (fun i => box_value a dim i q) = 1.
Proof. apply (sum_points (fun k => gauss_point n (digit n q k))). Qed.
Lemma box_face_sum f q : rsum (box_n_local a dim) (fun i => box_face_value a dim f i q) = 1.
Proof. apply (sum_points (fun m => if Nat.eqb m (f / 2) then INR (f mod 2) else gauss_point n (digit n q (along_face (f / 2) m)))). Qed.

Lemma box_grad_sum q d : rsum (box_n_local a dim) (fun i => box_grad a dim h i q d) = 0.
Proof.
  unfold box_grad, box_n_local. fold p n. destruct (Nat.ltb_spec d dim) as [Hd|Hd]; [|apply rsum_0].
  rewrite (tensor (S p) dim (fun k i => if Nat.eqb k d then peval (pderiv (lagrange p i)) (gauss_point n (digit n q k)) / h k
      else peval (lagrange p i) (gauss_point n (digit n q k)))) by lia.
  apply (rprod_0 _ _ d Hd). rewrite Nat.eqb_refl.
  unfold Rdiv. rewrite rsum_scal_r, lagrange_sum_deriv by apply p_le. ring.
Qed.

Lemma box_volume : rsum (box_n_points a dim) (fun q => box_JxW a dim h q) = volume dim h.
Proof.
  unfold box_n_points, box_JxW, volume. fold n. rewrite (tensor n dim (fun k q => h k * gauss_weight n q)) by (pose proof n_range; lia).
  apply rprod_ext. intros k _. rewrite rsum_scal.
  pose proof (moments n 0 n_range ltac:(pose proof n_range; lia)) as M. unfold quad in M. cbn in M.
  rewrite (rsum_ext n _ (gauss_weight n)) in M by (intros; ring). rewrite M. field.
Qed.

(** Mass of a shape function. *)
Lemma box_mass_pos i : 0 < rsum (box_n_points a dim) (fun q => box_value a dim i q * box_JxW a dim h q).
Proof.
  unfold box_n_points, box_value, box_JxW. fold p n.
  set (F := fun k j => h k * (gauss_weight n j * peval (l i k) (gauss_point n j))).
  rewrite (rsum_ext _ _ (fun q => rprod dim (fun k => F k (digit n q k)))).
  - rewrite (tensor n dim F) by (pose proof n_range; lia). unfold F. apply rprod_pos. intros k _. rewrite rsum_scal.
    apply Rmult_lt_0_compat; [apply Hh|]. change (0 < quad n (peval (l i k))). rewrite exact.
    + apply lagrange_integral; [apply p_le|]. pose proof (digit_lt (S p) i k). lia.
    + apply n_range.
    + rewrite l_len, n_eq. lia.
  - intros q _. rewrite <- rprod_mult. apply rprod_ext. intros k _. unfold F, l. ring.
Qed.

(** Integration by parts. *)
Let M i j k := h k * quad n (fun x => peval (l i k) x * peval (l j k) x).

Lemma product_mass i j k : M i j k = rsum n (fun q => h k * gauss_weight n q * peval (l i k) (gauss_point n q) * peval (l j k) (gauss_point n q)).
Proof. unfold M, quad. rewrite <- rsum_scal. apply rsum_ext. intros. ring. Qed.

Lemma volume_term i j d : (d < dim)%nat ->
  rsum (box_n_points a dim) (fun q => box_value a dim i q * box_grad a dim h j q d * box_JxW a dim h q) =
  quad n (fun x => peval (l i d) x * peval (pderiv (l j d)) x) * rprod (dim - 1) (fun m => M i j (skip d m)).
Proof.
  intros Hd. unfold box_n_points, box_value, box_grad, box_JxW. fold p n.
  set (F := fun k x => if Nat.eqb k d then gauss_weight n x * (peval (l i k) (gauss_point n x) * peval (pderiv (l j k)) (gauss_point n x))
     else h k * gauss_weight n x * peval (l i k) (gauss_point n x) * peval (l j k) (gauss_point n x)).
  rewrite (rsum_ext _ _ (fun q => rprod dim (fun k => F k (digit n q k)))).
  - rewrite (tensor n dim F) by (pose proof n_range; lia). unfold F. destruct dim as [|D]; [lia|]. rewrite Nat.sub_succ, Nat.sub_0_r.
    rewrite (rprod_skip D d) by lia. rewrite Nat.eqb_refl. f_equal. apply rprod_ext. intros m Hm.
    rewrite product_mass. apply rsum_ext. intros q _.
    replace (Nat.eqb (skip d m) d) with false; [reflexivity|]. symmetry. apply Nat.eqb_neq. unfold skip. destruct (Nat.ltb_spec m d); lia.
  - intros q _. destruct (Nat.ltb_spec d dim); [|lia]. rewrite <- !rprod_mult. apply rprod_ext. intros k _. unfold F, l.
    destruct (Nat.eqb k d); [|ring]. specialize (Hh k). field. lra.
Qed.

Lemma face_term i j d s : (d < dim)%nat -> (s < 2)%nat ->
  rsum (box_n_face_points a dim) (fun q => box_face_value a dim (2 * d + s) i q * box_face_value a dim (2 * d + s) j q * box_face_JxW a dim h (2 * d + s) q) =
  peval (l i d) (INR s) * peval (l j d) (INR s) * rprod (dim - 1) (fun m => M i j (skip d m)).
Proof.
  intros Hd Hs. unfold box_n_face_points, box_face_value, box_face_JxW. fold p n.
  assert (E1 : ((2 * d + s) / 2)%nat = d) by (rewrite Nat.mul_comm, Nat.div_add_l, (Nat.div_small s) by lia; lia).
  assert (E2 : ((2 * d + s) mod 2)%nat = s) by (rewrite Nat.add_comm, Nat.mul_comm, Nat.mod_add, Nat.mod_small by lia; reflexivity).
  rewrite E1, E2. destruct dim as [|D]; [lia|]. rewrite Nat.sub_succ, Nat.sub_0_r.
  set (F := fun m x => h (skip d m) * gauss_weight n x * peval (l i (skip d m)) (gauss_point n x) * peval (l j (skip d m)) (gauss_point n x)).
  rewrite (rsum_ext _ _ (fun q => peval (l i d) (INR s) * peval (l j d) (INR s) * rprod D (fun m => F m (digit n q m)))).
  - rewrite rsum_scal, (tensor n D F) by (pose proof n_range; lia). f_equal. apply rprod_ext. intros m Hm. rewrite product_mass. reflexivity.
  - intros q _. rewrite <- !rprod_mult. rewrite (rprod_skip D d) by lia. rewrite Nat.eqb_refl. f_equal; [unfold l; ring|].
    apply rprod_ext. intros m Hm. assert (N : Nat.eqb (skip d m) d = false) by (apply Nat.eqb_neq; unfold skip; destruct (Nat.ltb_spec m d); lia).
    rewrite N. replace (along_face d (skip d m)) with m; [unfold F, l; ring|].
    unfold along_face, skip. destruct (Nat.ltb_spec m d) as [L|L]; [destruct (Nat.ltb_spec m d); lia|destruct (Nat.ltb_spec (S m) d); lia].
Qed.

Lemma box_gauss i j d : (d < dim)%nat ->
  rsum (box_n_points a dim) (fun q =>
    (box_value a dim i q * box_grad a dim h j q d + box_value a dim j q * box_grad a dim h i q d) * box_JxW a dim h q) =
  rsum (2 * dim) (fun f => rsum (box_n_face_points a dim) (fun q =>
    box_normal f q d * box_face_value a dim f i q * box_face_value a dim f j q * box_face_JxW a dim h f q)).
Proof.
  intros Hd.
  rewrite (rsum_ext (box_n_points a dim) _ (fun q => box_value a dim i q * box_grad a dim h j q d * box_JxW a dim h q + box_value a dim j q * box_grad a dim h i q d * box_JxW a dim h q)) by (intros; ring).
  rewrite rsum_plus, !volume_term by exact Hd.
  assert (Sym : rprod (dim - 1) (fun m => M j i (skip d m)) = rprod (dim - 1) (fun m => M i j (skip d m))).
  { apply rprod_ext. intros m _. unfold M. f_equal. apply quad_ext. intros; ring. }
  rewrite Sym. set (W := rprod (dim - 1) (fun m => M i j (skip d m))).
  rewrite <- Rmult_plus_distr_r, <- quad_plus.
  rewrite (quad_ext n _ (peval (pderiv (pmul (l i d) (l j d))))) by (intros; rewrite pderiv_pmul; ring).
  rewrite exact_deriv; [|apply n_range|].
  2:{ pose proof (length_pmul (l i d) (l j d)) as L. rewrite !l_len in L. specialize (L ltac:(lia)). rewrite n_eq. lia. }
  rewrite !peval_pmul. rewrite Nat.mul_comm, rsum_block.
  rewrite (rsum_ext dim _ (fun k => if Nat.eqb k d then (peval (l i d) 1 * peval (l j d) 1 - peval (l i d) 0 * peval (l j d) 0) * W else 0)).
  - rewrite rsum_single by exact Hd. reflexivity.
  - intros k Hk. cbn [rsum]. rewrite Rplus_0_l, Nat.mul_comm.
    assert (F : forall s, (s < 2)%nat -> rsum (box_n_face_points a dim) (fun q => box_normal (2 * k + s) q d * box_face_value a dim (2 * k + s) i q * box_face_value a dim (2 * k + s) j q * box_face_JxW a dim h (2 * k + s) q) =
      if Nat.eqb k d then (2 * INR s - 1) * (peval (l i d) (INR s) * peval (l j d) (INR s) * W) else 0).
    { intros s Hs. unfold box_normal.
      assert (E1 : ((2 * k + s) / 2)%nat = k) by (rewrite Nat.mul_comm, Nat.div_add_l, (Nat.div_small s) by lia; lia).
      assert (E2 : ((2 * k + s) mod 2)%nat = s) by (rewrite Nat.add_comm, Nat.mul_comm, Nat.mod_add, Nat.mod_small by lia; reflexivity).
      rewrite E1, E2, (Nat.eqb_sym d k). destruct (Nat.eqb_spec k d) as [->|N].
      - unfold W. rewrite <- (face_term i j d s Hd Hs), <- rsum_scal. apply rsum_ext. intros; ring.
      - rewrite (rsum_ext _ _ (fun _ => 0)); [apply rsum_0|]. intros; ring. }
    rewrite !F by lia. destruct (Nat.eqb k d); [cbn; ring|ring].
Qed.

End Box.

(** Supports. *)
Section Support.
Variables (a : ansatz) (dim : nat).
Let p := degree a.
Let l i k := lagrange p (digit (S p) i k).
Lemma lobatto_0 : (0 < p)%nat -> lobatto_point (S p) 0 = 0.
Proof. pose proof (p_le a) as H. fold p in H. destruct p as [|[|[|[|]]]]; try lia; reflexivity. Qed.
Lemma lobatto_1 : (0 < p)%nat -> lobatto_point (S p) p = 1.
Proof. pose proof (p_le a) as H. fold p in H. destruct p as [|[|[|[|]]]]; try lia; reflexivity. Qed.

Definition end_node (f : nat) : nat := if Nat.eqb (f mod 2) 0 then 0 else p.
Lemma end_point f : (0 < p)%nat -> lobatto_point (S p) (end_node f) = INR (f mod 2).
Proof.
  intros Hp. unfold end_node. pose proof (Nat.mod_upper_bound f 2 ltac:(lia)). destruct (f mod 2)%nat as [|[|]]; [cbn; apply lobatto_0; exact Hp|cbn; apply lobatto_1; exact Hp|lia].
Qed.
Lemma end_le f : (end_node f <= p)%nat. Proof. unfold end_node. destruct (Nat.eqb _ _); lia. Qed.

Lemma box_support_zero i f x : (f < 2 * dim)%nat -> box_support a i f = false ->
  rprod dim (fun m => peval (l i m) (if Nat.eqb m (f / 2) then INR (f mod 2) else x m)) = 0.
Proof.
  intros Hf H. apply Bool.orb_false_iff in H. destruct H as [H0 H1]. fold p in H0, H1. apply Nat.eqb_neq in H0.
  apply (rprod_0 _ _ (f / 2)); [apply Nat.div_lt_upper_bound; lia|]. rewrite Nat.eqb_refl, <- end_point by lia.
  unfold l. rewrite lagrange_node; [|apply (p_le a)|pose proof (digit_lt (S p) i (f / 2)); lia|apply end_le].
  fold (end_node f) in H1. rewrite Nat.eqb_sym in H1. rewrite H1. reflexivity.
Qed.

Lemma box_node f q : (f < 2 * dim)%nat ->
  exists i0, (i0 < box_n_local a dim)%nat /\ box_support a i0 f = true /\
    forall i, (i < box_n_local a dim)%nat -> box_node_value a dim f i q = if Nat.eqb i i0 then 1 else 0.
Proof.
  intros Hf. unfold box_n_local, box_node_value. fold p. rewrite lobatto_degree. fold p.
  destruct (from_digits (S p) dim (fun m => if Nat.eqb m (f / 2) then end_node f else digit (S p) q (along_face (f / 2) m))) as (i0 & Hi0 & D).
  { lia. } { intros k _. destruct (Nat.eqb k (f / 2)); [pose proof (end_le f); lia|apply digit_lt; lia]. }
  assert (Kf : (f / 2 < dim)%nat) by (apply Nat.div_lt_upper_bound; lia).
  exists i0. split; [exact Hi0|]. split.
  { unfold box_support. fold p. specialize (D _ Kf). rewrite Nat.eqb_refl in D. rewrite D. unfold end_node. rewrite Nat.eqb_refl. apply Bool.orb_true_r. }
  intros i Hi. 
  assert (V : forall k, (k < dim)%nat -> peval (lagrange p (digit (S p) i k)) (if Nat.eqb k (f / 2) then INR (f mod 2) else lobatto_point (S p) (digit (S p) q (along_face (f / 2) k))) =
     if Nat.eqb (digit (S p) i0 k) (digit (S p) i k) then 1 else 0).
  { intros k Hk. assert (Di := digit_lt (S p) i k ltac:(lia)). destruct (Nat.eq_dec p 0) as [P0|P0].
    - assert (Di0 := digit_lt (S p) i0 k ltac:(lia)). replace (digit (S p) i k) with 0%nat by lia. replace (digit (S p) i0 k) with 0%nat by lia.
      rewrite P0. unfold lagrange. cbn. ring.
    - rewrite D by exact Hk. destruct (Nat.eqb k (f / 2)).
      + rewrite <- end_point by lia. apply lagrange_node; [apply (p_le a)|lia|apply end_le].
      + apply lagrange_node; [apply (p_le a)|lia|]. pose proof (digit_lt (S p) q (along_face (f / 2) k)). lia. }
  rewrite (rprod_ext dim _ (fun k => if Nat.eqb (digit (S p) i0 k) (digit (S p) i k) then 1 else 0) V).
  destruct (Nat.eqb_spec i i0) as [->|N].
  - rewrite (rprod_ext dim _ (fun _ => 1)); [apply rprod_1|]. intros. rewrite Nat.eqb_refl. reflexivity.
  - destruct (digits_differ (S p) dim i0 i) as [E|(k & Hk & E)].
    + exfalso. apply N. apply (digits_unique (S p) dim); auto; [lia|]. intros k Hk. symmetry. auto.
    + apply (rprod_0 _ _ k Hk). apply Nat.eqb_neq in E. rewrite E. reflexivity.
Qed.
End Support.
