(** * Mesh adaptation: proofs *)
From Coq Require Import Reals List Arith Bool Lia Lra FunctionalExtensionality.
From Verif Require Import RVec BalanceProofs SchemeUpdate.
From Verif Require Import SchemeSpec.
From Verif Require Import Discretization DiscretizationSpec DiscretizationProofs DiscretizationTensor MeshTransfer MeshTransferSpec.
Import ListNotations.
Local Open Scope R_scope.

(** ** One direction *)

(** A polynomial on one half of the interval. *)
Lemma half_poly b P : exists Q, (length Q <= length P)%nat /\ forall x, peval Q x = peval P ((b + x) / 2).
Proof.
  induction P as [|c P (Q & L & E)]; [exists []; split; [cbn; lia|reflexivity]|].
  exists (padd (pscal (b / 2) Q) (c :: pscal (1 / 2) Q)). split.
  - rewrite length_padd. unfold pscal. cbn [length]. rewrite !map_length. lia.
  - intros x. rewrite peval_padd. cbn [peval]. rewrite !peval_pscal, E. field.
Qed.

Lemma interpolation p P x : (p <= 3)%nat -> (length P <= S p)%nat ->
  rsum (S p) (fun i => peval P (lobatto_point (S p) i) * peval (lagrange p i) x) = peval P x.
Proof.
  intros Hp HP.
  assert (K : forall k, (k <= p)%nat -> rsum (S p) (fun i => lobatto_point (S p) i ^ k * peval (lagrange p i) x) = x ^ k).
  { intros k Hk. destruct p as [|[|[|[|p]]]]; [| | | |exfalso; lia]; (destruct k as [|[|[|[|k]]]]; try (exfalso; lia)); cbn [rsum]; inner; cbn [pmul padd pscal map peval]; field; lra. }
  assert (J : forall P k, (k + length P <= S p)%nat -> rsum (S p) (fun i => lobatto_point (S p) i ^ k * peval P (lobatto_point (S p) i) * peval (lagrange p i) x) = x ^ k * peval P x).
  { clear HP P. induction P as [|c P IH]; intros k Hk.
    - cbn [peval]. rewrite (rsum_ext _ _ (fun _ => 0)) by (intros; ring). rewrite rsum_0. ring.
    - cbn [peval length] in *. rewrite (rsum_ext _ _ (fun i => c * (lobatto_point (S p) i ^ k * peval (lagrange p i) x) + lobatto_point (S p) i ^ S k * peval P (lobatto_point (S p) i) * peval (lagrange p i) x)) by (intros; cbn [pow]; ring).
      rewrite rsum_plus, rsum_scal, K, IH by lia. cbn [pow]. ring. }
  specialize (J P 0%nat ltac:(cbn; lia)). cbn [pow] in J. rewrite Rmult_1_l in J. rewrite <- J. apply rsum_ext. intros. ring.
Qed.

(** An antiderivative. *)
Fixpoint anti (k : nat) (P : list R) : list R := match P with [] => [] | c :: P' => c / INR (S k) :: anti (S k) P' end.
Lemma shifted_anti P : forall k, shifted (S k) (anti k P) = P.
Proof.
  induction P as [|c P IH]; intros k; [reflexivity|]. cbn [anti shifted]. rewrite IH. f_equal. field. apply not_0_INR. lia.
Qed.
Lemma length_anti P : forall k, length (anti k P) = length P.
Proof. induction P; intros; cbn; [reflexivity|]. rewrite IHP. reflexivity. Qed.

Lemma halves n P : (1 <= n <= 4)%nat -> (length P <= 2 * n)%nat ->
  rsum 2 (fun b => quad n (fun x => peval P ((INR b + x) / 2))) / 2 = quad n (peval P).
Proof.
  intros Hn HP. set (A := 0 :: anti 0 P).
  assert (DA : forall x, peval (pderiv A) x = peval P x) by (intros; unfold A; rewrite pderiv_as, shifted_anti; reflexivity).
  assert (LA : (length A <= 2 * n + 1)%nat) by (unfold A; cbn [length]; rewrite length_anti; lia).
  assert (Q : quad n (peval P) = peval A 1 - peval A 0).
  { rewrite <- (exact_deriv n A Hn LA). apply quad_ext. intros; symmetry; apply DA. }
  assert (H : forall b, quad n (fun x => peval P ((b + x) / 2)) = 2 * (peval A ((b + 1) / 2) - peval A (b / 2))).
  { intros b. destruct (half_poly b A) as (B & LB & EB).
    rewrite <- (EB 1). replace (b / 2) with ((b + 0) / 2) by lra. rewrite <- (EB 0), <- (exact_deriv n B Hn) by lia.
    rewrite <- quad_scal. apply quad_ext. intros x.
    assert (D : derivable_pt_lim (peval B) x (peval (pderiv A) ((b + x) / 2) * (1 / 2))).
    { assert (D1 : derivable_pt_lim (fun y => (b + y) / 2) x (1 / 2)).
      { replace (1 / 2) with ((0 + 1) * / 2 + (b + x) * 0) by field.
        apply (derivable_pt_lim_mult (fun y => b + y) (fun _ => / 2)); [|apply derivable_pt_lim_const].
        apply (derivable_pt_lim_plus (fun _ => b) (fun y => y)); [apply derivable_pt_lim_const|apply derivable_pt_lim_id]. }
      pose proof (derivable_pt_lim_comp _ _ _ _ _ D1 (pderiv_correct A ((b + x) / 2))) as C.
      intros e He. destruct (C e He) as (d & Hd). exists d. intros k Hk Hk'. specialize (Hd k Hk Hk'). unfold comp in Hd. rewrite !EB. exact Hd. }
    rewrite (uniqueness_limite _ _ _ _ (pderiv_correct B x) D), DA. field. }
  cbn [rsum INR]. rewrite !H, Q. replace ((0 + 1) / 2) with (1 / 2) by lra. replace (0 / 2) with 0 by lra. replace ((1 + 1) / 2) with 1 by lra. field.
Qed.

(** ** Cells *)
Section Cell.
Variables (a : ansatz) (dim : nat).
Let p := degree a.
Let n := n_gauss a.

Lemma p3 : (p <= 3)%nat. Proof using. apply degree_le. Qed.
Lemma shape_sum x : rsum (n_values a dim) (fun i => shape_at a dim i x) = 1.
Proof using. exact (sum_points a dim x). Qed.

Lemma rsum_linear m k (f : nat -> nat -> R) (g : nat -> R) :
  rsum m (fun i => rsum k (fun j => f i j) * g i) = rsum k (fun j => rsum m (fun i => f i j * g i)).
Proof using. rewrite <- rsum_swap. apply rsum_ext. intros i _. rewrite <- rsum_scal_r. reflexivity. Qed.

(** The function on a son is the old one. *)
Lemma son_function U c x v : cell_value a dim (prolongate a dim U c) x v = cell_value a dim U (in_parent c x) v.
Proof using.
  unfold cell_value at 1, prolongate. unfold cell_value at 1. rewrite rsum_linear. unfold cell_value. apply rsum_ext. intros j Hj.
  rewrite (rsum_ext _ _ (fun i => U j v * (shape_at a dim j (in_parent c (node a i)) * shape_at a dim i x))) by (intros; ring).
  rewrite rsum_scal. f_equal. unfold shape_at, n_values, node. fold p.
  set (F := fun k i => peval (lagrange p (digit (S p) j k)) ((INR (digit 2 c k) + lobatto_point (S p) i) / 2) * peval (lagrange p i) (x k)).
  rewrite (rsum_ext _ _ (fun i => rprod dim (fun k => F k (digit (S p) i k)))) by (intros; rewrite <- rprod_mult; reflexivity).
  rewrite (tensor (S p) dim F) by lia. apply rprod_ext. intros k Hk. unfold F.
  destruct (half_poly (INR (digit 2 c k)) (lagrange p (digit (S p) j k))) as (Q & L & E).
  rewrite (rsum_ext _ _ (fun i => peval Q (lobatto_point (S p) i) * peval (lagrange p i) (x k))) by (intros; rewrite E; reflexivity).
  rewrite interpolation; [rewrite E; reflexivity|apply p3|].
  rewrite length_lagrange in L; [exact L|apply p3|]. pose proof (digit_lt (S p) j k). lia.
Qed.

Lemma mass_product h i : shape_mass a dim h i = rprod dim (fun k => h k * quad n (peval (lagrange p (digit (S p) i k)))).
Proof using.
  unfold shape_mass, box_n_points, box_value, box_JxW. fold p n.
  set (F := fun k j => h k * (gauss_weight n j * peval (lagrange p (digit (S p) i k)) (gauss_point n j))).
  rewrite (rsum_ext _ _ (fun q => rprod dim (fun k => F k (digit n q k)))).
  - rewrite (tensor n dim F) by (pose proof (n_range a); fold n in H; lia). apply rprod_ext. intros k _. unfold F. rewrite rsum_scal. reflexivity.
  - intros q _. rewrite <- rprod_mult. apply rprod_ext. intros k _. unfold F. ring.
Qed.

Lemma split_mass h j : rsum (2 ^ dim) (fun c => rsum (n_values a dim) (fun i => shape_mass a dim (fun k => h k / 2) i * shape_at a dim j (in_parent c (node a i)))) = shape_mass a dim h j.
Proof using.
  rewrite mass_product.
  set (G := fun k b => h k / 2 * quad n (fun x => peval (lagrange p (digit (S p) j k)) ((INR b + x) / 2))).
  rewrite (rsum_ext _ _ (fun c => rprod dim (fun k => G k (digit 2 c k)))).
  - rewrite (tensor 2 dim G) by lia. apply rprod_ext. intros k _. unfold G. rewrite rsum_scal. rewrite <- halves with (n := n).
    + field.
    + apply (n_range a).
    + rewrite length_lagrange; [|apply p3|pose proof (digit_lt (S p) j k); lia]. unfold n. rewrite gauss_degree. fold p. lia.
  - intros c _.
    set (F := fun k i => h k / 2 * (quad n (peval (lagrange p i)) * peval (lagrange p (digit (S p) j k)) ((INR (digit 2 c k) + lobatto_point (S p) i) / 2))).
    rewrite (rsum_ext _ _ (fun i => rprod dim (fun k => F k (digit (S p) i k)))).
    + unfold n_values. fold p. rewrite (tensor (S p) dim F) by lia. apply rprod_ext. intros k _. unfold F, G. rewrite rsum_scal. f_equal.
      destruct (half_poly (INR (digit 2 c k)) (lagrange p (digit (S p) j k))) as (Q & L & E).
      rewrite (quad_ext n _ (peval Q)) by (intros; rewrite E; reflexivity).
      rewrite (quad_ext n (peval Q) (fun x => rsum (S p) (fun i => peval Q (lobatto_point (S p) i) * peval (lagrange p i) x))).
      * unfold quad at 2. rewrite (rsum_ext n _ (fun q => rsum (S p) (fun i => peval Q (lobatto_point (S p) i) * (gauss_weight n q * peval (lagrange p i) (gauss_point n q))))).
        -- rewrite rsum_swap. apply rsum_ext. intros i _. rewrite rsum_scal, E. unfold quad. ring.
        -- intros q _. rewrite <- rsum_scal. apply rsum_ext. intros; ring.
      * intros x. symmetry. apply interpolation; [apply p3|]. rewrite length_lagrange in L; [exact L|apply p3|]. pose proof (digit_lt (S p) j k). lia.
    + intros i _. rewrite mass_product. unfold shape_at. fold p. rewrite <- rprod_mult. apply rprod_ext. intros k _. unfold F, in_parent, node. fold p. ring.
Qed.

Lemma split_total h U v :
  rsum (2 ^ dim) (fun c => rsum (n_values a dim) (fun i => shape_mass a dim (fun k => h k / 2) i * prolongate a dim U c i v)) =
  rsum (n_values a dim) (fun i => shape_mass a dim h i * U i v).
Proof using.
  transitivity (rsum (2 ^ dim) (fun c => rsum (n_values a dim) (fun j => U j v * rsum (n_values a dim) (fun i => shape_mass a dim (fun k => h k / 2) i * shape_at a dim j (in_parent c (node a i)))))).
  - apply rsum_ext. intros c _. unfold prolongate, cell_value.
    rewrite (rsum_ext _ _ (fun i => rsum (n_values a dim) (fun j => U j v * (shape_mass a dim (fun k => h k / 2) i * shape_at a dim j (in_parent c (node a i)))))).
    + rewrite rsum_swap. apply rsum_ext. intros j _. rewrite rsum_scal. reflexivity.
    + intros i _. rewrite <- rsum_scal. apply rsum_ext. intros; ring.
  - rewrite rsum_swap. apply rsum_ext. intros j _. rewrite rsum_scal, split_mass. ring.
Qed.

Lemma mass_half h i : shape_mass a dim (fun k => h k / 2) i = shape_mass a dim h i * rprod dim (fun _ => / 2).
Proof using. rewrite !mass_product, <- rprod_mult. apply rprod_ext. intros. field. Qed.
Lemma mass_unit h i : shape_mass a dim h i = rprod dim h * shape_mass a dim (fun _ => 1) i.
Proof using. rewrite !mass_product, <- rprod_mult. apply rprod_ext. intros. ring. Qed.

(** Testing with all shape functions at once. *)
Lemma shape_value q i : shape_at a dim i (fun k => gauss_point n (digit n q k)) = box_value a dim i q.
Proof using. reflexivity. Qed.

Lemma integral_total h U v :
  rsum (box_n_points a dim) (fun q => cell_value a dim U (fun k => gauss_point n (digit n q k)) v * box_JxW a dim h q) =
  rsum (n_values a dim) (fun i => shape_mass a dim h i * U i v).
Proof using.
  unfold cell_value. rewrite rsum_linear. apply rsum_ext. intros i _. unfold shape_mass. rewrite <- rsum_scal_r. apply rsum_ext. intros q _. rewrite shape_value. ring.
Qed.

Lemma project_total restrict : projects a dim restrict -> forall h s v,
  rsum (n_values a dim) (fun i => shape_mass a dim h i * restrict s i v) =
  rsum (2 ^ dim) (fun c => rsum (n_values a dim) (fun i => shape_mass a dim (fun k => h k / 2) i * s c i v)).
Proof using.
  intros P h s v. unfold projects in P. cbv zeta in P. fold n in P.
  assert (S1 : rsum (n_values a dim) (fun i => shape_mass a dim (fun _ => 1) i * restrict s i v) =
    rsum (2 ^ dim) (fun c => rsum (n_values a dim) (fun i => shape_mass a dim (fun _ => 1 / 2) i * s c i v))).
  { rewrite <- (integral_total (fun _ => 1)). rewrite (rsum_ext (2 ^ dim) _ (fun c => rsum (box_n_points a dim) (fun q => cell_value a dim (s c) (fun k => gauss_point n (digit n q k)) v * box_JxW a dim (fun _ => 1 / 2) q))) by (intros; symmetry; apply integral_total).
    transitivity (rsum (n_values a dim) (fun i => rsum (box_n_points a dim) (fun q => shape_at a dim i (fun k => gauss_point n (digit n q k)) * cell_value a dim (restrict s) (fun k => gauss_point n (digit n q k)) v * box_JxW a dim (fun _ => 1) q))).
    - rewrite rsum_swap. apply rsum_ext. intros q _. 
      rewrite (rsum_ext (n_values a dim) _ (fun i => shape_at a dim i (fun k => gauss_point n (digit n q k)) * (cell_value a dim (restrict s) (fun k => gauss_point n (digit n q k)) v * box_JxW a dim (fun _ => 1) q))) by (intros; ring).
      rewrite rsum_scal_r, shape_sum. ring.
    - rewrite (rsum_ext (n_values a dim) _ _ (fun i Hi => P s i v Hi)). rewrite rsum_swap. apply rsum_ext. intros c _. rewrite rsum_swap. apply rsum_ext. intros q _.
      rewrite (rsum_ext (n_values a dim) _ (fun i => shape_at a dim i (in_parent c (fun k => gauss_point n (digit n q k))) * (cell_value a dim (s c) (fun k => gauss_point n (digit n q k)) v * box_JxW a dim (fun _ => 1 / 2) q))) by (intros; ring).
      rewrite rsum_scal_r, shape_sum. ring. }
  rewrite (rsum_ext _ _ (fun i => rprod dim h * (shape_mass a dim (fun _ => 1) i * restrict s i v))) by (intros; rewrite mass_unit; ring).
  rewrite rsum_scal, S1, <- rsum_scal. apply rsum_ext. intros c _. rewrite <- rsum_scal. apply rsum_ext. intros i _.
  pose proof (mass_half (fun _ => 1) i) as E. cbv beta in E. rewrite E, (mass_half h), (mass_unit h). ring.
Qed.
End Cell.

(** ** Sons and bits *)
Lemma son_lt d x : (son_of d x < 2 ^ d)%nat.
Proof. induction d as [|d IH]; [cbn; lia|]. cbn [son_of Nat.pow]. destruct (Rlt_dec (1 / 2) (x d)); lia. Qed.
Lemma son_bit d x k : (k < d)%nat -> digit 2 (son_of d x) k = if Rlt_dec (1 / 2) (x k) then 1%nat else 0%nat.
Proof.
  induction d as [|d IH]; intros Hk; [lia|]. cbn [son_of]. destruct (Nat.eq_dec k d) as [->|N].
  - rewrite digit_high; [reflexivity|destruct (Rlt_dec _ _); lia|apply son_lt].
  - rewrite digit_low by lia. apply IH. lia.
Qed.
Lemma parent_of_son c x : in_parent c (in_son c x) = x.
Proof. apply functional_extensionality. intros k. unfold in_parent, in_son. field. Qed.

(** ** Trees *)
Lemma tree_function a dim restrict t : forall m, only_refines m -> forall x v,
  (1 <= dim)%nat -> value_at a dim (adapt a dim restrict m t) x v = value_at a dim t x v.
Proof.
  induction t as [U|s IH]; intros m Hm x v Hd; cbn [adapt].
  - destruct (m []); try reflexivity. cbn [value_at]. cbv zeta. rewrite son_function, parent_of_son. reflexivity.
  - destruct (forallb _ _) eqn:F.
    + exfalso. rewrite forallb_forall in F. specialize (F 0%nat). rewrite in_seq in F. pose proof (Nat.pow_nonzero 2 dim). specialize (F ltac:(lia)).
      apply andb_prop in F. destruct F as [_ F]. specialize (Hm [0%nat]). destruct (m [0%nat]); try discriminate. congruence.
    + cbn [value_at]. cbv zeta. apply IH; [|exact Hd]. intros way. apply Hm.
Qed.

Lemma tree_total_refine a dim restrict t : forall m, only_refines m -> forall h v,
  (1 <= dim)%nat -> total_of a dim h (adapt a dim restrict m t) v = total_of a dim h t v.
Proof.
  induction t as [U|s IH]; intros m Hm h v Hd; cbn [adapt].
  - destruct (m []); try reflexivity. cbn [total_of]. apply split_total.
  - destruct (forallb _ _) eqn:F.
    + exfalso. rewrite forallb_forall in F. specialize (F 0%nat). rewrite in_seq in F. pose proof (Nat.pow_nonzero 2 dim). specialize (F ltac:(lia)).
      apply andb_prop in F. destruct F as [_ F]. specialize (Hm [0%nat]). destruct (m [0%nat]); try discriminate. congruence.
    + cbn [total_of]. apply rsum_ext. intros c _. apply IH; [|exact Hd]. intros way. apply Hm.
Qed.

Lemma tree_total_project a dim restrict t : projects a dim restrict -> forall m h v,
  total_of a dim h (adapt a dim restrict m t) v = total_of a dim h t v.
Proof.
  intros P. induction t as [U|s IH]; intros m h v; cbn [adapt].
  - destruct (m []); try reflexivity. cbn [total_of]. apply split_total.
  - destruct (forallb _ _) eqn:F.
    + cbn [total_of]. unfold box_n_local. pose proof (project_total a dim restrict P h (fun c => values (s c)) v) as E. unfold n_values in E. rewrite E.
      apply rsum_ext. intros c Hc. rewrite forallb_forall in F. specialize (F c). rewrite in_seq in F. specialize (F ltac:(lia)).
      apply andb_prop in F. destruct F as [F _]. destruct (s c); [reflexivity|discriminate].
    + cbn [total_of]. apply rsum_ext. intros c _. apply IH.
Qed.

Lemma tree_count a dim restrict t : (1 <= dim)%nat -> n_active dim (adapt a dim restrict (mark None) t) = (2 ^ dim * n_active dim t)%nat.
Proof.
  intros Hd. cbn [mark]. induction t as [U|s IH]; cbn [adapt].
  - cbn [n_active]. rewrite Nat.mul_1_r. generalize (2 ^ dim)%nat. intros N. assert (K : forall l : list nat, fold_right (fun _ m => 1 + m)%nat 0%nat l = length l) by (induction l as [|c l IHl]; cbn; [reflexivity|rewrite <- IHl; reflexivity]).
    rewrite K, seq_length. reflexivity.
  - destruct (forallb _ _) eqn:F.
    + exfalso. rewrite forallb_forall in F. specialize (F 0%nat). rewrite in_seq in F. pose proof (Nat.pow_nonzero 2 dim). specialize (F ltac:(lia)).
      apply andb_prop in F. destruct F as [_ F]. discriminate.
    + cbn [n_active]. set (N := (2 ^ dim)%nat). induction (seq 0 N) as [|c l IHl]; cbn [fold_right]; [lia|]. rewrite IHl, IH. fold N. lia.
Qed.

(** ** Convex sets *)
Lemma linear_shape p i : (p <= 1)%nat -> (i <= p)%nat -> forall x, 0 <= x <= 1 -> 0 <= peval (lagrange p i) x.
Proof.
  intros Hp Hi x Hx. destruct p as [|[|p]]; [| |lia].
  - replace i with 0%nat by lia. cbn. lra.
  - destruct i as [|[|i]]; [| |lia].
    + replace (peval (lagrange 1 0) x) with (1 - x) by (unfold lagrange; cbn; field; lra). lra.
    + replace (peval (lagrange 1 1) x) with x by (unfold lagrange; cbn; field; lra). lra.
Qed.
Lemma rprod_nonneg n f : (forall k, (k < n)%nat -> 0 <= f k) -> 0 <= rprod n f.
Proof. induction n as [|n IH]; intros H; cbn; [lra|]. apply Rmult_le_pos; auto. Qed.
Lemma linear_node a i k : (degree a <= 1)%nat -> 0 <= node a i k <= 1.
Proof.
  intros H. unfold node. pose proof (digit_lt (S (degree a)) i k ltac:(lia)) as L. revert L. generalize (digit (S (degree a)) i k). intros j L.
  destruct (degree a) as [|[|]]; [cbn; lra| |lia]. destruct j as [|[|]]; [cbn; lra|cbn; lra|lia].
Qed.

Lemma rsum_lsum n f : rsum n f = lsum f (seq 0 n).
Proof.
  assert (A : forall l1 l2, lsum f (l1 ++ l2) = lsum f l1 + lsum f l2) by (induction l1; intros; cbn; [ring|rewrite IHl1; ring]).
  induction n as [|n IH]; [reflexivity|]. rewrite seq_S, A. cbn [rsum lsum]. rewrite IH, Nat.add_0_l. ring.
Qed.

Lemma convex_values a dim (X : (nat -> R) -> Prop) U x : convex_set X -> (degree a <= 1)%nat ->
  (forall k, (k < dim)%nat -> 0 <= x k <= 1) -> (forall i, (i < n_values a dim)%nat -> X (U i)) -> X (cell_value a dim U x).
Proof.
  intros HX Ha Hx HU.
  assert (W : rsum (n_values a dim) (fun i => shape_at a dim i x) = 1) by apply shape_sum.
  assert (E : cell_value a dim U x = fun v => lsum (fun i => shape_at a dim i x * U i v) (seq 0 (n_values a dim)) / lsum (fun i => shape_at a dim i x) (seq 0 (n_values a dim))).
  { apply functional_extensionality. intros v. rewrite <- !rsum_lsum, W. unfold cell_value. rewrite (rsum_ext _ _ (fun i => shape_at a dim i x * U i v)) by (intros; ring). field. }
  rewrite E. apply convex_combination; [exact HX| |rewrite <- rsum_lsum, W; lra].
  intros i Hi. apply in_seq in Hi. split; [|right; apply HU; lia].
  unfold shape_at. apply rprod_nonneg. intros k Hk. apply linear_shape; [exact Ha| |apply Hx; exact Hk].
  pose proof (digit_lt (S (degree a)) i k). lia.
Qed.

Lemma in_parent_range c x k : 0 <= x k <= 1 -> 0 <= in_parent c x k <= 1.
Proof.
  intros H. unfold in_parent. pose proof (digit_lt 2 c k ltac:(lia)) as L. destruct (digit 2 c k) as [|[|]]; [cbn; lra|cbn; lra|lia].
Qed.

Definition keeps_states (a : ansatz) (dim : nat) (X : (nat -> R) -> Prop) restrict : Prop :=
  forall s, (forall c i, (c < 2 ^ dim)%nat -> (i < n_values a dim)%nat -> X (s c i)) -> forall i, (i < n_values a dim)%nat -> X (restrict s i).

Lemma tree_states a dim X restrict t : convex_set X -> (degree a <= 1)%nat -> forall m, only_refines m \/ keeps_states a dim X restrict ->
  (1 <= dim)%nat -> all_states a dim X t -> all_states a dim X (adapt a dim restrict m t).
Proof.
  intros HX Ha. induction t as [U|s IH]; intros m Hm Hd HU; cbn [adapt].
  - destruct (m []); try exact HU. cbn [all_states]. intros c Hc i Hi. change (X (cell_value a dim U (in_parent c (node a i)))). apply convex_values; [exact HX|exact Ha| |exact HU].
    intros k _. apply in_parent_range, linear_node, Ha.
  - destruct (forallb _ _) eqn:F.
    + rewrite forallb_forall in F. destruct Hm as [Hm|K].
      * exfalso. specialize (F 0%nat). rewrite in_seq in F. pose proof (Nat.pow_nonzero 2 dim). specialize (F ltac:(lia)).
        apply andb_prop in F. destruct F as [_ F]. specialize (Hm [0%nat]). destruct (m [0%nat]); try discriminate. congruence.
      * cbn [all_states]. intros i Hi. apply K; [|exact Hi]. intros c j Hc Hj. cbn [all_states] in HU. specialize (HU c Hc). specialize (F c). rewrite in_seq in F. specialize (F ltac:(lia)).
        apply andb_prop in F. destruct F as [F _]. destruct (s c) as [V|]; [|discriminate]. exact (HU j Hj).
    + cbn [all_states] in *. intros c Hc. apply IH; [|exact Hd|apply HU; exact Hc]. destruct Hm as [Hm|K]; [left; intros way; apply Hm|right; exact K].
Qed.

(** The injection takes nodal values of linear elements as they are: a node is a vertex. *)
Lemma inject_keeps a dim X : convex_set X -> degree a = 1%nat -> keeps_states a dim X (inject a dim).
Proof.
  intros HX Ha s Hs i Hi. unfold inject. cbv zeta.
  apply (convex_values a dim X (s (son_of dim (node a i))) (in_son (son_of dim (node a i)) (node a i)) HX); [lia| |].
  - intros k Hk. unfold in_son. rewrite son_bit by exact Hk. unfold node. rewrite Ha.
    pose proof (digit_lt 2 i k ltac:(lia)) as L. destruct (digit 2 i k) as [|[|]]; [| |lia]; cbn [lobatto_point nth].
    + destruct (Rlt_dec (1 / 2) 0); cbn; lra.
    + destruct (Rlt_dec (1 / 2) 1); cbn; lra.
  - intros j Hj. apply Hs; [apply son_lt|exact Hj].
Qed.
