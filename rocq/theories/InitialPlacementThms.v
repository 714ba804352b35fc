(** * Placement of the initial values: property theorems *)
From Coq Require Import Reals Arith List Bool String Lia Lra.
From Verif Require Import RVec PhysSpec EulerSystem InitialPlacement InitialPlacementProofs.
Import ListNotations.
Local Open Scope R_scope.

(** C54: the two transformations are inverse to each other up to the translation, for
    every direction, also one that is not normalized. *)
Theorem C54_inverse : forall dim n pos, (1 <= dim <= 3)%nat ->
  (forall v k, affine_transform dim n pos (vadd pos (affine_transform_vector dim n v)) k = v k) /\
  (forall x k, vadd pos (affine_transform_vector dim n (affine_transform dim n pos x)) k = x k).
Proof. exact C54_inverse_proof. Qed.
Print Assumptions C54_inverse.

(** C54: the transformation of vectors is a linear isometry, *)
Theorem C54_isometry : forall dim n, (1 <= dim <= 3)%nat -> isometry dim (affine_transform_vector dim n).
Proof. exact C54_isometry_proof. Qed.
Print Assumptions C54_isometry.

(** and the transformation of points keeps distances. *)
Theorem C54_distances : forall dim n pos x y, (1 <= dim <= 3)%nat ->
  norm2 dim (vsub (affine_transform dim n pos x) (affine_transform dim n pos y)) = norm2 dim (vsub x y).
Proof. exact C54_distances_proof. Qed.
Print Assumptions C54_distances.

(** C54: in two dimensions the x-axis is mapped to the prescribed direction. *)
Theorem C54_aligned_2d : forall n, norm2 2 n = 1 -> veq 2 (affine_transform_vector 2 n e1) n.
Proof. exact C54_aligned_2d_proof. Qed.
Print Assumptions C54_aligned_2d.

Example C54_aligned_2d_case : norm2 2 (fun k => if Nat.eqb k 0 then - (3 / 5) else 4 / 5) = 1.
Proof. rewrite norm2_2. cbn. field. Qed.

(** C54: in three dimensions this holds exactly when the second or the third component
    of the direction vanishes and the first is not negative. *)
Theorem C54_aligned_3d : forall n, norm2 3 n = 1 ->
  (sqrt (n 0%nat * n 0%nat + n 1%nat * n 1%nat) > roll_tolerance \/ n 0%nat = 0 /\ n 1%nat = 0) ->
  (sqrt (n 0%nat * n 0%nat + n 2%nat * n 2%nat) > roll_tolerance \/ n 0%nat = 0 /\ n 2%nat = 0) ->
  (veq 3 (affine_transform_vector 3 n e1) n <-> 0 <= n 0%nat /\ (n 1%nat = 0 \/ n 2%nat = 0)).
Proof. exact C54_aligned_3d_proof. Qed.
Print Assumptions C54_aligned_3d.

Example C54_aligned_3d_case : let n := fun k => if Nat.eqb k 0 then 3 / 5 else if Nat.eqb k 1 then 4 / 5 else 0 in
  norm2 3 n = 1 /\ sqrt (n 0%nat * n 0%nat + n 1%nat * n 1%nat) > roll_tolerance /\ sqrt (n 0%nat * n 0%nat + n 2%nat * n 2%nat) > roll_tolerance.
Proof.
  intros n. split; [rewrite norm2_3; unfold n; cbn; field|]. unfold n. cbn [Nat.eqb]. split.
  - replace (3 / 5 * (3 / 5) + 4 / 5 * (4 / 5)) with 1 by field. rewrite sqrt_1. unfold roll_tolerance. lra.
  - replace (3 / 5 * (3 / 5) + 0 * 0) with (3 / 5 * (3 / 5)) by ring. rewrite sqrt_square by lra. unfold roll_tolerance. lra.
Qed.

(** C54 fails in three dimensions for the direction (-1, 0, 0), which yields the
    opposite direction, *)
Theorem C54_opposite_refuted : norm2 3 against = 1 /\ veq 3 (affine_transform_vector 3 against e1) (vscal (-1) against).
Proof. exact C54_opposite_refuted_proof. Qed.
Print Assumptions C54_opposite_refuted.

(** for a diagonal direction, *)
Theorem C54_diagonal_refuted : norm2 3 diagonal = 1 /\ ~ veq 3 (affine_transform_vector 3 diagonal e1) diagonal.
Proof. exact C54_diagonal_refuted_proof. Qed.
Print Assumptions C54_diagonal_refuted.

(** and in one dimension for the direction (-1). *)
Theorem C54_1d_refuted : exists n, norm2 1 n = 1 /\ ~ veq 1 (affine_transform_vector 1 n e1) n.
Proof. exact C54_1d_refuted_proof. Qed.
Print Assumptions C54_1d_refuted.

(** C54: the direction is normalized; only the zero vector is rejected. *)
Theorem C54_normalize : forall dim n, (1 <= dim <= 3)%nat ->
  (normalize dim n = None <-> forall k, (k < dim)%nat -> n k = 0) /\
  (forall m, normalize dim n = Some m -> norm2 dim m = 1 /\ exists c, 0 < c /\ forall k, m k = c * n k).
Proof. exact C54_normalize_proof. Qed.
Print Assumptions C54_normalize.

(** C54: the Euler state at a point is the state of the selected configuration at the
    transformed point with rotated momentum; density, internal energy and pressure are
    kept. *)
Theorem C54_state : forall s configurations dim name direction position f, (1 <= dim <= 3)%nat ->
  initial_state configurations apply_galilei_transform dim name direction position = Some f ->
  exists n compute, normalize dim direction = Some n /\ In (name, compute) configurations /\
  forall x t, let W := compute (affine_transform dim n position x) t in
    density (f x t) = density W /\ internal_energy dim (f x t) = internal_energy dim W /\
    pressure s dim (f x t) = pressure s dim W /\
    veq dim (momentum (f x t)) (affine_transform_vector dim n (momentum W)).
Proof. exact C54_state_proof. Qed.
Print Assumptions C54_state.

(** C54: an unknown configuration and a vanishing direction are rejected, nothing else. *)
Theorem C54_unknown : forall configurations galilei dim name direction position, (1 <= dim <= 3)%nat ->
  (initial_state configurations galilei dim name direction position = None <->
   (forall k, (k < dim)%nat -> direction k = 0) \/ ~ In name (map fst configurations)).
Proof. exact C54_unknown_proof. Qed.
Print Assumptions C54_unknown.

Example C54_state_case : exists f,
  initial_state [("uniform"%string, fun _ _ => e1)] apply_galilei_transform 2 "uniform" (fun _ => 1) (fun _ => 0) = Some f.
Proof.
  destruct (initial_state [("uniform"%string, fun _ _ => e1)] apply_galilei_transform 2 "uniform" (fun _ => 1) (fun _ => 0)) eqn:E; [eauto|].
  apply C54_unknown_proof in E; [|lia]. destruct E as [E|E]; [specialize (E 0%nat ltac:(lia)); lra|]. exfalso. apply E. left. reflexivity.
Qed.

(** C86: the random perturbation changes each component by at most the given fraction, *)
Theorem C86_bounded : forall m p draw t U i, (forall i, -1 <= draw i < 1) ->
  Rabs (perturb m p draw t U i - U i) <= Rabs p * Rabs (U i).
Proof. exact C86_bounded_proof. Qed.
Print Assumptions C86_bounded.

(** keeps positive components (the density, the depth) positive, *)
Theorem C86_sign : forall m p draw t U i, (forall i, -1 <= draw i < 1) -> Rabs p < 1 -> 0 < U i -> 0 < perturb m p draw t U i.
Proof. exact C86_sign_proof. Qed.
Print Assumptions C86_sign.

(** and is not applied at later times. *)
Theorem C86_later : forall m p draw t U i, 0 < t \/ p = 0 -> perturb m p draw t U i = U i.
Proof. exact C86_later_proof. Qed.
Print Assumptions C86_later.

Example C86_case : (forall i, -1 <= jet_draw i < 1) /\ perturb 3 (1 / 10) jet_draw 0 (jet (1 / 10)) 2%nat = (1 / 2 + 1 / 10 / 4) * (9 / 10).
Proof.
  split; [intros i; unfold jet_draw; destruct (Nat.eqb i 2); lra|]. unfold perturb, jet, jet_draw.
  destruct (Req_EM_T (1 / 10) 0); [lra|]. destruct (Rgt_dec 0 0); [lra|]. cbn. field.
Qed.

(** C86 fails for the internal energy: with any positive perturbation an admissible gas
    state may become inadmissible. *)
Theorem C86_admissible_refuted : forall p, 0 < p < 1 -> exists U draw, (forall i, -1 <= draw i < 1) /\
  0 < density U /\ 0 < internal_energy 1 U /\ internal_energy 1 (perturb 3 p draw 0 U) < 0.
Proof. exact C86_admissible_refuted_proof. Qed.
Print Assumptions C86_admissible_refuted.
