(** * Placement of the initial values: proofs *)
From Coq Require Import Reals Arith List Bool String Lia Lra Psatz.
From Verif Require Import RVec PhysSpec EulerSystem EulerPhysProofs AeosSystem AeosPhysProofs SWSystem SWPhysProofs InitialPlacement.
Import ListNotations.
Local Open Scope R_scope.

Lemma tol_pos : 0 < roll_tolerance.
Proof. unfold roll_tolerance. lra. Qed.

Lemma unit_pair a b : sqrt (a * a + b * b) > roll_tolerance ->
  (a / sqrt (a * a + b * b)) * (a / sqrt (a * a + b * b)) + (b / sqrt (a * a + b * b)) * (b / sqrt (a * a + b * b)) = 1.
Proof.
  intros H. pose proof tol_pos. set (r := sqrt (a * a + b * b)) in *.
  assert (E : r * r = a * a + b * b) by (apply sqrt_sqrt; nra).
  replace (a / r * (a / r) + b / r * (b / r)) with ((a * a + b * b) / (r * r)) by (field; lra). rewrite <- E. field. lra.
Qed.

Lemma roll_onto_back b n v k : (0 < b)%nat -> roll_onto b n (roll_back b n v) k = v k.
Proof.
  intros Hb. unfold roll_onto, roll_back. destruct (Rgt_dec _ _) as [H|H]; [|reflexivity]. pose proof (unit_pair _ _ H) as E.
  set (x := n 0%nat / _) in *. set (y := n b / _) in *.
  destruct (Nat.eqb_spec b 0); [lia|]. rewrite Nat.eqb_refl. cbn [Nat.eqb].
  destruct (Nat.eqb_spec k 0) as [->|]; [|destruct (Nat.eqb_spec k b) as [->|]; [|reflexivity]].
  - rewrite ?Nat.eqb_refl. transitivity ((x * x + y * y) * v 0%nat); [ring|rewrite E; ring].
  - rewrite ?Nat.eqb_refl. transitivity ((x * x + y * y) * v b); [ring|rewrite E; ring].
Qed.

Lemma roll_back_onto b n v k : (0 < b)%nat -> roll_back b n (roll_onto b n v) k = v k.
Proof.
  intros Hb. unfold roll_onto, roll_back. destruct (Rgt_dec _ _) as [H|H]; [|reflexivity]. pose proof (unit_pair _ _ H) as E.
  set (x := n 0%nat / _) in *. set (y := n b / _) in *.
  destruct (Nat.eqb_spec b 0); [lia|]. rewrite Nat.eqb_refl. cbn [Nat.eqb].
  destruct (Nat.eqb_spec k 0) as [->|]; [|destruct (Nat.eqb_spec k b) as [->|]; [|reflexivity]].
  - rewrite ?Nat.eqb_refl. transitivity ((x * x + y * y) * v 0%nat); [ring|rewrite E; ring].
  - rewrite ?Nat.eqb_refl. transitivity ((x * x + y * y) * v b); [ring|rewrite E; ring].
Qed.

Lemma roll_onto_ext b n v w k : (forall j, (j < 3)%nat -> v j = w j) -> (b < 3)%nat -> (k < 3)%nat -> roll_onto b n v k = roll_onto b n w k.
Proof.
  intros H Hb Hk. unfold roll_onto. destruct (Rgt_dec _ _); [|apply H; exact Hk].
  destruct (Nat.eqb k 0); [|destruct (Nat.eqb k b)]; rewrite ?(H 0%nat), ?(H b), ?(H k) by lia; reflexivity.
Qed.
Lemma roll_back_ext b n v w k : (forall j, v j = w j) -> roll_back b n v k = roll_back b n w k.
Proof.
  intros H. unfold roll_back. destruct (Rgt_dec _ _); [|apply H].
  destruct (Nat.eqb k 0); [|destruct (Nat.eqb k b)]; rewrite ?(H 0%nat), ?(H b), ?(H k); reflexivity.
Qed.
Lemma roll_onto_ext' b n v w k : (forall j, v j = w j) -> roll_onto b n v k = roll_onto b n w k.
Proof.
  intros H. unfold roll_onto. destruct (Rgt_dec _ _); [|apply H].
  destruct (Nat.eqb k 0); [|destruct (Nat.eqb k b)]; rewrite ?(H 0%nat), ?(H b), ?(H k); reflexivity.
Qed.

Lemma C54_inverse_proof dim n pos : (1 <= dim <= 3)%nat ->
  (forall v k, affine_transform dim n pos (vadd pos (affine_transform_vector dim n v)) k = v k) /\
  (forall x k, vadd pos (affine_transform_vector dim n (affine_transform dim n pos x)) k = x k).
Proof.
  intros Hd. assert (D : dim = 1%nat \/ dim = 2%nat \/ dim = 3%nat) by lia.
  assert (C : forall w j, vsub (vadd pos w) pos j = w j) by (intros; unfold vsub, vadd; ring).
  assert (C' : forall w x k, (w k = vsub x pos k) -> vadd pos w k = x k) by (intros w x k H; unfold vadd; rewrite H; unfold vsub; ring).
  split.
  - intros v k. unfold affine_transform, affine_transform_vector. destruct D as [->|[->| ->]]; cbn [Nat.eqb Nat.leb].
    + apply C.
    + rewrite (roll_onto_ext' _ _ _ _ _ (C _)). apply roll_onto_back. lia.
    + rewrite (roll_onto_ext' 1 n _ (roll_back 1 n v)); [apply roll_onto_back; lia|].
      intros j. rewrite (roll_onto_ext' _ _ _ _ _ (C _)). apply roll_onto_back. lia.
  - intros x k. apply C'. unfold affine_transform, affine_transform_vector. destruct D as [->|[->| ->]]; cbn [Nat.eqb Nat.leb].
    + reflexivity.
    + apply roll_back_onto. lia.
    + rewrite (roll_back_ext 2 n _ (roll_onto 2 n (vsub x pos))); [apply roll_back_onto; lia|].
      intros j. apply roll_back_onto. lia.
Qed.

Lemma roll_back_linear b n : (forall v w k, roll_back b n (vadd v w) k = roll_back b n v k + roll_back b n w k) /\
  (forall x v k, roll_back b n (vscal x v) k = x * roll_back b n v k).
Proof.
  split; intros; unfold roll_back; destruct (Rgt_dec _ _); unfold vadd, vscal; try reflexivity;
    destruct (Nat.eqb k 0); try ring; destruct (Nat.eqb k b); ring.
Qed.

Lemma roll_back_dot b n dim v w : (0 < b < dim)%nat -> (dim <= 3)%nat -> dot dim (roll_back b n v) (roll_back b n w) = dot dim v w.
Proof.
  intros Hb Hd. unfold roll_back. destruct (Rgt_dec _ _) as [H|H]; [|reflexivity]. pose proof (unit_pair _ _ H) as E.
  set (x := n 0%nat / _) in *. set (y := n b / _) in *. unfold dot.
  assert (D : (dim = 2 /\ b = 1 \/ dim = 3 /\ b = 1 \/ dim = 3 /\ b = 2)%nat) by lia.
  destruct D as [[-> ->]|[[-> ->]|[-> ->]]]; cbn [rsum Nat.eqb].
  - transitivity ((x * x + y * y) * (v 0%nat * w 0%nat + v 1%nat * w 1%nat)); [ring|rewrite E; ring].
  - transitivity ((x * x + y * y) * (v 0%nat * w 0%nat + v 1%nat * w 1%nat) + v 2%nat * w 2%nat); [ring|rewrite E; ring].
  - transitivity ((x * x + y * y) * (v 0%nat * w 0%nat + v 2%nat * w 2%nat) + v 1%nat * w 1%nat); [ring|rewrite E; ring].
Qed.

Lemma C54_isometry_proof dim n : (1 <= dim <= 3)%nat -> isometry dim (affine_transform_vector dim n).
Proof.
  intros Hd. assert (D : dim = 1%nat \/ dim = 2%nat \/ dim = 3%nat) by lia. unfold isometry, affine_transform_vector.
  destruct D as [->|[->| ->]]; cbn [Nat.eqb Nat.leb].
  - repeat split.
  - split; [|split]; intros; [apply roll_back_linear|apply roll_back_linear|apply roll_back_dot; lia].
  - split; [|split]; intros.
    + rewrite (roll_back_ext 2 n _ (vadd (roll_back 1 n a) (roll_back 1 n b))); [apply roll_back_linear|]. intros j. apply roll_back_linear.
    + rewrite (roll_back_ext 2 n _ (vscal x (roll_back 1 n a))); [apply roll_back_linear|]. intros j. apply roll_back_linear.
    + rewrite !roll_back_dot by lia. reflexivity.
Qed.

Lemma dot_pointwise dim a b a' b' : (forall k, a k = a' k) -> (forall k, b k = b' k) -> dot dim a b = dot dim a' b'.
Proof. intros H1 H2. unfold dot. induction dim; cbn; [reflexivity|]. rewrite IHdim, H1, H2. reflexivity. Qed.

Lemma C54_distances_proof dim n pos x y : (1 <= dim <= 3)%nat ->
  norm2 dim (vsub (affine_transform dim n pos x) (affine_transform dim n pos y)) = norm2 dim (vsub x y).
Proof.
  intros Hd. destruct (C54_inverse_proof dim n pos Hd) as [_ I]. destruct (C54_isometry_proof dim n Hd) as (A & M & D).
  unfold norm2. rewrite <- (D (vsub _ _)).
  assert (S : forall k, (k < dim)%nat -> affine_transform_vector dim n (vsub (affine_transform dim n pos x) (affine_transform dim n pos y)) k = vsub x y k).
  { intros k Hk. pose proof (I x k) as Ix. pose proof (I y k) as Iy. unfold vadd in Ix, Iy.
    set (a := affine_transform dim n pos x) in *. set (b := affine_transform dim n pos y) in *.
    assert (L : affine_transform_vector dim n (vsub a b) k = affine_transform_vector dim n a k - affine_transform_vector dim n b k).
    { pose proof (A (vsub a b) b k Hk) as E. assert (F : affine_transform_vector dim n (vadd (vsub a b) b) k = affine_transform_vector dim n a k).
      { pose proof (A (vscal (-1) b) (vadd a b) k Hk) as E1. pose proof (M (-1) b k Hk) as E2. pose proof (A a b k Hk) as E3.
        assert (Q : forall j, vadd (vscal (-1) b) (vadd a b) j = vadd (vsub a b) b j) by (intros j; unfold vadd, vsub, vscal; ring).
        assert (P : forall v w k, (forall j, v j = w j) -> affine_transform_vector dim n v k = affine_transform_vector dim n w k).
        { intros v w k0 Hvw. unfold affine_transform_vector. destruct (Nat.eqb dim 3), (Nat.leb 2 dim); try (apply roll_back_ext; intros; try apply roll_back_ext; assumption); try apply roll_back_ext; try apply Hvw; try assumption. }
        rewrite (P _ _ k Q) in E1. lra. }
      lra. }
    rewrite L. unfold vsub. lra. }
  apply rsum_ext. intros k Hk. rewrite S by exact Hk. reflexivity.
Qed.

(** ** Alignment *)
Definition e1 : vec := fun k => if Nat.eqb k 0 then 1 else 0.

Lemma norm2_2 n : norm2 2 n = n 0%nat * n 0%nat + n 1%nat * n 1%nat.
Proof. unfold norm2, dot. cbn. ring. Qed.
Lemma norm2_3 n : norm2 3 n = n 0%nat * n 0%nat + n 1%nat * n 1%nat + n 2%nat * n 2%nat.
Proof. unfold norm2, dot. cbn. ring. Qed.

Lemma C54_aligned_2d_proof n : norm2 2 n = 1 -> veq 2 (affine_transform_vector 2 n e1) n.
Proof.
  intros H k Hk. rewrite norm2_2 in H. unfold affine_transform_vector. cbn [Nat.eqb Nat.leb]. unfold roll_back. rewrite H, sqrt_1.
  destruct (Rgt_dec 1 roll_tolerance) as [|N]; [|exfalso; apply N; unfold roll_tolerance; lra].
  assert (K : k = 0%nat \/ k = 1%nat) by lia. destruct K as [-> | ->]; unfold e1; cbn [Nat.eqb]; field.
Qed.

Lemma roll_e1 b n v : (0 < b)%nat -> sqrt (n 0%nat * n 0%nat + n b * n b) > roll_tolerance ->
  let r := sqrt (n 0%nat * n 0%nat + n b * n b) in
  roll_back b n v 0%nat = n 0%nat / r * v 0%nat - n b / r * v b /\ roll_back b n v b = n b / r * v 0%nat + n 0%nat / r * v b /\
  forall k, k <> 0%nat -> k <> b -> roll_back b n v k = v k.
Proof.
  intros Hb H r. unfold roll_back. fold r. fold r in H. destruct (Rgt_dec r roll_tolerance) as [|N]; [|contradiction]. cbn [Nat.eqb].
  destruct (Nat.eqb_spec b 0); [lia|]. rewrite Nat.eqb_refl. split; [reflexivity|split; [reflexivity|]].
  intros k K0 Kb. destruct (Nat.eqb_spec k 0); [contradiction|]. destruct (Nat.eqb_spec k b); [contradiction|reflexivity].
Qed.

Lemma sqrt_zero_or a b : sqrt (a * a + b * b) = 0 -> a = 0 /\ b = 0.
Proof. intros H. apply sqrt_eq_0 in H; nra. Qed.

(** In three dimensions, with n a unit vector: exactly when one of the two other
    components vanishes and the first is not negative. *)
Lemma C54_aligned_3d_proof n : norm2 3 n = 1 ->
  (sqrt (n 0%nat * n 0%nat + n 1%nat * n 1%nat) > roll_tolerance \/ n 0%nat = 0 /\ n 1%nat = 0) ->
  (sqrt (n 0%nat * n 0%nat + n 2%nat * n 2%nat) > roll_tolerance \/ n 0%nat = 0 /\ n 2%nat = 0) ->
  (veq 3 (affine_transform_vector 3 n e1) n <-> 0 <= n 0%nat /\ (n 1%nat = 0 \/ n 2%nat = 0)).
Proof.
  rewrite norm2_3. intros N H1 H2. pose proof tol_pos as T. unfold affine_transform_vector. cbn [Nat.eqb Nat.leb].
  assert (Q : forall v, veq 3 v n <-> v 0%nat = n 0%nat /\ v 1%nat = n 1%nat /\ v 2%nat = n 2%nat).
  { intros v. unfold veq. split; [intros H; repeat split; apply H; lia|]. intros (A & B & C) k Hk.
    assert (K : k = 0%nat \/ k = 1%nat \/ k = 2%nat) by lia. destruct K as [->|[->| ->]]; assumption. }
  assert (Z : forall b v k, n 0%nat = 0 -> n b = 0 -> roll_back b n v k = v k).
  { intros b v k A B. unfold roll_back. rewrite A, B. replace (0 * 0 + 0 * 0) with 0 by ring. rewrite sqrt_0.
    destruct (Rgt_dec 0 roll_tolerance) as [G|]; [lra|reflexivity]. }
  rewrite Q. clear Q.
  destruct H1 as [H1|[X0 Y0]].
  - destruct (roll_e1 1 n e1 ltac:(lia) H1) as (A0 & A1 & A2). set (r1 := sqrt (n 0%nat * n 0%nat + n 1%nat * n 1%nat)) in *.
    assert (S1 : r1 * r1 = n 0%nat * n 0%nat + n 1%nat * n 1%nat) by (apply sqrt_sqrt; nra).
    pose proof (A2 2%nat ltac:(lia) ltac:(lia)) as A2'. change (e1 0%nat) with 1 in A0, A1. change (e1 1%nat) with 0 in A0, A1. change (e1 2%nat) with 0 in A2'.
    destruct H2 as [H2|[X0 Z0]].
    + destruct (roll_e1 2 n (roll_back 1 n e1) ltac:(lia) H2) as (B0 & B1 & B2). set (r2 := sqrt (n 0%nat * n 0%nat + n 2%nat * n 2%nat)) in *.
      assert (S2 : r2 * r2 = n 0%nat * n 0%nat + n 2%nat * n 2%nat) by (apply sqrt_sqrt; nra).
      rewrite B0, B1, (B2 1%nat) by lia. rewrite A0, A1, A2'.
      assert (E1 : n 1%nat / r1 * 1 + n 0%nat / r1 * 0 = n 1%nat / r1) by (field; lra). rewrite E1.
      assert (E0 : n 0%nat / r2 * (n 0%nat / r1 * 1 - n 1%nat / r1 * 0) - n 2%nat / r2 * 0 = n 0%nat * n 0%nat / (r1 * r2)) by (field; lra). rewrite E0.
      assert (E2 : n 2%nat / r2 * (n 0%nat / r1 * 1 - n 1%nat / r1 * 0) + n 0%nat / r2 * 0 = n 0%nat * n 2%nat / (r1 * r2)) by (field; lra). rewrite E2.
      assert (R12 : 0 < r1 * r2) by nra.
      split.
      * intros (F0 & F1 & F2). split.
        { rewrite <- F0. apply Rmult_le_pos; [nra|]. left. apply Rinv_0_lt_compat. exact R12. }
        destruct (Req_EM_T (n 1%nat) 0) as [|NZ]; [left; assumption|right].
        assert (R1 : r1 = 1). { apply (Rmult_eq_reg_l (n 1%nat)); [|exact NZ]. apply (f_equal (fun u => u * r1)) in F1. unfold Rdiv in F1. rewrite Rmult_assoc, Rinv_l in F1 by lra. lra. }
        rewrite R1 in S1. nra.
      * intros (P & [Y|Zz]).
        { rewrite Y in *. assert (R2 : r2 = 1). { assert (r2 * r2 = 1) by lra. nra. }
          assert (R1 : r1 = n 0%nat). { assert (r1 * r1 = n 0%nat * n 0%nat) by lra. nra. }
          assert (n 0%nat <> 0) by lra. rewrite R1, R2. repeat split; field; lra. }
        { rewrite Zz in *. assert (R1 : r1 = 1). { assert (r1 * r1 = 1) by lra. nra. }
          assert (R2 : r2 = n 0%nat). { assert (r2 * r2 = n 0%nat * n 0%nat) by lra. nra. }
          assert (n 0%nat <> 0) by lra. rewrite R1, R2. repeat split; field; lra. }
    + rewrite !(Z 2%nat) by assumption. rewrite A0, A1, A2'. rewrite X0, Z0 in *. 
      assert (R1 : r1 * r1 = 1) by lra. assert (r1 = 1) by nra.
      split; [intros _; split; [lra|right; reflexivity]|]. intros _. rewrite H. repeat split; field.
  - destruct H2 as [H2|[_ Z0]]; [|exfalso; rewrite X0, Y0, Z0 in N; lra].
    destruct (roll_e1 2 n (roll_back 1 n e1) ltac:(lia) H2) as (B0 & B1 & B2).
    rewrite B0, B1, (B2 1%nat) by lia. rewrite !(Z 1%nat) by assumption. unfold e1. cbn [Nat.eqb]. rewrite X0, Y0 in *.
    replace (0 * 0 + n 2%nat * n 2%nat) with 1 by lra. rewrite sqrt_1.
    split; [intros _; split; [lra|left; reflexivity]|]. intros _. repeat split; field.
Qed.

Definition against : vec := fun k => if Nat.eqb k 0 then -1 else 0.
Definition diagonal : vec := fun k => 1 / sqrt 3.

Lemma C54_1d_refuted_proof : exists n, norm2 1 n = 1 /\ ~ veq 1 (affine_transform_vector 1 n e1) n.
Proof.
  exists against. split; [unfold norm2, dot, against; cbn; ring|]. intros H. specialize (H 0%nat ltac:(lia)). cbn in H. unfold e1, against in H. cbn in H. lra.
Qed.

Lemma against_unit : norm2 3 against = 1.
Proof. unfold norm2, dot, against; cbn; ring. Qed.

Lemma C54_opposite_refuted_proof :
  norm2 3 against = 1 /\ veq 3 (affine_transform_vector 3 against e1) (vscal (-1) against).
Proof.
  split; [apply against_unit|]. intros k Hk. unfold affine_transform_vector, roll_back, against, e1, vscal. cbn [Nat.eqb Nat.leb].
  replace (-1 * -1 + 0 * 0) with 1 by ring. rewrite sqrt_1. destruct (Rgt_dec 1 roll_tolerance) as [|N]; [|exfalso; apply N; unfold roll_tolerance; lra].
  cbn [Nat.eqb]. destruct k as [|[|[|k]]]; [| | |lia]; cbn [Nat.eqb]; field.
Qed.

Lemma C54_diagonal_refuted_proof : norm2 3 diagonal = 1 /\ ~ veq 3 (affine_transform_vector 3 diagonal e1) diagonal.
Proof.
  assert (S3 : 0 < sqrt 3) by (apply sqrt_lt_R0; lra). assert (S3' : sqrt 3 * sqrt 3 = 3) by (apply sqrt_sqrt; lra).
  assert (U : norm2 3 diagonal = 1). { rewrite norm2_3. unfold diagonal. transitivity (3 / (sqrt 3 * sqrt 3)); [field; lra|rewrite S3'; field]. }
  split; [exact U|]. intros H.
  assert (D : 0 < 1 / sqrt 3) by (apply Rdiv_lt_0_compat; lra).
  assert (L : sqrt (diagonal 0%nat * diagonal 0%nat + diagonal 0%nat * diagonal 0%nat) > roll_tolerance).
  { unfold diagonal. replace (1 / sqrt 3 * (1 / sqrt 3) + 1 / sqrt 3 * (1 / sqrt 3)) with (2 / 3).
    - apply Rlt_gt. rewrite <- (sqrt_square roll_tolerance) by (pose proof tol_pos; lra). apply sqrt_lt_1; unfold roll_tolerance; lra.
    - transitivity (2 / (sqrt 3 * sqrt 3)); [rewrite S3'; field|field; lra]. }
  apply C54_aligned_3d_proof in H; [|exact U|left; exact L|left; exact L]. destruct H as [_ [H|H]]; unfold diagonal in H; lra.
Qed.

Lemma C54_normalize_proof dim n : (1 <= dim <= 3)%nat ->
  (normalize dim n = None <-> forall k, (k < dim)%nat -> n k = 0) /\
  (forall m, normalize dim n = Some m -> norm2 dim m = 1 /\ exists c, 0 < c /\ forall k, m k = c * n k).
Proof.
  intros Hd. assert (P : 0 <= norm2 dim n). { unfold norm2, dot. clear Hd. induction dim; cbn; [lra|]. nra. }
  unfold normalize. destruct (Req_EM_T (sqrt (norm2 dim n)) 0) as [E|E].
  - split; [|discriminate]. split; [|reflexivity]. intros _. apply sqrt_eq_0 in E; [|exact P].
    intros k Hk. assert (D : dim = 1%nat \/ dim = 2%nat \/ dim = 3%nat) by lia. unfold norm2, dot in E.
    destruct D as [->|[->| ->]]; cbn in E.
    + destruct k; [nra|lia].
    + destruct k as [|[|]]; [nra|nra|lia].
    + destruct k as [|[|[|]]]; [nra|nra|nra|lia].
  - assert (L : 0 < sqrt (norm2 dim n)) by (pose proof (sqrt_pos (norm2 dim n)); lra).
    split.
    + split; [discriminate|]. intros H. exfalso. apply E. replace (norm2 dim n) with 0; [apply sqrt_0|].
      unfold norm2, dot. symmetry. clear - H. induction dim; cbn; [reflexivity|]. rewrite IHdim by (intros; apply H; lia). rewrite H by lia. ring.
    + intros m [= <-]. set (r := sqrt (norm2 dim n)) in *. split.
      * assert (S : r * r = norm2 dim n) by (apply sqrt_sqrt; exact P).
        unfold norm2 at 1. transitivity (/ r * / r * norm2 dim n); [|rewrite <- S; field; lra].
        unfold norm2, dot. generalize dim. induction dim0; cbn; [ring|]. rewrite IHdim0. unfold vscal. ring.
      * exists (/ r). split; [apply Rinv_0_lt_compat; exact L|]. reflexivity.
Qed.

(** ** The initial state *)
Lemma C54_state_proof s configurations dim name direction position f : (1 <= dim <= 3)%nat ->
  initial_state configurations apply_galilei_transform dim name direction position = Some f ->
  exists n compute, normalize dim direction = Some n /\ In (name, compute) configurations /\
  forall x t, let W := compute (affine_transform dim n position x) t in
    density (f x t) = density W /\ internal_energy dim (f x t) = internal_energy dim W /\
    pressure s dim (f x t) = pressure s dim W /\
    veq dim (momentum (f x t)) (affine_transform_vector dim n (momentum W)).
Proof.
  intros Hd. unfold initial_state. destruct (normalize dim direction) as [n|]; [|discriminate].
  destruct (find _ configurations) as [[name' compute]|] eqn:F; [|discriminate]. apply find_some in F. destruct F as [F1 F2].
  apply String.eqb_eq in F2. cbn in F2. subst name'. intros [= <-]. exists n, compute. split; [reflexivity|]. split; [exact F1|].
  intros x t. cbn [snd]. set (W := compute (affine_transform dim n position x) t). destruct (galilei_thermo s dim W _ (C54_isometry_proof dim n Hd)) as (A & B & C).
  split; [exact A|split; [exact B|split; [exact C|]]]. apply galilei_m.
Qed.

Lemma C54_unknown_proof configurations galilei dim name direction position : (1 <= dim <= 3)%nat ->
  (initial_state configurations galilei dim name direction position = None <->
   (forall k, (k < dim)%nat -> direction k = 0) \/ ~ In name (map fst configurations)).
Proof.
  intros Hd. destruct (C54_normalize_proof dim direction Hd) as [N _]. unfold initial_state.
  destruct (normalize dim direction) as [n|] eqn:E; [|split; [intros _; left; apply N; reflexivity|reflexivity]].
  assert (Z : ~ forall k, (k < dim)%nat -> direction k = 0) by (intros H; apply N in H; discriminate).
  destruct (find _ configurations) as [[name' compute]|] eqn:F.
  - split; [discriminate|]. intros [H|H]; [contradiction|]. exfalso. apply H. apply find_some in F. destruct F as [F1 F2].
    apply String.eqb_eq in F2. cbn in F2. subst. apply (in_map fst) in F1. exact F1.
  - split; [|reflexivity]. intros _. right. intros H. apply in_map_iff in H. destruct H as ([n' c] & H1 & H2). cbn in H1. subst n'.
    pose proof (find_none _ _ F _ H2) as Q. cbn in Q. rewrite String.eqb_refl in Q. discriminate.
Qed.

(** ** The perturbation *)
Lemma C86_bounded_proof m p draw t U i : (forall i, -1 <= draw i < 1) ->
  Rabs (perturb m p draw t U i - U i) <= Rabs p * Rabs (U i).
Proof.
  intros D. unfold perturb. assert (Z : 0 <= Rabs p * Rabs (U i)) by (apply Rmult_le_pos; apply Rabs_pos).
  destruct (Req_EM_T p 0); [rewrite Rminus_diag_eq, Rabs_R0 by reflexivity; exact Z|].
  destruct (Rgt_dec t 0); [rewrite Rminus_diag_eq, Rabs_R0 by reflexivity; exact Z|].
  destruct (Nat.ltb i m); [|rewrite Rminus_diag_eq, Rabs_R0 by reflexivity; exact Z].
  replace (U i * (1 + p * draw i) - U i) with (p * U i * draw i) by ring. rewrite !Rabs_mult.
  assert (Rabs (draw i) <= 1) by (destruct (D i); apply Rabs_le; lra).
  pose proof (Rabs_pos p). pose proof (Rabs_pos (U i)). nra.
Qed.

Lemma C86_sign_proof m p draw t U i : (forall i, -1 <= draw i < 1) -> Rabs p < 1 -> 0 < U i -> 0 < perturb m p draw t U i.
Proof.
  intros D P H. pose proof (C86_bounded_proof m p draw t U i D) as B. rewrite (Rabs_right (U i)) in B by lra.
  set (w := perturb m p draw t U i) in *. assert (U i - w <= Rabs (w - U i)) by (rewrite Rabs_minus_sym; apply Rle_abs). nra.
Qed.

Lemma C86_later_proof m p draw t U i : 0 < t \/ p = 0 -> perturb m p draw t U i = U i.
Proof.
  intros H. unfold perturb. destruct (Req_EM_T p 0); [reflexivity|]. destruct (Rgt_dec t 0); [reflexivity|]. destruct H; lra.
Qed.

(** A gas at high speed: an arbitrarily small perturbation makes the internal energy
    negative. *)
Definition jet (p : R) : vec := fun k => if Nat.eqb k 0 then 1 else if Nat.eqb k 1 then 1 else 1 / 2 + p / 4.
Definition jet_draw : nat -> R := fun i => if Nat.eqb i 2 then -1 else 0.

Lemma C86_admissible_refuted_proof : forall p, 0 < p < 1 -> exists U draw, (forall i, -1 <= draw i < 1) /\
  0 < density U /\ 0 < internal_energy 1 U /\ internal_energy 1 (perturb 3 p draw 0 U) < 0.
Proof.
  intros p Hp. exists (jet p), jet_draw. split; [intros i; unfold jet_draw; destruct (Nat.eqb i 2); lra|].
  split; [unfold density, jet; cbn; lra|].
  unfold internal_energy, perturb, jet, jet_draw, density, momentum, total_energy, norm2, dot.
  destruct (Req_EM_T p 0); [lra|]. destruct (Rgt_dec 0 0); [lra|]. cbn. split; [field_simplify; lra|].
  match goal with |- ?a < 0 => replace a with (- (p / 4) - p * p / 4) by field end. nra.
Qed.
