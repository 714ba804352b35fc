(** * Proofs about piecewise initial states: gases *)
From Coq Require Import Reals Arith List Bool String Lia Lra.
From Verif Require Import RVec EulerSystem AeosSystem EulerInitialStates InitialPlacement InitialPlacementProofs BalanceSpec
  SWSystem InitialRegions InitialRegionsSpec.
Import ListNotations.
Local Open Scope R_scope.

Lemma gas_energy_prim dim (U prim : vec) E : U 0%nat = prim 0%nat -> prim 0%nat <> 0 ->
  (forall i, (i < dim)%nat -> U (S i) = prim (S i) * prim 0%nat) ->
  U (S dim) = prim 0%nat * E + 1 / 2 * prim 0%nat * norm2 dim (fun i => prim (S i)) ->
  gas_energy dim U = E.
Proof.
  intros H0 N HM HE. unfold gas_energy. rewrite HE, H0.
  rewrite (rsum_ext dim _ (fun i => (prim 0%nat * prim 0%nat) * (prim (S i) * prim (S i)))) by (intros i Hi; rewrite HM by exact Hi; ring).
  rewrite rsum_scal. unfold norm2, dot. field. exact N.
Qed.

Lemma euler_prim s dim prim : prim 0%nat <> 0 -> gamma s <> 1 ->
  gas_is (ideal (gamma s)) dim (prim 0%nat) (fun i => prim (S i)) (prim (S dim)) (from_primitive_state s dim prim).
Proof.
  intros N G. assert (A0 : from_primitive_state s dim prim 0%nat = prim 0%nat) by reflexivity.
  assert (AM : forall i, (i < dim)%nat -> from_primitive_state s dim prim (S i) = prim (S i) * prim 0%nat).
  { intros i Hi. unfold from_primitive_state. destruct (Nat.eqb_spec (S i) (S dim)); [lia|]. cbn [Nat.eqb].
    destruct (Nat.leb_spec (S i) dim); [reflexivity|lia]. }
  split; [exact A0|split].
  - intros i Hi. rewrite AM by exact Hi. ring.
  - rewrite A0. rewrite (gas_energy_prim dim _ prim (prim (S dim) / (gamma s - 1) / prim 0%nat) A0 N AM).
    + unfold ideal. field. split; [lra|exact N].
    + unfold from_primitive_state. rewrite Nat.eqb_refl. unfold momentum. field. split; [lra|exact N].
Qed.

Lemma aeos_prim dim prim : prim 0%nat <> 0 ->
  a_from_primitive_state dim prim 0%nat = prim 0%nat /\
  (forall i, (i < dim)%nat -> a_from_primitive_state dim prim (S i) = prim 0%nat * prim (S i)) /\
  gas_energy dim (a_from_primitive_state dim prim) = prim (S dim).
Proof.
  intros N. assert (A0 : a_from_primitive_state dim prim 0%nat = prim 0%nat) by reflexivity.
  assert (AM : forall i, (i < dim)%nat -> a_from_primitive_state dim prim (S i) = prim (S i) * prim 0%nat).
  { intros i Hi. unfold a_from_primitive_state. destruct (Nat.eqb_spec (S i) (S dim)); [lia|]. cbn [Nat.eqb].
    destruct (Nat.leb_spec (S i) dim); [reflexivity|lia]. }
  split; [exact A0|split].
  - intros i Hi. rewrite AM by exact Hi. ring.
  - apply (gas_energy_prim dim _ prim _ A0 N AM). unfold a_from_primitive_state. rewrite Nat.eqb_refl. reflexivity.
Qed.

Lemma gas_is_ext P dim rho u v p U : (forall i, (i < dim)%nat -> u i = v i) -> gas_is P dim rho u p U -> gas_is P dim rho v p U.
Proof. intros E (H0 & HM & HP). split; [exact H0|split; [|exact HP]]. intros i Hi. rewrite HM, E by exact Hi. reflexivity. Qed.

Lemma view_from_is w dim dim2 prim : attainable w (prim 0%nat) (prim (S dim2)) ->
  gas_is (law w) dim (prim 0%nat) (fun i => if Nat.leb (S i) dim2 then prim (S i) else 0) (prim (S dim2)) (view_from w dim dim2 prim).
Proof.
  intros [N A]. destruct w as [s|e]; cbn [law view_from].
  - unfold from_initial_state. pose proof (euler_prim s dim (expand_state dim dim2 prim)) as Q.
    change (expand_state dim dim2 prim 0%nat) with (prim 0%nat) in Q.
    assert (E : expand_state dim dim2 prim (S dim) = prim (S dim2)) by (unfold expand_state; rewrite Nat.eqb_refl; reflexivity).
    rewrite E in Q. eapply gas_is_ext; [|apply Q; assumption]. intros i Hi. unfold expand_state.
    destruct (Nat.eqb_spec (S i) (S dim)); [lia|]. reflexivity.
  - unfold a_from_initial_state.
    assert (E : a_expand_state dim dim2 prim (S dim) = prim (S dim2)) by (unfold a_expand_state; rewrite Nat.eqb_refl; reflexivity).
    set (full := fun k => if Nat.eqb k (S dim) then _ else _).
    assert (F0 : full 0%nat = prim 0%nat) by reflexivity.
    destruct (aeos_prim dim full) as (B0 & BM & BE); [rewrite F0; exact N|]. rewrite F0 in B0. split; [exact B0|split].
    + intros i Hi. rewrite BM by exact Hi. rewrite F0. unfold full. destruct (Nat.eqb_spec (S i) (S dim)); [lia|].
      unfold a_expand_state. destruct (Nat.eqb_spec (S i) (S dim)); [lia|]. reflexivity.
    + rewrite B0, BE. unfold full. rewrite Nat.eqb_refl, E. unfold a_expand_state. cbn [Nat.eqb]. exact A.
Qed.

Lemma view_row w dim prim : attainable w (prim 0%nat) (prim 2%nat) -> row_is (law w) dim prim (view_from w dim 1 prim).
Proof.
  intros A. unfold row_is. eapply gas_is_ext; [|apply view_from_is; exact A]. intros i Hi. destruct i as [|i]; reflexivity.
Qed.

Lemma view_plane w dim prim : attainable w (prim 0%nat) (prim 3%nat) -> plane_is (law w) dim prim (view_from w dim 2 prim).
Proof.
  intros A. unfold plane_is. eapply gas_is_ext; [|apply view_from_is; exact A]. intros i Hi. destruct i as [|[|i]]; reflexivity.
Qed.

Lemma C143_uniform_proof w dim prim point t : attainable w (prim 0%nat) (prim 2%nat) ->
  row_is (law w) dim prim (gas_uniform (view_from w dim) prim point t).
Proof. intros A. apply view_row. exact A. Qed.

Lemma C143_contrast_proof w dim left right point t :
  attainable w (left 0%nat) (left 2%nat) -> attainable w (right 0%nat) (right 2%nat) ->
  let U := gas_contrast (view_from w dim) left right point t in
  (point 0%nat <= 0 -> row_is (law w) dim left U) /\ (0 < point 0%nat -> row_is (law w) dim right U).
Proof.
  intros A B. cbn zeta. unfold gas_contrast. split; intros H; destruct (Rgt_dec (point 0%nat) 0); try lra; apply view_row; assumption.
Qed.

Lemma C143_three_proof w dim left middle right l m point t : 0 <= m ->
  attainable w (left 0%nat) (left 2%nat) -> attainable w (middle 0%nat) (middle 2%nat) -> attainable w (right 0%nat) (right 2%nat) ->
  let U := gas_three_state (view_from w dim) left middle right l m point t in
  (point 0%nat < l -> row_is (law w) dim left U) /\ (l <= point 0%nat < l + m -> row_is (law w) dim middle U) /\
  (l + m <= point 0%nat -> row_is (law w) dim right U).
Proof.
  intros M A B C. cbn zeta. unfold gas_three_state. refine (conj _ (conj _ _)); intros H;
  destruct (Rge_dec (point 0%nat) (l + m)); try lra; try (destruct (Rge_dec (point 0%nat) l)); try lra; apply view_row; assumption.
Qed.

Lemma C143_radial_proof w dim inner outer r point t : 0 <= r ->
  attainable w (inner 0%nat) (inner 2%nat) -> attainable w (outer 0%nat) (outer 2%nat) ->
  let U := gas_radial dim (view_from w dim) inner outer r point t in
  (norm2 dim point <= r * r -> row_is (law w) dim inner U) /\ (r * r < norm2 dim point -> row_is (law w) dim outer U).
Proof.
  intros Hr A B. cbn zeta. unfold gas_radial. split; intros H; destruct (Rgt_dec (sqrt (norm2 dim point)) r) as [G|G]; try (apply view_row; assumption); exfalso.
  - apply Rgt_lt in G. assert (sqrt (norm2 dim point) <= sqrt (r * r)) by (apply sqrt_le_1_alt; exact H). rewrite sqrt_square in H0 by exact Hr. lra.
  - apply G. apply Rlt_gt. rewrite <- (sqrt_square r Hr). apply sqrt_lt_1_alt. split; [nra|exact H].
Qed.

Lemma C143_four_proof w dim bl br tl tr point t : (2 <= dim)%nat ->
  attainable w (bl 0%nat) (bl 3%nat) -> attainable w (br 0%nat) (br 3%nat) ->
  attainable w (tl 0%nat) (tl 3%nat) -> attainable w (tr 0%nat) (tr 3%nat) ->
  exists U, gas_four_state dim (view_from w dim) bl br tl tr point t = Some U /\
  (point 0%nat < 0 -> point 1%nat < 0 -> plane_is (law w) dim bl U) /\
  (0 <= point 0%nat -> point 1%nat < 0 -> plane_is (law w) dim br U) /\
  (point 0%nat < 0 -> 0 <= point 1%nat -> plane_is (law w) dim tl U) /\
  (0 <= point 0%nat -> 0 <= point 1%nat -> plane_is (law w) dim tr U).
Proof.
  intros Hd A B C D. unfold gas_four_state. destruct (Nat.eqb_spec dim 1); [lia|]. eexists. split; [reflexivity|].
  refine (conj _ (conj _ (conj _ _))); intros H1 H2; destruct (Rge_dec (point 0%nat) 0); try lra; destruct (Rge_dec (point 1%nat) 0); try lra; apply view_plane; assumption.
Qed.

Lemma C143_jet_proof w dim jet ambient width point t : (2 <= dim)%nat ->
  attainable w (jet 0%nat) (jet 2%nat) -> attainable w (ambient 0%nat) (ambient 2%nat) ->
  exists U, gas_jet dim (view_from w dim) jet ambient width point t = Some U /\
  (point 0%nat <= 0 -> - width <= point 1%nat <= width -> row_is (law w) dim jet U) /\
  (1 / 10 ^ 12 <= point 0%nat \/ point 1%nat < - width \/ width < point 1%nat -> row_is (law w) dim ambient U).
Proof.
  intros Hd A B. unfold gas_jet, coordinate. destruct (Nat.ltb_spec 1 dim); [|lia].
  assert (T : 0 < 1 / 10 ^ 12) by (apply Rdiv_lt_0_compat; [lra|apply pow_lt; lra]).
  destruct (Rlt_dec (point 0%nat) (1 / 10 ^ 12)).
  - eexists. split; [reflexivity|]. split.
    + intros H1 H2. destruct (Rle_dec (Rabs (point 1%nat)) width) as [L|L]; [apply view_row; exact A|]. exfalso. apply L. apply Rabs_le. lra.
    + intros H1. destruct (Rle_dec (Rabs (point 1%nat)) width) as [L|L]; [|apply view_row; exact B]. exfalso.
      assert (- width <= point 1%nat <= width) by (split; [pose proof (Rle_abs (- point 1%nat)) as Q; rewrite Rabs_Ropp in Q; lra|pose proof (Rle_abs (point 1%nat)); lra]). lra.
  - eexists. split; [reflexivity|]. split; [lra|]. intros _. apply view_row. exact B.
Qed.

Lemma C143_line_refuted_proof from jet ambient width point t :
  (point 0%nat <= 0 -> gas_jet 1 from jet ambient width point t = None) /\
  (forall bl br tl tr, gas_four_state 1 from bl br tl tr point t = None).
Proof.
  split; [|reflexivity]. intros H. unfold gas_jet, coordinate.
  assert (T : 0 < 1 / 10 ^ 12) by (apply Rdiv_lt_0_compat; [lra|apply pow_lt; lra]).
  destruct (Rlt_dec (point 0%nat) (1 / 10 ^ 12)); [reflexivity|lra].
Qed.

(** ** Placement of the contrast *)
Lemma rsum_e1 dim (v : vec) : (1 <= dim)%nat -> dot dim v e1 = v 0%nat.
Proof.
  intros H. unfold dot. destruct dim as [|n]; [lia|]. clear H. induction n as [|n IH].
  - cbn. ring.
  - change (rsum (S (S n)) (fun k => v k * e1 k)) with (rsum (S n) (fun k => v k * e1 k) + v (S n) * e1 (S n)). rewrite IH.
    unfold e1. cbn [Nat.eqb]. ring.
Qed.

Lemma affine_e1 dim n pos x : (1 <= dim <= 3)%nat -> veq dim (affine_transform_vector dim n e1) n ->
  affine_transform dim n pos x 0%nat = dot dim (vsub x pos) n.
Proof.
  intros Hd Al. destruct (C54_isometry_proof dim n Hd) as (_ & _ & Iso).
  rewrite <- (rsum_e1 dim (affine_transform dim n pos x)) by lia. rewrite <- Iso.
  apply dot_ext; [|exact Al]. intros k Hk. destruct (C54_inverse_proof dim n pos Hd) as [_ I]. specialize (I x k).
  unfold vadd in I. unfold vsub. lra.
Qed.

Lemma pressure_ideal s dim U : density U <> 0 -> pressure s dim U = ideal (gamma s) (U 0%nat) (gas_energy dim U).
Proof.
  intros N. unfold pressure, internal_energy, ideal, gas_energy, density, total_energy, momentum, norm2, dot in *.
  set (q := rsum _ _). field. exact N.
Qed.

Lemma C143_placed_proof s configurations dim direction position f left right : (1 <= dim <= 3)%nat -> gamma s <> 1 ->
  left 0%nat <> 0 -> right 0%nat <> 0 ->
  (forall c, In ("contrast"%string, c) configurations -> c = gas_contrast (view_from (euler_view s) dim) left right) ->
  initial_state configurations apply_galilei_transform dim "contrast" direction position = Some f ->
  exists n, (exists c, 0 < c /\ forall k, n k = c * direction k) /\ norm2 dim n = 1 /\
  (veq dim (affine_transform_vector dim n e1) n -> forall x t,
     let U := f x t in
     (dot dim (vsub x position) direction <= 0 ->
        gas_is (ideal (gamma s)) dim (left 0%nat) (fun i => left 1%nat * n i) (left 2%nat) U) /\
     (0 < dot dim (vsub x position) direction ->
        gas_is (ideal (gamma s)) dim (right 0%nat) (fun i => right 1%nat * n i) (right 2%nat) U)).
Proof.
  intros Hd G NL NR Hc Hf.
  destruct (C54_state_proof s configurations dim "contrast" direction position f Hd Hf) as (n & c & Hn & Hin & St).
  apply Hc in Hin. subst c. destruct (C54_normalize_proof dim direction Hd) as [_ Nm]. destruct (Nm n Hn) as [N1 (c & C0 & Cn)].
  exists n. split; [exists c; auto|]. split; [exact N1|]. intros Al x t U.
  set (y := affine_transform dim n position x) in *.
  assert (Y0 : y 0%nat = c * dot dim (vsub x position) direction).
  { unfold y. rewrite affine_e1 by assumption. rewrite <- dot_scal_r. apply dot_ext; [intros k _; reflexivity|]. intros k Hk. apply Cn. }
  destruct (C143_contrast_proof (euler_view s) dim left right y t) as [CL CR]; [split; assumption|split; assumption|].
  specialize (St x t). cbn zeta in St. fold y in St. fold U in St. destruct St as (S0 & _ & SP & SM).
  assert (Go : forall prim : vec, prim 0%nat <> 0 -> row_is (ideal (gamma s)) dim prim (gas_contrast (view_from (euler_view s) dim) left right y t) ->
    gas_is (ideal (gamma s)) dim (prim 0%nat) (fun i => prim 1%nat * n i) (prim 2%nat) U).
  { intros prim NP (R0 & RM & RP). set (W := gas_contrast _ _ _ _ _) in *. unfold density in S0. split; [rewrite S0; exact R0|split].
    - intros i Hi. specialize (SM i Hi). unfold momentum at 1 in SM. rewrite SM.
      destruct (C54_isometry_proof dim n Hd) as (Add & Sc & Iso).
      assert (E : veq dim (momentum W) (vscal (prim 0%nat * prim 1%nat) e1)).
      { intros k Hk. unfold momentum, vscal, e1. rewrite RM by exact Hk. destruct k; cbn [Nat.eqb]; ring. }
      rewrite (AeosPhysProofs.isometry_ext dim (affine_transform_vector dim n) (momentum W) _ i (C54_isometry_proof dim n Hd) E Hi).
      rewrite Sc by exact Hi. rewrite Al by exact Hi. ring.
    - rewrite <- pressure_ideal, SP, pressure_ideal, <- RP; [reflexivity| |]; unfold density; [|rewrite S0]; rewrite R0; exact NP. }
  split; intros H.
  - apply Go; [exact NL|]. apply CL. rewrite Y0. nra.
  - apply Go; [exact NR|]. apply CR. rewrite Y0. nra.
Qed.

(** ** Expressions *)
Lemma C144_euler_proof s dim rho v p point t : gamma s <> 1 -> rho point t <> 0 ->
  gas_is (law (euler_view s)) dim (rho point t) (fun i => v i point t) (p point t)
    (gas_function dim (view_from_primitive (euler_view s) dim) rho v p point t).
Proof.
  intros G N. unfold gas_function. cbn [view_from_primitive law]. set (prim := fun k => if Nat.eqb k 0 then _ else _).
  pose proof (euler_prim s dim prim) as Q.
  assert (E0 : prim 0%nat = rho point t) by reflexivity.
  assert (E1 : prim (S dim) = p point t) by (unfold prim; cbn [Nat.eqb]; rewrite Nat.eqb_refl; reflexivity).
  rewrite E0, E1 in Q. eapply gas_is_ext; [|apply Q; assumption]. intros i Hi. unfold prim. cbn [Nat.eqb].
  destruct (Nat.eqb_spec i dim); [lia|]. destruct (Nat.leb_spec (S i) dim); [|lia]. rewrite Nat.sub_1_r. reflexivity.
Qed.

Lemma C144_aeos_proof e dim rho v p point t : rho point t <> 0 ->
  let U := gas_function dim (view_from_primitive (aeos_view e) dim) rho v p point t in
  gas_is (law (aeos_view e)) dim (rho point t) (fun i => v i point t) (eos_pressure e (rho point t) (p point t)) U /\
  gas_energy dim U = p point t.
Proof.
  intros N. cbn zeta. unfold gas_function. cbn [view_from_primitive law]. set (prim := fun k => if Nat.eqb k 0 then _ else _).
  assert (E0 : prim 0%nat = rho point t) by reflexivity.
  assert (E1 : prim (S dim) = p point t) by (unfold prim; cbn [Nat.eqb]; rewrite Nat.eqb_refl; reflexivity).
  destruct (aeos_prim dim prim) as (A0 & AM & AE); [rewrite E0; exact N|]. rewrite E1 in AE. split; [|exact AE].
  split; [rewrite A0; exact E0|split].
  - intros i Hi. rewrite AM by exact Hi. rewrite E0. f_equal. unfold prim. cbn [Nat.eqb].
    destruct (Nat.eqb_spec i dim); [lia|]. destruct (Nat.leb_spec (S i) dim); [|lia]. rewrite Nat.sub_1_r. reflexivity.
  - rewrite A0, AE, E0. reflexivity.
Qed.
