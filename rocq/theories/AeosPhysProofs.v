(** * Euler with an arbitrary equation of state: physical properties, proofs *)
From Coq Require Import Reals Arith Lia Lra Psatz FunctionalExtensionality.
From Verif Require Import RVec EulerSystem AeosSystem PhysLib EulerPhysProofs.
Local Open Scope R_scope.

(** ** C31 *)

Lemma a_from_prim_0 dim p : a_from_primitive_state dim p 0%nat = p 0%nat.
Proof. reflexivity. Qed.

Lemma a_from_prim_m dim p k : (k < dim)%nat -> a_from_primitive_state dim p (S k) = p (S k) * p 0%nat.
Proof.
  intros H. unfold a_from_primitive_state. rewrite eqb_S0.
  destruct (Nat.eqb_spec (S k) (S dim)); [lia|].
  destruct (Nat.leb_spec (S k) dim); [reflexivity|lia].
Qed.

Lemma a_from_prim_E dim p : a_from_primitive_state dim p (S dim) =
  p 0%nat * p (S dim) + 1 / 2 * p 0%nat * norm2 dim (a_momentum p).
Proof. unfold a_from_primitive_state. rewrite Nat.eqb_refl. reflexivity. Qed.

Lemma a_from_prim_momentum dim p : veq dim (a_momentum (a_from_primitive_state dim p)) (vscal (p 0%nat) (a_momentum p)).
Proof. intros k Hk. unfold a_momentum at 1. rewrite a_from_prim_m by exact Hk. unfold vscal, a_momentum. ring. Qed.

Lemma a_from_prim_energy dim p : p 0%nat <> 0 ->
  a_internal_energy dim (a_from_primitive_state dim p) = p 0%nat * p (S dim).
Proof.
  intros Hr. unfold a_internal_energy, a_total_energy, a_density.
  rewrite a_from_prim_0, a_from_prim_E.
  unfold norm2 at 2. rewrite (dot_ext _ _ _ _ _ (a_from_prim_momentum dim p) (a_from_prim_momentum dim p)).
  fold (norm2 dim (vscal (p 0%nat) (a_momentum p))). rewrite norm2_scal. field. exact Hr.
Qed.

Lemma a_to_from_primitive dim p : p 0%nat <> 0 ->
  forall k, a_to_primitive_state dim (a_from_primitive_state dim p) k = p k.
Proof.
  intros Hr k. unfold a_to_primitive_state. rewrite a_from_prim_energy, a_from_prim_0 by assumption.
  destruct (Nat.eqb_spec k (S dim)) as [->|H1]; [field; exact Hr|].
  destruct (Nat.eqb_spec k 0) as [->|H2]; [reflexivity|].
  destruct (Nat.leb_spec k dim) as [H3|H3].
  - destruct k as [|k]; [lia|]. rewrite a_from_prim_m by lia. field. exact Hr.
  - unfold a_from_primitive_state. destruct (Nat.eqb_spec k (S dim)); [lia|].
    destruct (Nat.eqb_spec k 0); [lia|]. destruct (Nat.leb_spec k dim); [lia|reflexivity].
Qed.

Lemma a_from_to_primitive dim U : a_density U <> 0 ->
  forall k, a_from_primitive_state dim (a_to_primitive_state dim U) k = U k.
Proof.
  intros Hr k.
  assert (T0 : a_to_primitive_state dim U 0%nat = U 0%nat) by reflexivity.
  assert (TE : a_to_primitive_state dim U (S dim) = a_internal_energy dim U * (1 / U 0%nat))
    by (unfold a_to_primitive_state; rewrite Nat.eqb_refl; reflexivity).
  assert (TM : veq dim (a_momentum (a_to_primitive_state dim U)) (vscal (1 / U 0%nat) (a_momentum U))).
  { intros j Hj. unfold a_momentum at 1, a_to_primitive_state. rewrite eqb_S0.
    destruct (Nat.eqb_spec (S j) (S dim)); [lia|]. destruct (Nat.leb_spec (S j) dim); [|lia].
    unfold vscal, a_momentum. ring. }
  unfold a_density in Hr.
  unfold a_from_primitive_state. rewrite T0, TE.
  destruct (Nat.eqb_spec k (S dim)) as [->|H1].
  - unfold norm2 at 1. rewrite (dot_ext _ _ _ _ _ TM TM). fold (norm2 dim (vscal (1 / U 0%nat) (a_momentum U))).
    rewrite norm2_scal. unfold a_internal_energy, a_total_energy, a_density. field. exact Hr.
  - destruct (Nat.eqb_spec k 0) as [->|H2]; [reflexivity|].
    destruct (Nat.leb_spec k dim) as [H3|H3].
    + destruct k as [|k]; [lia|]. assert (X := TM k ltac:(lia)). unfold a_momentum at 1 in X. rewrite X.
      unfold vscal, a_momentum. field. exact Hr.
    + unfold a_to_primitive_state. destruct (Nat.eqb_spec k (S dim)); [lia|].
      destruct (Nat.eqb_spec k 0); [lia|]. destruct (Nat.leb_spec k dim); [lia|reflexivity].
Qed.

Lemma a_expand_quantities e dim dim2 U : (dim2 <= dim)%nat ->
  let V := a_expand_state dim dim2 U in
  a_density V = a_density U /\ a_total_energy dim V = a_total_energy dim2 U /\
  a_internal_energy dim V = a_internal_energy dim2 U /\
  (forall p, surrogate_gamma e dim V p = surrogate_gamma e dim2 U p) /\
  (forall g, surrogate_specific_entropy e dim V g = surrogate_specific_entropy e dim2 U g).
Proof.
  intros H V.
  destruct (expand_quantities {| gamma := 2; reference_density := 1; vacuum_state_relaxation_small := 1;
    vacuum_state_relaxation_large := 1 |} dim dim2 U H) as (D & E & I & _ & _).
  assert (I' : a_internal_energy dim V = a_internal_energy dim2 U) by exact I.
  split; [exact D|]. split; [exact E|]. split; [exact I'|].
  split; intros x.
  - unfold surrogate_gamma. rewrite I'. reflexivity.
  - unfold surrogate_specific_entropy. rewrite I'. reflexivity.
Qed.

Lemma a_initial_state e dim dim2 p : (dim2 <= dim)%nat -> p 0%nat <> 0 ->
  let V := a_from_initial_state e dim dim2 p in
  a_density V = p 0%nat /\
  a_internal_energy dim V = p 0%nat * eos_specific_internal_energy e (p 0%nat) (p (S dim2)) /\
  (forall k, (k < dim)%nat -> a_momentum V k = p 0%nat * (if Nat.ltb k dim2 then p (S k) else 0)) /\
  (eos_pressure e (p 0%nat) (eos_specific_internal_energy e (p 0%nat) (p (S dim2))) = p (S dim2) ->
   eos_pressure e (a_density V) (a_internal_energy dim V / a_density V) = p (S dim2)).
Proof.
  intros H Hr V.
  set (q := fun k => if Nat.eqb k (S dim)
     then eos_specific_internal_energy e (a_expand_state dim dim2 p 0%nat) (a_expand_state dim dim2 p (S dim))
     else a_expand_state dim dim2 p k).
  assert (VE : V = a_from_primitive_state dim q) by reflexivity.
  assert (Q0 : q 0%nat = p 0%nat) by reflexivity.
  assert (QE : q (S dim) = eos_specific_internal_energy e (p 0%nat) (p (S dim2))).
  { unfold q. rewrite Nat.eqb_refl.
    assert (X : a_expand_state dim dim2 p (S dim) = p (S dim2)) by (apply expand_E). rewrite X. reflexivity. }
  assert (D : a_density V = p 0%nat) by reflexivity.
  assert (I : a_internal_energy dim V = p 0%nat * eos_specific_internal_energy e (p 0%nat) (p (S dim2)))
    by (rewrite VE, a_from_prim_energy, Q0, QE by (rewrite Q0; exact Hr); reflexivity).
  split; [exact D|]. split; [exact I|]. split.
  - intros k Hk. rewrite VE. unfold a_momentum. rewrite a_from_prim_m, Q0 by exact Hk.
    unfold q. destruct (Nat.eqb_spec (S k) (S dim)); [lia|].
    assert (X := expand_m dim dim2 p k Hk). change (expand_state dim dim2 p (S k)) with (a_expand_state dim dim2 p (S k)) in X.
    rewrite X. ring.
  - intros Hp. rewrite D, I.
    replace (p 0%nat * eos_specific_internal_energy e (p 0%nat) (p (S dim2)) / p 0%nat)
      with (eos_specific_internal_energy e (p 0%nat) (p (S dim2))) by (field; exact Hr). exact Hp.
Qed.

(** ** C32 *)

Lemma a_admissible_iff e dim U : a_is_admissible e dim U = true <->
  0 < a_density U /\
  0 < a_internal_energy dim U - a_density U * interp_q e - interp_pinf e * (1 - interp_b e * a_density U).
Proof.
  unfold a_is_admissible.
  match goal with |- context [if Rgt_dec ?a 0 then _ else _] => destruct (Rgt_dec a 0) end;
  match goal with |- context [if Rgt_dec ?a 0 then _ else _] => destruct (Rgt_dec a 0) end;
    match goal with |- context [Req_EM_T ?x 0] => destruct (Req_EM_T x 0) end;
    (split; [intros; try discriminate; try lra|intros (? & ?); try reflexivity; try lra]).
Qed.

Definition some_euler : euler := {| gamma := 2; reference_density := 1; vacuum_state_relaxation_small := 1;
    vacuum_state_relaxation_large := 1 |}.

Lemma a_slip_spec dim U n data V : norm2 dim n = 1 ->
  a_apply_boundary_conditions dim slip U n data = Some V ->
  a_density V = a_density U /\ a_total_energy dim V = a_total_energy dim U /\
  dot dim (a_momentum V) n = 0 /\
  (forall t, dot dim n t = 0 -> dot dim (a_momentum V) t = dot dim (a_momentum U) t) /\
  (0 < a_density U -> a_internal_energy dim U <= a_internal_energy dim V) /\
  (exists W, a_apply_boundary_conditions dim slip V n data = Some W /\ forall k, (k < dim + 2)%nat -> W k = V k).
Proof.
  intros Hn H. assert (E : V = apply_boundary_conditions some_euler dim slip U n data) by (injection H; intros <-; reflexivity).
  clear H. subst V. destruct (slip_spec some_euler dim U n data Hn) as (A & B & C & D & I & F).
  repeat (split; [assumption|]). eexists. split; [reflexivity|]. exact F.
Qed.

Lemma a_no_slip_spec dim U n data V :
  a_apply_boundary_conditions dim no_slip U n data = Some V ->
  a_density V = a_density U /\ a_total_energy dim V = a_total_energy dim U /\
  (forall k, (k < dim)%nat -> a_momentum V k = 0) /\
  (0 < a_density U -> a_internal_energy dim U <= a_internal_energy dim V) /\
  (exists W, a_apply_boundary_conditions dim no_slip V n data = Some W /\ forall k, (k < dim + 2)%nat -> W k = V k).
Proof.
  intros H. assert (E : V = apply_boundary_conditions some_euler dim no_slip U n data) by (injection H; intros <-; reflexivity).
  clear H. subst V. destruct (no_slip_spec some_euler dim U n data) as (A & B & C & I & F).
  repeat (split; [assumption|]). eexists. split; [reflexivity|]. exact F.
Qed.

Lemma a_walls_admissible e dim id U n data : norm2 dim n = 1 -> id = slip \/ id = no_slip ->
  a_is_admissible e dim U = true ->
  exists V, a_apply_boundary_conditions dim id U n data = Some V /\ a_is_admissible e dim V = true.
Proof.
  intros Hn Hid H. rewrite a_admissible_iff in H. destruct H as [A B]. destruct Hid as [->| ->].
  - eexists. split; [reflexivity|].
    destruct (a_slip_spec dim U n data _ Hn eq_refl) as (D & _ & _ & _ & I & _).
    rewrite a_admissible_iff. rewrite D. specialize (I A). lra.
  - eexists. split; [reflexivity|].
    destruct (a_no_slip_spec dim U n data _ eq_refl) as (D & _ & _ & I & _).
    rewrite a_admissible_iff. rewrite D. specialize (I A). lra.
Qed.

(** ** C34 *)

Lemma a_flux_direction dim U p c :
  dot dim (a_flux dim U p 0%nat) c = dot dim (a_momentum U) c /\
  (forall k, (k < dim)%nat -> dot dim (a_flux dim U p (S k)) c =
     a_momentum U k * (1 / a_density U) * dot dim (a_momentum U) c + p * c k) /\
  dot dim (a_flux dim U p (S dim)) c =
     1 / a_density U * (a_total_energy dim U + p) * dot dim (a_momentum U) c.
Proof.
  split; [reflexivity|split].
  - intros k Hk. unfold a_flux. rewrite eqb_S0. destruct (Nat.eqb_spec (S k) (S dim)); [lia|].
    unfold dot at 1. replace (S k - 1)%nat with k by lia.
    rewrite (rsum_ext dim _ (fun l => vscal (a_momentum U k * (1 / a_density U)) (a_momentum U) l * c l +
       (if Nat.eqb l k then p else 0) * c l)) by (intros; ring).
    rewrite rsum_plus, dot_unit_row by exact Hk.
    fold (dot dim (vscal (a_momentum U k * (1 / a_density U)) (a_momentum U)) c).
    rewrite dot_scal_l. reflexivity.
  - unfold a_flux. rewrite eqb_S0, Nat.eqb_refl, dot_scal_l. reflexivity.
Qed.

(** In terms of (rho, u, e) and the pressure. *)
Lemma a_flux_primitive dim prim p c : prim 0%nat <> 0 ->
  let U := a_from_primitive_state dim prim in
  let rho := prim 0%nat in let u := a_momentum prim in
  let un := dot dim u c in
  dot dim (a_flux dim U p 0%nat) c = rho * un /\
  (forall k, (k < dim)%nat -> dot dim (a_flux dim U p (S k)) c = rho * un * u k + p * c k) /\
  dot dim (a_flux dim U p (S dim)) c = un * (rho * prim (S dim) + 1 / 2 * rho * norm2 dim u + p).
Proof.
  intros Hr U rho u un.
  destruct (a_flux_direction dim U p c) as (A & B & C).
  assert (M : dot dim (a_momentum U) c = rho * un).
  { unfold U. rewrite (dot_ext _ _ _ c c (a_from_prim_momentum dim prim)) by (intros ? ?; reflexivity).
    rewrite dot_scal_l. reflexivity. }
  assert (D : a_density U = rho) by reflexivity.
  assert (E : a_total_energy dim U = rho * prim (S dim) + 1 / 2 * rho * norm2 dim u) by apply a_from_prim_E.
  split; [rewrite A; exact M|split].
  - intros k Hk. rewrite B, M, D by exact Hk. unfold a_momentum at 1, U. rewrite a_from_prim_m by exact Hk.
    unfold u, rho, a_momentum. field. exact Hr.
  - rewrite C, M, D, E. field. exact Hr.
Qed.

Lemma isometry_ext dim lambda w w' k : isometry dim lambda -> veq dim w w' -> (k < dim)%nat -> lambda w k = lambda w' k.
Proof.
  intros (L1 & L2 & L3) W Hk.
  assert (N : norm2 dim (lambda (vadd w (vscal (-1) w'))) = 0).
  { unfold norm2. rewrite L3.
    rewrite (dot_ext dim _ (fun _ => 0) _ (fun _ => 0)).
    - unfold dot. rewrite (rsum_ext dim _ (fun _ => 0)) by (intros; ring). apply rsum_0.
    - intros j Hj. unfold vadd, vscal. rewrite W by exact Hj. ring.
    - intros j Hj. unfold vadd, vscal. rewrite W by exact Hj. ring. }
  assert (Z : lambda (vadd w (vscal (-1) w')) k = 0).
  { assert (Sq : forall d v j, norm2 d v = 0 -> (j < d)%nat -> v j = 0).
    { clear. induction d; intros v j Hn Hj; [lia|].
      unfold norm2, dot in Hn. simpl in Hn.
      assert (A := norm2_nonneg d v). unfold norm2, dot in A. assert (B := Rle_0_sqr (v d)). unfold Rsqr in B.
      destruct (Nat.eq_dec j d) as [->|Hjd].
      - assert (E : v d * v d = 0) by lra. apply Rmult_integral in E. destruct E; assumption.
      - apply IHd; [unfold norm2, dot; lra|lia]. }
    apply (Sq dim); assumption. }
  rewrite L1, L2 in Z by exact Hk. lra.
Qed.

Lemma a_flux_covariant dim U p lambda c : isometry dim lambda ->
  forall k, (k < dim + 2)%nat ->
  contract dim (a_flux dim (a_apply_galilei_transform dim U lambda) p) (lambda c) k =
  a_apply_galilei_transform dim (contract dim (a_flux dim U p) c) lambda k.
Proof.
  intros H k Hk. set (V := a_apply_galilei_transform dim U lambda).
  destruct (a_flux_direction dim V p (lambda c)) as (A & B & C).
  destruct (a_flux_direction dim U p c) as (A' & B' & C').
  assert (G0 : veq dim (a_momentum V) (lambda (a_momentum U))) by exact (galilei_m dim U lambda).
  assert (M : dot dim (a_momentum V) (lambda c) = dot dim (a_momentum U) c).
  { rewrite (dot_ext _ _ _ (lambda c) (lambda c) G0) by (intros ? ?; reflexivity). apply H. }
  assert (D : a_density V = a_density U) by reflexivity.
  assert (E : a_total_energy dim V = a_total_energy dim U) by exact (galilei_E dim U lambda).
  unfold contract. destruct k as [|k].
  - rewrite A, M. reflexivity.
  - destruct (Nat.eq_dec k dim) as [->|Hkd].
    + rewrite C. assert (G := galilei_E dim (contract dim (a_flux dim U p) c) lambda).
      change (apply_galilei_transform dim (contract dim (a_flux dim U p) c) lambda)
        with (a_apply_galilei_transform dim (contract dim (a_flux dim U p) c) lambda) in G.
      unfold contract in G. rewrite G, C', M, D, E. reflexivity.
    + rewrite B by lia. rewrite M, D.
      assert (G := galilei_m dim (contract dim (a_flux dim U p) c) lambda k ltac:(lia)).
      change (apply_galilei_transform dim (contract dim (a_flux dim U p) c) lambda)
        with (a_apply_galilei_transform dim (contract dim (a_flux dim U p) c) lambda) in G.
      unfold momentum at 1, contract in G. rewrite G. clear G. rewrite G0 by lia.
      rewrite (isometry_ext dim lambda (momentum (fun k => dot dim (a_flux dim U p k) c)) (vadd (vscal (1 / a_density U * dot dim (a_momentum U) c) (a_momentum U)) (vscal p c)) k H).
      * destruct H as (L1 & L2 & _). rewrite L1, !L2 by lia. ring.
      * intros j Hj. unfold momentum. rewrite B' by exact Hj. unfold vadd, vscal. ring.
      * lia.
Qed.

Lemma a_flux_divergence_antisymmetric dim f_i f_j c k :
  a_flux_divergence dim f_j f_i (vscal (-1) c) k = - a_flux_divergence dim f_i f_j c k.
Proof. exact (flux_divergence_antisymmetric dim f_i f_j c k). Qed.

Lemma a_flux_divergence_consistent dim f c k :
  a_flux_divergence dim f f c k = - 2 * contract dim f c k.
Proof. exact (flux_divergence_consistent dim f c k). Qed.

(** ** C35 *)

Section Harten.
Variables (e : eos) (dim : nat) (U P : vec) (g : R).
Hypothesis g_pos : 0 < g + 1.
Let b := interp_b e.
Let rho := a_density U.
Hypothesis covolume_pos : 0 < 1 - b * rho.
Let shift := fun V => a_density V * a_total_energy dim V - 1 / 2 * norm2 dim (a_momentum V)
   - a_density V * a_density V * interp_q e - a_density V * interp_pinf e * (1 - b * a_density V).
Hypothesis shift_pos : 0 < shift U.

Let dshift := rho * a_total_energy dim P + a_density P * a_total_energy dim U - dot dim (a_momentum U) (a_momentum P)
   - 2 * rho * a_density P * interp_q e - interp_pinf e * a_density P * (1 - 2 * b * rho).

Lemma line_0 : line U P 0 = U.
Proof. apply functional_extensionality; intros; unfold line, vadd, vscal; ring. Qed.

Lemma shift_deriv : derivable_pt_lim (fun t => shift (line U P t)) 0 dshift.
Proof.
  eapply deriv_transfer; [| |apply (quad_deriv (shift U) dshift
     (a_density P * a_total_energy dim P - 1 / 2 * norm2 dim (a_momentum P) - a_density P * a_density P * interp_q e
       + interp_pinf e * b * a_density P * a_density P))].
  - intros t. unfold shift.
    change (a_density (line U P t)) with (a_density U + t * a_density P).
    change (a_total_energy dim (line U P t)) with (a_total_energy dim U + t * a_total_energy dim P).
    change (a_momentum (line U P t)) with (vadd (a_momentum U) (vscal t (a_momentum P))).
    rewrite norm2_line. unfold dshift, rho. field.
  - ring.
Qed.

Lemma cov_deriv : derivable_pt_lim (fun t => powr (1 - b * a_density (line U P t)) (g - 1)) 0
  ((g - 1) * powr (1 - b * rho) (g - 1 - 1) * (- b * a_density P)).
Proof.
  assert (X := powr_comp_deriv (fun t => (1 - b * rho) + t * (- b * a_density P)) 0 (- b * a_density P) (g - 1)).
  cbv beta in X. replace (1 - b * rho + 0 * (- b * a_density P)) with (1 - b * rho) in X by ring.
  specialize (X covolume_pos (affine_deriv _ _ _)).
  eapply deriv_transfer; [|reflexivity|exact X].
  intros t. cbv beta. change (a_density (line U P t)) with (rho + t * a_density P). f_equal. ring.
Qed.

Lemma surrogate_harten_deriv :
  derivable_pt_lim (fun t => surrogate_harten_entropy e dim (line U P t) g) 0
    (dot (dim + 2) (surrogate_harten_entropy_derivative e dim U (surrogate_harten_entropy e dim U g) g) P).
Proof.
  assert (D := derivable_pt_lim_mult _ _ _ _ _ shift_deriv cov_deriv).
  assert (CP : 0 < powr (1 - b * rho) (g - 1)) by (apply powr_gt0; exact covolume_pos).
  assert (base : 0 < shift U * powr (1 - b * rho) (g - 1)) by (apply Rmult_lt_0_compat; assumption).
  apply (powr_comp_deriv _ _ _ (1 / (g + 1))) in D.
  2:{ unfold mult_fct. rewrite line_0. exact base. }
  eapply deriv_transfer; [| |exact D].
  - intros t. unfold mult_fct. reflexivity.
  - unfold mult_fct. rewrite line_0. fold rho.
    unfold surrogate_harten_entropy_derivative. rewrite dot_mkstate.
    assert (ET : surrogate_harten_entropy e dim U g = powr (shift U * powr (1 - b * rho) (g - 1)) (1 / (g + 1))) by reflexivity.
    rewrite ET. clear ET. set (Q := shift U * powr (1 - b * rho) (g - 1)) in *.
    fold b. fold rho. set (C := 1 - b * rho) in *.
    replace (1 / C) with (/ C) by (unfold Rdiv; ring).
    rewrite (powr_mult_base (powr Q (1 / (g + 1))) (/ C)) by (first [apply powr_gt0; exact base|apply Rinv_0_lt_compat; exact covolume_pos]).
    rewrite powr_mult by exact base.
    rewrite powr_inv, powr_opp by exact covolume_pos.
    replace (1 / (g + 1) * - g) with (1 / (g + 1) - 1) by (field; lra).
    replace (g - 1 - 1) with (g + - (2)) by ring. replace (g - 1) with (g + - (1)) by ring.
    rewrite !powr_plus, !powr_opp, powr_1, powr_2 by exact covolume_pos.
    set (X := powr Q (1 / (g + 1) - 1)). set (Y := powr C g).
    assert (HY : 0 < Y) by (apply powr_gt0; exact covolume_pos).
    replace (fun i => - (X * / / Y * (/ C * / C) / (g + 1)) * C * a_momentum U i)
      with (vscal (- (X * / / Y * (/ C * / C) / (g + 1)) * C) (a_momentum U)) by reflexivity.
    rewrite dot_scal_l. change (fun k => P (S k)) with (a_momentum P).
    change (P 0%nat) with (a_density P). change (P (S dim)) with (a_total_energy dim P).
    replace (rho * a_total_energy dim U - 1 / 2 * norm2 dim (a_momentum U) - rho * rho * interp_q e - rho * interp_pinf e * C)
      with (shift U) by reflexivity.
    unfold dshift. field. repeat split; lra.
Qed.
End Harten.
