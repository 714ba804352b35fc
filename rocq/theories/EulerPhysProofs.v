(** * Euler: physical properties, proofs *)
From Coq Require Import Reals Arith Lia Lra Psatz.
From Verif Require Import RVec EulerSystem PhysLib.
Local Open Scope R_scope.

(** ** C31 *)

Lemma eqb_S0 k : Nat.eqb (S k) 0 = false. Proof. reflexivity. Qed.

Lemma from_prim_0 s dim p : from_primitive_state s dim p 0%nat = p 0%nat.
Proof. unfold from_primitive_state. simpl. reflexivity. Qed.

Lemma from_prim_m s dim p k : (k < dim)%nat -> from_primitive_state s dim p (S k) = p (S k) * p 0%nat.
Proof.
  intros H. unfold from_primitive_state. rewrite eqb_S0.
  destruct (Nat.eqb_spec (S k) (S dim)); [lia|].
  destruct (Nat.leb_spec (S k) dim); [reflexivity|lia].
Qed.

Lemma from_prim_E s dim p : from_primitive_state s dim p (S dim) =
  p (S dim) / (gamma s - 1) + 1 / 2 * p 0%nat * norm2 dim (momentum p).
Proof. unfold from_primitive_state. rewrite Nat.eqb_refl. reflexivity. Qed.

Lemma from_prim_momentum s dim p : veq dim (momentum (from_primitive_state s dim p)) (vscal (p 0%nat) (momentum p)).
Proof. intros k Hk. unfold momentum at 1. rewrite from_prim_m by exact Hk. unfold vscal, momentum. ring. Qed.

Lemma from_prim_pressure s dim p : gamma s <> 1 -> p 0%nat <> 0 ->
  pressure s dim (from_primitive_state s dim p) = p (S dim).
Proof.
  intros Hg Hr. unfold pressure, internal_energy, total_energy, density.
  rewrite from_prim_0, from_prim_E.
  unfold norm2 at 2. rewrite (dot_ext _ _ _ _ _ (from_prim_momentum s dim p) (from_prim_momentum s dim p)).
  fold (norm2 dim (vscal (p 0%nat) (momentum p))). rewrite norm2_scal.
  field. split; [exact Hr|lra].
Qed.

Lemma to_from_primitive s dim p : gamma s <> 1 -> p 0%nat <> 0 ->
  forall k, to_primitive_state s dim (from_primitive_state s dim p) k = p k.
Proof.
  intros Hg Hr k. unfold to_primitive_state. rewrite from_prim_pressure, from_prim_0 by assumption.
  destruct (Nat.eqb_spec k (S dim)) as [->|H1]; [reflexivity|].
  destruct (Nat.eqb_spec k 0) as [->|H2]; [reflexivity|].
  destruct (Nat.leb_spec k dim) as [H3|H3].
  - destruct k as [|k]; [lia|]. rewrite from_prim_m by lia. field. exact Hr.
  - unfold from_primitive_state. destruct (Nat.eqb_spec k (S dim)); [lia|].
    destruct (Nat.eqb_spec k 0); [lia|]. destruct (Nat.leb_spec k dim); [lia|reflexivity].
Qed.

Lemma from_to_primitive s dim U : gamma s <> 1 -> density U <> 0 ->
  forall k, from_primitive_state s dim (to_primitive_state s dim U) k = U k.
Proof.
  intros Hg Hr k.
  assert (T0 : to_primitive_state s dim U 0%nat = U 0%nat) by reflexivity.
  assert (TE : to_primitive_state s dim U (S dim) = pressure s dim U)
    by (unfold to_primitive_state; rewrite Nat.eqb_refl; reflexivity).
  assert (TM : veq dim (momentum (to_primitive_state s dim U)) (vscal (1 / U 0%nat) (momentum U))).
  { intros j Hj. unfold momentum at 1, to_primitive_state. rewrite eqb_S0.
    destruct (Nat.eqb_spec (S j) (S dim)); [lia|]. destruct (Nat.leb_spec (S j) dim); [|lia].
    unfold vscal, momentum. ring. }
  unfold density in Hr.
  unfold from_primitive_state. rewrite T0, TE.
  destruct (Nat.eqb_spec k (S dim)) as [->|H1].
  - unfold norm2 at 1. rewrite (dot_ext _ _ _ _ _ TM TM). fold (norm2 dim (vscal (1 / U 0%nat) (momentum U))).
    rewrite norm2_scal. unfold pressure, internal_energy, total_energy, density. field. split; [exact Hr|lra].
  - destruct (Nat.eqb_spec k 0) as [->|H2]; [reflexivity|].
    destruct (Nat.leb_spec k dim) as [H3|H3].
    + destruct k as [|k]; [lia|]. assert (X := TM k ltac:(lia)). unfold momentum at 1 in X. rewrite X.
      unfold vscal, momentum. field. exact Hr.
    + unfold to_primitive_state. destruct (Nat.eqb_spec k (S dim)); [lia|].
      destruct (Nat.eqb_spec k 0); [lia|]. destruct (Nat.leb_spec k dim); [lia|reflexivity].
Qed.

Lemma expand_0 dim dim2 U : expand_state dim dim2 U 0%nat = U 0%nat.
Proof. reflexivity. Qed.

Lemma expand_E dim dim2 U : expand_state dim dim2 U (S dim) = U (S dim2).
Proof. unfold expand_state. rewrite eqb_S0, Nat.eqb_refl. reflexivity. Qed.

Lemma expand_m dim dim2 U k : (k < dim)%nat ->
  expand_state dim dim2 U (S k) = if Nat.ltb k dim2 then U (S k) else 0.
Proof.
  intros H. unfold expand_state. rewrite eqb_S0.
  destruct (Nat.eqb_spec (S k) (S dim)); [lia|].
  destruct (Nat.leb_spec (S k) dim2), (Nat.ltb_spec k dim2); try lia; reflexivity.
Qed.

Lemma rsum_truncate f : forall n m, (m <= n)%nat ->
  rsum n (fun k => if Nat.ltb k m then f k else 0) = rsum m f.
Proof.
  induction n; intros m H.
  - replace m with 0%nat by lia. reflexivity.
  - simpl. destruct (Nat.eq_dec m (S n)) as [->|Hm].
    + simpl. replace (Nat.ltb n (S n)) with true by (symmetry; apply Nat.ltb_lt; lia). f_equal.
      apply rsum_ext. intros k Hk. replace (Nat.ltb k (S n)) with true by (symmetry; apply Nat.ltb_lt; lia). reflexivity.
    + replace (Nat.ltb n m) with false by (symmetry; apply Nat.ltb_ge; lia). rewrite IHn by lia. ring.
Qed.

Lemma expand_norm dim dim2 U : (dim2 <= dim)%nat ->
  norm2 dim (momentum (expand_state dim dim2 U)) = norm2 dim2 (momentum U).
Proof.
  intros H. unfold norm2, dot.
  rewrite <- (rsum_truncate (fun k => momentum U k * momentum U k) dim dim2 H).
  apply rsum_ext. intros k Hk. unfold momentum. rewrite expand_m by exact Hk.
  destruct (Nat.ltb k dim2); ring.
Qed.

Lemma expand_quantities s dim dim2 U : (dim2 <= dim)%nat ->
  let V := expand_state dim dim2 U in
  density V = density U /\ total_energy dim V = total_energy dim2 U /\
  internal_energy dim V = internal_energy dim2 U /\ pressure s dim V = pressure s dim2 U /\
  specific_entropy s dim V = specific_entropy s dim2 U.
Proof.
  intros H V.
  assert (D : density V = density U) by reflexivity.
  assert (E : total_energy dim V = total_energy dim2 U) by apply expand_E.
  assert (I : internal_energy dim V = internal_energy dim2 U)
    by (unfold internal_energy; rewrite D, E; unfold V; rewrite expand_norm by exact H; reflexivity).
  repeat split; try assumption.
  - unfold pressure. rewrite I. reflexivity.
  - unfold specific_entropy. rewrite I, D. reflexivity.
Qed.

(** initial states: primitive states of a lower dimension *)
Lemma initial_state s dim dim2 p : (dim2 <= dim)%nat -> gamma s <> 1 -> p 0%nat <> 0 ->
  let V := from_initial_state s dim dim2 p in
  density V = p 0%nat /\ pressure s dim V = p (S dim2) /\
  forall k, (k < dim)%nat -> momentum V k = p 0%nat * (if Nat.ltb k dim2 then p (S k) else 0).
Proof.
  intros H Hg Hr V. split; [|split].
  - unfold V, from_initial_state, density. rewrite from_prim_0. reflexivity.
  - unfold V, from_initial_state. rewrite from_prim_pressure by assumption. apply expand_E.
  - intros k Hk. unfold V, from_initial_state, momentum. rewrite from_prim_m by exact Hk.
    rewrite expand_m, expand_0 by exact Hk. ring.
Qed.

(** ** C32 *)

Section Slip.
Variables (s : euler) (dim : nat) (U n data : vec).
Hypothesis unit_normal : norm2 dim n = 1.

Let V := apply_boundary_conditions s dim slip U n data.

Lemma slip_0 : V 0%nat = U 0%nat. Proof. reflexivity. Qed.
Lemma slip_E : V (S dim) = U (S dim).
Proof. unfold V, apply_boundary_conditions. rewrite eqb_S0. destruct (Nat.leb_spec (S dim) dim); [lia|reflexivity]. Qed.
Lemma slip_m : veq dim (momentum V) (vsub (momentum U) (vscal (dot dim (momentum U) n) n)).
Proof.
  intros k Hk. unfold momentum at 1, V, apply_boundary_conditions. rewrite eqb_S0.
  destruct (Nat.leb_spec (S k) dim); [|lia]. unfold vsub, vscal. replace (S k - 1)%nat with k by lia. ring.
Qed.

Lemma slip_dot a : dot dim (momentum V) a = dot dim (momentum U) a - dot dim (momentum U) n * dot dim n a.
Proof.
  rewrite (dot_ext _ _ _ a a slip_m) by (intros ? ?; reflexivity).
  rewrite dot_sub_l, dot_scal_l. reflexivity.
Qed.

Lemma slip_norm : norm2 dim (momentum V) = norm2 dim (momentum U) - dot dim (momentum U) n * dot dim (momentum U) n.
Proof.
  assert (N : norm2 dim n = dot dim n n) by reflexivity. rewrite unit_normal in N.
  unfold norm2 at 1. rewrite slip_dot, (dot_comm dim (momentum U) (momentum V)), (dot_comm dim n (momentum V)), !slip_dot.
  rewrite <- N, (dot_comm dim n (momentum U)). unfold norm2. ring.
Qed.

Lemma slip_spec :
  density V = density U /\ total_energy dim V = total_energy dim U /\
  dot dim (momentum V) n = 0 /\
  (forall t, dot dim n t = 0 -> dot dim (momentum V) t = dot dim (momentum U) t) /\
  (0 < density U -> internal_energy dim U <= internal_energy dim V) /\
  (forall k, (k < dim + 2)%nat -> apply_boundary_conditions s dim slip V n data k = V k).
Proof.
  split; [exact slip_0|]. split; [exact slip_E|]. split; [|split; [|split]].
  - rewrite slip_dot. fold (norm2 dim n). rewrite unit_normal. ring.
  - intros t Ht. rewrite slip_dot, Ht. ring.
  - intros Hr. unfold internal_energy, total_energy, density in *. rewrite slip_0, slip_E, slip_norm.
    assert (X : 0 < 1 / U 0%nat) by (apply Rdiv_lt_0_compat; lra).
    assert (Y := Rle_0_sqr (dot dim (momentum U) n)). unfold Rsqr in Y. nra.
  - intros k Hk. unfold apply_boundary_conditions at 1.
    assert (Z : dot dim (momentum V) n = 0) by (rewrite slip_dot; fold (norm2 dim n); rewrite unit_normal; ring).
    rewrite Z. destruct k as [|k]; [reflexivity|]. rewrite eqb_S0.
    destruct (Nat.leb_spec (S k) dim); [|reflexivity].
    unfold vsub, vscal, momentum. replace (S k - 1)%nat with k by lia. ring.
Qed.

Let W := apply_boundary_conditions s dim no_slip U n data.

Lemma no_slip_m : veq dim (momentum W) (fun _ => 0).
Proof.
  intros k Hk. unfold momentum, W, apply_boundary_conditions. rewrite eqb_S0.
  destruct (Nat.leb_spec (S k) dim); [reflexivity|lia].
Qed.

Lemma no_slip_spec :
  density W = density U /\ total_energy dim W = total_energy dim U /\
  (forall k, (k < dim)%nat -> momentum W k = 0) /\
  (0 < density U -> internal_energy dim U <= internal_energy dim W) /\
  (forall k, (k < dim + 2)%nat -> apply_boundary_conditions s dim no_slip W n data k = W k).
Proof.
  split; [reflexivity|]. assert (E : W (S dim) = U (S dim)).
  { unfold W, apply_boundary_conditions. rewrite eqb_S0. destruct (Nat.leb_spec (S dim) dim); [lia|reflexivity]. }
  split; [exact E|]. split; [exact no_slip_m|split].
  - intros Hr. unfold internal_energy, total_energy, density in *. rewrite E.
    change (W 0%nat) with (U 0%nat).
    unfold norm2 at 2. rewrite (dot_ext _ _ _ _ _ no_slip_m no_slip_m).
    unfold dot at 1. rewrite (rsum_ext dim _ (fun _ => 0)) by (intros; ring). rewrite rsum_0.
    assert (X : 0 < 1 / U 0%nat) by (apply Rdiv_lt_0_compat; lra).
    assert (Y := norm2_nonneg dim (momentum U)). nra.
  - intros k Hk. unfold W, apply_boundary_conditions. destruct k as [|k]; [reflexivity|].
    destruct (Nat.eqb _ _); [reflexivity|]. destruct (Nat.leb _ _); reflexivity.
Qed.
End Slip.

Lemma admissible_iff s dim U : is_admissible s dim U = true <->
  0 < density U /\ 0 < internal_energy dim U /\ 0 < specific_entropy s dim U.
Proof.
  unfold is_admissible.
  destruct (Rgt_dec (density U) 0), (Rgt_dec (internal_energy dim U) 0), (Rgt_dec (specific_entropy s dim U) 0);
    match goal with |- context [Req_EM_T ?x 0] => destruct (Req_EM_T x 0) end;
    (split; [intros; try discriminate; try lra|intros (? & ? & ?); try reflexivity; try lra]).
Qed.

Lemma admissible_physical s dim U : is_admissible s dim U = true <-> 0 < density U /\ 0 < internal_energy dim U.
Proof.
  rewrite admissible_iff. split; [intros (A & B & _); split; assumption|].
  intros [A B]. repeat split; try assumption. unfold specific_entropy. apply Rmult_lt_0_compat; [exact B|].
  apply powr_gt0. apply Rdiv_lt_0_compat; lra.
Qed.

Lemma walls_admissible s dim id U n data : norm2 dim n = 1 -> id = slip \/ id = no_slip ->
  is_admissible s dim U = true -> is_admissible s dim (apply_boundary_conditions s dim id U n data) = true.
Proof.
  intros Hn Hid H. rewrite admissible_physical in H |- *. destruct H as [A B]. destruct Hid as [->| ->].
  - destruct (slip_spec s dim U n data Hn) as (D & _ & _ & _ & I & _). rewrite D. specialize (I A). lra.
  - destruct (no_slip_spec s dim U n data) as (D & _ & _ & I & _). rewrite D. specialize (I A). lra.
Qed.

(** ** C33 *)

Section Characteristic.
Variables (s : euler) (dim : nat) (n : vec).
Hypothesis unit_normal : norm2 dim n = 1.
Hypothesis gamma_gt : 1 < gamma s.

(** The common core: the new state for given invariants. *)
Definition core (R_1 R_2 : R) (U : vec) : vec :=
  let sc := isentropic s dim U in
  let vperp := vsub (vscal (1 / density U) (momentum U)) (vscal (normal_velocity dim n U) n) in
  let vn_new := 1 / 2 * (R_1 + R_2) in
  let x := (gamma s - 1) / 4 * (R_2 - R_1) in
  let rho_new := powr (1 / (gamma s * sc) * (x * x)) (1 / (gamma s - 1)) in
  let p_new := sc * powr rho_new (gamma s) in
  mkstate dim rho_new (fun d => rho_new * (vadd (vscal vn_new n) vperp) d)
    (p_new / (gamma s - 1) + 1 / 2 * rho_new * (vn_new * vn_new + norm2 dim vperp)).

Lemma prescribe_1 U U_bar : prescribe_riemann_characteristic s dim 1 U U_bar n =
  core (invariant_1 s dim n U_bar) (invariant_2 s dim n U) U.
Proof. reflexivity. Qed.

Lemma prescribe_2 U U_bar : prescribe_riemann_characteristic s dim 2 U U_bar n =
  core (invariant_1 s dim n U) (invariant_2 s dim n U_bar) U.
Proof. reflexivity. Qed.

Section Core.
Variables (R_1 R_2 : R) (U : vec).
Hypothesis rho_pos : 0 < density U.
Hypothesis p_pos : 0 < pressure s dim U.
Hypothesis gap : R_1 < R_2.

Let x := (gamma s - 1) / 4 * (R_2 - R_1).
Let sc := isentropic s dim U.
Let rho_new := powr (1 / (gamma s * sc) * (x * x)) (1 / (gamma s - 1)).
Let vperp := vsub (vscal (1 / density U) (momentum U)) (vscal (normal_velocity dim n U) n).
Let vn_new := 1 / 2 * (R_1 + R_2).

Lemma core_x : 0 < x. Proof. unfold x. apply Rmult_lt_0_compat; lra. Qed.
Lemma core_sc : 0 < sc.
Proof. unfold sc, isentropic. apply Rdiv_lt_0_compat; [exact p_pos|apply powr_gt0; exact rho_pos]. Qed.
Lemma core_base : 0 < 1 / (gamma s * sc) * (x * x).
Proof.
  assert (X := core_x). assert (Y := core_sc). apply Rmult_lt_0_compat; [apply Rdiv_lt_0_compat; [lra|]|];
    apply Rmult_lt_0_compat; lra.
Qed.
Lemma core_rho : 0 < rho_new. Proof. apply powr_gt0. exact core_base. Qed.

(** gamma p_new / rho_new = x^2 *)
Lemma core_rho_pow : gamma s * sc * powr rho_new (gamma s - 1) = x * x.
Proof.
  unfold rho_new. rewrite powr_mult by exact core_base.
  replace (1 / (gamma s - 1) * (gamma s - 1)) with 1 by (field; lra).
  rewrite powr_1 by exact core_base. assert (Y := core_sc). field. lra.
Qed.

Lemma core_density : density (core R_1 R_2 U) = rho_new. Proof. reflexivity. Qed.

Lemma core_momentum : veq dim (momentum (core R_1 R_2 U)) (vscal rho_new (vadd (vscal vn_new n) vperp)).
Proof. intros k Hk. unfold momentum at 1, core. rewrite mkstate_m by exact Hk. reflexivity. Qed.

Lemma core_perp : dot dim vperp n = 0.
Proof.
  unfold vperp. rewrite dot_sub_l, !dot_scal_l. fold (norm2 dim n). rewrite unit_normal.
  unfold normal_velocity. field. lra.
Qed.

Lemma core_vn : normal_velocity dim n (core R_1 R_2 U) = vn_new.
Proof.
  unfold normal_velocity. rewrite core_density.
  rewrite (dot_ext _ _ _ n n core_momentum) by (intros ? ?; reflexivity).
  rewrite dot_scal_l, dot_add_l, dot_scal_l, core_perp. fold (norm2 dim n). rewrite unit_normal.
  assert (X := core_rho). field. lra.
Qed.

Lemma core_pressure : pressure s dim (core R_1 R_2 U) = sc * powr rho_new (gamma s).
Proof.
  unfold pressure, internal_energy, total_energy. rewrite core_density.
  unfold core at 1. rewrite mkstate_E. fold sc x rho_new vn_new vperp.
  unfold norm2 at 2. rewrite (dot_ext _ _ _ _ _ core_momentum core_momentum).
  fold (norm2 dim (vscal rho_new (vadd (vscal vn_new n) vperp))).
  rewrite norm2_scal, norm2_add, norm2_scal, unit_normal, dot_scal_l, (dot_comm dim n), core_perp.
  assert (X := core_rho). field. lra.
Qed.

Lemma core_sound : speed_of_sound s dim (core R_1 R_2 U) = x.
Proof.
  unfold speed_of_sound. rewrite core_pressure, core_density.
  assert (X := core_rho).
  replace (gamma s * (sc * powr rho_new (gamma s)) * (1 / rho_new)) with (x * x).
  - apply sqrt_square. left. exact core_x.
  - rewrite <- core_rho_pow. replace (gamma s) with (gamma s - 1 + 1) at 4 by ring.
    rewrite powr_plus, powr_1 by exact X. field. lra.
Qed.

Lemma core_spec :
  let V := core R_1 R_2 U in
  0 < density V /\ 0 < pressure s dim V /\
  invariant_1 s dim n V = R_1 /\ invariant_2 s dim n V = R_2 /\
  isentropic s dim V = isentropic s dim U /\
  (forall t, dot dim n t = 0 -> dot dim (momentum V) t / density V = dot dim (momentum U) t / density U).
Proof.
  intros V. assert (X := core_rho). assert (Y := core_sc).
  split; [exact X|]. split; [|split; [|split; [|split]]].
  - unfold V. rewrite core_pressure. apply Rmult_lt_0_compat; [exact Y|apply powr_gt0; exact X].
  - unfold invariant_1, V. rewrite core_vn, core_sound. unfold vn_new, x. field. lra.
  - unfold invariant_2, V. rewrite core_vn, core_sound. unfold vn_new, x. field. lra.
  - unfold isentropic at 1, V. rewrite core_pressure, core_density. fold sc.
    assert (Z := powr_gt0 rho_new (gamma s) X). field. lra.
  - intros t Ht. unfold V. rewrite core_density.
    rewrite (dot_ext _ _ _ t t core_momentum) by (intros ? ?; reflexivity).
    unfold vperp. rewrite dot_scal_l, dot_add_l, dot_scal_l, dot_sub_l, !dot_scal_l, Ht. field. lra.
Qed.
End Core.

(** The core with the invariants of the state itself. *)
Lemma core_same U : 0 < density U -> 0 < pressure s dim U ->
  forall k, (k < dim + 2)%nat -> core (invariant_1 s dim n U) (invariant_2 s dim n U) U k = U k.
Proof.
  intros Hr Hp.
  assert (A : 0 < speed_of_sound s dim U).
  { unfold speed_of_sound. apply sqrt_lt_R0.
    assert (0 < 1 / density U) by (apply Rdiv_lt_0_compat; lra).
    apply Rmult_lt_0_compat; [apply Rmult_lt_0_compat; lra|assumption]. }
  set (a := speed_of_sound s dim U) in *.
  assert (E1 : (gamma s - 1) / 4 * (invariant_2 s dim n U - invariant_1 s dim n U) = a)
    by (unfold invariant_1, invariant_2; fold a; field; lra).
  assert (E2 : 1 / 2 * (invariant_1 s dim n U + invariant_2 s dim n U) = normal_velocity dim n U)
    by (unfold invariant_1, invariant_2; fold a; field; lra).
  assert (Aa : a * a = gamma s * pressure s dim U * (1 / density U)).
  { unfold a, speed_of_sound. apply sqrt_sqrt.
    assert (0 < 1 / density U) by (apply Rdiv_lt_0_compat; lra).
    left. apply Rmult_lt_0_compat; [apply Rmult_lt_0_compat; lra|assumption]. }
  assert (Hpw : 0 < powr (density U) (gamma s)) by (apply powr_gt0; exact Hr).
  assert (E3 : powr (1 / (gamma s * isentropic s dim U) * (a * a)) (1 / (gamma s - 1)) = density U).
  { rewrite Aa. unfold isentropic.
    replace (1 / (gamma s * (pressure s dim U / powr (density U) (gamma s))) *
             (gamma s * pressure s dim U * (1 / density U)))
      with (powr (density U) (gamma s - 1)).
    - rewrite powr_mult by exact Hr. replace ((gamma s - 1) * (1 / (gamma s - 1))) with 1 by (field; lra).
      apply powr_1. exact Hr.
    - replace (gamma s) with (gamma s - 1 + 1) at 3 by ring. rewrite powr_plus, powr_1 by exact Hr.
      field. repeat split; try lra. apply Rgt_not_eq. apply powr_gt0. exact Hr. }
  intros k Hk. unfold core. rewrite E1, E2, E3.
  assert (E4 : isentropic s dim U * powr (density U) (gamma s) = pressure s dim U)
    by (unfold isentropic; field; lra).
  rewrite E4.
  set (vperp := vsub (vscal (1 / density U) (momentum U)) (vscal (normal_velocity dim n U) n)).
  destruct k as [|k]; [reflexivity|].
  destruct (Nat.eq_dec k dim) as [->|Hkd].
  - rewrite mkstate_E.
    assert (P0 := core_perp U Hr). fold vperp in P0.
    assert (N : norm2 dim (vscal (1 / density U) (momentum U)) =
       normal_velocity dim n U * normal_velocity dim n U + norm2 dim vperp).
    { replace (norm2 dim (vscal (1 / density U) (momentum U)))
        with (norm2 dim (vadd (vscal (normal_velocity dim n U) n) vperp)).
      - rewrite norm2_add, norm2_scal, unit_normal, dot_scal_l, (dot_comm dim n), P0. ring.
      - unfold norm2. apply dot_ext; intros j Hj; unfold vperp, vadd, vsub, vscal; ring. }
    rewrite norm2_scal in N. rewrite <- N.
    unfold pressure, internal_energy, total_energy. field. split; [lra|]. unfold density in *. lra.
  - rewrite mkstate_m by lia. unfold vperp, vadd, vsub, vscal, momentum. field. lra.
Qed.
End Characteristic.

Lemma dynamic_consistent s dim U n : 1 < gamma s -> norm2 dim n = 1 -> 0 < density U -> 0 < pressure s dim U ->
  forall k, (k < dim + 2)%nat -> apply_boundary_conditions s dim dynamic U n U k = U k.
Proof.
  intros Hg Hn Hr Hp k Hk. unfold apply_boundary_conditions.
  rewrite prescribe_1, prescribe_2. assert (X := core_same s dim n Hn Hg U Hr Hp k Hk).
  repeat match goal with |- context [if ?d then _ else _] => destruct d end; try exact X; reflexivity.
Qed.

Lemma dynamic_regimes s dim U n data : 1 < gamma s -> norm2 dim n = 1 -> 0 <= speed_of_sound s dim U ->
  let a := speed_of_sound s dim U in let vn := normal_velocity dim n U in
  let V := apply_boundary_conditions s dim dynamic U n data in
  (vn < - a -> V = data) /\ (a < vn -> V = U) /\
  (- a <= vn <= 0 -> V = core s dim n (invariant_1 s dim n data) (invariant_2 s dim n U) data) /\
  (0 < vn <= a -> V = core s dim n (invariant_1 s dim n data) (invariant_2 s dim n U) U).
Proof.
  intros Hg Hn Ha a vn V.
  unfold V, apply_boundary_conditions. rewrite prescribe_1, prescribe_2.
  change (dot dim (momentum U) n / density U) with vn. fold a. fold a in Ha.
  repeat split; intros; repeat match goal with |- context [if ?d then _ else _] => destruct d end; try lra; reflexivity.
Qed.

(** ** C34 *)

Lemma galilei_0 dim U lambda : apply_galilei_transform dim U lambda 0%nat = U 0%nat.
Proof. reflexivity. Qed.
Lemma galilei_m dim U lambda : veq dim (momentum (apply_galilei_transform dim U lambda)) (lambda (momentum U)).
Proof.
  intros k Hk. unfold momentum at 1, apply_galilei_transform. rewrite eqb_S0.
  destruct (Nat.leb_spec (S k) dim); [|lia]. f_equal. lia.
Qed.
Lemma galilei_E dim U lambda : apply_galilei_transform dim U lambda (S dim) = U (S dim).
Proof. unfold apply_galilei_transform. rewrite eqb_S0. destruct (Nat.leb_spec (S dim) dim); [lia|reflexivity]. Qed.

Lemma galilei_norm dim U lambda : isometry dim lambda ->
  norm2 dim (momentum (apply_galilei_transform dim U lambda)) = norm2 dim (momentum U).
Proof.
  intros (_ & _ & H). unfold norm2. rewrite (dot_ext _ _ _ _ _ (galilei_m dim U lambda) (galilei_m dim U lambda)).
  apply H.
Qed.

Lemma galilei_thermo s dim U lambda : isometry dim lambda ->
  let V := apply_galilei_transform dim U lambda in
  density V = density U /\ internal_energy dim V = internal_energy dim U /\ pressure s dim V = pressure s dim U.
Proof.
  intros H V.
  assert (I : internal_energy dim V = internal_energy dim U).
  { unfold internal_energy, V. rewrite galilei_norm by exact H. unfold total_energy, density.
    rewrite galilei_E, galilei_0. reflexivity. }
  split; [reflexivity|]. split; [exact I|]. unfold pressure. rewrite I. reflexivity.
Qed.

(** The flux in direction c in terms of the usual quantities. *)
Lemma dot_unit_row dim x c j : (j < dim)%nat -> rsum dim (fun l => (if Nat.eqb l j then x else 0) * c l) = x * c j.
Proof.
  intros H. induction dim; [lia|]. simpl.
  destruct (Nat.eq_dec j dim) as [->|Hj].
  - rewrite Nat.eqb_refl. rewrite (rsum_ext dim _ (fun _ => 0)).
    + rewrite rsum_0. ring.
    + intros k Hk. destruct (Nat.eqb_spec k dim); [lia|ring].
  - rewrite IHdim by lia. destruct (Nat.eqb_spec dim j); [lia|ring].
Qed.

Lemma flux_direction s dim U c :
  dot dim (flux s dim U 0%nat) c = dot dim (momentum U) c /\
  (forall k, (k < dim)%nat -> dot dim (flux s dim U (S k)) c =
     momentum U k * (1 / density U) * dot dim (momentum U) c + pressure s dim U * c k) /\
  dot dim (flux s dim U (S dim)) c =
     1 / density U * (total_energy dim U + pressure s dim U) * dot dim (momentum U) c.
Proof.
  split; [reflexivity|split].
  - intros k Hk. unfold flux. rewrite eqb_S0. destruct (Nat.eqb_spec (S k) (S dim)); [lia|].
    unfold dot at 1. replace (S k - 1)%nat with k by lia.
    rewrite (rsum_ext dim _ (fun l => vscal (momentum U k * (1 / density U)) (momentum U) l * c l +
       (if Nat.eqb l k then pressure s dim U else 0) * c l)) by (intros; ring).
    rewrite rsum_plus, dot_unit_row by exact Hk. fold (dot dim (vscal (momentum U k * (1 / density U)) (momentum U)) c).
    rewrite dot_scal_l. reflexivity.
  - unfold flux. rewrite eqb_S0, Nat.eqb_refl, dot_scal_l. reflexivity.
Qed.

(** In terms of the primitive variables (rho, u, p). *)
Lemma flux_primitive s dim p c : gamma s <> 1 -> p 0%nat <> 0 ->
  let U := from_primitive_state s dim p in
  let rho := p 0%nat in let u := momentum p in let pr := p (S dim) in
  let un := dot dim u c in
  dot dim (flux s dim U 0%nat) c = rho * un /\
  (forall k, (k < dim)%nat -> dot dim (flux s dim U (S k)) c = rho * un * u k + pr * c k) /\
  dot dim (flux s dim U (S dim)) c = un * (total_energy dim U + pr).
Proof.
  intros Hg Hr U rho u pr un.
  destruct (flux_direction s dim U c) as (A & B & C).
  assert (M : dot dim (momentum U) c = rho * un).
  { unfold U. rewrite (dot_ext _ _ _ c c (from_prim_momentum s dim p)) by (intros ? ?; reflexivity). rewrite dot_scal_l. reflexivity. }
  assert (P : pressure s dim U = pr) by (apply from_prim_pressure; assumption).
  assert (D : density U = rho) by apply from_prim_0.
  split; [rewrite A; exact M|split].
  - intros k Hk. rewrite B, M, P, D by exact Hk. unfold momentum at 1, U. rewrite from_prim_m by exact Hk.
    unfold u, rho, momentum. field. exact Hr.
  - rewrite C, M, P, D. field. exact Hr.
Qed.

Lemma flux_covariant s dim U lambda c : isometry dim lambda ->
  let V := apply_galilei_transform dim U lambda in
  forall k, (k < dim + 2)%nat ->
  contract dim (flux s dim V) (lambda c) k = apply_galilei_transform dim (contract dim (flux s dim U) c) lambda k.
Proof.
  intros H V k Hk.
  destruct (flux_direction s dim V (lambda c)) as (A & B & C).
  destruct (flux_direction s dim U c) as (A' & B' & C').
  destruct (galilei_thermo s dim U lambda H) as (D & _ & P). fold V in D, P.
  assert (M : dot dim (momentum V) (lambda c) = dot dim (momentum U) c).
  { unfold V. rewrite (dot_ext _ _ _ (lambda c) (lambda c) (galilei_m dim U lambda)) by (intros ? ?; reflexivity). apply H. }
  unfold contract. destruct k as [|k].
  - rewrite A, M. reflexivity.
  - destruct (Nat.eq_dec k dim) as [->|Hkd].
    + rewrite C, galilei_E, C', M, D, P. unfold V, total_energy. rewrite galilei_E. reflexivity.
    + rewrite B by lia. rewrite M, D, P.
      assert (G := galilei_m dim (contract dim (flux s dim U) c) lambda k ltac:(lia)).
      unfold momentum at 1, contract in G. rewrite G. clear G.
      assert (G := galilei_m dim U lambda k ltac:(lia)). fold V in G. rewrite G. clear G.
      destruct H as (L1 & L2 & L3).
      set (w := momentum (fun k => dot dim (flux s dim U k) c)).
      set (a := 1 / density U * dot dim (momentum U) c).
      assert (W : veq dim w (vadd (vscal a (momentum U)) (vscal (pressure s dim U) c))).
      { intros j Hj. unfold w, momentum at 1. rewrite B' by exact Hj. unfold vadd, vscal, a. ring. }
      (* an isometry only depends on the components *)
      assert (Ext : lambda w k = lambda (vadd (vscal a (momentum U)) (vscal (pressure s dim U) c)) k).
      { set (w' := vadd (vscal a (momentum U)) (vscal (pressure s dim U) c)) in *.
        assert (N : norm2 dim (lambda (vadd w (vscal (-1) w'))) = 0).
        { unfold norm2. rewrite L3.
          rewrite (dot_ext dim _ (fun _ => 0) _ (fun _ => 0)).
          - unfold dot. rewrite (rsum_ext dim _ (fun _ => 0)) by (intros; ring). apply rsum_0.
          - intros j Hj. unfold vadd, vscal. rewrite W by exact Hj. fold w'. unfold w'. unfold vadd, vscal. ring.
          - intros j Hj. unfold vadd, vscal. rewrite W by exact Hj. fold w'. unfold w'. unfold vadd, vscal. ring. }
        assert (Z : lambda (vadd w (vscal (-1) w')) k = 0).
        { assert (Sq : forall d v j, norm2 d v = 0 -> (j < d)%nat -> v j = 0).
          { clear. induction d; intros v j Hn Hj; [lia|].
            unfold norm2, dot in Hn. simpl in Hn.
            assert (A := norm2_nonneg d v). unfold norm2, dot in A. assert (B := Rle_0_sqr (v d)). unfold Rsqr in B.
            destruct (Nat.eq_dec j d) as [->|Hjd].
            - assert (E : v d * v d = 0) by lra. apply Rmult_integral in E. destruct E; assumption.
            - apply IHd; [unfold norm2, dot; lra|lia]. }
          apply (Sq dim); [exact N|lia]. }
        rewrite L1, L2 in Z by lia. lra. }
      rewrite Ext, L1, !L2 by lia. unfold a. ring.
Qed.

Lemma flux_divergence_antisymmetric dim f_i f_j c k :
  flux_divergence dim f_j f_i (vscal (-1) c) k = - flux_divergence dim f_i f_j c k.
Proof.
  unfold flux_divergence, contract. rewrite dot_scal_r. unfold fadd. rewrite !dot_add_l. ring.
Qed.

Lemma flux_divergence_consistent dim f c k :
  flux_divergence dim f f c k = - 2 * contract dim f c k.
Proof. unfold flux_divergence, contract, fadd. rewrite dot_add_l. ring. Qed.

(** ** C35 *)

Lemma line_rho U P t : density (line U P t) = density U + t * density P.
Proof. reflexivity. Qed.
Lemma line_E dim U P t : total_energy dim (line U P t) = total_energy dim U + t * total_energy dim P.
Proof. reflexivity. Qed.
Lemma line_m U P t : momentum (line U P t) = vadd (momentum U) (vscal t (momentum P)).
Proof. reflexivity. Qed.

(** rho^2 e along a line *)
Lemma rho_rho_e_deriv dim U P :
  derivable_pt_lim (fun t => density (line U P t) * total_energy dim (line U P t) - 1 / 2 * norm2 dim (momentum (line U P t)))
    0 (density U * total_energy dim P + density P * total_energy dim U - dot dim (momentum U) (momentum P)).
Proof.
  eapply deriv_transfer; [| |apply (quad_deriv (density U * total_energy dim U - 1 / 2 * norm2 dim (momentum U))
     (density U * total_energy dim P + density P * total_energy dim U - dot dim (momentum U) (momentum P))
     (density P * total_energy dim P - 1 / 2 * norm2 dim (momentum P)))].
  - intros t. rewrite line_rho, line_E, line_m, norm2_line. field.
  - ring.
Qed.

Lemma harten_deriv s dim U P : 0 < gamma s + 1 ->
  0 < density U * total_energy dim U - 1 / 2 * norm2 dim (momentum U) ->
  derivable_pt_lim (fun t => harten_entropy s dim (line U P t)) 0 (dot (dim + 2) (harten_entropy_derivative s dim U) P).
Proof.
  intros Hg Hq. unfold harten_entropy.
  set (q := fun t => density (line U P t) * total_energy dim (line U P t) - 1 / 2 * norm2 dim (momentum (line U P t))).
  assert (Q0 : q 0 = density U * total_energy dim U - 1 / 2 * norm2 dim (momentum U))
    by (unfold q; rewrite line_rho, line_E, line_m, norm2_line; ring).
  assert (D := powr_comp_deriv q 0 _ (1 / (gamma s + 1)) ltac:(rewrite Q0; exact Hq) (rho_rho_e_deriv dim U P)).
  rewrite Q0 in D.
  eapply deriv_transfer; [intros t; reflexivity| |exact D].
  unfold harten_entropy_derivative. rewrite dot_mkstate.
  replace (1 / (gamma s + 1) - 1) with (- gamma s * (1 / (gamma s + 1))) by (field; lra).
  set (f := 1 / (gamma s + 1) * powr _ _).
  replace (fun i => - f * momentum U i) with (vscal (- f) (momentum U)) by reflexivity.
  rewrite dot_scal_l. unfold density, total_energy. change (fun k => P (S k)) with (momentum P). ring.
Qed.

Lemma internal_energy_deriv dim U P : 0 < density U ->
  derivable_pt_lim (fun t => internal_energy dim (line U P t)) 0 (dot (dim + 2) (internal_energy_derivative dim U) P).
Proof.
  intros Hr. unfold internal_energy.
  assert (D1 : derivable_pt_lim (fun t => 1 / density (line U P t)) 0 (- density P / (density U * density U))).
  { assert (X := inv_comp_deriv (fun t => density U + t * density P) 0 (density P)).
    cbv beta in X. replace (density U + 0 * density P) with (density U) in X by ring.
    apply X; [lra|apply affine_deriv]. }
  assert (D2 : derivable_pt_lim (fun t => 1 / 2 * norm2 dim (momentum (line U P t))) 0 (dot dim (momentum U) (momentum P))).
  { eapply deriv_transfer; [| |apply (quad_deriv (1 / 2 * norm2 dim (momentum U))
       (dot dim (momentum U) (momentum P)) (1 / 2 * norm2 dim (momentum P)))].
    - intros t. rewrite line_m, norm2_line. field.
    - ring. }
  assert (D := derivable_pt_lim_minus _ _ _ _ _
     (affine_deriv (total_energy dim U) (total_energy dim P) 0)
     (derivable_pt_lim_mult _ _ _ _ _ D2 D1)).
  eapply deriv_transfer; [| |exact D].
  - intros t. unfold minus_fct, mult_fct. rewrite line_E. reflexivity.
  - cbv beta. rewrite line_rho, line_m, norm2_line.
    unfold internal_energy_derivative. rewrite dot_mkstate.
    replace (fun i => - vscal (1 / density U) (momentum U) i) with (vscal (-1) (vscal (1 / density U) (momentum U)))
      by (apply FunctionalExtensionality.functional_extensionality; intros; unfold vscal; ring).
    rewrite !dot_scal_l, norm2_scal. change (fun k => P (S k)) with (momentum P).
    change (P 0%nat) with (density P). change (P (S dim)) with (total_energy dim P). field_simplify; [|lra|lra].
    field. lra.
Qed.

Lemma mathematical_deriv s dim U P : 0 < gamma s -> 0 < density U -> 0 < pressure s dim U ->
  derivable_pt_lim (fun t => mathematical_entropy s dim (line U P t)) 0
    (dot (dim + 2) (mathematical_entropy_derivative s dim U) P).
Proof.
  intros Hg Hr Hp. unfold mathematical_entropy.
  assert (L0 : line U P 0 = U) by (apply FunctionalExtensionality.functional_extensionality; intros; unfold line, vadd, vscal; ring).
  assert (D1 : derivable_pt_lim (fun t => pressure s dim (line U P t)) 0
     ((gamma s - 1) * dot (dim + 2) (internal_energy_derivative dim U) P)).
  { unfold pressure. apply (derivable_pt_lim_scal (fun t => internal_energy dim (line U P t))).
    apply internal_energy_deriv. exact Hr. }
  assert (D := powr_comp_deriv (fun t => pressure s dim (line U P t)) 0 _ (1 / gamma s)
    ltac:(cbv beta; rewrite L0; exact Hp) D1).
  eapply deriv_transfer; [intros t; reflexivity| |exact D]. cbv beta. rewrite L0.
  unfold mathematical_entropy_derivative, internal_energy_derivative. rewrite !dot_mkstate.
  set (u := vscal (1 / density U) (momentum U)). set (f := powr _ _).
  replace (fun i => - u i) with (vscal (-1) u) by (apply FunctionalExtensionality.functional_extensionality; intros; unfold vscal; ring).
  replace (fun i => - ((gamma s - 1) * (1 / gamma s) * f) * u i) with (vscal (- ((gamma s - 1) * (1 / gamma s) * f)) u) by reflexivity.
  rewrite !dot_scal_l. ring.
Qed.
