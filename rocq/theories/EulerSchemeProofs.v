(** * Euler scheme: conservation, positivity of the low-order update *)
From Coq Require Import Reals List Arith Bool Lia Lra Psatz FunctionalExtensionality.
From Verif Require Import RVec Simd Newton EulerSystem EulerLimiter EulerLimiterSpec EulerLimiterProofs EulerLimiterEntropy EulerLimiterBounds
  PhysSpec PhysLib EulerRiemann EulerRiemannSpec EulerRiemannProofs EulerRiemannFinal EulerSpeed Indicator SWScheme
  EulerScheme EulerSchemeSpec SchemeSpec SchemeProofs SchemeUpdate SchemeLimit SchemeFinal.
From Verif Require Import Scheme.
Import ListNotations.
Local Open Scope R_scope.

(** ** Sums *)

Lemma lsum_seq f n : lsum f (seq 0 n) = rsum n f.
Proof.
  induction n as [|n IH]; [reflexivity|]. rewrite seq_S, Nat.add_0_l. cbn [rsum].
  rewrite <- IH. generalize (seq 0 n). induction l as [|x l IHl]; simpl; [ring|rewrite IHl; ring].
Qed.

Lemma dotp_dot dim f c : dotp dim f c = dot dim f (vec_of c).
Proof. unfold dotp. rewrite lsum_seq. reflexivity. Qed.

Lemma unit_dot dim n : unit_vector dim n -> dot dim (vec_of n) (vec_of n) = 1.
Proof.
  intros [H L]. unfold cnorm in H.
  assert (E : fold_right (fun x s => x * x + s) 0 n = dot dim (vec_of n) (vec_of n)).
  { clear H. unfold dot. rewrite <- lsum_seq. subst dim. induction n as [|x n IH]; [reflexivity|].
    cbn [fold_right length seq lsum]. rewrite <- seq_shift. f_equal. rewrite IH.
    generalize (seq 0 (length n)). induction l as [|y l IHl]; simpl; [reflexivity|]. rewrite IHl. reflexivity. }
  rewrite <- E. assert (P : 0 <= fold_right (fun x s => x * x + s) 0 n) by apply squares_nonneg.
  rewrite <- (sqrt_sqrt _ P), H. ring.
Qed.

Lemma positive_gas_eq dim u : positive_gas dim u <-> (0 < density u /\ 0 < internal_energy dim u).
Proof.
  unfold positive_gas, internal_energy, density, total_energy, norm2, dot. rewrite lsum_seq.
  split; intros [A B]; (split; [exact A|]);
    replace (u (Datatypes.S dim) - 1 / 2 * rsum dim (fun k => momentum u k * momentum u k) * (1 / u 0%nat))
      with (u (Datatypes.S dim) - rsum dim (fun k => u (Datatypes.S k) * u (Datatypes.S k)) / (2 * u 0%nat)) in *
    by (unfold momentum; field; lra); exact B.
Qed.

(** ** The interface *)

Section Interface.
Variables (p : eparameters) (dim : nat).
Local Notation s := (ep_system p).
Local Notation SY := (euler_scheme p dim).

Definition e_F (a : FC nat SY) (k x : nat) : R := a k x.

Lemma euler_central : central_flux SY dim e_F.
Proof.
  intros a b c k. rewrite !dotp_dot. cbn [flux_divergence euler_scheme].
  unfold EulerSystem.flux_divergence, contract, fadd, e_F. rewrite dot_add_l. reflexivity.
Qed.

Lemma euler_plain : plain SY.
Proof. split; reflexivity. Qed.

Lemma euler_nonneg : nonneg_riemann SY.
Proof. intros pc u v i j n. apply er_wavespeed_nonneg. Qed.

Lemma gas_pressure u : 1 < gamma s -> positive_gas dim u -> 0 < density u /\ 0 < pressure s dim u.
Proof.
  intros Hg H. apply positive_gas_eq in H. destruct H as [A B]. split; [exact A|].
  unfold pressure. apply Rmult_lt_0_compat; lra.
Qed.

Lemma euler_symmetric M old : 1 < gamma s -> symmetric_pattern M -> mesh_dimension M dim ->
  (forall i, active M i -> positive_gas dim (fst old i)) -> symmetric_riemann SY M old.
Proof.
  intros Hg H HD HU i j Hi Hj Hc n. cbn [riemann_compute euler_scheme].
  pose proof (cols_active M i j H Hi Hj) as Hjb.
  destruct (gas_pressure _ Hg (HU i Hi)) as [A1 A2]. destruct (gas_pressure _ Hg (HU j Hjb)) as [B1 B2].
  assert (Hn : unit_vector dim n).
  { split.
    - apply cnorm_cdiv. pose proof (cnorm_nonneg (c_ij M i j)). lra.
    - unfold n, cdiv. rewrite map_length. apply HD; [apply Hi|assumption]. }
  rewrite <- (er_wavespeed_symmetric s _ _ _ dim (fst old i) (fst old j) (vec_of n) Hg (unit_dot _ _ Hn) A1 A2 B1 B2).
  f_equal. apply functional_extensionality. intros k. unfold vec_of. symmetry. apply nth_neg.
Qed.

(** ** Positivity is a convex property *)

Lemma energy_concave u v a : 0 < density u -> 0 < density v -> 0 <= a <= 1 ->
  a * internal_energy dim u + (1 - a) * internal_energy dim v <=
  internal_energy dim (fun k => a * u k + (1 - a) * v k).
Proof.
  intros Hu Hv Ha. set (w := fun k => a * u k + (1 - a) * v k).
  assert (Hw : 0 < density w).
  { unfold density, w in *.
    destruct (Rle_lt_dec a (1 / 2)); [assert (0 <= a * u 0%nat) by (apply Rmult_le_pos; lra); assert (0 < (1 - a) * v 0%nat) by (apply Rmult_lt_0_compat; lra); lra|].
    assert (0 < a * u 0%nat) by (apply Rmult_lt_0_compat; lra). assert (0 <= (1 - a) * v 0%nat) by (apply Rmult_le_pos; lra). lra. }
  pose proof (internal_energy_tangent dim w u Hw Hu) as T1. pose proof (internal_energy_tangent dim w v Hw Hv) as T2.
  apply Rmult_le_compat_l with (r := a) in T1; [|lra]. apply Rmult_le_compat_l with (r := 1 - a) in T2; [|lra].
  set (D := internal_energy_derivative dim w) in *.
  assert (E : a * dot (dim + 2) D (vsub u w) + (1 - a) * dot (dim + 2) D (vsub v w) = 0).
  { rewrite !dot_sub_r. assert (X : dot (dim + 2) D w = a * dot (dim + 2) D u + (1 - a) * dot (dim + 2) D v).
    { unfold w. rewrite <- !dot_scal_r, <- dot_add_r. reflexivity. }
    rewrite X. ring. }
  lra.
Qed.

Lemma mix_pos a x y : 0 <= a <= 1 -> 0 < x -> 0 < y -> 0 < a * x + (1 - a) * y.
Proof.
  intros Ha Hx Hy. destruct (Rle_lt_dec a (1 / 2)).
  - assert (0 <= a * x) by (apply Rmult_le_pos; lra). assert (0 < (1 - a) * y) by (apply Rmult_lt_0_compat; lra). lra.
  - assert (0 < a * x) by (apply Rmult_lt_0_compat; lra). assert (0 <= (1 - a) * y) by (apply Rmult_le_pos; lra). lra.
Qed.

Lemma positive_convex : convex_set (positive_gas dim).
Proof.
  intros u v a Hu Hv Ha. apply positive_gas_eq in Hu. apply positive_gas_eq in Hv. apply positive_gas_eq.
  destruct Hu as [A B], Hv as [C D]. split.
  - apply mix_pos; assumption.
  - eapply Rlt_le_trans; [|apply energy_concave; assumption]. apply mix_pos; assumption.
Qed.

(** ** Half of the bar state: u + F(u) n / lambda *)

Lemma rsum_delta n f j : rsum n (fun l => (if Nat.eqb l j then 1 else 0) * f l) = if Nat.ltb j n then f j else 0.
Proof.
  induction n as [|n IH]; [reflexivity|]. cbn [rsum]. rewrite IH.
  destruct (Nat.ltb_spec j n); destruct (Nat.ltb_spec j (Datatypes.S n)); destruct (Nat.eqb_spec n j); try lia; subst; ring.
Qed.

Lemma flux_normal u n k : 0 < density u -> dot dim (EulerSystem.flux s dim u k) n =
  let vn := dot dim (momentum u) n / density u in
  if Nat.eqb k 0 then density u * vn
  else if Nat.eqb k (Datatypes.S dim) then (total_energy dim u + pressure s dim u) * vn
  else momentum u (k - 1)%nat * vn + pressure s dim u * (if Nat.ltb (k - 1) dim then n (k - 1)%nat else 0).
Proof.
  intros Hr. cbv zeta. unfold EulerSystem.flux. destruct (Nat.eqb_spec k 0).
  { field. lra. }
  destruct (Nat.eqb_spec k (Datatypes.S dim)).
  { rewrite dot_scal_l. field. lra. }
  rewrite <- (rsum_delta dim n (k - 1)), <- rsum_scal.
  unfold dot, vscal.
  rewrite (rsum_ext dim _ (fun l => momentum u (k - 1)%nat * (1 / density u) * (momentum u l * n l) + pressure s dim u * ((if Nat.eqb l (k - 1) then 1 else 0) * n l))).
  - rewrite rsum_plus, rsum_scal. field. lra.
  - intros l _. destruct (Nat.eqb l (k - 1)); ring.
Qed.

Lemma half_state u n x : 1 < gamma s -> positive_gas dim u -> dot dim n n = 1 -> x <> 0 ->
  speed_of_sound s dim u * Rabs x <= 1 + x * (dot dim (momentum u) n / density u) ->
  positive_gas dim (fun k => u k + x * dot dim (EulerSystem.flux s dim u k) n).
Proof.
  intros Hg Hu Hn Hx HK. destruct (gas_pressure u Hg Hu) as [Hr Hp].
  apply positive_gas_eq in Hu. destruct Hu as [_ He].
  set (vn := dot dim (momentum u) n / density u) in *. set (K := 1 + x * vn) in *.
  set (w := fun k => u k + x * dot dim (EulerSystem.flux s dim u k) n).
  assert (Ha : 0 < speed_of_sound s dim u).
  { rewrite speed_of_sound_eq by exact Hr. apply sound_pos; assumption. }
  assert (Hax : 0 < Rabs x) by (apply Rabs_pos_lt; exact Hx).
  assert (Pax : 0 < speed_of_sound s dim u * Rabs x) by (apply Rmult_lt_0_compat; assumption).
  assert (HKp : 0 < K) by lra.
  assert (W0 : density w = density u * K).
  { unfold density at 1. unfold w. rewrite flux_normal by exact Hr. fold vn. cbn [Nat.eqb]. unfold K, density. ring. }
  assert (WE : total_energy dim w = K * total_energy dim u + x * pressure s dim u * vn).
  { unfold total_energy at 1. unfold w. rewrite flux_normal by exact Hr. fold vn. cbn [Nat.eqb]. rewrite Nat.eqb_refl.
    unfold K, total_energy. ring. }
  assert (WM : norm2 dim (momentum w) = K * K * norm2 dim (momentum u) + 2 * K * (x * pressure s dim u) * (density u * vn)
                + x * pressure s dim u * (x * pressure s dim u)).
  { replace (density u * vn) with (dot dim (momentum u) n) by (unfold vn; field; lra).
    transitivity (norm2 dim (vadd (vscal K (momentum u)) (vscal (x * pressure s dim u) n))).
    - unfold norm2, dot. apply rsum_ext. intros k Hk.
      assert (E : momentum w k = vadd (vscal K (momentum u)) (vscal (x * pressure s dim u) n) k); [|rewrite E; reflexivity].
      unfold momentum at 1. unfold w. rewrite flux_normal by exact Hr. fold vn. cbn [Nat.eqb].
      destruct (Nat.eqb_spec k dim); [lia|]. rewrite Nat.sub_succ, Nat.sub_0_r.
      destruct (Nat.ltb_spec k dim); [|lia]. unfold vadd, vscal, K, momentum. ring.
    - rewrite norm2_add, !norm2_scal, dot_scal_l, dot_scal_r. unfold norm2 at 2. rewrite Hn. ring. }
  apply positive_gas_eq. fold w. split; [rewrite W0; apply Rmult_lt_0_compat; assumption|].
  set (e := internal_energy dim u) in *. set (P := pressure s dim u) in *.
  assert (EI : internal_energy dim w = K * e - x * P * (x * P) / (2 * density u * K)).
  { unfold internal_energy at 1. rewrite W0, WE, WM. unfold e, internal_energy. field. split; lra. }
  rewrite EI.
  assert (EP : P = (gamma s - 1) * e) by reflexivity.
  assert (A2 : speed_of_sound s dim u * speed_of_sound s dim u = gamma s * P / density u).
  { unfold speed_of_sound. fold P. rewrite sqrt_sqrt; [field; lra|]. apply Rmult_le_pos; [apply Rmult_le_pos; lra|]. apply Rlt_le, Rdiv_lt_0_compat; lra. }
  assert (K2 : gamma s * P / density u * (x * x) <= K * K).
  { rewrite <- A2. replace (x * x) with (Rabs x * Rabs x) by (rewrite <- Rabs_mult; apply Rabs_right; nra).
    replace (speed_of_sound s dim u * speed_of_sound s dim u * (Rabs x * Rabs x)) with (speed_of_sound s dim u * Rabs x * (speed_of_sound s dim u * Rabs x)) by ring.
    apply Rmult_le_compat; lra. }
  assert (X2 : 0 < x * x) by nra.
  apply Rmult_lt_reg_r with (2 * density u * K); [repeat apply Rmult_lt_0_compat; lra|]. rewrite Rmult_0_l.
  replace ((K * e - x * P * (x * P) / (2 * density u * K)) * (2 * density u * K)) with (2 * density u * e * (K * K) - x * x * (P * P)) by (field; split; lra).
  apply Rmult_le_compat_l with (r := 2 * density u * e) in K2; [|apply Rmult_le_pos; lra].
  replace (2 * density u * e * (gamma s * P / density u * (x * x))) with (2 * gamma s * e * P * (x * x)) in K2 by (field; lra).
  assert (x * x * (P * P) < 2 * gamma s * e * P * (x * x)); [|lra].
  replace (2 * gamma s * e * P * (x * x)) with (x * x * (2 * gamma s * e * P)) by ring.
  apply Rmult_lt_compat_l; [exact X2|]. apply Rmult_lt_compat_r; [exact Hp|]. rewrite EP.
  apply Rmult_lt_compat_r with (r := e) (r1 := gamma s - 1) (r2 := 2 * gamma s); lra.
Qed.

(** ** The wave speed estimate is large enough for positivity *)

Lemma bar_positive u v n lambda : 1 < gamma s -> positive_gas dim u -> positive_gas dim v -> unit_vector dim n -> 0 < lambda ->
  er_wavespeed s (ep_eps p) (ep_riemann_tol p) (ep_riemann_iterations p) dim u v (vec_of n) <= lambda ->
  positive_gas dim (fun k => (u k + v k) / 2
    - (dot dim (EulerSystem.flux s dim v k) (vec_of n) - dot dim (EulerSystem.flux s dim u k) (vec_of n)) / (2 * lambda)).
Proof.
  intros Hg Hu Hv Hn Hl Hlam. pose proof (unit_dot dim n Hn) as Hnn.
  destruct (gas_pressure u Hg Hu) as [A1 A2]. destruct (gas_pressure v Hg Hv) as [B1 B2].
  destruct (C37_characteristics_proof s (ep_eps p) (ep_riemann_tol p) (ep_riemann_iterations p) dim u v (vec_of n) Hg Hnn A1 A2 B1 B2) as [C1 C2].
  set (lam := er_wavespeed _ _ _ _ _ _ _ _) in *.
  assert (HU : positive_gas dim (fun k => u k + / lambda * dot dim (EulerSystem.flux s dim u k) (vec_of n))).
  { apply half_state; try assumption; [apply Rinv_neq_0_compat; lra|].
    rewrite Rabs_right by (left; apply Rinv_0_lt_compat; exact Hl).
    apply Rmult_le_reg_r with lambda; [exact Hl|].
    replace (speed_of_sound s dim u * / lambda * lambda) with (speed_of_sound s dim u) by (field; lra).
    replace ((1 + / lambda * (dot dim (momentum u) (vec_of n) / density u)) * lambda) with (lambda + dot dim (momentum u) (vec_of n) / density u) by (field; lra).
    unfold normal_velocity in C1. lra. }
  assert (HV : positive_gas dim (fun k => v k + - / lambda * dot dim (EulerSystem.flux s dim v k) (vec_of n))).
  { apply half_state; try assumption; [apply Ropp_neq_0_compat, Rinv_neq_0_compat; lra|].
    rewrite Rabs_Ropp, Rabs_right by (left; apply Rinv_0_lt_compat; exact Hl).
    apply Rmult_le_reg_r with lambda; [exact Hl|].
    replace (speed_of_sound s dim v * / lambda * lambda) with (speed_of_sound s dim v) by (field; lra).
    replace ((1 + - / lambda * (dot dim (momentum v) (vec_of n) / density v)) * lambda) with (lambda - dot dim (momentum v) (vec_of n) / density v) by (field; lra).
    unfold normal_velocity in C2. lra. }
  pose proof (positive_convex _ _ (1 / 2) HU HV ltac:(lra)) as Q.
  match goal with |- positive_gas dim ?g => match type of Q with positive_gas dim ?h => replace g with h; [exact Q|] end end.
  apply functional_extensionality. intros k. field. lra.
Qed.

Lemma euler_wave_bound pc : 1 < gamma s <= 5 / 3 -> ep_riemann_iterations p = 0%nat ->
  wave_bound SY dim e_F pc (positive_gas dim).
Proof.
  intros Hg HN u v i j n lambda Hu Hv Hn Hlam jump. cbn [riemann_compute euler_scheme] in Hlam. split.
  - intros Hl. pose proof (bar_positive u v n lambda ltac:(lra) Hu Hv Hn Hl Hlam) as Q. unfold jump. 
    match goal with |- positive_gas dim ?g => match type of Q with positive_gas dim ?h => replace g with h; [exact Q|] end end.
    apply functional_extensionality. intros k. rewrite !dotp_dot. reflexivity.
  - intros Hz. exfalso. destruct (gas_pressure u ltac:(lra) Hu) as [A1 A2]. destruct (gas_pressure v ltac:(lra) Hv) as [B1 B2].
    rewrite HN in Hlam.
    pose proof (er_wavespeed_positive s (ep_eps p) (ep_riemann_tol p) dim u v (vec_of n) Hg (unit_dot _ _ Hn) A1 A2 B1 B2). lra.
Qed.
End Interface.
