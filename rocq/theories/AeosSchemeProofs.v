(** * Scheme with an arbitrary equation of state: viscosities, conservation, positivity *)
From Coq Require Import Reals List Arith Bool Lia Lra Psatz FunctionalExtensionality.
From Verif Require Import RVec Newton PhysSpec PhysLib EulerSystem EulerLimiter EulerSpeed AeosSystem AeosLimiter AeosRiemann AeosRiemannSpec AeosRiemannProofs AeosRiemannFinal
  AeosPrecompute Indicator SWScheme SchemeSpec SchemeProofs SchemeUpdate SchemeLimit SchemeFinal ScalarSchemeProofs
  EulerScheme EulerSchemeSpec EulerSchemeProofs AeosScheme AeosSchemeSpec.
From Verif Require Import Scheme.
Import ListNotations.
Local Open Scope R_scope.

(** ** Viscosities without symmetry of the Riemann solver *)

Section Dij.
Context {K : Type}.
Variables (Sy : system K) (M : mesh) (nm : R) (old : (nat -> state K) * PC K Sy) (d0 : nat -> nat -> R).
Hypothesis Hpat : symmetric_pattern M.
Hypothesis Hnum : valid_numbering M.
Local Notation d := (dij_matrix Sy M nm old d0).
Local Notation W := (wave_viscosity Sy M old).

Lemma boundary_bounds i j : (i < n_rows M)%nat -> In j (neighbours M i) -> below M j i = false ->
  let x := dij_boundary Sy M old (dij_step2 Sy M old d0) i j in
  W i j <= x <= Rmax (W i j) (W j i) /\ (In (i, j) (coupling_pairs M) -> W j i <= x).
Proof using Hpat Hnum.
  intros Hi Hj Hb. cbv zeta. unfold dij_boundary.
  rewrite (dij_step2_upper Sy M old d0 i j Hpat Hnum Hi Hj Hb), Hb, andb_true_r, viscosity_eq.
  destruct (existsb _ _) eqn:E.
  - pose proof (Rmax_l (W i j) (W j i)). pose proof (Rmax_r (W i j) (W j i)). repeat split; try intros _; lra.
  - pose proof (Rmax_l (W i j) (W j i)). split; [lra|]. intros Hin.
    apply (proj2 (pair_listed_spec M i j)) in Hin. congruence.
Qed.

Lemma dij_bounds i j : pairs_listed M -> (i < n_rows M)%nat -> In j (neighbours M i) ->
  d i j <= Rmax (W i j) (W j i) /\
  (W i j <= d i j \/ (skew_at M i j /\ W j i <= d i j)).
Proof using Hpat Hnum.
  intros HP Hi Hj. destruct (neighbours_bound M i j Hpat Hi Hj) as [Hjb [Hij Hne]].
  pose proof (row_active M i j Hpat Hi Hj) as Ha.
  unfold dij_matrix. destruct (Nat.eqb_spec i j); [congruence|]. unfold dij_symmetrized.
  destruct (below M j i) eqn:E.
  - pose proof (below_total M i j Hnum Hi Hjb Hne E) as E'.
    destruct (boundary_bounds j i Hjb Hij E') as [[B1 B2] B3].
    rewrite Rmax_comm in B2. split; [exact B2|].
    apply neighbours_in in Hj; auto. destruct Hj as [Hj _].
    destruct (HP i j Ha Hj Hne) as [Hs|[_ Hl]]; [right; split; assumption|].
    left. apply B3. exact Hl.
  - destruct (boundary_bounds i j Hi Hj E) as [[B1 B2] _]. split; [exact B2|left; exact B1].
Qed.

Lemma dij_nonneg i j : pairs_listed M -> nonneg_riemann Sy -> (i < n_rows M)%nat -> In j (neighbours M i) -> 0 <= d i j.
Proof using Hpat Hnum.
  intros HP HN Hi Hj. destruct (dij_bounds i j HP Hi Hj) as [_ [H|[_ H]]];
    (eapply Rle_trans; [|exact H]; apply wave_viscosity_nonneg; exact HN).
Qed.
End Dij.

(** ** The low-order update and convex cones

    [X w u]: the state [u] with the weight [w]. *)
Section Cone.
Context {K : Type}.
Variables (Sy : system K) (M : mesh) (old : (nat -> state K) * PC K Sy) (d : nat -> nat -> R) (tau : R).
Variable X : R -> state K -> Prop.
Hypothesis Xadd : forall w u w' u', X w u -> X w' u' -> X (w + w') (fun k => u k + u' k).
Hypothesis Xmul : forall a w u, 0 < a -> X w u -> X (a * w) (fun k => a * u k).

Definition pair_state dim (F : FC K Sy -> K -> nat -> R) (i j : nat) : state K := fun k =>
  1 / 2 * (d i j * (fst old i k + fst old j k)
    - (dotp dim (F (flux_contribution K Sy (snd old) j (fst old j)) k) (c_ij M i j)
       - dotp dim (F (flux_contribution K Sy (snd old) i (fst old i)) k) (c_ij M i j))).

Lemma cone_sum (w : nat -> R) (g : nat -> state K) l w0 g0 :
  X w0 g0 -> (forall j, In j l -> X (w j) (g j) \/ (w j = 0 /\ forall k, g j k = 0)) ->
  X (w0 + lsum w l) (fun k => g0 k + lsum (fun j => g j k) l).
Proof using Xadd.
  revert w0 g0. induction l as [|j l IH]; intros w0 g0 H0 Hl.
  - cbn [lsum]. replace (fun k => g0 k + 0) with g0 by (apply functional_extensionality; intros; ring).
    rewrite Rplus_0_r. exact H0.
  - assert (Q : X (w0 + w j) (fun k => g0 k + g j k)).
    { destruct (Hl j (or_introl eq_refl)) as [H|[E1 E2]]; [apply Xadd; assumption|].
      rewrite E1, Rplus_0_r. replace (fun k => g0 k + g j k) with g0; [exact H0|].
      apply functional_extensionality. intros k. rewrite E2. ring. }
    specialize (IH _ _ Q (fun j H => Hl j (or_intror H))). cbn [lsum].
    replace (w0 + (w j + lsum w l)) with (w0 + w j + lsum w l) by ring.
    match goal with |- X _ ?a => match type of IH with X _ ?b => replace a with b; [exact IH|] end end.
    apply functional_extensionality. intros k. ring.
Qed.

Lemma low_order_cone dim F new0 i :
  plain Sy -> central_flux Sy dim F -> symmetric_pattern M -> positive_masses M ->
  zero_row_sum M i -> (i < n_rows M)%nat -> constrained M i = false ->
  0 <= tau -> tau * (2 * lsum (fun j => d i j) (neighbours M i)) <= mass M i ->
  X 1 (fst old i) ->
  (forall j, In j (neighbours M i) -> X (d i j) (pair_state dim F i j) \/
     (d i j = 0 /\ forall k, pair_state dim F i j k = 0)) ->
  X 1 (low_order_update Sy M old d tau new0 i).
Proof using Xadd Xmul.
  intros [HS HW] HF Hpat Hmass Hz Hi Hc Ht HT HU Hp.
  destruct (Hmass i (constrained_active M i Hi Hc)) as [Hm Emi].
  set (c := 2 * tau / mass M i).
  assert (Hc0 : 0 <= c) by (apply Rmult_le_pos; [lra|left; apply Rinv_0_lt_compat; lra]).
  set (T := pair_state dim F i) in *. set (s := lsum (d i) (neighbours M i)).
  assert (Es : c * s <= 1).
  { apply Rmult_le_reg_r with (mass M i); [exact Hm|]. unfold c.
    replace (2 * tau / mass M i * s * mass M i) with (tau * (2 * s)) by (field; lra).
    unfold s. change (lsum (d i) (neighbours M i)) with (lsum (fun j => d i j) (neighbours M i)). lra. }
  assert (E : low_order_update Sy M old d tau new0 i =
    (fun k => (1 - c * s) * fst old i k + c * lsum (fun j => T j k) (neighbours M i))).
  { apply functional_extensionality. intros k.
    rewrite (low_order_form Sy M old d tau new0 i k Hc).
    unfold source. rewrite HS. unfold szero. rewrite Emi.
    set (fi := flux_contribution K Sy (snd old) i (fst old i)).
    set (fj := fun j => flux_contribution K Sy (snd old) j (fst old j)).
    rewrite (lsum_ext _ (fun j => tau * / mass M i *
       ((- 2 * dotp dim (F fi k) (c_ij M i j))
        + ((dotp dim (F fi k) (c_ij M i j) - dotp dim (F (fj j) k) (c_ij M i j))
           + d i j * (fst old j k - fst old i k))))).
    2:{ intros j _. unfold low_order_flux, jump. rewrite HW, HF. unfold sminus. fold fi.
        unfold flux. fold fi. fold (fj j). ring. }
    rewrite lsum_scal, lsum_plus, lsum_scal, (dotp_row_sum dim (F fi k) (c_ij M i) (columns M i) Hz).
    rewrite (columns_split M i Hpat Hi). cbn [lsum]. change (fj i) with fi.
    rewrite (lsum_ext _ (fun j => 2 * T j k + - 2 * (fst old i k) * d i j) (neighbours M i)).
    2:{ intros j _. unfold T, pair_state. fold fi. fold (fj j). field. }
    rewrite lsum_plus, !lsum_scal. fold s. unfold c. field. lra. }
  rewrite E. clear E.
  destruct (Rle_lt_or_eq_dec 0 c Hc0) as [Hcp|Hcz].
  2:{ rewrite <- Hcz. match goal with |- X 1 ?g => replace g with (fst old i); [exact HU|] end.
      apply functional_extensionality. intros k. ring. }
  destruct (Rle_lt_or_eq_dec _ _ Es) as [Hlt|Heq].
  - pose proof (cone_sum (fun j => c * d i j) (fun j k => c * T j k) (neighbours M i) ((1 - c * s) * 1) (fun k => (1 - c * s) * fst old i k)) as Q.
    assert (E1 : (1 - c * s) * 1 + lsum (fun j => c * d i j) (neighbours M i) = 1) by (rewrite lsum_scal; unfold s; ring).
    rewrite E1 in Q.
    assert (E2 : (fun k => (1 - c * s) * fst old i k + c * lsum (fun j => T j k) (neighbours M i)) =
                 (fun k => (1 - c * s) * fst old i k + lsum (fun j => c * T j k) (neighbours M i)))
      by (apply functional_extensionality; intros k; rewrite lsum_scal; reflexivity).
    rewrite E2. apply Q.
    + apply Xmul; [lra|exact HU].
    + intros j Hj. destruct (Hp j Hj) as [H|[E3 E4]]; [left; apply Xmul; assumption|right].
      split; [rewrite E3; ring|]. intros k. rewrite E4. ring.
  - assert (Hq : forall l, (forall j, In j l -> In j (neighbours M i)) -> 
      (lsum (d i) l = 0 /\ forall k, lsum (fun j => T j k) l = 0) \/ X (lsum (d i) l) (fun k => lsum (fun j => T j k) l)).
    { induction l as [|j l IH]; intros Hl; [left; split; intros; reflexivity|].
      specialize (IH (fun j H => Hl j (or_intror H))). cbn [lsum].
      destruct (Hp j (Hl j (or_introl eq_refl))) as [H|[E1 E2]]; fold (T j) in *.
      - right. destruct IH as [[I1 I2]|I].
        + rewrite I1, Rplus_0_r. replace (fun k => T j k + lsum (fun j => T j k) l) with (T j); [exact H|].
          apply functional_extensionality. intros k. rewrite I2. ring.
        + apply (Xadd _ _ _ _ H I).
      - rewrite E1, Rplus_0_l. replace (fun k => T j k + lsum (fun j => T j k) l) with (fun k => lsum (fun j => T j k) l).
        + destruct IH as [[I1 I2]|I]; [left|right; exact I]. split; [exact I1|]. intros k. rewrite E2, I2. ring.
        + apply functional_extensionality. intros k. rewrite E2. ring. }
    destruct (Hq (neighbours M i) (fun j H => H)) as [[I1 _]|I].
    + fold s in I1. rewrite I1 in Heq. lra.
    + apply (Xmul c) in I; [|exact Hcp]. fold s in I. rewrite Heq in I.
      match goal with |- X 1 ?g => match type of I with X 1 ?h => replace g with h; [exact I|] end end.
      apply functional_extensionality. intros k. rewrite Heq. ring.
Qed.
End Cone.

(** ** States *)

Lemma inner_energy_eq dim u : 0 < u 0%nat -> inner_energy dim u = a_internal_energy dim u.
Proof.
  intros H. unfold inner_energy, a_internal_energy, a_density, a_total_energy, a_momentum, norm2, dot.
  rewrite lsum_seq. field. lra.
Qed.

Lemma inner_scale dim a u : 0 < a -> 0 < u 0%nat -> inner_energy dim (fun k => a * u k) = a * inner_energy dim u.
Proof.
  intros Ha Hu. unfold inner_energy.
  rewrite (lsum_ext _ (fun k => a * a * (u (Datatypes.S k) * u (Datatypes.S k)))) by (intros; ring).
  rewrite lsum_scal. field. split; lra.
Qed.

Lemma inner_concave dim u v a : 0 < u 0%nat -> 0 < v 0%nat -> 0 <= a <= 1 ->
  a * inner_energy dim u + (1 - a) * inner_energy dim v <= inner_energy dim (fun k => a * u k + (1 - a) * v k).
Proof.
  intros Hu Hv Ha. pose proof (energy_concave dim u v a Hu Hv Ha) as Q.
  rewrite !inner_energy_eq; try assumption. apply mix_pos; assumption.
Qed.

Lemma inner_superadditive dim u v : 0 < u 0%nat -> 0 < v 0%nat ->
  inner_energy dim u + inner_energy dim v <= inner_energy dim (fun k => u k + v k).
Proof.
  intros Hu Hv.
  assert (Q := inner_concave dim (fun k => 2 * u k) (fun k => 2 * v k) (1 / 2)). cbv beta in Q.
  rewrite !inner_scale in Q by lra. specialize (Q ltac:(lra) ltac:(lra) ltac:(lra)).
  replace (fun k => u k + v k) with (fun k => 1 / 2 * (2 * u k) + (1 - 1 / 2) * (2 * v k)); [lra|].
  apply functional_extensionality. intros. field.
Qed.

(** The cone: [w] copies of the reference pressure. *)
Definition excess_cone (e : eos) (dim : nat) (w : R) (u : state nat) : Prop :=
  0 < u 0%nat /\
  0 < inner_energy dim u - w * interp_pinf e - u 0%nat * (interp_q e - interp_b e * interp_pinf e).

Lemma cone_gas e dim u : excess_cone e dim 1 u <-> admissible_gas e dim u.
Proof.
  unfold excess_cone, admissible_gas, excess_energy. split; intros [A B]; split; try exact A; lra.
Qed.

Lemma cone_add e dim w u w' u' : excess_cone e dim w u -> excess_cone e dim w' u' ->
  excess_cone e dim (w + w') (fun k => u k + u' k).
Proof.
  intros [A B] [A' B']. split; [lra|]. pose proof (inner_superadditive dim u u' A A'). lra.
Qed.

Lemma cone_mul e dim a w u : 0 < a -> excess_cone e dim w u -> excess_cone e dim (a * w) (fun k => a * u k).
Proof.
  intros Ha [A B]. split; [apply Rmult_lt_0_compat; assumption|]. rewrite inner_scale by assumption.
  apply (Rmult_lt_compat_l a) in B; [|exact Ha]. lra.
Qed.

Section Gas.
Variables (p : aparameters) (dim : nat).
Local Notation s := (ap_system p).
Local Notation e := (a_eos (ap_system p)).
Local Notation SY := (aeos_scheme p dim).
Local Notation cb := (interp_b (a_eos (ap_system p))).
Local Notation pinf := (interp_pinf (a_eos (ap_system p))).
Local Notation q := (interp_q (a_eos (ap_system p))).

Definition a_F (a : FC nat SY) (k x : nat) : R := a k x.

Lemma aeos_central : central_flux SY dim a_F.
Proof using Type.
  intros a b c k. rewrite !dotp_dot. cbn [flux_divergence aeos_scheme].
  unfold a_flux_divergence, contract, fadd, a_F. rewrite dot_add_l. reflexivity.
Qed.

Lemma aeos_plain : plain SY.
Proof using Type. split; reflexivity. Qed.

Lemma aeos_nonneg : nonneg_riemann SY.
Proof using Type. intros pc u v i j n. apply ar_wavespeed_nonneg. Qed.

(** The pressure of a state and the gamma of its surrogate gas. *)
Definition eos_p (u : state nat) : R := eos_pressure e (a_density u) (a_internal_energy dim u / a_density u).
Definition eos_g (u : state nat) : R := surrogate_gamma e dim u (eos_p u).

Lemma gas_n u : aeos_gas e dim u ->
  n_gas cb pinf q (eos_g u) (a_density u) (a_internal_energy dim u) (eos_p u).
Proof using Type.
  intros ((A & B) & C & D). unfold excess_energy in B. rewrite inner_energy_eq in B, D by exact A.
  change (u 0%nat) with (a_density u) in *. fold (eos_p u) in D.
  assert (X : 0 < (eos_p u + pinf) * (1 - cb * a_density u)) by (apply Rmult_lt_0_compat; lra).
  assert (E : eos_g u = 1 + (eos_p u + pinf) * (1 - cb * a_density u) /
     (a_internal_energy dim u - a_density u * q - (1 - cb * a_density u) * pinf)) by reflexivity.
  assert (P : 0 < (eos_p u + pinf) * (1 - cb * a_density u) /
     (a_internal_energy dim u - a_density u * q - (1 - cb * a_density u) * pinf)) by (apply Rdiv_lt_0_compat; lra).
  unfold n_gas. repeat split; try lra.
  unfold n_energy. rewrite E. field. split; [lra|]. lra.
Qed.

Lemma a_flux_normal u pr n k : 0 < a_density u -> dot dim (a_flux dim u pr k) n =
  let vn := normal_velocity dim n u in
  if Nat.eqb k 0 then a_density u * vn
  else if Nat.eqb k (Datatypes.S dim) then (a_total_energy dim u + pr) * vn
  else a_momentum u (k - 1)%nat * vn + pr * (if Nat.ltb (k - 1) dim then n (k - 1)%nat else 0).
Proof using Type.
  intros Hr. cbv zeta. unfold a_flux, normal_velocity. change (density u) with (a_density u). change (momentum u) with (a_momentum u).
  destruct (Nat.eqb_spec k 0).
  { field. lra. }
  destruct (Nat.eqb_spec k (Datatypes.S dim)).
  { rewrite dot_scal_l. field. lra. }
  rewrite <- (rsum_delta dim n (k - 1)), <- rsum_scal.
  unfold dot, vscal.
  rewrite (rsum_ext dim _ (fun l => a_momentum u (k - 1)%nat * (1 / a_density u) * (a_momentum u l * n l) + pr * ((if Nat.eqb l (k - 1) then 1 else 0) * n l))).
  - rewrite rsum_plus, rsum_scal. field. lra.
  - intros l _. destruct (Nat.eqb l (k - 1)); ring.
Qed.

(** h u + x (f(u) + pinf n) n *)
Definition half (u : state nat) (h x : R) (n : vec) : state nat := fun k =>
  h * u k + x * (dot dim (a_flux dim u (eos_p u) k) n +
                 pinf * (if andb (Nat.ltb 0 k) (Nat.leb k dim) then n (k - 1)%nat else 0)).

Lemma half_cone u h x n : aeos_gas e dim u -> dot dim n n = 1 ->
  0 < h + x * normal_velocity dim n u ->
  n_sound cb pinf (eos_g u) (a_density u) (eos_p u) * Rabs x <= h + x * normal_velocity dim n u ->
  excess_cone e dim h (half u h x n).
Proof using Type.
  intros Hu Hn HK Ha. destruct (gas_n u Hu) as (Hg & Hr & Hc & Hp & He).
  set (vn := normal_velocity dim n u) in *. set (K := h + x * vn) in *. set (w := half u h x n).
  set (P := eos_p u + pinf) in *.
  assert (W0 : w 0%nat = a_density u * K).
  { unfold w, half. rewrite a_flux_normal by exact Hr. fold vn. cbn [Nat.eqb Nat.ltb Nat.leb andb].
    unfold K, a_density. ring. }
  assert (WE : w (Datatypes.S dim) = K * a_total_energy dim u + x * eos_p u * vn).
  { unfold w, half. rewrite a_flux_normal by exact Hr. fold vn. cbn [Nat.eqb]. rewrite Nat.eqb_refl.
    replace (Nat.leb (Datatypes.S dim) dim) with false by (symmetry; apply Nat.leb_gt; lia).
    rewrite andb_false_r. unfold K, a_total_energy. ring. }
  assert (EN : density u * vn = dot dim (momentum u) n) by (unfold vn, normal_velocity; field; exact (Rgt_not_eq _ _ Hr)).
  assert (WM : lsum (fun k => w (Datatypes.S k) * w (Datatypes.S k)) (seq 0 dim) =
     K * K * norm2 dim (a_momentum u) + 2 * K * (x * P) * (a_density u * vn) + x * P * (x * P)).
  { rewrite lsum_seq. transitivity (norm2 dim (vadd (vscal K (a_momentum u)) (vscal (x * P) n))).
    - unfold norm2, dot. apply rsum_ext. intros k Hk.
      assert (E : w (Datatypes.S k) = vadd (vscal K (a_momentum u)) (vscal (x * P) n) k); [|rewrite E; reflexivity].
      unfold w, half. rewrite a_flux_normal by exact Hr. fold vn. cbn [Nat.eqb].
      destruct (Nat.eqb_spec k dim); [lia|]. rewrite Nat.sub_succ, Nat.sub_0_r.
      destruct (Nat.ltb_spec k dim); [|lia]. destruct (Nat.leb_spec (Datatypes.S k) dim); [|lia].
      replace (0 <? Datatypes.S k)%nat with true by reflexivity. cbn [andb].
      unfold vadd, vscal, K, a_momentum, P. ring.
    - rewrite norm2_add, !norm2_scal, dot_scal_l, dot_scal_r. unfold norm2 at 2. rewrite Hn.
      change (a_density u * vn) with (density u * vn). rewrite EN. change (a_momentum u) with (momentum u). ring. }
  split; [rewrite W0; apply Rmult_lt_0_compat; assumption|].
  assert (EI : inner_energy dim w - h * pinf - w 0%nat * (q - cb * pinf) =
     K * (P * (1 - cb * a_density u) / (eos_g u - 1)) - x * P * (x * P) / (2 * a_density u * K)).
  { unfold inner_energy. rewrite W0, WE, WM.
    assert (Et : a_total_energy dim u = n_energy cb pinf q (eos_g u) (a_density u) 0 (eos_p u)
                  + 1 / 2 * norm2 dim (a_momentum u) * (1 / a_density u)).
    { rewrite <- He. unfold a_internal_energy. ring. }
    rewrite Et. unfold n_energy. fold P. unfold P, K. field. repeat split; try lra.
    intros Z. fold K in Z. lra. }
  rewrite EI.
  assert (A2 : n_sound cb pinf (eos_g u) (a_density u) (eos_p u) * n_sound cb pinf (eos_g u) (a_density u) (eos_p u)
     = eos_g u * P / (a_density u * (1 - cb * a_density u))).
  { unfold n_sound. apply sqrt_sqrt. fold P. left. apply Rdiv_lt_0_compat; apply Rmult_lt_0_compat; lra. }
  set (a := n_sound cb pinf (eos_g u) (a_density u) (eos_p u)) in *.
  assert (Hap : 0 <= a) by apply sqrt_pos.
  assert (K2 : eos_g u * P / (a_density u * (1 - cb * a_density u)) * (x * x) <= K * K).
  { rewrite <- A2. replace (x * x) with (Rabs x * Rabs x) by (rewrite <- Rabs_mult; apply Rabs_right; nra).
    replace (a * a * (Rabs x * Rabs x)) with (a * Rabs x * (a * Rabs x)) by ring.
    pose proof (Rabs_pos x).
    apply Rmult_le_compat; try lra; apply Rmult_le_pos; lra. }
  clearbody a K P vn. clear EI WM WE W0 EN Ha He.
  set (r := a_density u) in *. set (g := eos_g u) in *. set (c := 1 - cb * r) in *. clearbody r g c w.
  destruct (Req_dec x 0) as [Ex|Hx].
  - subst x. replace (K * (P * c / (g - 1)) - 0 * P * (0 * P) / (2 * r * K)) with (K * (P * c / (g - 1))) by (field; lra).
    apply Rmult_lt_0_compat; [lra|]. apply Rdiv_lt_0_compat; [apply Rmult_lt_0_compat; lra|lra].
  - assert (X2 : 0 < x * x) by nra.
    apply Rmult_lt_reg_r with (2 * r * K); [repeat apply Rmult_lt_0_compat; lra|]. rewrite Rmult_0_l.
    replace ((K * (P * c / (g - 1)) - x * P * (x * P) / (2 * r * K)) * (2 * r * K))
      with (2 * r * P * c / (g - 1) * (K * K) - x * x * (P * P)) by (field; split; lra).
    assert (Q : 0 < 2 * r * P * c / (g - 1)) by (apply Rdiv_lt_0_compat; [repeat apply Rmult_lt_0_compat; lra|lra]).
    apply Rmult_le_compat_l with (r := 2 * r * P * c / (g - 1)) in K2; [|lra].
    replace (2 * r * P * c / (g - 1) * (g * P / (r * c) * (x * x))) with (x * x * (P * P) * (2 * g / (g - 1))) in K2 by (field; lra).
    assert (G : 1 < 2 * g / (g - 1)).
    { apply Rmult_lt_reg_r with (g - 1); [lra|]. replace (2 * g / (g - 1) * (g - 1)) with (2 * g) by (field; lra). lra. }
    assert (Y : 0 < x * x * (P * P)) by (apply Rmult_lt_0_compat; [exact X2|apply Rmult_lt_0_compat; lra]).
    apply Rmult_lt_compat_l with (r := x * x * (P * P)) in G; [|exact Y]. lra.
Qed.

Lemma cone_pair u v dd a n : aeos_gas e dim u -> aeos_gas e dim v -> dot dim n n = 1 -> 0 < a ->
  a * ar_wavespeed s dim u v (eos_p u) (eos_p v) n <= dd ->
  excess_cone e dim dd (fun k => 1 / 2 * (dd * (u k + v k)
    - a * (dot dim (a_flux dim v (eos_p v) k) n - dot dim (a_flux dim u (eos_p u) k) n))).
Proof using Type.
  intros Hu Hv Hn Ha Hd. pose proof (gas_n u Hu) as Gu. pose proof (gas_n v Hv) as Gv.
  destruct (C38_characteristics_proof s dim u v (eos_p u) (eos_p v) n _ _ Gu Gv) as [C1 C2].
  set (lam := ar_wavespeed _ _ _ _ _ _ _) in *.
  assert (S1 : 0 < n_sound cb pinf (eos_g u) (a_density u) (eos_p u)).
  { destruct Gu as (?&?&?&?&_). unfold n_sound. apply sqrt_lt_R0, Rdiv_lt_0_compat; apply Rmult_lt_0_compat; lra. }
  assert (S2 : 0 < n_sound cb pinf (eos_g v) (a_density v) (eos_p v)).
  { destruct Gv as (?&?&?&?&_). unfold n_sound. apply sqrt_lt_R0, Rdiv_lt_0_compat; apply Rmult_lt_0_compat; lra. }
  set (au := n_sound cb pinf (eos_g u) (a_density u) (eos_p u)) in *.
  set (av := n_sound cb pinf (eos_g v) (a_density v) (eos_p v)) in *.
  assert (K1 : au * Rabs a <= dd + a * normal_velocity dim n u).
  { rewrite Rabs_right by lra. apply Rmult_le_compat_l with (r := a) in C1; lra. }
  assert (K2 : av * Rabs (- a) <= dd + - a * normal_velocity dim n v).
  { rewrite Rabs_Ropp, Rabs_right by lra. apply Rmult_le_compat_l with (r := a) in C2; lra. }
  assert (P1 : 0 < au * Rabs a) by (rewrite Rabs_right by lra; apply Rmult_lt_0_compat; lra).
  assert (P2 : 0 < av * Rabs (- a)) by (rewrite Rabs_Ropp, Rabs_right by lra; apply Rmult_lt_0_compat; lra).
  pose proof (half_cone u dd a n Hu Hn ltac:(lra) K1) as H1.
  pose proof (half_cone v dd (- a) n Hv Hn ltac:(lra) K2) as H2.
  pose proof (cone_mul _ _ (1 / 2) _ _ ltac:(lra) (cone_add _ _ _ _ _ _ H1 H2)) as Q.
  replace (1 / 2 * (dd + dd)) with dd in Q by field.
  match goal with |- excess_cone _ _ _ ?g => match type of Q with excess_cone _ _ _ ?h => replace g with h; [exact Q|] end end.
  apply functional_extensionality. intros k. unfold half. ring.
Qed.

(** Properties of the old state vector. *)
Definition precomputed_ok (M : mesh) (old : (nat -> state nat) * PC nat SY) : Prop :=
  forall i, active M i -> prec_p (snd old i) = eos_p (fst old i).

Lemma precomputed_p M U pc0 : precomputed_ok M (U, aeos_precomputed p dim M U pc0).
Proof using Type.
  intros i [Hi Hc]. unfold snd, fst, aeos_precomputed, aeos_first, constrained.
  destruct (Nat.eqb_spec (length (columns M i)) 1) as [E|E]; [contradiction|].
  unfold cycle1_row. cbn [prec_p]. destruct (Nat.eqb_spec (length (columns M i)) 1) as [E'|E']; [contradiction|]. reflexivity.
Qed.

Section Old.
Variables (M : mesh) (nm : R) (old : (nat -> state nat) * PC nat SY) (d0 : nat -> nat -> R).
Hypothesis Hpat : symmetric_pattern M.
Hypothesis Hmass : positive_masses M.
Hypothesis Hnum : valid_numbering M.
Hypothesis Hdim : mesh_dimension M dim.
Hypothesis Hok : precomputed_ok M old.
Hypothesis Hgas : forall i, active M i -> aeos_gas e dim (fst old i).
Local Notation d := (dij_matrix SY M nm old d0).

Lemma unit_cdiv i j : (i < n_rows M)%nat -> In j (columns M i) -> 0 < cnorm (c_ij M i j) ->
  unit_vector dim (cdiv (c_ij M i j) (cnorm (c_ij M i j))).
Proof using Hdim.
  intros Hi Hj Hc. split; [apply cnorm_cdiv; exact Hc|]. unfold cdiv. rewrite map_length. apply Hdim; assumption.
Qed.

Lemma pair_flux i j k : active M i -> active M j ->
  pair_state SY M old d dim a_F i j k =
  1 / 2 * (d i j * (fst old i k + fst old j k)
   - (dot dim (a_flux dim (fst old j) (eos_p (fst old j)) k) (vec_of (c_ij M i j))
      - dot dim (a_flux dim (fst old i) (eos_p (fst old i)) k) (vec_of (c_ij M i j)))).
Proof using Hok.
  intros Hi Hj. unfold pair_state. rewrite !dotp_dot. unfold a_F. cbn [flux_contribution aeos_scheme].
  rewrite (Hok i Hi), (Hok j Hj). reflexivity.
Qed.

(** A pair seen from one of its rows. *)
Lemma pair_one i j dd : (i < n_rows M)%nat -> In j (neighbours M i) ->
  wave_viscosity SY M old i j <= dd ->
  let T := fun k => 1 / 2 * (dd * (fst old i k + fst old j k)
   - (dot dim (a_flux dim (fst old j) (eos_p (fst old j)) k) (vec_of (c_ij M i j))
      - dot dim (a_flux dim (fst old i) (eos_p (fst old i)) k) (vec_of (c_ij M i j)))) in
  excess_cone e dim dd T \/ (dd = 0 /\ forall k, T k = 0).
Proof using Hpat Hdim Hok Hgas.
  intros Hi Hj Hw. cbv zeta.
  pose proof (row_active M i j Hpat Hi Hj) as Ai. pose proof (col_active M i j Hpat Hi Hj) as Aj.
  destruct (neighbours_columns M i j Hpat Hi Hj) as [Hjc _].
  set (c := c_ij M i j) in *. pose proof (cnorm_nonneg c) as Hc.
  destruct (Rle_lt_or_eq_dec 0 (cnorm c) Hc) as [Hp|Hz].
  - left. pose proof (unit_cdiv i j Hi Hjc Hp) as Hn. fold c in Hn.
    assert (W : cnorm c * ar_wavespeed s dim (fst old i) (fst old j) (eos_p (fst old i)) (eos_p (fst old j)) (vec_of (cdiv c (cnorm c))) <= dd).
    { unfold wave_viscosity in Hw. cbn [riemann_compute aeos_scheme] in Hw. rewrite (Hok i Ai), (Hok j Aj) in Hw. exact Hw. }
    pose proof (cone_pair (fst old i) (fst old j) dd (cnorm c) (vec_of (cdiv c (cnorm c))) (Hgas i Ai) (Hgas j Aj) (unit_dot _ _ Hn) Hp W) as Q.
    match goal with |- excess_cone _ _ _ ?g => match type of Q with excess_cone _ _ _ ?h => replace g with h; [exact Q|] end end.
    apply functional_extensionality. intros k. rewrite <- !dotp_dot. rewrite !dotp_cdiv. field. lra.
  - assert (Hf : forall f, dot dim f (vec_of c) = 0).
    { intros f. rewrite <- dotp_dot. unfold dotp. apply lsum_zero. intros x _.
      rewrite (cnorm_zero c (eq_sym Hz)). ring. }
    assert (Hd : 0 <= dd) by (eapply Rle_trans; [apply (wave_viscosity_nonneg SY M old i j aeos_nonneg)|exact Hw]).
    destruct (Rle_lt_or_eq_dec 0 dd Hd) as [Dp|Dz].
    + left.
      pose proof (proj2 (cone_gas e dim _) (proj1 (Hgas i Ai))) as G1.
      pose proof (proj2 (cone_gas e dim _) (proj1 (Hgas j Aj))) as G2.
      pose proof (cone_mul e dim (dd / 2) _ _ ltac:(lra) (cone_add e dim _ _ _ _ G1 G2)) as Q.
      replace (dd / 2 * (1 + 1)) with dd in Q by field.
      match goal with |- excess_cone _ _ _ ?g => match type of Q with excess_cone _ _ _ ?h => replace g with h; [exact Q|] end end.
      apply functional_extensionality. intros k. rewrite !Hf. field.
    + right. split; [auto|]. intros k. rewrite !Hf, <- Dz. ring.
Qed.

Lemma vec_of_neg c : vec_of (neg c) = fun k => - vec_of c k.
Proof using Type. apply functional_extensionality. intros k. apply nth_neg. Qed.

Lemma pair_cone i j : pairs_listed M -> (i < n_rows M)%nat -> In j (neighbours M i) ->
  excess_cone e dim (d i j) (pair_state SY M old d dim a_F i j) \/
  (d i j = 0 /\ forall k, pair_state SY M old d dim a_F i j k = 0).
Proof using Hpat Hnum Hdim Hok Hgas.
  intros HP Hi Hj. destruct (neighbours_bound M i j Hpat Hi Hj) as [Hjb [Hij Hne]].
  pose proof (row_active M i j Hpat Hi Hj) as Ai. pose proof (col_active M i j Hpat Hi Hj) as Aj.
  assert (E := fun k => pair_flux i j k Ai Aj).
  destruct (dij_bounds SY M nm old d0 Hpat Hnum i j HP Hi Hj) as [_ [H|[Hs H]]].
  - pose proof (pair_one i j (d i j) Hi Hj H) as Q. cbv zeta in Q.
    apply functional_extensionality in E. rewrite E. exact Q.
  - pose proof (pair_one j i (d i j) Hjb Hij H) as Q. cbv zeta in Q.
    rewrite Hs in Q.
    assert (N : forall f, dot dim f (vec_of (neg (c_ij M i j))) = - dot dim f (vec_of (c_ij M i j))).
    { intros f. rewrite <- !dotp_dot. unfold dotp. rewrite <- lsum_opp. apply lsum_ext. intros x _. rewrite nth_neg. ring. }
    assert (E2 : (fun k => 1 / 2 * (d i j * (fst old j k + fst old i k)
       - (dot dim (a_flux dim (fst old i) (eos_p (fst old i)) k) (vec_of (neg (c_ij M i j)))
          - dot dim (a_flux dim (fst old j) (eos_p (fst old j)) k) (vec_of (neg (c_ij M i j))))))
       = pair_state SY M old d dim a_F i j).
    { apply functional_extensionality. intros k. rewrite E, !N. ring. }
    rewrite E2 in Q. destruct Q as [Q|[Q1 Q2]]; [left; exact Q|right]. split; [exact Q1|].
    intros k. rewrite <- E2. apply Q2.
Qed.

Lemma step_admissible i tau new0 cfl : pairs_listed M -> 0 < nm -> 0 < cfl <= 1 -> 0 <= tau ->
  (forall t, In t (row_tau SY M nm cfl old d0) -> tau <= t) ->
  zero_row_sum M i -> active M i ->
  admissible_gas e dim (low_order_update SY M old d tau new0 i).
Proof using Hpat Hmass Hnum Hdim Hok Hgas.
  intros HP Hnm Hcfl Ht HT Hz Ha. pose proof (proj1 (active_constrained M i) Ha) as [Hi Hc].
  pose proof (row_tau_bound SY M nm cfl old d0 tau Hpat Hmass Hnm (proj1 Hcfl) HT i Ha) as Hb.
  rewrite dij_diag in Hb by assumption. destruct (Hmass i Ha) as [Hm _].
  pose proof (Rmax_l (lsum (fun j => d i j) (neighbours M i)) (1000000 * nm)) as Hl.
  apply cone_gas.
  apply (low_order_cone SY M old d tau (excess_cone e dim) (cone_add e dim) (cone_mul e dim) dim a_F new0 i);
    try assumption; try apply aeos_central; try apply aeos_plain.
  - apply Rle_trans with (cfl * mass M i).
    + eapply Rle_trans; [|exact Hb]. apply Rmult_le_compat_l; [exact Ht|]. lra.
    + rewrite <- (Rmult_1_l (mass M i)) at 2. apply Rmult_le_compat_r; lra.
  - apply cone_gas. apply (Hgas i Ha).
  - intros j Hj. apply pair_cone; assumption.
Qed.

End Old.
End Gas.
