(** * Lemmas: the jump of the flow over a bump *)
From Coq Require Import Reals Arith Lia Lra Psatz List.
From Verif Require Import RVec EulerSystem EulerInitialStates BalanceSpec SWInitialStates SWInitialSpec SWInitialBump SWInitialFlow.
Import ListNotations.
Local Open Scope R_scope.

(** The momentum flux of a depth h with the discharge q. *)
Definition momentum_flux (g q h : R) : R := q * q / h + g / 2 * (h * h).

Section Jump.
Let g : R := 981 / 100.
Let q : R := 18 / 100.

Lemma critical_bound hc : 0 < hc -> g * hc ^ 3 = q * q -> 148 / 1000 < hc < 149 / 1000.
Proof.
  intros P E. unfold g, q in E. simpl in E. split.
  - destruct (Rlt_dec (148 / 1000) hc) as [L|L]; [exact L|]. exfalso. apply Rnot_lt_le in L.
    assert (hc * hc <= 148 / 1000 * (148 / 1000)) by nra.
    assert (hc * (hc * hc) <= 148 / 1000 * (148 / 1000 * (148 / 1000))) by (apply Rmult_le_compat; nra). lra.
  - destruct (Rlt_dec hc (149 / 1000)) as [L|L]; [exact L|]. exfalso. apply Rnot_lt_le in L.
    assert (149 / 1000 * (149 / 1000) <= hc * hc) by nra.
    assert (149 / 1000 * (149 / 1000 * (149 / 1000)) <= hc * (hc * hc)) by (apply Rmult_le_compat; nra). lra.
Qed.

Lemma head_bound hc : 0 < hc -> g * hc ^ 3 = q * q -> hc + 2 / 10 + q * q / (2 * g * (hc * hc)) = 2 / 10 + 3 / 2 * hc.
Proof. intros P E. rewrite <- E. unfold g. field. lra. Qed.

(** Supercritical: not thinner than 68 mm. *)
Lemma thick h z hc : 0 < hc -> g * hc ^ 3 = q * q -> 0 < h -> 0 <= z ->
  h + z + q * q / (2 * g * (h * h)) = hc + 2 / 10 + q * q / (2 * g * (hc * hc)) -> 68 / 1000 < h.
Proof.
  intros P E Ph Hz B. rewrite (head_bound hc P E) in B. pose proof (critical_bound hc P E) as C.
  destruct (Rlt_dec (68 / 1000) h) as [L|L]; [exact L|]. exfalso. apply Rnot_lt_le in L.
  assert (HH : 0 < h * h) by nra.
  assert (F : (h + z) * (2 * g * (h * h)) + q * q = (2 / 10 + 3 / 2 * hc) * (2 * g * (h * h))).
  { rewrite <- B. field. unfold g. lra. }
  unfold g, q in F.
  assert (h * h <= 68 / 1000 * (68 / 1000)) by nra.
  assert (K : q * q <= (2 / 10 + 3 / 2 * hc - h) * (2 * g * (h * h))).
  { unfold g, q. assert (0 <= z * (h * h)) by nra. lra. }
  unfold g, q in K.
  assert (M : (2 / 10 + 3 / 2 * hc - h) * (h * h) <= (2 / 10 + 3 / 2 * (149 / 1000) - h) * (h * h)) by (apply Rmult_le_compat_r; lra).
  assert (N : (4235 / 10000 - h) * (h * h) <= (4235 / 10000 - 68 / 1000) * (68 / 1000 * (68 / 1000))).
  { assert (0 <= (68 / 1000 - h) * ((4235 / 10000) * (68 / 1000 + h) - (68 / 1000 * (68 / 1000) + 68 / 1000 * h + h * h))); [|lra].
    apply Rmult_le_pos; nra. }
  lra.
Qed.

Lemma flux_supercritical h : 68 / 1000 < h -> g * h ^ 3 < q * q -> momentum_flux g q h < 4992 / 10000.
Proof.
  intros L S. unfold momentum_flux. unfold g, q in *. simpl in S.
  assert (Ph : 0 < h) by lra.
  assert (U : h < 149 / 1000).
  { destruct (Rlt_dec h (149 / 1000)) as [V|V]; [exact V|]. exfalso. apply Rnot_lt_le in V.
    assert (149 / 1000 * (149 / 1000) <= h * h) by nra.
    assert (149 / 1000 * (149 / 1000 * (149 / 1000)) <= h * (h * h)) by (apply Rmult_le_compat; nra). lra. }
  apply Rmult_lt_reg_r with h; [exact Ph|].
  replace ((18 / 100 * (18 / 100) / h + 981 / 100 / 2 * (h * h)) * h) with (18 / 100 * (18 / 100) + 981 / 200 * (h * (h * h))) by (field; lra).
  assert (C : h * (h * h) <= 68 / 1000 * (68 / 1000 * (68 / 1000)) + (h - 68 / 1000) * (68 / 1000 * (68 / 1000) + 68 / 1000 * (149 / 1000) + 149 / 1000 * (149 / 1000))).
  { assert (0 <= (h - 68 / 1000) * ((68 / 1000 * (68 / 1000) + 68 / 1000 * (149 / 1000) + 149 / 1000 * (149 / 1000)) - (68 / 1000 * (68 / 1000) + 68 / 1000 * h + h * h))); [|lra].
    apply Rmult_le_pos; [lra|]. nra. }
  lra.
Qed.

Lemma C101_jump_proof dim : (1 <= dim)%nat ->
  let W := fun t x => flow_over_bump (981 / 100) false x t in
  let flux := fun q h => q * q / h + 981 / 100 / 2 * (h * h) in
  forall t x y, 1 / 10 ^ 12 < t -> 10 < x 0%nat < 117 / 10 -> 117 / 10 < y 0%nat ->
    W t x 1%nat = W t y 1%nat /\
    flux (W t x 1%nat) (W t x 0%nat) + 1 / 200 < flux (W t y 1%nat) (W t y 0%nat).
Proof.
  intros Hd W flux t x y Ht Hx Hy. change flux with (momentum_flux (981 / 100)).
  assert (Hg : 0 < g) by (unfold g; lra).
  destruct (C101_transcritical_proof g dim Hg Hd) as (hc & P & E & A).
  destruct (A t x Ht) as (Q & B & _). destruct (B (or_intror Hx)) as (_ & Ph & Be & _ & Su). specialize (Su (proj1 Hx)).
  assert (Wy : W t y = tensor [28205279813802181 / 10 ^ 17; 18 / 100]) by (apply bump_const; [lra|exact Hy|reflexivity]).
  change (W t x 1%nat = 18 / 100) in Q. rewrite Q, Wy. cbn [tensor nth]. split; [reflexivity|].
  assert (Z : 0 <= bump_bathymetry x) by (rewrite bump_eq; apply bz_bound).
  assert (T : 68 / 1000 < W t x 0%nat) by (apply (thick _ (bump_bathymetry x) hc P E Ph Z Be)).
  pose proof (flux_supercritical _ T Su) as F. fold g q. eapply Rlt_le_trans; [apply Rplus_lt_compat_r; exact F|].
  unfold momentum_flux, g, q. change (tensor [28205279813802181 / 10 ^ 17; 18 / 100] 0%nat) with (28205279813802181 / 10 ^ 17). lra.
Qed.
End Jump.

(** At the jump itself the formula of the flow upstream of the crest is used. *)
Lemma seam_mirror g x y t : x 0%nat = 117 / 10 -> y 0%nat = 83 / 10 -> flow_over_bump g false x t = flow_over_bump g false y t.
Proof.
  intros Hx Hy.
  assert (B : bump_bathymetry x = bump_bathymetry y) by (rewrite !bump_eq, Hx, Hy; unfold bz; f_equal; f_equal; f_equal; lra).
  unfold flow_over_bump. rewrite B, Hx, Hy.
  destruct (Rlt_dec t (1 / 10 ^ 12)); [reflexivity|].
  destruct (Rle_dec 10 (117 / 10)); [|lra]. destruct (Rlt_dec (117 / 10) (117 / 10)); [lra|]. destruct (Rle_dec 10 (83 / 10)); [lra|]. reflexivity.
Qed.

Lemma C101_seam_proof dim : (1 <= dim)%nat ->
  let W := fun t x => flow_over_bump (981 / 100) false x t in
  forall t x y z, 1 / 10 ^ 12 < t -> y 0%nat = 117 / 10 -> 10 < x 0%nat < 117 / 10 -> 117 / 10 < z 0%nat ->
    W t x 0%nat < 15 / 100 /\ 4 / 10 < W t y 0%nat /\ W t z 0%nat < 29 / 100.
Proof.
  intros Hd W t x y z Ht Hy Hx Hz.
  assert (Hg : 0 < 981 / 100) by lra.
  destruct (C101_transcritical_proof (981 / 100) dim Hg Hd) as (hc & P & E & A).
  pose proof (critical_bound hc P E) as C.
  split; [|split].
  - destruct (A t x Ht) as (_ & B & _). destruct (B (or_intror Hx)) as (_ & Ph & _ & _ & Su). specialize (Su (proj1 Hx)).
    change (0 < W t x 0%nat) in Ph. change (981 / 100 * W t x 0%nat ^ 3 < 18 / 100 * (18 / 100)) in Su. simpl in Su.
    set (h := W t x 0%nat) in *. destruct (Rlt_dec h (15 / 100)) as [V|V]; [exact V|]. exfalso. apply Rnot_lt_le in V.
    assert (15 / 100 * (15 / 100) <= h * h) by nra.
    assert (15 / 100 * (15 / 100 * (15 / 100)) <= h * (h * h)) by (apply Rmult_le_compat; nra). lra.
  - set (u := fun _ : nat => 83 / 10 : R).
    assert (Eu : W t y = W t u) by (apply seam_mirror; [exact Hy|reflexivity]). rewrite Eu.
    assert (Lu : u 0%nat < 10) by (unfold u; lra).
    destruct (A t u Ht) as (_ & B & _). destruct (B (or_introl Lu)) as (_ & Ph & Be & Su & _). specialize (Su Lu).
    rewrite (head_bound hc P E) in Be. rewrite bump_eq in Be.
    assert (Bz : bz (u 0%nat) < 43 / 10000).
    { unfold bz, u. rewrite Rmax_right by lra. lra. }
    change (0 < W t u 0%nat) in Ph. change (18 / 100 * (18 / 100) < 981 / 100 * W t u 0%nat ^ 3) in Su.
    change (W t u 0%nat + bz (u 0%nat) + 18 / 100 * (18 / 100) / (2 * (981 / 100) * (W t u 0%nat * W t u 0%nat)) = 2 / 10 + 3 / 2 * hc) in Be.
    set (h := W t u 0%nat) in *. simpl in Su. destruct (Rlt_dec (4 / 10) h) as [V|V]; [exact V|]. exfalso. apply Rnot_lt_le in V.
    assert (Lh : 148 / 1000 < h).
    { destruct (Rlt_dec (148 / 1000) h) as [V'|V']; [exact V'|]. exfalso. apply Rnot_lt_le in V'.
      assert (h * h <= 148 / 1000 * (148 / 1000)) by nra.
      assert (h * (h * h) <= 148 / 1000 * (148 / 1000 * (148 / 1000))) by (apply Rmult_le_compat; nra). lra. }
    assert (HH : 0 < h * h) by nra.
    assert (F : (h + bz (u 0%nat)) * (2 * (981 / 100) * (h * h)) + 18 / 100 * (18 / 100) = (2 / 10 + 3 / 2 * hc) * (2 * (981 / 100) * (h * h))).
    { rewrite <- Be. field. lra. }
    assert (K : (2 / 10 + 3 / 2 * (148 / 1000) - 43 / 10000 - h) * (h * h) <= (2 / 10 + 3 / 2 * hc - bz (u 0%nat) - h) * (h * h)) by (apply Rmult_le_compat_r; lra).
    assert (N : 0 <= (h - 148 / 1000) * ((4 / 10 - h) * (h + 13 / 100))) by (apply Rmult_le_pos; [lra|apply Rmult_le_pos; lra]).
    nra.
  - assert (Wz : W t z = tensor [28205279813802181 / 10 ^ 17; 18 / 100]) by (apply bump_const; [lra|exact Hz|reflexivity]).
    rewrite Wz. change (tensor [28205279813802181 / 10 ^ 17; 18 / 100] 0%nat) with (28205279813802181 / 10 ^ 17). lra.
Qed.
