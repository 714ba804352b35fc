(** * Lake at rest *)
From Coq Require Import Reals List Arith Bool Lia Lra Psatz.
From Verif Require Import RVec Simd Newton EulerSystem SWSystem PhysSpec PhysLib SWPhysProofs SWRiemann SWLimiter Indicator
  SWScheme SWSchemeSpec SchemeSpec SchemeProofs SchemeUpdate SchemeLimit.
From Verif Require Import Scheme.
Import ListNotations.
Local Open Scope R_scope.

(** ** Star states *)

(** The factor of the star state. *)
Definition kappa (s : shallow) (eps : R) (U : vec) (Z_i Z_j : R) : R :=
  Rmax 0 (U 0%nat + Z_i - Rmax Z_i Z_j) * inverse_water_depth_mollified s eps U.

Lemma star_kappa s eps U Z_i Z_j k : star_state s eps U Z_i Z_j k = kappa s eps U Z_i Z_j * U k.
Proof. unfold star_state, kappa, water_depth. ring. Qed.

Lemma mollified_wet s eps U : 0 < U 0%nat -> cutoff_large s eps <= U 0%nat ->
  inverse_water_depth_mollified s eps U = / U 0%nat.
Proof.
  intros Hh Hc. unfold inverse_water_depth_mollified. rewrite positive_part_max.
  fold (cutoff_large s eps). unfold water_depth. rewrite (Rmax_left (U 0%nat)) by exact Hc.
  rewrite Rmax_right by lra. unfold Rdiv. replace (U 0%nat * U 0%nat + U 0%nat * U 0%nat) with (2 * U 0%nat * U 0%nat) by ring. field. lra.
Qed.

Lemma mollified_dry s eps U : U 0%nat <= 0 -> inverse_water_depth_mollified s eps U = 0.
Proof.
  intros Hh. unfold inverse_water_depth_mollified. rewrite positive_part_max. unfold water_depth.
  rewrite (Rmax_left 0) by lra. unfold Rdiv. ring.
Qed.

Lemma star_depth_resolved s eps U Z_i Z_j : wet_or_dry s eps (U 0%nat) ->
  star_state s eps U Z_i Z_j 0%nat = Rmax 0 (U 0%nat + Z_i - Rmax Z_i Z_j).
Proof.
  intros [H|[H1 [H2 H3]]]; rewrite star_kappa; unfold kappa.
  - rewrite H. rewrite mollified_dry by lra. pose proof (Rmax_l Z_i Z_j).
    rewrite Rmax_left by lra. ring.
  - rewrite mollified_wet by assumption. field. lra.
Qed.

Section Lake.
Variables (p : wparameters) (dim : nat) (Z : nat -> R) (M : mesh) (nm : R) (level : R).
Local Notation s := (wp_system p).
Local Notation eps := (wp_eps p).
Local Notation SY := (sw_scheme p dim Z).
Notation lake := (lake_at_rest s eps dim M Z level).

Lemma lake_star U i j : lake U -> (i < n_rows M)%nat -> (j < n_rows M)%nat ->
  star_state s eps (U i) (Z i) (Z j) 0%nat = Rmin (U i 0%nat) (U j 0%nat) /\
  forall k, (1 <= k <= dim)%nat -> star_state s eps (U i) (Z i) (Z j) k = 0.
Proof.
  intros L Hi Hj. destruct (L i Hi) as (A & B & C). destruct (L j Hj) as (A' & _ & _). split.
  - rewrite star_depth_resolved by exact B. rewrite A, A'.
    destruct (Rle_lt_dec (Z i) (Z j)).
    + rewrite (Rmax_right (Z i)) by lra. destruct (Rle_lt_dec 0 (level - Z i)).
      * rewrite (Rmax_right 0 (level - Z i)) by lra.
        replace (level - Z i + Z i - Z j) with (level - Z j) by ring. symmetry. apply Rmin_right.
        apply Rmax_lub; lra.
      * rewrite (Rmax_left 0 (level - Z i)) by lra. rewrite !Rmax_left by lra. symmetry. apply Rmin_left. lra.
    + rewrite (Rmax_left (Z i)) by lra. destruct (Rle_lt_dec 0 (level - Z i)).
      * rewrite (Rmax_right 0 (level - Z i)) by lra. rewrite !Rmax_right by lra. symmetry.
        replace (level - Z i + Z i - Z i) with (level - Z i) by ring. apply Rmin_left. lra.
      * rewrite (Rmax_left 0 (level - Z i)) by lra. rewrite Rmax_left by lra. symmetry. apply Rmin_left.
        apply Rmax_l.
  - intros k Hk. rewrite star_kappa, (C k Hk). ring.
Qed.

Lemma g_rest U c k : (forall k, (1 <= k <= dim)%nat -> U k = 0) -> dot dim (w_g s eps U k) c = 0.
Proof.
  intros H. unfold dot. rewrite <- (rsum_0 dim). apply rsum_ext. intros l Hl.
  unfold w_g, w_momentum. destruct (Nat.eqb k 0); rewrite (H (Datatypes.S l)) by lia; ring.
Qed.

Lemma contract_0 (f : R) g_i g_j c :
  contract dim (sub_diag f (fun k l => - fadd g_i g_j k l)) c 0%nat = - (dot dim (g_i 0%nat) c + dot dim (g_j 0%nat) c).
Proof. apply w_fluxdiv_0. Qed.

Lemma rest_divergence f g_i g_j c k : (k <= dim)%nat ->
  (forall k, dot dim (g_i k) c = 0) -> (forall k, dot dim (g_j k) c = 0) ->
  contract dim (sub_diag f (fun k l => - fadd g_i g_j k l)) c k =
  match k with O => 0 | Datatypes.S x => - f * c x end.
Proof.
  intros Hk Hi Hj. destruct k as [|x].
  - rewrite w_fluxdiv_0, Hi, Hj. ring.
  - rewrite w_fluxdiv_S by lia. rewrite Hi, Hj. ring.
Qed.

(** The low-order flux of a lake at rest. *)
Definition rest_flux (h : R) (c : cvec) (k : nat) : R :=
  match k with O => 0 | Datatypes.S x => - (gravity s * (h * h)) * nth x c 0 end.

Lemma lake_low (v : (nat -> state nat) * PC nat SY) i j k : lake (fst v) -> (i < n_rows M)%nat -> (j < n_rows M)%nat -> (k <= dim)%nat ->
  low_order_flux SY M v i j k = rest_flux (fst v i 0%nat) (c_ij M i j) k.
Proof.
  intros L Hi Hj Hk. unfold low_order_flux, flux. cbn [flux_divergence flux_contribution SY sw_scheme].
  unfold w_flux_divergence. cbn [SWSystem.equilibrated_states].
  destruct (lake_star (fst v) i j L Hi Hj) as [A A'].
  destruct (lake_star (fst v) j i L Hj Hi) as [B B'].
  rewrite rest_divergence; [|exact Hk|intros; apply g_rest; exact A'|intros; apply g_rest; exact B'].
  unfold rest_flux, water_depth. destruct k as [|x]; [reflexivity|].
  rewrite A, B, (Rmin_comm (fst v j 0%nat)). unfold vec_of. cbn [fst]. field.
Qed.

Lemma lake_jump (v : (nat -> state nat) * PC nat SY) i j k : lake (fst v) -> (i < n_rows M)%nat -> (j < n_rows M)%nat -> (k <= dim)%nat ->
  jump SY v i j k = 0.
Proof.
  intros L Hi Hj Hk. unfold jump, flux. cbn [shallow_water flux_contribution equilibrated_states SY sw_scheme].
  cbn [SWSystem.equilibrated_states]. unfold sminus.
  destruct (lake_star (fst v) i j L Hi Hj) as [A A'].
  destruct (lake_star (fst v) j i L Hj Hi) as [B B'].
  destruct k as [|x].
  - rewrite A, B, Rmin_comm. ring.
  - rewrite A', B' by lia. ring.
Qed.

Lemma lake_source (v : (nat -> state nat) * PC nat SY) tau i k : lake (fst v) -> (i < n_rows M)%nat -> (k <= dim)%nat ->
  source SY tau v i k = 0.
Proof.
  intros L Hi Hk. unfold source. cbn [have_source_terms nodal_source SY sw_scheme].
  unfold manning_friction, mkwater. destruct k as [|x]; [reflexivity|].
  replace (Nat.eqb (Datatypes.S x) 0) with false by reflexivity. unfold w_momentum.
  replace (Datatypes.S (Datatypes.S x - 1)) with (Datatypes.S x) by lia.
  destruct (L i Hi) as (_ & _ & C). rewrite C by lia. ring.
Qed.

Lemma rest_row_sum i h k : zero_row_sum M i -> lsum (fun j => rest_flux h (c_ij M i j) k) (columns M i) = 0.
Proof.
  intros H. destruct k as [|x]; unfold rest_flux.
  - apply lsum_zero. reflexivity.
  - rewrite lsum_scal, (H x). ring.
Qed.

Section Step.
Variables (old : (nat -> state nat) * PC nat SY) (stages : list ((nat -> state nat) * PC nat SY * R)).
Variables (alpha : nat -> R) (d : nat -> nat -> R) (tau : R).
Hypothesis Hpat : symmetric_pattern M.
Hypothesis Hsum : forall i, active M i -> zero_row_sum M i.
Hypothesis Hold : lake (fst old).

Lemma col_bound i j : (i < n_rows M)%nat -> In j (columns M i) -> (j < n_rows M)%nat.
Proof using Hpat.
  intros Hi Hj. rewrite (columns_split M i Hpat Hi) in Hj. destruct Hj as [<-|Hj]; [exact Hi|].
  apply (neighbours_bound M i j Hpat Hi Hj).
Qed.

Lemma lake_low_update new0 i k : (i < n_rows M)%nat -> constrained M i = false -> (k <= dim)%nat ->
  low_order_update SY M old d tau new0 i k = fst old i k.
Proof using Hpat Hsum Hold.
  intros Hi Hc Hk. rewrite (low_order_form SY M old d tau new0 i k Hc).
  rewrite (lake_source old tau i k Hold Hi Hk).
  rewrite (lsum_ext _ (fun j => tau * mass_inv M i * rest_flux (fst old i 0%nat) (c_ij M i j) k)).
  - rewrite lsum_scal, (rest_row_sum i _ k (Hsum i (constrained_active M i Hi Hc))). ring.
  - intros j Hj. pose proof (col_bound i j Hi Hj).
    rewrite lake_low, lake_jump by assumption. ring.
Qed.

(** Fully wet: high-order flux and low-order flux agree. *)
Hypothesis Hwet : forall i, (i < n_rows M)%nat -> Z i <= level.
Hypothesis Hst : forall st, In st stages -> lake (fst (fst st)).

Lemma wet_high (v : (nat -> state nat) * PC nat SY) i j k : lake (fst v) -> (i < n_rows M)%nat -> (j < n_rows M)%nat -> (k <= dim)%nat ->
  high_order_flux SY M v i j k = rest_flux (level - Z i) (c_ij M i j) k.
Proof using Hwet.
  intros L Hi Hj Hk. unfold high_order_flux, flux.
  cbn [have_high_order_flux high_order_flux_divergence flux_contribution SY sw_scheme].
  unfold w_high_order_flux_divergence.
  destruct (L i Hi) as (A & _ & A'). destruct (L j Hj) as (B & _ & B').
  rewrite rest_divergence; [|exact Hk|intros; apply g_rest; exact A'|intros; apply g_rest; exact B'].
  unfold rest_flux, water_depth. destruct k as [|x]; [reflexivity|].
  rewrite A, B. pose proof (Hwet i Hi). pose proof (Hwet j Hj).
  rewrite !Rmax_right by lra. unfold vec_of. ring.
Qed.

Lemma wet_flux_H i j k : (i < n_rows M)%nat -> (j < n_rows M)%nat -> (k <= dim)%nat ->
  flux_H SY M old stages i j k = rest_flux (level - Z i) (c_ij M i j) k.
Proof using Hold Hst Hwet.
  intros Hi Hj Hk. unfold flux_H. rewrite (wet_high old i j k Hold Hi Hj Hk), weight_value.
  rewrite (lsum_ext (fun st => snd st * high_order_flux SY M (fst st) i j k) (fun st => rest_flux (level - Z i) (c_ij M i j) k * snd st)).
  - rewrite (lsum_scal _ snd stages). ring.
  - intros st Hin. rewrite (wet_high (fst st) i j k (Hst st Hin) Hi Hj Hk). ring.
Qed.

Lemma lake_src_H i k : (i < n_rows M)%nat -> (k <= dim)%nat -> src_H SY old stages tau i k = 0.
Proof using Hold Hst.
  intros Hi Hk. unfold src_H. rewrite (lake_source old tau i k Hold Hi Hk), lsum_zero; [ring|].
  intros st Hin. rewrite (lake_source (fst st) tau i k (Hst st Hin) Hi Hk). ring.
Qed.

Lemma wet_rhs i k : active M i -> (k <= dim)%nat -> high_order_rhs SY M old stages alpha d tau i k = 0.
Proof using Hpat Hsum Hold Hst Hwet.
  intros Ha Hk. pose proof (proj1 Ha) as Hi. rewrite high_order_rhs_form, (lake_src_H i k Hi Hk).
  rewrite (lsum_ext _ (fun j => rest_flux (level - Z i) (c_ij M i j) k)).
  - rewrite (rest_row_sum i _ k (Hsum i Ha)). ring.
  - intros j Hj. pose proof (col_bound i j Hi Hj).
    rewrite lake_jump, wet_flux_H, lake_src_H by assumption. ring.
Qed.

Lemma wet_pij i j k : (i < n_rows M)%nat -> In j (neighbours M i) -> (k <= dim)%nat ->
  pij SY M old stages alpha d tau i j k = 0.
Proof using Hpat Hsum Hold Hst Hwet.
  intros Hi Hj Hk. destruct (neighbours_bound M i j Hpat Hi Hj) as [Hb _].
  rewrite pij_form. unfold corr. pose proof (row_active M i j Hpat Hi Hj). pose proof (col_active M i j Hpat Hi Hj).
  rewrite pij_step4_form, !wet_rhs by assumption.
  rewrite lake_src_H, lake_source, lake_jump, wet_flux_H, lake_low by assumption.
  destruct (Hold i Hi) as (A & _ & _). pose proof (Hwet i Hi). rewrite A, Rmax_right by lra. ring.
Qed.

Lemma wet_passes order n r i k :
  (i < n_rows M)%nat -> constrained M i = false -> (k <= dim)%nat ->
  forall l lnext V, passes SY M nm old stages alpha d tau order n r l lnext V i k = V i k.
Proof using Hpat Hsum Hold Hst Hwet.
  intros Hi Hc Hk.
  assert (P : forall l V, high_order_update SY M old stages alpha d tau l V i k = V i k).
  { intros l V. rewrite high_order_update_form by exact Hc. rewrite lsum_zero; [ring|].
    intros j Hj. rewrite wet_pij by assumption. ring. }
  induction r as [|r IH]; intros l lnext V; [reflexivity|]. cbn [passes].
  destruct ((n =? 2)%nat && (r =? 0)%nat); rewrite IH; apply P.
Qed.
End Step.
End Lake.
