(** * Shallow water scheme: volume, bounds of the water depth *)
From Coq Require Import Reals List Arith Bool Lia Lra Psatz.
From Verif Require Import RVec Simd Newton EulerSystem EulerLimiter EulerLimiterBounds SWSystem PhysSpec PhysLib SWPhysProofs SWRiemann SWRiemannProofs
  SWLimiter SWLimiterSpec SWLimiterProofs SWLimiterFinal Indicator SWScheme SWSchemeSpec SchemeSpec SchemeProofs SchemeUpdate SchemeLimit SchemeFinal
  SWSchemeProofs SWSchemeDepth.
From Verif Require Import Scheme.
Import ListNotations.
Local Open Scope R_scope.

(** ** Volume *)

Lemma dot_neg dim m c : dot dim m (vec_of (neg c)) = - dot dim m (vec_of c).
Proof.
  unfold dot. rewrite (rsum_ext dim _ (fun x => -1 * (m x * vec_of c x))) by (intros; rewrite vec_of_neg; ring).
  rewrite rsum_scal. ring.
Qed.

Lemma sw_volume p dim Z M nm order n a0 d0 l0 ln0 new0 (old : (nat -> state nat) * PC nat (sw_scheme p dim Z)) stages tau :
  let S := sw_scheme p dim Z in
  symmetric_pattern M -> positive_masses M -> valid_numbering M -> symmetric_matrices M ->
  (forall i j, active M i -> In j (columns M i) -> i <> j -> skew_at M i j) ->
  (forall i, active M i -> dot dim (w_momentum (fst old i)) (vec_of (c_ij M i i)) = 0) ->
  let rows := active_rows M in
  total M rows (fst (hyperbolic_update S M nm order n a0 d0 l0 ln0 new0 old stages tau)) 0%nat =
  total M rows (fst old) 0%nat.
Proof.
  intros S H HM HV HSM Hsk Hslip rows.
  assert (HSD : skew_divergence S M (flux_divergence nat S) 0%nat).
  { intros i j a b Hi Hj Hne. rewrite (Hsk i j (row_active M i j H Hi (proj2 (neighbours_in M i j H Hi) (conj Hj (not_eq_sym Hne)))) Hj Hne). destruct a as [Ua Za], b as [Ub Zb].
    cbn [flux_divergence S sw_scheme]. unfold w_flux_divergence. cbn [SWSystem.equilibrated_states].
    rewrite !w_fluxdiv_0, !dot_neg. ring. }
  assert (HSH : skew_divergence S M (high_order_flux_divergence nat S) 0%nat).
  { intros i j a b Hi Hj Hne. rewrite (Hsk i j (row_active M i j H Hi (proj2 (neighbours_in M i j H Hi) (conj Hj (not_eq_sym Hne)))) Hj Hne). destruct a as [Ua Za], b as [Ub Zb].
    cbn [high_order_flux_divergence S sw_scheme]. unfold w_high_order_flux_divergence.
    rewrite !w_fluxdiv_0, !dot_neg. ring. }
  rewrite C19_conservation_proof; auto.
  - rewrite (lsum_ext _ (fun i => lsum (fun j =>
        flux_divergence nat S (flux_contribution nat S (snd old) i (fst old i))
          (flux_contribution nat S (snd old) j (fst old j)) (c_ij M i j) 0%nat) (neighbours M i))).
    + fold rows. rewrite pattern_sum; [rewrite Rmult_0_r; apply Rplus_0_r|exact H|].
      intros i j Hi Hj. destruct (neighbours_columns M i j H Hi Hj) as [H1 H2].
      apply HSD; auto.
    + intros i Hi. assert (Ha : active M i) by (apply active_spec; exact Hi).
      apply active_rows_in in Hi. destruct Hi as [Hi _].
      rewrite (columns_split M i H Hi). cbn [lsum].
      pose proof (row_low_flux p dim Z M old i i) as E. unfold low_order_flux, flux in E.
      pose proof (Hslip i Ha) as Q. unfold S in Q. rewrite Q in E.
      replace (- (_ + _)) with 0 in E by (unfold star_mass, Rdiv; ring).
      match goal with |- ?x + ?y = ?z => change (x + z = z) end. unfold S. rewrite E. apply Rplus_0_l.
  - intros i j Hi Hj Hne. left. apply Hsk; assumption.
  - apply sw_symmetric.
  - apply sw_nonneg.
  - intros _. reflexivity.
  - intros _ [Ua Za] [Ub Zb]. reflexivity.
Qed.

(** ** Bar states *)

Section Bars.
Variables (p : wparameters) (dim : nat) (Z : nat -> R) (M : mesh) (nm : R).
Local Notation s := (wp_system p).
Local Notation eps := (wp_eps p).
Local Notation SY := (sw_scheme p dim Z).
Variables (old : (nat -> state nat) * PC nat SY) (d0 : nat -> nat -> R) (tau : R).
Local Notation U := (fst old).
Local Notation cs := (cutoff_small s eps).
Local Notation d := (dij_matrix SY M nm old d0).
Local Notation mdot i c := (dot dim (w_momentum (U i%nat)) (vec_of c)).
Local Notation kap i j := (kappa s eps (U i%nat) (Z i%nat) (Z j%nat)).
Local Notation sm i j := (star_mass cs (U i%nat 0%nat) (kap i j)).
Hypothesis Hpat : symmetric_pattern M.
Hypothesis Hmass : positive_masses M.
Hypothesis Hnum : valid_numbering M.
Hypothesis Hpairs : pairs_listed M.
Hypothesis Hnm : 0 < nm.
Hypothesis Hcs : 0 < cs.
Hypothesis Htau : 0 <= tau.
Hypothesis Hdepth : forall i, (i < n_rows M)%nat -> 0 <= U i 0%nat.

(** Depth component of the affine shift. *)
Definition shift_depth (i : nat) : R := affine_shift_i SY M old d tau i 0%nat.

Lemma shift_value i : (i < n_rows M)%nat -> kap i i * U i 0%nat = U i 0%nat ->
  shift_depth i = tau * mass_inv M i *
    lsum (fun j => 2 * (d i j + mdot i (c_ij M i j) / Rmax (U i 0%nat) cs) * (U i 0%nat - kap i j * U i 0%nat)) (neighbours M i).
Proof.
  intros Hi Hk. unfold shift_depth, affine_shift_i. cbn [shallow_water sw_scheme].
  unfold splus, smult. rewrite row_source.
  assert (E : forall l x, fold_left (fun t j => fun k => t k + affine_shift nat SY (flux SY old i) (flux SY old j) (c_ij M i j) (d i j) k) l x 0%nat =
     x 0%nat + lsum (fun j => 2 * (d i j + mdot i (c_ij M i j) / Rmax (U i 0%nat) cs) * (U i 0%nat - kap i j * U i 0%nat)) l).
  { induction l as [|j l IH]; intros x; cbn [fold_left lsum]; [ring|]. rewrite IH.
    unfold flux. cbn [affine_shift flux_contribution sw_scheme]. unfold SWSystem.affine_shift.
    rewrite star_kappa. unfold inverse_water_depth_sharp, water_depth_sharp, water_depth. fold cs. unfold Rdiv. ring. }
  rewrite E. unfold szero. rewrite (columns_split M i Hpat Hi). cbn [lsum]. rewrite Hk. ring.
Qed.

Lemma kappa_self i : wet_or_dry s eps (U i 0%nat) -> kap i i * U i 0%nat = U i 0%nat.
Proof.
  intros H. rewrite <- star_kappa, star_depth_resolved by exact H.
  rewrite (Rmax_left (Z i)) by lra. replace (U i 0%nat + Z i - Z i) with (U i 0%nat) by ring.
  apply Rmax_right. destruct H as [->|H]; lra.
Qed.

Lemma mass_inv_nonneg i : active M i -> 0 <= tau * mass_inv M i.
Proof.
  intros Hi. destruct (Hmass i Hi) as [Hm ->]. apply Rmult_le_pos; [exact Htau|]. left. apply Rinv_0_lt_compat, Hm.
Qed.

Lemma shift_nonneg i : active M i -> wet_or_dry s eps (U i 0%nat) -> 0 <= shift_depth i.
Proof.
  intros Ha Hw. pose proof (proj1 Ha) as Hi. rewrite (shift_value i Hi (kappa_self i Hw)).
  apply Rmult_le_pos; [apply mass_inv_nonneg; exact Ha|]. apply lsum_nonneg. intros j Hj.
  destruct (viscosity_bounds p dim Z M nm old d0 Hpat Hnum Hpairs Hcs i j Hi Hj) as (V1 & V2 & V3).
  destruct (kappa_bounds s eps (U i) (Z i) (Z j) (Hdepth i Hi)) as [[K1 K2] K3].
  pose proof (Hdepth i Hi).
  apply Rmult_le_pos; [lra|]. assert (0 <= (1 - kap i j) * U i 0%nat) by (apply Rmult_le_pos; lra). lra.
Qed.

(** The arguments of the calls of accumulate() for row [i]. *)
Definition contribution (i j : nat) : wcontrib :=
  {| wc_U := U j; wc_ij := star_state s eps (U i) (Z i) (Z j); wc_ji := star_state s eps (U j) (Z j) (Z i);
     wc_c := vec_of (cdiv (c_ij M i j) (Rmax (d i j) (100 * nm))); wc_shift := affine_shift_i SY M old d tau i |}.

Lemma bounds_stencil i :
  bounds_step4 SY M nm old d tau i =
  w_get_bounds s eps (wp_relaxation p) dim
    (w_stencil s eps dim (wp_big p) (U i) (map (contribution i) (columns M i))) (mass M i * (1 / measure_of_omega M)).
Proof.
  unfold bounds_step4. cbn [limiter_bounds limiter_reset shallow_water sw_scheme equilibrated_states].
  f_equal. unfold w_stencil, flux. cbn [flux_contribution sw_scheme].
  generalize (w_reset (wp_big p) (U i)). induction (columns M i) as [|j l IH]; intros x; [reflexivity|].
  cbn [map fold_left]. rewrite IH. reflexivity.
Qed.

Lemma bar_depth i j :
  water_depth (w_bar_of s eps dim (contribution i j)) =
  1 / 2 * (kap i j * U i 0%nat + kap j i * U j 0%nat
    + (sm i j (mdot i (c_ij M i j)) - sm j i (mdot j (c_ij M i j))) / Rmax (d i j) (100 * nm)) + shift_depth i.
Proof.
  unfold water_depth, w_bar_of, contribution, w_bar_state. cbn [wc_ij wc_ji wc_c wc_shift].
  rewrite !star_kappa. fold (shift_depth i).
  assert (X : contract dim (fadd (w_f s eps (star_state s eps (U i) (Z i) (Z j)))
      (fun k l => - w_f s eps (star_state s eps (U j) (Z j) (Z i)) k l))
      (vec_of (cdiv (c_ij M i j) (Rmax (d i j) (100 * nm)))) 0%nat =
     (sm i j (mdot i (c_ij M i j)) - sm j i (mdot j (c_ij M i j))) / Rmax (d i j) (100 * nm)).
  { rewrite <- !star_mass_flux. set (D := Rmax _ _).
    transitivity (/ D * (dot dim (w_g s eps (star_state s eps (U i) (Z i) (Z j)) 0%nat) (vec_of (c_ij M i j))
      + -1 * dot dim (w_g s eps (star_state s eps (U j) (Z j) (Z i)) 0%nat) (vec_of (c_ij M i j)))); [|unfold Rdiv; ring].
    unfold dot. rewrite <- (rsum_scal _ (-1)), <- rsum_plus, <- rsum_scal.
    unfold contract, dot. apply rsum_ext. intros l _. unfold fadd, w_f, w_g, vec_of. rewrite Nat.eqb_refl.
    rewrite nth_cdiv. unfold Rdiv, vadd. ring. }
  rewrite X. reflexivity.
Qed.

Lemma outgoing_star i j : (i < n_rows M)%nat -> In j (neighbours M i) ->
  - (d i j * (kap i j * U i 0%nat)) <= sm i j (mdot i (c_ij M i j)).
Proof.
  intros Hi Hj. destruct (viscosity_bounds p dim Z M nm old d0 Hpat Hnum Hpairs Hcs i j Hi Hj) as (V1 & V2 & V3).
  destruct (kappa_bounds s eps (U i) (Z i) (Z j) (Hdepth i Hi)) as [[K1 K2] K3].
  assert (X := incoming cs (U i 0%nat) (kap i j) (- mdot i (c_ij M i j)) (d i j) Hcs (Hdepth i Hi) (conj K1 (Rle_trans _ _ _ K2 K3)) V1).
  replace (- mdot i (c_ij M i j)) with (-1 * mdot i (c_ij M i j)) in X by ring. rewrite star_mass_linear in X.
  assert (-1 * mdot i (c_ij M i j) / Rmax (U i 0%nat) cs <= d i j) by (unfold Rdiv in *; lra). specialize (X H). lra.
Qed.

Lemma incoming_star i j : (i < n_rows M)%nat -> In j (neighbours M i) ->
  sm j i (mdot j (c_ij M i j)) <= d i j * (kap j i * U j 0%nat).
Proof.
  intros Hi Hj. destruct (viscosity_bounds p dim Z M nm old d0 Hpat Hnum Hpairs Hcs i j Hi Hj) as (V1 & V2 & V3).
  destruct (neighbours_bound M i j Hpat Hi Hj) as [Hjb _].
  destruct (kappa_bounds s eps (U j) (Z j) (Z i) (Hdepth j Hjb)) as [[K1 K2] K3].
  apply (incoming cs (U j 0%nat) (kap j i) _ (d i j) Hcs (Hdepth j Hjb) (conj K1 (Rle_trans _ _ _ K2 K3)) V1 V3).
Qed.

Lemma bar_nonneg i j : active M i -> wet_or_dry s eps (U i 0%nat) -> In j (columns M i) ->
  0 <= water_depth (w_bar_of s eps dim (contribution i j)).
Proof.
  intros Ha Hw Hj. pose proof (proj1 Ha) as Hi. rewrite bar_depth. pose proof (shift_nonneg i Ha Hw) as HS.
  rewrite (columns_split M i Hpat Hi) in Hj. destruct Hj as [<-|Hj].
  - rewrite Rminus_diag_eq by reflexivity. rewrite (kappa_self i Hw). unfold Rdiv. pose proof (Hdepth i Hi). lra.
  - pose proof (outgoing_star i j Hi Hj) as A. pose proof (incoming_star i j Hi Hj) as B.
    destruct (neighbours_bound M i j Hpat Hi Hj) as [Hjb _].
    pose proof (Hdepth i Hi) as Di. pose proof (Hdepth j Hjb) as Dj.
    destruct (kappa_bounds s eps (U i) (Z i) (Z j) Di) as [[K1 K2] K3].
    destruct (kappa_bounds s eps (U j) (Z j) (Z i) Dj) as [[K4 K5] K6].
    set (X := kap i j * U i 0%nat) in *. set (Y := kap j i * U j 0%nat) in *.
    assert (HX : 0 <= X) by (apply Rmult_le_pos; assumption).
    assert (HY : 0 <= Y) by (apply Rmult_le_pos; assumption).
    set (F := sm i j (mdot i (c_ij M i j))) in *. set (G := sm j i (mdot j (c_ij M i j))) in *.
    set (D := Rmax (d i j) (100 * nm)).
    assert (HD : 0 < D) by (unfold D; pose proof (Rmax_r (d i j) (100 * nm)); lra).
    assert (HDd : d i j <= D) by apply Rmax_l.
    assert (0 <= X + Y + (F - G) / D); [|lra].
    apply Rmult_le_reg_r with D; [exact HD|]. rewrite Rmult_0_l.
    replace ((X + Y + (F - G) / D) * D) with (D * X + D * Y + F - G) by (field; lra).
    assert (d i j * X <= D * X) by (apply Rmult_le_compat_r; assumption).
    assert (d i j * Y <= D * Y) by (apply Rmult_le_compat_r; assumption). lra.
Qed.

(** ** The convex combination *)

Local Notation fast := (SWSchemeSpec.fast p dim Z M nm old d0).

Hypothesis Hres : resolved s eps M Z U.

Lemma star_mass_resolved i j mc : (i < n_rows M)%nat -> In j (columns M i) -> sm i j mc = kap i j * mc.
Proof.
  intros Hi Hj. destruct (Hres i Hi) as [Hw Hr]. specialize (Hr j Hj). unfold reconstructed in Hr.
  rewrite <- (star_depth_resolved s eps (U i) (Z i) (Z j) Hw), star_kappa in Hr.
  unfold star_mass. destruct Hr as [Hr|Hr].
  - destruct Hw as [Hw|[Hw _]].
    + unfold kappa. rewrite mollified_dry by lra. unfold Rdiv. ring.
    + apply Rmult_integral in Hr. destruct Hr as [Hr|Hr]; [rewrite Hr; unfold Rdiv; ring|lra].
  - rewrite Rmax_left by exact Hr. field. split; intros Q; rewrite Q in Hr; lra.
Qed.

Lemma low_combination new0 i : (i < n_rows M)%nat -> constrained M i = false -> zero_row_sum M i -> fast i ->
  low_order_update SY M old d tau new0 i 0%nat =
  (1 - lsum (fun j => 2 * (tau * mass_inv M i) * d i j) (neighbours M i)) * water_depth (w_bar_of s eps dim (contribution i i))
  + lsum (fun j => 2 * (tau * mass_inv M i) * d i j * water_depth (w_bar_of s eps dim (contribution i j))) (neighbours M i).
Proof.
  intros Hi Hc Hz Hf. rewrite (row_depth p dim Z M old d tau new0 i Hpat Hi Hc Hz).
  destruct (Hres i Hi) as [Hw _]. pose proof (kappa_self i Hw) as Hk.
  assert (Hii : In i (columns M i)) by (rewrite (columns_split M i Hpat Hi); left; reflexivity).
  assert (B0 : water_depth (w_bar_of s eps dim (contribution i i)) = U i 0%nat + shift_depth i).
  { rewrite bar_depth, Hk. unfold Rdiv. field. pose proof (Rmax_r (d i i) (100 * nm)). lra. }
  rewrite B0.
  set (t := tau * mass_inv M i).
  rewrite (lsum_ext (fun j => 2 * t * d i j * water_depth (w_bar_of s eps dim (contribution i j)))
    (fun j => t * (d i j * (kap i j * U i 0%nat + kap j i * U j 0%nat)
                   + (kap i j * mdot i (c_ij M i j) - kap j i * mdot j (c_ij M i j)))
              + shift_depth i * (2 * t * d i j))).
  2:{ intros j Hj. destruct (neighbours_columns M i j Hpat Hi Hj) as [Hjc Hne].
      destruct (neighbours_bound M i j Hpat Hi Hj) as [Hjb [Hji _]].
      assert (Hic : In i (columns M j)) by (rewrite (columns_split M j Hpat Hjb); right; exact Hji).
      rewrite bar_depth, !star_mass_resolved by assumption.
      destruct (Hf j Hj) as [Hd|[Hd1 Hd2]].
      - rewrite Rmax_left by exact Hd. field. lra.
      - assert (Z1 : kap i j = 0) by (unfold kappa; rewrite mollified_dry by lra; ring).
        assert (Z2 : kap j i = 0) by (unfold kappa; rewrite mollified_dry by lra; ring).
        rewrite Z1, Z2. unfold Rdiv. ring. }
  rewrite lsum_plus, lsum_scal, (lsum_scal (shift_depth i)).
  rewrite (lsum_scal (2 * t)). set (D := lsum (fun j => d i j) (neighbours M i)).
  replace ((1 - 2 * t * D) * (U i 0%nat + shift_depth i)) with
    (U i 0%nat + shift_depth i - 2 * t * D * U i 0%nat - shift_depth i * (2 * t * D)) by ring.
  rewrite (shift_value i Hi Hk). fold t.
  replace (2 * t * D * U i 0%nat) with (t * lsum (fun j => 2 * U i 0%nat * d i j) (neighbours M i))
    by (rewrite (lsum_scal (2 * U i 0%nat) (fun j => d i j)); unfold D; ring).
  rewrite (lsum_scal t).
  match goal with |- _ + t * ?A = _ + t * ?B - t * ?C - _ + (t * ?E + _) =>
    assert (Q : A = B - C + E) end.
  { rewrite <- lsum_minus, <- lsum_plus. apply lsum_ext. intros j Hj.
    destruct (neighbours_columns M i j Hpat Hi Hj) as [Hjc Hne].
    destruct (neighbours_bound M i j Hpat Hi Hj) as [Hjb [Hji _]].
    assert (Hic : In i (columns M j)) by (rewrite (columns_split M j Hpat Hjb); right; exact Hji).
    unfold pair_term. rewrite !star_mass_resolved by assumption.
    assert (V : mdot i (c_ij M i j) / Rmax (U i 0%nat) cs * (U i 0%nat - kap i j * U i 0%nat) =
                kap i i * mdot i (c_ij M i j) - kap i j * mdot i (c_ij M i j)).
    { destruct Hw as [Hw|[Hw [Hw2 _]]].
      - assert (Z1 : kap i j = 0) by (unfold kappa; rewrite mollified_dry by lra; ring).
        assert (Z2 : kap i i = 0) by (unfold kappa; rewrite mollified_dry by lra; ring).
        rewrite Z1, Z2, Hw. ring.
      - rewrite Rmax_left by exact Hw2.
        assert (Z2 : kap i i = 1) by (apply Rmult_eq_reg_r with (U i 0%nat); [rewrite Hk; ring|lra]).
        rewrite Z2. field. lra. }
    replace (2 * (d i j + mdot i (c_ij M i j) / Rmax (U i 0%nat) cs) * (U i 0%nat - kap i j * U i 0%nat)) with
      (2 * d i j * (U i 0%nat - kap i j * U i 0%nat) +
       2 * (mdot i (c_ij M i j) / Rmax (U i 0%nat) cs * (U i 0%nat - kap i j * U i 0%nat))) by ring.
    rewrite V. ring. }
  rewrite Q. ring.
Qed.
End Bars.

(** ** Bounds of the water depth *)

Lemma interval_combination {A} (w x : A -> R) l w0 x0 a b :
  0 <= w0 -> a <= x0 <= b -> (forall j, In j l -> 0 <= w j /\ a <= x j <= b) -> w0 + lsum w l = 1 ->
  a <= w0 * x0 + lsum (fun j => w j * x j) l <= b.
Proof.
  intros H0 Hx H E.
  assert (L : 0 <= lsum (fun j => w j * (x j - a)) l).
  { apply lsum_nonneg. intros j Hj. destruct (H j Hj). apply Rmult_le_pos; lra. }
  assert (G : 0 <= lsum (fun j => w j * (b - x j)) l).
  { apply lsum_nonneg. intros j Hj. destruct (H j Hj). apply Rmult_le_pos; lra. }
  rewrite (lsum_ext _ (fun j => w j * x j - a * w j)) in L by (intros; ring).
  rewrite (lsum_ext _ (fun j => b * w j - w j * x j)) in G by (intros; ring).
  rewrite lsum_minus, (lsum_scal a) in L. rewrite lsum_minus, (lsum_scal b) in G.
  change (lsum (fun j => w j) l) with (lsum w l) in *.
  set (W := lsum w l) in *. set (X := lsum (fun j => w j * x j) l) in *.
  assert (w0 * a <= w0 * x0) by (apply Rmult_le_compat_l; lra).
  assert (w0 * x0 <= w0 * b) by (apply Rmult_le_compat_l; lra).
  replace W with (1 - w0) in * by lra. lra.
Qed.

Lemma extend_pred {K} (S : system K) M (P : BD K S -> Prop) order b0 :
  symmetric_pattern M -> (forall a b, P a -> P b -> P (combine_bounds K S a b)) ->
  (forall i, In i order -> (i < n_rows M)%nat) ->
  (forall i, active M i -> P (b0 i)) ->
  forall i, active M i -> P (extend_bounds S M order b0 i).
Proof.
  intros Hpat Hc Ho H0. unfold extend_bounds.
  assert (G : forall order, (forall i, In i order -> (i < n_rows M)%nat) -> forall b,
    (forall i, active M i -> P (b i)) -> forall i, active M i ->
    P (fold_left (fun b i => if constrained M i then b
       else upd b i (fold_left (fun acc j => combine_bounds K S acc (if owner M j =? owner M i then b j else b0 j)%nat)
              (neighbours M i) (b i))) order b i)).
  { clear order Ho. induction order as [|r order IH]; intros Ho b Hb i Hi; [apply Hb, Hi|].
    cbn [fold_left]. apply IH; [intros k Hk; apply Ho; right; exact Hk| |exact Hi].
    intros k Hk. destruct (constrained M r) eqn:Er; [apply Hb, Hk|]. unfold upd.
    destruct (k =? r)%nat; [|apply Hb, Hk].
    assert (Hr : (r < n_rows M)%nat) by (apply Ho; left; reflexivity).
    assert (N : forall l, (forall j, In j l -> active M j) -> forall x, P x ->
       P (fold_left (fun acc j => combine_bounds K S acc (if owner M j =? owner M r then b j else b0 j)%nat) l x)).
    { induction l as [|j l IHl]; intros Hl x Hx; [exact Hx|]. cbn [fold_left]. apply IHl; [intros; apply Hl; right; assumption|].
      assert (active M j) by (apply Hl; left; reflexivity).
      apply Hc; [exact Hx|]. destruct (owner M j =? owner M r)%nat; auto. }
    apply N; [|apply Hb, constrained_active; assumption]. intros j Hj. apply (col_active M r j Hpat Hr Hj). }
  apply G; assumption.
Qed.

Lemma depth_convex b : convex_set (depth_inside b).
Proof.
  intros u v a [A [B C]] [A' [B' C']] Ha. split; [exact A|].
  pose proof (Rmult_le_compat_l a _ _ (proj1 Ha) B). pose proof (Rmult_le_compat_l a _ _ (proj1 Ha) C).
  assert (Hb : 0 <= 1 - a) by lra.
  pose proof (Rmult_le_compat_l (1 - a) _ _ Hb B'). pose proof (Rmult_le_compat_l (1 - a) _ _ Hb C'). lra.
Qed.

Lemma sw_limit_guarantee p dim Z : 0 <= wp_eps p -> 0 < wp_tiny p -> limiter_guarantee (sw_scheme p dim Z) depth_inside.
Proof.
  intros He Ht b u P [A [B C]] l.
  set (L := {| wl_b := b; wl_U := u; wl_P := P; wl_tmin := 0; wl_tmax := 1 |}).
  destruct (w_limit (wp_system p) (wp_eps p) (wp_tiny p) (wp_tol p) (wp_on_kin p) (wp_on_v2 p) dim [L]) as [ts ok] eqn:E.
  assert (D : depth_call L).
  { unfold depth_call, depth_within, depth_at. cbn. repeat split; lra. }
  assert (T : Forall (fun L => wl_tmin L <= wl_tmax L) [L]) by (constructor; [cbn; lra|constructor]).
  pose proof (w_limit_in_range _ _ _ _ _ _ _ _ _ _ T E) as R1.
  pose proof (w_limit_depth_ok _ _ _ _ _ _ _ _ _ _ He Ht ltac:(constructor; [exact D|constructor]) E) as R2.
  assert (El : l = hd 0 ts).
  { unfold l. cbn [limiter_limit sw_scheme]. unfold sw_limit. fold L. rewrite E. reflexivity. }
  inversion R1 as [|x t l1 l2 Hr Hn]; subst. inversion Hn; subst.
  inversion R2 as [|x' t' l1' l2' Hr' Hn']; subst. cbn [hd] in El. rewrite El. cbn in Hr.
  split; [exact Hr|]. intros q Hq. unfold depth_inside. split; [exact A|].
  unfold depth_within, depth_at in Hr'. cbn in Hr'.
  set (x := P 0%nat) in *. set (y := u 0%nat) in *.
  destruct (Rle_lt_dec 0 x) as [Hx|Hx].
  - pose proof (Rmult_le_compat_r x _ _ Hx (proj2 Hq)). pose proof (Rmult_le_pos q x (proj1 Hq) Hx). lra.
  - pose proof (Rmult_le_compat_r (- x) _ _ ltac:(lra) (proj2 Hq)). pose proof (Rmult_le_pos q (- x) (proj1 Hq) ltac:(lra)). lra.
Qed.

Lemma radius_le_1 dim hd : 0 <= hd <= 1 -> relaxation_radius dim hd <= 1.
Proof.
  intros H. assert (S1 : forall x, 0 <= x <= 1 -> 0 <= sqrt x <= 1).
  { intros x Hx. split; [apply sqrt_pos|]. rewrite <- sqrt_1. apply sqrt_le_1_alt. lra. }
  pose proof (S1 hd H) as A. pose proof (S1 (sqrt hd) A) as B.
  assert (C : forall x, 0 <= x <= 1 -> x * x * x <= 1).
  { intros x Hx. assert (x * x <= 1) by nra. assert (0 <= x * x) by nra. nra. }
  unfold relaxation_radius. destruct (Nat.eqb dim 2); [apply C, B|]. destruct (Nat.eqb dim 1); [apply C, A|lra].
Qed.

Section Inside.
Variables (p : wparameters) (dim : nat) (Z : nat -> R) (M : mesh) (nm cfl : R).
Local Notation s := (wp_system p).
Local Notation eps := (wp_eps p).
Local Notation SY := (sw_scheme p dim Z).
Variables (old : (nat -> state nat) * PC nat SY) (d0 : nat -> nat -> R) (tau : R).
Local Notation U := (fst old).
Local Notation cs := (cutoff_small s eps).
Local Notation d := (dij_matrix SY M nm old d0).
Hypothesis Hpat : symmetric_pattern M.
Hypothesis Hmass : positive_masses M.
Hypothesis Hnum : valid_numbering M.
Hypothesis Hpairs : pairs_listed M.
Hypothesis Hnm : 0 < nm.
Hypothesis Heps : 0 < eps.
Hypothesis Hbig : 0 <= wp_big p.
Hypothesis Hrel : 0 <= wp_relaxation p <= 1.
Hypothesis Hom : forall i, active M i -> mass M i <= measure_of_omega M.
Hypothesis Hcs : 0 < cs.
Hypothesis Htau : 0 <= tau.
Hypothesis Hres : resolved s eps M Z U.

Lemma resolved_depth i : (i < n_rows M)%nat -> 0 <= U i 0%nat.
Proof. intros Hi. destruct (Hres i Hi) as [[->|H] _]; lra. Qed.

Lemma bounds_contain i j : active M i -> In j (columns M i) ->
  let b := bounds_step4 SY M nm old d tau i in
  h_min b <= water_depth (w_bar_of s eps dim (contribution p dim Z M nm old d0 tau i j)) <= h_max b.
Proof.
  intros Ha Hj b. pose proof (proj1 Ha) as Hi. unfold b. rewrite bounds_stencil.
  apply w_stencil_contains; try assumption; try lra.
  - intros c Hc. apply in_map_iff in Hc. destruct Hc as (k & <- & Hk).
    apply bar_nonneg; try assumption; [exact resolved_depth|]. apply (Hres i Hi).
  - apply in_map. exact Hj.
Qed.

Lemma bounds_nonneg i : active M i -> 0 <= h_min (bounds_step4 SY M nm old d tau i).
Proof.
  intros Ha. pose proof (proj1 Ha) as Hi. rewrite bounds_stencil. set (l := w_stencil _ _ _ _ _ _). unfold w_get_bounds. cbn [h_min].
  assert (Hm : 0 <= h_min (w_bounds l)).
  { unfold l, w_stencil.
    assert (G : forall cl x, (forall c, In c cl -> 0 <= water_depth (w_bar_of s eps dim c)) ->
       0 <= h_min (w_bounds x) -> 0 <= h_min (w_bounds (fold_left (w_step s eps dim) cl x))).
    { induction cl as [|c cl IH]; intros x H H0; simpl; [exact H0|].
      apply IH; [intros; apply H; now right|]. simpl. apply Rmin_glb; [exact H0|]. apply H. now left. }
    apply G; [|exact Hbig]. intros c Hc. apply in_map_iff in Hc. destruct Hc as (k & <- & Hk).
    apply bar_nonneg; try assumption; [exact resolved_depth|]. apply (Hres i Hi). }
  eapply Rle_trans; [|apply Rmax_l]. apply Rmult_le_pos; [|exact Hm].
  destruct (Hmass i Ha) as [Hmi _]. pose proof (Hom i Ha) as Ho.
  assert (H1 : relaxation_radius dim (mass M i * (1 / measure_of_omega M)) <= 1).
  { apply radius_le_1. assert (0 < / measure_of_omega M) by (apply Rinv_0_lt_compat; lra). unfold Rdiv. split.
    - apply Rmult_le_pos; lra.
    - rewrite Rmult_1_l. apply Rmult_le_reg_r with (measure_of_omega M); [lra|].
      rewrite Rmult_assoc, Rinv_l by lra. lra. }
  pose proof (relaxation_radius_nonneg dim (mass M i * (1 / measure_of_omega M))) as H0.
  set (r := relaxation_radius _ _) in *.
  assert (r * wp_relaxation p <= r * 1) by (apply Rmult_le_compat_l; lra). lra.
Qed.

Hypothesis Hcfl : 0 < cfl <= 1.
Hypothesis Hstep : forall t, In t (row_tau SY M nm cfl old d0) -> tau <= t.

Lemma low_inside new0 i : active M i -> zero_row_sum M i -> fast p dim Z M nm old d0 i ->
  depth_inside (bounds_step4 SY M nm old d tau i) (low_order_update SY M old d tau new0 i).
Proof.
  intros Ha Hz Hf. destruct (proj1 (active_constrained M i) Ha) as [Hi Hc].
  split; [apply bounds_nonneg; exact Ha|].
  rewrite (low_combination p dim Z M nm old d0 tau Hpat Hnm Hcs Hres new0 i Hi Hc Hz Hf).
  apply interval_combination.
  - pose proof (row_sum_visc p dim Z M nm cfl old d0 tau Hpat Hmass Hnm Htau (proj1 Hcfl) Hstep i Ha) as B.
    rewrite lsum_scal. change (lsum (fun x => d i x) (neighbours M i)) with (lsum (d i) (neighbours M i)). lra.
  - apply bounds_contain; [exact Ha|]. rewrite (columns_split M i Hpat Hi). left. reflexivity.
  - intros j Hj. split.
    + destruct (viscosity_bounds p dim Z M nm old d0 Hpat Hnum Hpairs Hcs i j Hi Hj) as (V1 & _ & _).
      destruct (Hmass i Ha) as [Hm Hmi].
      assert (0 <= tau * mass_inv M i).
      { rewrite Hmi. apply Rmult_le_pos; [exact Htau|]. left. apply Rinv_0_lt_compat, Hm. }
      apply Rmult_le_pos; [lra|exact V1].
    + apply bounds_contain; [exact Ha|]. rewrite (columns_split M i Hpat Hi). right. exact Hj.
  - ring.
Qed.

Lemma final_inside order n a0 l0 ln0 new0 stages :
  0 < wp_tiny p -> (n <= 2)%nat -> (forall i, In i order -> (i < n_rows M)%nat) ->
  (forall i, active M i -> zero_row_sum M i) -> (forall i, active M i -> fast p dim Z M nm old d0 i) ->
  forall i, active M i ->
  depth_inside (limiter_bounds_i SY M nm old d tau order i)
    (fst (hyperbolic_update SY M nm order n a0 d0 l0 ln0 new0 old stages tau) i).
Proof.
  intros Ht Hn Ho Hz Hf. apply C20_inside_bounds_proof; try assumption.
  - exact depth_convex.
  - apply sw_limit_guarantee; lra.
  - intros i Ha. destruct (proj1 (active_constrained M i) Ha) as [Hi Hc].
    assert (E : forall k, fst (hyperbolic_update SY M nm order 0 a0 d0 l0 ln0 new0 old stages tau) i k =
              low_order_update SY M old d tau new0 i k) by reflexivity.
    unfold depth_inside. rewrite E.
    pose proof (low_inside new0 i Ha (Hz i Ha) (Hf i Ha)) as B.
    unfold limiter_bounds_i. destruct (discontinuous M); [|exact B]. split.
    + apply (extend_pred SY M (fun b => 0 <= h_min b)); try assumption.
      * intros a b HA HB. cbn [combine_bounds sw_scheme w_combine_bounds h_min]. apply Rmin_glb; assumption.
      * apply bounds_nonneg.
    + apply (proj1 (C20_extended_bounds_proof SY M (fun b (u : state nat) => h_min b <= u 0%nat <= h_max b)
        ltac:(idtac; intros a b u H; cbn [combine_bounds sw_scheme w_combine_bounds h_min h_max];
          pose proof (Rmin_l (h_min a) (h_min b)); pose proof (Rmin_r (h_min a) (h_min b));
          pose proof (Rmax_l (h_max a) (h_max b)); pose proof (Rmax_r (h_max a) (h_max b)); destruct H; lra)
        order _ i (low_order_update SY M old d tau new0 i))). apply B.
Qed.
End Inside.
