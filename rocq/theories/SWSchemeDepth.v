(** * Water depth of the low-order update *)
From Coq Require Import Reals List Arith Bool Lia Lra Psatz.
From Verif Require Import RVec Simd Newton EulerSystem SWSystem PhysSpec PhysLib SWPhysProofs SWRiemann SWRiemannProofs SWRiemannFinal
  SWLimiter Indicator SWScheme SWSchemeSpec SchemeSpec SchemeProofs SchemeUpdate SchemeLimit SchemeFinal SWSchemeProofs.
From Verif Require Import Scheme.
Import ListNotations.
Local Open Scope R_scope.

(** ** Wave speed and velocities *)

Lemma sqrt_prod_nonneg a x : 0 <= a -> 0 <= a * sqrt x.
Proof. intros H. apply Rmult_le_pos; [exact H|apply sqrt_pos]. Qed.

Lemma sw_wavespeed_lower s eps dim U_i U_j n :
  - (dot dim n (w_momentum U_i) / water_depth_sharp s eps U_i) <= sw_wavespeed s eps dim U_i U_j n /\
  dot dim n (w_momentum U_j) / water_depth_sharp s eps U_j <= sw_wavespeed s eps dim U_i U_j n.
Proof.
  assert (E : forall U, wd_u (wr_data s eps dim U n) = dot dim n (w_momentum U) / water_depth_sharp s eps U).
  { intros U. unfold wr_data. cbn [wd_u]. unfold dot, Rdiv. rewrite Rmult_comm, <- rsum_scal.
    apply rsum_ext. intros. ring. }
  rewrite <- !E. unfold sw_wavespeed, wr_compute, wr_compute_lambda.
  set (hs := wr_compute_h_star _ _ _). clearbody hs.
  set (di := wr_data s eps dim U_i n). set (dj := wr_data s eps dim U_j n).
  assert (Ai : 0 <= wd_a di) by (unfold di, wr_data; cbn [wd_a]; apply sqrt_pos).
  assert (Aj : 0 <= wd_a dj) by (unfold dj, wr_data; cbn [wd_a]; apply sqrt_pos).
  clearbody di dj. split.
  - eapply Rle_trans; [|apply Rmax_l]. unfold wr_lambda1_minus.
    set (q := wd_a di * sqrt _). assert (0 <= q) by (apply sqrt_prod_nonneg; exact Ai). clearbody q.
    unfold negative_part, Rabs. destruct (Rcase_abs (wd_u di - q)); lra.
  - eapply Rle_trans; [|apply Rmax_r]. unfold wr_lambda3_plus.
    set (q := wd_a dj * sqrt _). assert (0 <= q) by (apply sqrt_prod_nonneg; exact Aj). clearbody q.
    unfold positive_part, Rabs. destruct (Rcase_abs (wd_u dj + q)); lra.
Qed.

Lemma dot_vec_of_cdiv dim c a (m : vec) : dot dim (vec_of (cdiv c a)) m = dot dim m (vec_of c) / a.
Proof.
  unfold dot, vec_of, Rdiv. rewrite Rmult_comm, <- rsum_scal. apply rsum_ext. intros x _.
  rewrite nth_cdiv. unfold Rdiv. ring.
Qed.

Lemma dot_vec_zero dim c (m : vec) : cnorm c = 0 -> dot dim m (vec_of c) = 0.
Proof.
  intros H. unfold dot. rewrite <- (rsum_0 dim). apply rsum_ext. intros x _. unfold vec_of.
  rewrite (cnorm_zero c H x). ring.
Qed.

(** The viscosity of a pair dominates the velocities of both rows. *)
Lemma sw_viscosity_lower p dim Z M (old : (nat -> state nat) * PC nat (sw_scheme p dim Z)) i j :
  let s := wp_system p in let eps := wp_eps p in
  let m k := dot dim (w_momentum (fst old k)) (vec_of (c_ij M i j)) in
  0 < water_depth_sharp s eps (fst old i) -> 0 < water_depth_sharp s eps (fst old j) ->
  - (m i / water_depth_sharp s eps (fst old i)) <= wave_viscosity (sw_scheme p dim Z) M old i j /\
  m j / water_depth_sharp s eps (fst old j) <= wave_viscosity (sw_scheme p dim Z) M old i j.
Proof.
  intros s eps m Hi Hj. unfold wave_viscosity, m. cbn [riemann_compute sw_scheme]. fold s eps.
  set (c := c_ij M i j). destruct (Rle_lt_dec (cnorm c) 0) as [Hz|Hp].
  - assert (Ez : cnorm c = 0) by (pose proof (cnorm_nonneg c); lra).
    rewrite !dot_vec_zero by exact Ez. rewrite Ez. unfold Rdiv. lra.
  - destruct (sw_wavespeed_lower s eps dim (fst old i) (fst old j) (vec_of (cdiv c (cnorm c)))) as [A B].
    rewrite dot_vec_of_cdiv in A, B.
    apply Rmult_le_compat_l with (r := cnorm c) in A; [|lra].
    apply Rmult_le_compat_l with (r := cnorm c) in B; [|lra].
    split.
    + eapply Rle_trans; [|exact A]. right. field. lra.
    + eapply Rle_trans; [|exact B]. right. field. lra.
Qed.

(** ** Star states *)

Lemma moll_depth s eps U : 0 <= U 0%nat ->
  0 <= inverse_water_depth_mollified s eps U /\ 0 <= U 0%nat * inverse_water_depth_mollified s eps U <= 1.
Proof.
  intros H. unfold inverse_water_depth_mollified, water_depth. rewrite positive_part_max, (Rmax_right 0) by exact H.
  set (hm := Rmax (U 0%nat) _). assert (Hm : U 0%nat <= hm) by apply Rmax_l. clearbody hm.
  set (h := U 0%nat) in *. clearbody h.
  assert (Q : 0 <= h * h + hm * hm) by nra.
  destruct (Req_dec (h * h + hm * hm) 0) as [E|E].
  - assert (h = 0) by nra. subst h. unfold Rdiv. split; [|lra]. lra.
  - assert (P : 0 < h * h + hm * hm) by lra. split.
    + apply Rmult_le_pos; [lra|]. left. apply Rinv_0_lt_compat. exact P.
    + split.
      * apply Rmult_le_pos; [exact H|]. apply Rmult_le_pos; [lra|]. left. apply Rinv_0_lt_compat. exact P.
      * apply Rmult_le_reg_r with (h * h + hm * hm); [exact P|].
        replace (h * (2 * h / (h * h + hm * hm)) * (h * h + hm * hm)) with (2 * h * h) by (field; lra).
        nra.
Qed.

Lemma kappa_bounds s eps U Z_i Z_j : 0 <= U 0%nat ->
  0 <= kappa s eps U Z_i Z_j <= kappa s eps U Z_i Z_i /\ kappa s eps U Z_i Z_i <= 1.
Proof.
  intros H. destruct (moll_depth s eps U H) as [A [B C]]. unfold kappa.
  rewrite (Rmax_left Z_i Z_i) by lra.
  replace (U 0%nat + Z_i - Z_i) with (U 0%nat) by ring. rewrite (Rmax_right 0 (U 0%nat)) by exact H.
  split; [split|exact C].
  - apply Rmult_le_pos; [apply Rmax_l|exact A].
  - apply Rmult_le_compat_r; [exact A|]. apply Rmax_lub; [exact H|]. pose proof (Rmax_l Z_i Z_j). lra.
Qed.

(** The mass flux of the star state with factor [k]. *)
Definition star_mass (cs h k mc : R) : R := k * k * h * mc / Rmax (k * h) cs.

Lemma star_mass_flux s eps dim U Z_i Z_j c :
  dot dim (w_g s eps (star_state s eps U Z_i Z_j) 0%nat) c =
  star_mass (cutoff_small s eps) (U 0%nat) (kappa s eps U Z_i Z_j) (dot dim (w_momentum U) c).
Proof.
  unfold w_g, star_mass, inverse_water_depth_sharp, water_depth_sharp, w_momentum, water_depth.
  fold (cutoff_small s eps). rewrite Nat.eqb_refl. rewrite star_kappa.
  set (k := kappa s eps U Z_i Z_j). set (D := Rmax (k * U 0%nat) _).
  transitivity (k * k * U 0%nat * / D * dot dim (fun i => U (S i)) c).
  - unfold dot. rewrite <- rsum_scal. apply rsum_ext. intros l _. rewrite star_kappa. fold k.
    unfold Rdiv. ring.
  - unfold Rdiv. ring.
Qed.

Section Pair.
Variables cs h k mc d : R.
Hypothesis Hcs : 0 < cs.
Hypothesis Hh : 0 <= h.
Hypothesis Hk : 0 <= k <= 1.
Let D := Rmax (k * h) cs.
Let E := Rmax h cs.

Lemma D_pos : 0 < D.
Proof using Hcs. unfold D. pose proof (Rmax_r (k * h) cs). lra. Qed.
Lemma E_pos : 0 < E.
Proof using Hcs. unfold E. pose proof (Rmax_r h cs). lra. Qed.

Lemma scaled_sharp : k * E <= D.
Proof using Hcs Hh Hk.
  unfold E, D. pose proof (Rmax_l (k * h) cs). pose proof (Rmax_r (k * h) cs).
  unfold Rmax at 1. destruct (Rle_dec h cs); [|lra]. nra.
Qed.

(** k / D <= 1 / E *)
Lemma ratio_le : k * / D <= / E.
Proof using Hcs Hh Hk.
  pose proof D_pos. pose proof E_pos. pose proof scaled_sharp.
  apply Rmult_le_reg_r with (D * E); [apply Rmult_lt_0_compat; assumption|].
  replace (k * / D * (D * E)) with (k * E) by (field; lra).
  replace (/ E * (D * E)) with D by (field; lra). assumption.
Qed.

Lemma ratio_nonneg : 0 <= k * / D.
Proof using Hcs Hk. apply Rmult_le_pos; [lra|]. left. apply Rinv_0_lt_compat, D_pos. Qed.

(** Incoming water. *)
Lemma incoming : 0 <= d -> mc / E <= d -> star_mass cs h k mc <= d * (k * h).
Proof using Hcs Hh Hk.
  intros Hd H. unfold star_mass. fold D. replace (k * k * h * mc / D) with (k * / D * mc * (k * h)) by (unfold Rdiv; ring).
  apply Rmult_le_compat_r; [apply Rmult_le_pos; lra|].
  destruct (Rle_lt_dec mc 0) as [Hm|Hm].
  - pose proof ratio_nonneg. apply Rle_trans with 0; [|exact Hd].
    assert (0 <= k * / D * - mc) by (apply Rmult_le_pos; lra). lra.
  - eapply Rle_trans; [|exact H]. unfold Rdiv. rewrite (Rmult_comm mc). apply Rmult_le_compat_r; [lra|apply ratio_le].
Qed.

(** Outgoing water: the pair part and the diagonal flux. *)
Lemma outgoing k0 : 0 <= d -> - (mc / E) <= d -> k <= k0 <= 1 ->
  - (9 / 4 * (d * h)) <= 2 * star_mass cs h k0 mc - star_mass cs h k mc - d * (k * h).
Proof using Hcs Hh Hk.
  intros Hd H Hk0.
  assert (M : forall x y, 0 <= x <= y -> x * x * h / Rmax (x * h) cs <= y * y * h / Rmax (y * h) cs).
  { intros x y Hxy. pose proof (Rmax_r (x * h) cs). pose proof (Rmax_r (y * h) cs).
    assert (A : x * Rmax (y * h) cs <= y * Rmax (x * h) cs).
    { unfold Rmax at 1. destruct (Rle_dec (y * h) cs).
      - pose proof (Rmax_r (x * h) cs). apply Rle_trans with (y * cs); [nra|]. apply Rmult_le_compat_l; lra.
      - pose proof (Rmax_l (x * h) cs). apply Rle_trans with (y * (x * h)); [right; ring|]. apply Rmult_le_compat_l; lra. }
    apply Rmult_le_reg_r with (Rmax (x * h) cs * Rmax (y * h) cs); [apply Rmult_lt_0_compat; lra|].
    replace (x * x * h / Rmax (x * h) cs * (Rmax (x * h) cs * Rmax (y * h) cs)) with (x * h * (x * Rmax (y * h) cs)) by (field; lra).
    replace (y * y * h / Rmax (y * h) cs * (Rmax (x * h) cs * Rmax (y * h) cs)) with (y * h * (y * Rmax (x * h) cs)) by (field; lra).
    apply Rle_trans with (x * h * (y * Rmax (x * h) cs)).
    - apply Rmult_le_compat_l; [apply Rmult_le_pos; lra|exact A].
    - apply Rmult_le_compat_r; [apply Rmult_le_pos; lra|]. apply Rmult_le_compat_r; lra. }
  assert (F : forall x, star_mass cs h x mc = x * x * h / Rmax (x * h) cs * mc) by (intros; unfold star_mass, Rdiv; ring).
  assert (Hkd : d * (k * h) <= d * h).
  { apply Rmult_le_compat_l; [exact Hd|]. rewrite <- (Rmult_1_l h) at 2. apply Rmult_le_compat_r; lra. }
  assert (Hdh : 0 <= d * h) by (apply Rmult_le_pos; lra).
  pose proof (M k k0 ltac:(lra)) as M1.
  assert (N : 0 <= k * k * h / Rmax (k * h) cs).
  { apply Rmult_le_pos; [apply Rmult_le_pos; [nra|exact Hh]|]. left. apply Rinv_0_lt_compat. exact D_pos. }
  destruct (Rle_lt_dec 0 mc) as [Hm|Hm].
  - rewrite !F.
    assert (k * k * h / Rmax (k * h) cs * mc <= k0 * k0 * h / Rmax (k0 * h) cs * mc) by (apply Rmult_le_compat_r; lra).
    assert (0 <= k * k * h / Rmax (k * h) cs * mc) by (apply Rmult_le_pos; lra). lra.
  - pose proof (M k0 1 ltac:(lra)) as M2.
    rewrite !F. replace (1 * 1 * h) with h in M2 by ring. replace (1 * h) with h in M2 by ring. fold E in M2.
    set (P := k * k * h / Rmax (k * h) cs) in *. set (P0 := k0 * k0 * h / Rmax (k0 * h) cs) in *.
    pose proof E_pos as HE.
    assert (A : - mc <= d * E).
    { apply Rmult_le_compat_r with (r := E) in H; [|lra]. replace (- (mc / E) * E) with (- mc) in H by (field; lra). exact H. }
    assert (B : k * k * h <= E * P).
    { unfold P. fold D. pose proof D_pos. replace (E * (k * k * h / D)) with (k * k * h * (E * / D)) by (unfold Rdiv; ring).
      rewrite <- (Rmult_1_r (k * k * h)) at 1. apply Rmult_le_compat_l; [apply Rmult_le_pos; [nra|exact Hh]|].
      apply Rmult_le_reg_r with D; [assumption|]. rewrite Rmult_assoc, Rinv_l, Rmult_1_l, Rmult_1_r by lra.
      unfold D, E. apply Rmax_lub; [|apply Rmax_r]. pose proof (Rmax_l h cs). nra. }
    assert (C : - mc * (2 * (h / E) - P) <= d * E * (2 * (h / E) - P)) by (apply Rmult_le_compat_r; lra).
    replace (d * E * (2 * (h / E) - P)) with (2 * (d * h) - d * (E * P)) in C by (field; lra).
    assert (B' : d * (k * k * h) <= d * (E * P)) by (apply Rmult_le_compat_l; assumption).
    assert (X : - mc * P0 <= - mc * (h / E)) by (apply Rmult_le_compat_l; lra).
    assert (Y : 0 <= d * h * ((k - 1 / 2) * (k - 1 / 2))) by (apply Rmult_le_pos; [assumption|apply (Rle_0_sqr (k - 1 / 2))]).
    clearbody P P0. lra.
Qed.
End Pair.

(** ** A row *)

Lemma star_mass_linear cs h k a x : star_mass cs h k (a * x) = a * star_mass cs h k x.
Proof. unfold star_mass, Rdiv. ring. Qed.

Lemma dot_lsum dim (m : vec) (c : nat -> cvec) l :
  lsum (fun j => dot dim m (vec_of (c j))) l = rsum dim (fun x => m x * lsum (fun j => nth x (c j) 0) l).
Proof.
  induction l as [|j l IH]; cbn [lsum].
  - symmetry. rewrite (rsum_ext dim _ (fun _ => 0)) by (intros; ring). apply rsum_0.
  - rewrite IH. unfold dot, vec_of. rewrite <- rsum_plus. apply rsum_ext. intros. ring.
Qed.

Lemma row_sum_dot dim M i (m : vec) : zero_row_sum M i ->
  lsum (fun j => dot dim m (vec_of (c_ij M i j))) (columns M i) = 0.
Proof.
  intros H. rewrite dot_lsum. rewrite (rsum_ext dim _ (fun _ => 0)); [apply rsum_0|].
  intros x _. rewrite (H x). ring.
Qed.

Section Row.
Variables (p : wparameters) (dim : nat) (Z : nat -> R) (M : mesh) (nm : R).
Local Notation s := (wp_system p).
Local Notation eps := (wp_eps p).
Local Notation SY := (sw_scheme p dim Z).
Variables (old : (nat -> state nat) * PC nat SY) (d : nat -> nat -> R) (tau : R).
Local Notation U := (fst old).
Local Notation cs := (cutoff_small s eps).
Local Notation mdot i c := (dot dim (w_momentum (U i%nat)) (vec_of c)).
Local Notation kap i j := (kappa s eps (U i%nat) (Z i%nat) (Z j%nat)).

Lemma row_low_flux i j :
  low_order_flux SY M old i j 0%nat =
  - (star_mass cs (U i 0%nat) (kap i j) (mdot i (c_ij M i j)) + star_mass cs (U j 0%nat) (kap j i) (mdot j (c_ij M i j))).
Proof.
  unfold low_order_flux, flux. cbn [flux_divergence flux_contribution sw_scheme].
  unfold w_flux_divergence. cbn [SWSystem.equilibrated_states].
  rewrite w_fluxdiv_0, !star_mass_flux. reflexivity.
Qed.

Lemma row_jump i j k : jump SY old i j k = kap j i * U j k - kap i j * U i k.
Proof.
  unfold jump, flux. cbn [shallow_water flux_contribution equilibrated_states sw_scheme SWSystem.equilibrated_states].
  unfold sminus. rewrite !star_kappa. reflexivity.
Qed.

Lemma row_source i : source SY tau old i 0%nat = 0.
Proof. reflexivity. Qed.

Definition pair_term (i j : nat) : R :=
  2 * star_mass cs (U i 0%nat) (kap i i) (mdot i (c_ij M i j))
  - star_mass cs (U i 0%nat) (kap i j) (mdot i (c_ij M i j)) - d i j * (kap i j * U i 0%nat)
  + (d i j * (kap j i * U j 0%nat) - star_mass cs (U j 0%nat) (kap j i) (mdot j (c_ij M i j))).

Lemma row_depth new0 i : symmetric_pattern M -> (i < n_rows M)%nat -> constrained M i = false -> zero_row_sum M i ->
  low_order_update SY M old d tau new0 i 0%nat =
  U i 0%nat + tau * mass_inv M i * lsum (pair_term i) (neighbours M i).
Proof.
  intros Hpat Hi Hc Hz. rewrite (low_order_form SY M old d tau new0 i 0%nat Hc), row_source.
  rewrite lsum_scal.
  rewrite (lsum_ext _ (fun j => - (star_mass cs (U i 0%nat) (kap i j) (mdot i (c_ij M i j)) + star_mass cs (U j 0%nat) (kap j i) (mdot j (c_ij M i j)))
    + d i j * (kap j i * U j 0%nat - kap i j * U i 0%nat)))
    by (intros j _; rewrite row_low_flux, row_jump; reflexivity).
  pose proof (row_sum_dot dim M i (w_momentum (U i)) Hz) as Hs.
  rewrite (columns_split M i Hpat Hi) in Hs |- *. cbn [lsum] in Hs |- *.
  rewrite (lsum_ext (pair_term i) (fun j => 2 * (star_mass cs (U i 0%nat) (kap i i) 1 * mdot i (c_ij M i j)) +
    (- (star_mass cs (U i 0%nat) (kap i j) (mdot i (c_ij M i j)) + star_mass cs (U j 0%nat) (kap j i) (mdot j (c_ij M i j)))
    + d i j * (kap j i * U j 0%nat - kap i j * U i 0%nat)))).
  2:{ intros j _. unfold pair_term. replace (star_mass cs (U i 0%nat) (kap i i) (mdot i (c_ij M i j)))
        with (mdot i (c_ij M i j) * star_mass cs (U i 0%nat) (kap i i) 1) by (rewrite <- star_mass_linear; f_equal; ring).
      ring. }
  rewrite (lsum_plus (fun j => 2 * (star_mass cs (U i 0%nat) (kap i i) 1 * mdot i (c_ij M i j)))), (lsum_scal 2), (lsum_scal (star_mass cs (U i 0%nat) (kap i i) 1)).
  set (T := lsum _ _) in Hs. set (T1 := lsum (fun x => mdot i (c_ij M i x)) _). change T1 with T.
  replace (star_mass cs (U i 0%nat) (kap i i) (mdot i (c_ij M i i)))
     with (mdot i (c_ij M i i) * star_mass cs (U i 0%nat) (kap i i) 1) by (rewrite <- star_mass_linear; f_equal; ring).
  replace (mdot i (c_ij M i i)) with (- T) by lra. ring.
Qed.
End Row.

Section Positive.
Variables (p : wparameters) (dim : nat) (Z : nat -> R) (M : mesh) (nm cfl : R).
Local Notation s := (wp_system p).
Local Notation eps := (wp_eps p).
Local Notation SY := (sw_scheme p dim Z).
Variables (old : (nat -> state nat) * PC nat SY) (d0 : nat -> nat -> R) (tau : R).
Local Notation U := (fst old).
Local Notation cs := (cutoff_small s eps).
Local Notation d := (dij_matrix SY M nm old d0).
Hypothesis Hpat : symmetric_pattern M.
Hypothesis Hmass : positive_masses M.
Hypothesis Hnum : valid_numbering M.
Hypothesis Hpairs : pairs_listed M.
Hypothesis Hnm : 0 < nm.
Hypothesis Hcs : 0 < cs.
Hypothesis Htau : 0 <= tau.
Hypothesis Hcfl : 0 < cfl.
Hypothesis Hstep : forall t, In t (row_tau SY M nm cfl old d0) -> tau <= t.
Hypothesis Hdepth : forall i, (i < n_rows M)%nat -> 0 <= U i 0%nat.

Lemma vec_of_neg n k : vec_of (neg n) k = - vec_of n k.
Proof. unfold vec_of. apply nth_neg. Qed.

Lemma sw_symmetric : symmetric_riemann SY M old.
Proof.
  intros i j _ _ _ n. cbn [riemann_compute sw_scheme].
  rewrite <- (SWRiemannFinal.sw_wavespeed_symmetric s eps dim (fst old i) (fst old j) (vec_of n)).
  f_equal. apply FunctionalExtensionality.functional_extensionality. intros k. symmetry. apply vec_of_neg.
Qed.

Lemma sw_nonneg : nonneg_riemann SY.
Proof. intros pc u v i j n. apply SWRiemannFinal.sw_wavespeed_nonneg. Qed.

Lemma sharp_pos (V : vec) : 0 < water_depth_sharp s eps V.
Proof. unfold water_depth_sharp. fold cs. pose proof (Rmax_r (water_depth V) cs). lra. Qed.

Lemma viscosity_bounds i j : (i < n_rows M)%nat -> In j (neighbours M i) ->
  0 <= d i j /\
  - (dot dim (w_momentum (U i)) (vec_of (c_ij M i j)) / Rmax (U i 0%nat) cs) <= d i j /\
  dot dim (w_momentum (U j)) (vec_of (c_ij M i j)) / Rmax (U j 0%nat) cs <= d i j.
Proof.
  intros Hi Hj. rewrite (dij_value SY M nm old d0 i j Hpat Hnum Hpairs sw_symmetric Hi Hj).
  pose proof (Rmax_l (wave_viscosity SY M old i j) (wave_viscosity SY M old j i)) as A.
  pose proof (wave_viscosity_nonneg SY M old i j sw_nonneg) as B.
  destruct (sw_viscosity_lower p dim Z M old i j (sharp_pos (U i)) (sharp_pos (U j))) as [C D].
  unfold water_depth_sharp, water_depth in C, D. fold cs in C, D. lra.
Qed.

Lemma row_sum_visc i : active M i -> tau * mass_inv M i * lsum (d i) (neighbours M i) * 2 <= cfl.
Proof.
  intros Ha. destruct (proj1 (active_constrained M i) Ha) as [Hi Hc].
  pose proof (row_tau_bound SY M nm cfl old d0 tau Hpat Hmass Hnm Hcfl Hstep i Ha) as B.
  rewrite (dij_diag SY M nm old d0 i Hpat Hi) in B.
  pose proof (Rmax_l (lsum (fun j => d i j) (neighbours M i)) (1000000 * nm)) as C.
  destruct (Hmass i Ha) as [Hm ->]. set (m := mass M i) in *.
  change (lsum (fun j => d i j) (neighbours M i)) with (lsum (d i) (neighbours M i)) in *.
  set (L := lsum (d i) (neighbours M i)) in *. set (X := Rmax L (1000000 * nm)) in *.
  assert (tau * L <= tau * X) by (apply Rmult_le_compat_l; assumption).
  apply Rmult_le_reg_r with m; [exact Hm|].
  replace (tau * / m * L * 2 * m) with (2 * (tau * L)) by (field; lra). lra.
Qed.

Lemma depth_positive_89 new0 i : active M i -> zero_row_sum M i -> cfl <= 8 / 9 ->
  0 <= low_order_update SY M old d tau new0 i 0%nat.
Proof.
  intros Ha Hz Hc3. destruct (proj1 (active_constrained M i) Ha) as [Hi Hc].
  rewrite (row_depth p dim Z M old d tau new0 i Hpat Hi Hc Hz).
  assert (L : lsum (fun j => - (9 / 4 * (U i 0%nat)) * d i j) (neighbours M i) <= lsum (pair_term p dim Z M old d i) (neighbours M i)).
  { assert (0 <= lsum (fun j => pair_term p dim Z M old d i j - - (9 / 4 * (U i 0%nat)) * d i j) (neighbours M i)).
    { apply lsum_nonneg. intros j Hj. destruct (viscosity_bounds i j Hi Hj) as (V1 & V2 & V3).
      destruct (neighbours_bound M i j Hpat Hi Hj) as [Hjb _].
      destruct (kappa_bounds s eps (U i) (Z i) (Z j) (Hdepth i Hi)) as [[K1 K2] K3].
      destruct (kappa_bounds s eps (U j) (Z j) (Z i) (Hdepth j Hjb)) as [[K4 K5] K6].
      unfold pair_term.
      pose proof (outgoing cs (U i 0%nat) (kappa s eps (U i) (Z i) (Z j)) _ (d i j) Hcs (Hdepth i Hi) (conj K1 (Rle_trans _ _ _ K2 K3))
                   (kappa s eps (U i) (Z i) (Z i)) V1 V2 (conj K2 K3)).
      pose proof (incoming cs (U j 0%nat) (kappa s eps (U j) (Z j) (Z i)) _ (d i j) Hcs (Hdepth j Hjb) (conj K4 (Rle_trans _ _ _ K5 K6)) V1 V3).
      lra. }
    rewrite lsum_minus in H. lra. }
  rewrite lsum_scal in L. pose proof (row_sum_visc i Ha) as B.
  destruct (Hmass i Ha) as [Hm Hmi].
  assert (Q : 0 <= tau * mass_inv M i).
  { rewrite Hmi. apply Rmult_le_pos; [exact Htau|]. left. apply Rinv_0_lt_compat. exact Hm. }
  apply Rmult_le_compat_l with (r := tau * mass_inv M i) in L; [|exact Q].
  pose proof (Hdepth i Hi) as Hh. change (lsum (fun x => d i x) (neighbours M i)) with (lsum (d i) (neighbours M i)) in L.
  set (X := tau * mass_inv M i * lsum (d i) (neighbours M i)) in *.
  replace (tau * mass_inv M i * (- (9 / 4 * (U i 0%nat)) * lsum (d i) (neighbours M i))) with (- (9 / 4 * (U i 0%nat)) * X) in L by (unfold X; ring).
  assert (X * (9 / 4) <= 1) by lra. nra.
Qed.
End Positive.
