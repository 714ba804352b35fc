(** * Proofs: the minimum entropy principle of the scheme *)
From Coq Require Import Reals List Arith Bool Lia Lra Psatz FunctionalExtensionality.
From Verif Require Import RVec Simd Newton EulerSystem EulerLimiter EulerLimiterSpec EulerLimiterProofs EulerLimiterEntropy EulerLimiterBounds EulerLimiterFinal
  PhysSpec PhysLib EulerRiemann EulerRiemannSpec EulerRiemannProofs EulerRiemannExist EulerRiemannFinal EulerSpeed Indicator SWScheme
  EulerScheme EulerSchemeSpec SchemeSpec SchemeProofs SchemeUpdate SchemeLimit SchemeFinal SchemeExamples SWSchemeFinal SWSchemeExamples EulerSchemeProofs EulerSchemeFinal EulerSchemeBounds EulerSchemeExamples
  EulerMinEntropySpec EulerMinEntropy EulerMinEntropyBar EulerRiemannNewton EulerMinEntropyPair.
From Verif Require Import Scheme.
Import ListNotations.
Local Open Scope R_scope.

Lemma resolved_mono s dim u v n a b : a <= b -> resolved s dim u v n a -> resolved s dim u v n b.
Proof.
  intros H [(us & ps & sl & sr & A & B & C)|(sl & sr & A & B & C)].
  - left. exists us, ps, sl, sr. split; [exact A|]. lra.
  - right. exists sl, sr. split; [exact A|]. lra.
Qed.

Lemma fan_order g ri ui pi rj uj pj us ps sl sr : 1 < g -> 0 < ri -> 0 < pi -> 0 < rj -> 0 < pj ->
  e_fan g ri ui pi rj uj pj us ps sl sr -> sl <= sr.
Proof.
  intros Hg Ri Pi Rj Pj [L R'].
  assert (K : forall rho u p us ps sp, 0 < rho -> 0 < p -> e_left_wave g rho u p us ps sp -> sp <= us).
  { intros rho u p us0 ps0 sp Hr Hp [(rhos & Hrs & Hps & E1 & E2 & ->)|(rhos & Hrs & Hps & Hsp & E1 & _)].
    - assert (0 <= sound g rhos ps0) by apply sqrt_pos.
      assert (Hs : sound g rhos ps0 <= sound g rho p).
      { unfold sound. apply sqrt_le_1_alt. unfold Rdiv.
        assert (Q : Rpower rhos g <= Rpower rho g).
        { pose proof (exp_pos (g * ln rhos)). pose proof (exp_pos (g * ln rho)). unfold Rpower in *.
          apply Rmult_le_reg_l with ps0; [lra|].
          replace (ps0 * exp (g * ln rhos)) with (ps0 / exp (g * ln rhos) * (exp (g * ln rhos) * exp (g * ln rhos))) by (field; lra).
          rewrite E1. assert (T : ps0 * exp (g * ln rho) = ps0 / exp (g * ln rhos) * (exp (g * ln rhos) * exp (g * ln rho))) by (field; lra).
          rewrite T, E1. apply Rmult_le_compat_l; [apply Rlt_le, Rdiv_lt_0_compat; lra|]. apply Rmult_le_compat_l; [lra|].
          assert (X : exp (g * ln rhos) = ps0 / p * exp (g * ln rho)).
          { assert (Y : ps0 * exp (g * ln rho) = p * exp (g * ln rhos)).
            { replace (ps0 * exp (g * ln rho)) with (ps0 / exp (g * ln rhos) * (exp (g * ln rho) * exp (g * ln rhos))) by (field; lra).
              rewrite E1. field. lra. }
            apply (Rmult_eq_reg_l p); [|lra]. rewrite <- Y. field. lra. }
          rewrite X. rewrite <- (Rmult_1_l (exp (g * ln rho))) at 2. apply Rmult_le_compat_r; [lra|].
          apply Rmult_le_reg_r with p; [lra|]. unfold Rdiv. rewrite Rmult_assoc, Rinv_l by lra. lra. }
        assert (Hle : rhos <= rho).
        { destruct (Rle_or_lt rhos rho) as [|C]; [assumption|exfalso]. unfold Rpower in Q.
          pose proof (ln_increasing _ _ Hr C). assert (g * ln rho < g * ln rhos) by nra.
          pose proof (exp_increasing _ _ H1). lra. }
        assert (Z : ps0 * / rhos <= p * / rho).
        { apply Rmult_le_reg_r with (Rpower rhos g * / rhos * rhos).
          { rewrite Rmult_assoc, Rinv_l by lra. rewrite Rmult_1_r. apply exp_pos. }
          assert (E3 : ps0 = p / Rpower rho g * Rpower rhos g).
          { rewrite <- E1. field. apply Rgt_not_eq, exp_pos. }
          rewrite E3.
          assert (W : forall r, 0 < r -> Rpower r g = r * Rpower r (g - 1)).
          { intros r Hr0. rewrite <- (Rpower_1 r) at 2 by exact Hr0. rewrite <- Rpower_plus. f_equal. ring. }
          assert (M1 : Rpower rhos (g - 1) <= Rpower rho (g - 1)) by (apply Rle_Rpower_l; lra).
          rewrite (W rho Hr), (W rhos Hrs).
          pose proof (exp_pos ((g - 1) * ln rhos)) as X1. pose proof (exp_pos ((g - 1) * ln rho)) as X2.
          change (exp ((g - 1) * ln rhos)) with (Rpower rhos (g - 1)) in X1. change (exp ((g - 1) * ln rho)) with (Rpower rho (g - 1)) in X2.
          set (x := Rpower rhos (g - 1)) in *. set (y := Rpower rho (g - 1)) in *.
          replace (p / (rho * y) * (rhos * x) * / rhos * (rhos * x * / rhos * rhos)) with (p * / rho * (rhos * x * / rhos * rhos) * (x / y)) by (field; lra).
          rewrite <- (Rmult_1_r (p * / rho * (rhos * x * / rhos * rhos))) at 2. apply Rmult_le_compat_l.
          - replace (rhos * x * / rhos * rhos) with (x * rhos) by (field; lra).
            apply Rlt_le. repeat apply Rmult_lt_0_compat; try lra. apply Rinv_0_lt_compat; lra.
          - apply Rmult_le_reg_r with y; [exact X2|]. unfold Rdiv. rewrite Rmult_assoc, Rinv_l by lra. lra. }
        pose proof (Rmult_le_compat_l g _ _ ltac:(lra) Z). lra. }
      assert (0 < g - 1) by lra.
      assert (0 <= 2 * sound g rho p / (g - 1) - 2 * sound g rhos ps0 / (g - 1)).
      { replace (2 * sound g rho p / (g - 1) - 2 * sound g rhos ps0 / (g - 1)) with (2 * (sound g rho p - sound g rhos ps0) * / (g - 1)) by (field; lra).
        apply Rmult_le_pos; [lra|]. apply Rlt_le, Rinv_0_lt_compat. lra. }
      assert (0 <= sound g rho p) by apply sqrt_pos. lra.
    - assert (E : rhos * (us0 - sp) = rho * (u - sp)) by lra.
      assert (0 < rhos * (us0 - sp)) by (rewrite E; apply Rmult_lt_0_compat; lra).
      destruct (Rle_or_lt sp us0) as [|C]; [assumption|exfalso]. nra. }
  apply K in L; [|assumption..]. apply K in R'; [|assumption..]. lra.
Qed.

Lemma vacuum_order g ri ui pi rj uj pj sl sr : 1 < g -> e_vacuum g ri ui pi rj uj pj sl sr -> sl <= sr.
Proof.
  intros Hg (A & -> & ->). assert (X : 0 <= sound g ri pi) by apply sqrt_pos. assert (Y : 0 <= sound g rj pj) by apply sqrt_pos.
  assert (0 <= 2 * sound g ri pi / (g - 1)) by (apply Rmult_le_pos; [lra|apply Rlt_le, Rinv_0_lt_compat; lra]).
  assert (0 <= 2 * sound g rj pj / (g - 1)) by (apply Rmult_le_pos; [lra|apply Rlt_le, Rinv_0_lt_compat; lra]). lra.
Qed.

(** The computed wave speed resolves two waves of the same kind. *)
Lemma same_kind_resolved s eps tol N dim u v n :
  1 < gamma s <= 5 / 3 -> dot dim n n = 1 -> 0 < density u -> 0 < pressure s dim u -> 0 < density v -> 0 < pressure s dim v ->
  (N = 0%nat \/ eps = 0) -> same_kind s dim u v n -> resolved s dim u v n (er_wavespeed s eps tol N dim u v n).
Proof.
  intros Hg Hn Ru Pu Rv Pv HN [(us & ps & sl & sr & F & K)|(sl & sr & V)].
  - left. exists us, ps, sl, sr. split; [exact F|].
    assert (O : sl <= sr) by (apply (fan_order _ _ _ _ _ _ _ _ _ _ _ (proj1 Hg) Ru Pu Rv Pv F)).
    pose proof (C37_wave_speed_proof s eps tol N dim u v n us ps sl sr sl Hg Hn Ru Pu Rv Pv HN F K ltac:(lra)) as A.
    pose proof (C37_wave_speed_proof s eps tol N dim u v n us ps sl sr sr Hg Hn Ru Pu Rv Pv HN F K ltac:(lra)) as B.
    pose proof (Rle_abs sr). pose proof (Rle_abs (- sl)) as D. rewrite Rabs_Ropp in D. lra.
  - right. exists sl, sr. split; [exact V|].
    assert (O : sl <= sr) by (apply (vacuum_order _ _ _ _ _ _ _ _ _ (proj1 Hg) V)).
    pose proof (C37_vacuum_proof s eps tol N dim u v n sl sr sl (proj1 Hg) Hn Ru Pu Rv Pv V ltac:(lra)) as A.
    pose proof (C37_vacuum_proof s eps tol N dim u v n sl sr sr (proj1 Hg) Hn Ru Pu Rv Pv V ltac:(lra)) as B.
    pose proof (Rle_abs sr). pose proof (Rle_abs (- sl)) as D. rewrite Rabs_Ropp in D. lra.
Qed.

(** All pairs: where the estimate bounds the exact waves it resolves them, otherwise the
    Newton steps keep the initial estimate. *)
Lemma C129_pair_proof : forall s eps tol N dim U_i U_j n lambda s0,
  1 < gamma s <= 5 / 3 -> dot dim n n = 1 ->
  0 < density U_i -> 0 < pressure s dim U_i -> 0 < density U_j -> 0 < pressure s dim U_j ->
  (N = 0%nat \/ eps = 0) ->
  0 < lambda -> er_wavespeed s eps tol N dim U_i U_j n <= lambda ->
  0 <= s0 -> s0 <= entropy_of_gas s dim U_i -> s0 <= entropy_of_gas s dim U_j ->
  let B := fan_average s dim n U_i U_j lambda in
  0 < density B /\ s0 <= entropy_of_gas s dim B.
Proof.
  intros s eps tol N dim u v n lam s0 Hg Hn Ru Pu Rv Pv HN Hl Hle Hs A B.
  change (fan_average s dim n u v lam) with (bar s dim n u v lam).
  set (di := gas (gamma s) (density u) (normal_velocity dim n u) (pressure s dim u)).
  set (dj := gas (gamma s) (density v) (normal_velocity dim n v) (pressure s dim v)).
  assert (EW : er_wavespeed s eps tol N dim u v n = er_compute eps tol N (gamma s) di dj).
  { unfold er_wavespeed. rewrite !er_data_eq by assumption. reflexivity. }
  assert (EST : er_compute eps tol N (gamma s) di dj = er_compute_lambda (gamma s) di dj (er_p_2 (gamma s) di dj) ->
    0 < density (bar s dim n u v lam) /\ s0 <= entropy_of_gas s dim (bar s dim n u v lam)).
  { intros E. apply bar_estimate; try assumption. fold di dj. rewrite <- E, <- EW. exact Hle. }
  assert (RES : resolved s dim u v n (er_wavespeed s eps tol N dim u v n) ->
    0 < density (bar s dim n u v lam) /\ s0 <= entropy_of_gas s dim (bar s dim n u v lam)).
  { intros E. apply C129_bar_proof; try assumption; try lra. apply (resolved_mono _ _ _ _ _ _ _ Hle). exact E. }
  destruct N as [|N]; [apply EST; reflexivity|]. destruct HN as [HN| ->]; [discriminate|].
  destruct (e_exact_exists (gamma s) (density u) (normal_velocity dim n u) (pressure s dim u)
     (density v) (normal_velocity dim n v) (pressure s dim v) Hg Ru Pu Rv Pv) as (sl & sr & [(us & ps & F)|V]).
  2:{ apply RES, same_kind_resolved; try assumption; [right; reflexivity|]. right. exists sl, sr. exact V. }
  set (pu := pressure s dim u) in *. set (pv := pressure s dim v) in *.
  destruct (Rle_dec ps (Rmin pu pv)) as [C1|C1].
  { apply RES, same_kind_resolved; try assumption; [right; reflexivity|]. left. exists us, ps, sl, sr. split; [exact F|left; exact C1]. }
  destruct (Rle_dec (Rmax pu pv) ps) as [C2|C2].
  { apply RES, same_kind_resolved; try assumption; [right; reflexivity|]. left. exists us, ps, sl, sr. split; [exact F|right; exact C2]. }
  apply Rnot_le_lt in C1. apply Rnot_le_lt in C2. assert (Hg1 : 1 < gamma s) by lra.
  destruct (Rle_dec ps (er_p_2 (gamma s) di dj)) as [C3|C3].
  - apply RES. left. exists us, ps, sl, sr. split; [exact F|].
    assert (O : sl <= sr) by (apply (fan_order _ _ _ _ _ _ _ _ _ _ _ Hg1 Ru Pu Rv Pv F)). rewrite EW.
    pose proof (fan_high (gamma s) (density u) (normal_velocity dim n u) pu (density v) (normal_velocity dim n v) pv Hg1 Ru Pu Rv Pv
      0 tol (Datatypes.S N) us ps sl sr sl F (or_intror eq_refl) ltac:(lra) C3 ltac:(lra)) as X1.
    pose proof (fan_high (gamma s) (density u) (normal_velocity dim n u) pu (density v) (normal_velocity dim n v) pv Hg1 Ru Pu Rv Pv
      0 tol (Datatypes.S N) us ps sl sr sr F (or_intror eq_refl) ltac:(lra) C3 ltac:(lra)) as X2.
    fold di dj in X1, X2. pose proof (Rle_abs sr). pose proof (Rle_abs (- sl)) as D. rewrite Rabs_Ropp in D. lra.
  - apply Rnot_le_lt in C3. apply EST. unfold er_compute.
    set (p2 := er_p_2 (gamma s) di dj) in *. unfold er_compute_gap.
    destruct (fan_root (gamma s) (density u) (normal_velocity dim n u) pu (density v) (normal_velocity dim n v) pv Hg1 Ru Pu Rv Pv us ps sl sr F) as (Pps & Z & _).
    fold di dj in Z.
    unfold er_p_1. change (ed_p di) with pu. change (ed_p dj) with pv.
    pose proof (Rmin_l pu pv). pose proof (Rmin_r pu pv). pose proof (Rmax_l pu pv). pose proof (Rmax_r pu pv).
    assert (BR : exists a b, a = Rmin pu pv /\ b = Rmax pu pv /\ branch (gamma s) di a b /\ branch (gamma s) dj a b).
    { exists (Rmin pu pv), (Rmax pu pv). split; [reflexivity|]. split; [reflexivity|]. destruct (Rle_dec pu pv) as [Q|Q].
      - rewrite Rmin_left, Rmax_right in * by lra. split; [apply shock_branch|apply rare_branch]; lra.
      - rewrite Rmin_right, Rmax_left in * by lra. split; [apply rare_branch|apply shock_branch]; lra. }
    destruct BR as (a & b & Ea & Eb & B1 & B2).
    assert (Hmask : mask_lt (er_phi_of_p_max (gamma s) di dj) 0 (Rmax pu pv) (Rmin pu pv) = Rmin pu pv).
    { unfold mask_lt. destruct (Rlt_dec _ _) as [C|C]; [exfalso|reflexivity].
      unfold di, dj in C. rewrite phi_max_eq in C by assumption. fold di dj pu pv in C.
      assert (er_phi (gamma s) di dj ps < er_phi (gamma s) di dj (Rmax pu pv)); [|lra].
      apply (phi_mono (gamma s) di dj a b); try assumption; lra. }
    rewrite Hmask. destruct (Rle_dec (Rmin pu pv) p2) as [C4|C4].
    + assert (Hphi : er_phi (gamma s) di dj p2 < 0) by (rewrite <- Z; apply (phi_mono (gamma s) di dj a b); try assumption; lra).
      destruct (phi_branch (gamma s) di dj a b B1 B2) as (psi & psi1 & psi2 & psi3 & _ & Q).
      destruct (Q p2 ltac:(lra)) as (_ & E1 & _ & E2).
      apply newton_stuck; [lra|rewrite <- E1; exact E2|exact C4].
    + apply newton_point.
Qed.

(** Gases with at least the entropy [s0]. *)
Definition at_least (s : euler) (dim : nat) (s0 : R) (u : state nat) : Prop :=
  positive_gas dim u /\ s0 * powr (density u) (gamma s) <= internal_energy dim u.

Lemma at_least_convex s dim s0 : 1 < gamma s -> 0 <= s0 -> convex_set (at_least s dim s0).
Proof.
  intros Hg H0 u v a [A1 A2] [B1 B2] Ha. split; [apply positive_convex; assumption|].
  apply positive_gas_eq in A1. apply positive_gas_eq in B1. destruct A1 as [Ru _], B1 as [Rv _].
  eapply Rle_trans; [|apply energy_concave; assumption].
  eapply Rle_trans; [apply Rmult_le_compat_l; [lra|]; apply (powr_convex (gamma s) (density u) (density v) a ltac:(lra) Ru Rv Ha)|].
  pose proof (Rmult_le_compat_l a _ _ (proj1 Ha) A2). assert (Hb : 0 <= 1 - a) by lra.
  pose proof (Rmult_le_compat_l (1 - a) _ _ Hb B2). lra.
Qed.

Lemma entropy_of_gas_eq s dim u s0 : 0 < density u ->
  (s0 <= entropy_of_gas s dim u <-> s0 * powr (density u) (gamma s) <= internal_energy dim u).
Proof.
  intros Hr. pose proof (powr_gt0 (density u) (gamma s) Hr) as P. unfold entropy_of_gas, internal_energy.
  replace (total_energy dim u - 1 / 2 * norm2 dim (momentum u) * (1 / density u)) with (total_energy dim u - norm2 dim (momentum u) / (2 * density u)) by (field; lra).
  set (e := total_energy dim u - _). split; intros H.
  - apply (Rmult_le_compat_r (powr (density u) (gamma s))) in H; [|lra]. unfold Rdiv in H. rewrite Rmult_assoc, Rinv_l in H by lra. lra.
  - apply Rmult_le_reg_r with (powr (density u) (gamma s)); [exact P|]. unfold Rdiv. rewrite Rmult_assoc, Rinv_l by lra. lra.
Qed.

Lemma at_least_eq s dim u s0 : at_least s dim s0 u <-> positive_gas dim u /\ s0 <= entropy_of_gas s dim u.
Proof.
  unfold at_least. split; intros [A B]; (split; [exact A|]); apply (entropy_of_gas_eq s dim u s0); try exact B; apply positive_gas_eq in A; apply A.
Qed.

Section Step.
Variables (p : eparameters) (dim : nat) (M : mesh) (nm : R).
Local Notation s := (ep_system p).
Local Notation SY := (euler_scheme p dim).
Variables (old : (nat -> state nat) * PC nat (euler_scheme p dim)) (d0 : nat -> nat -> R) (tau : R).
Local Notation U := (fst old).
Local Notation d := (dij_matrix SY M nm old d0).
Hypothesis Hpat : symmetric_pattern M.
Hypothesis Hmass : positive_masses M.
Hypothesis Hnum : valid_numbering M.
Hypothesis Hpairs : pairs_listed M.
Hypothesis Hdim : mesh_dimension M dim.
Hypothesis Hnm : 0 < nm.
Hypothesis Hg : 1 < gamma s.
Hypothesis Hgas : forall i, active M i -> positive_gas dim (U i).
Variable cfl : R.
Hypothesis Hcfl : 0 < cfl <= 1.
Hypothesis Htau : 0 <= tau.
Hypothesis Hstep : forall t, In t (row_tau SY M nm cfl old d0) -> tau <= t.
Hypothesis Hsum : forall i, active M i -> zero_row_sum M i.
Hypothesis Hfast : forall i, active M i -> e_fast p dim M nm old d0 i.
Hypothesis Hres : forall i j, active M i -> In j (neighbours M i) -> 0 < cnorm (c_ij M i j) ->
  forall s0, 0 <= s0 -> s0 <= entropy_of_gas s dim (U i) -> s0 <= entropy_of_gas s dim (U j) ->
  s0 <= entropy_of_gas s dim (fan_average s dim (direction M i j) (U i) (U j) (d i j / cnorm (c_ij M i j))).

Lemma m_bar s0 i j : active M i -> In j (neighbours M i) -> 0 <= s0 ->
  at_least s dim s0 (U i) -> at_least s dim s0 (U j) -> at_least s dim s0 (bar_state SY M dim (e_F p dim) old (d i j) i j).
Proof.
  intros Ha Hj Hs Hi0 Hj0. destruct (proj1 (active_constrained M i) Ha) as [Hi Hc].
  pose proof (Hfast i Ha j Hj) as Hd.
  pose proof (e_bar_gas p dim M nm old d0 Hpat Hnum Hpairs Hdim Hnm Hg Hgas i j Hi Hj Hd) as HG.
  apply at_least_eq in Hi0. apply at_least_eq in Hj0. apply at_least_eq. split; [exact HG|].
  destruct (neighbours_columns M i j Hpat Hi Hj) as [Hjc Hne].
  assert (Hjb : (j < n_rows M)%nat) by apply (neighbours_bound M i j Hpat Hi Hj).
  set (c := c_ij M i j) in *. set (a := cnorm c). set (D := d i j) in *. assert (HD : 0 < D) by lra.
  assert (Ha0 : 0 <= a) by apply cnorm_nonneg.
  destruct (Rle_lt_or_eq_dec 0 a Ha0) as [Hap|Haz].
  - assert (Hn : unit_vector dim (cdiv c a)).
    { split; [apply cnorm_cdiv; exact Hap|]. unfold cdiv. rewrite map_length. apply Hdim; assumption. }
    pose proof (Hres i j Ha Hj Hap s0 Hs (proj2 Hi0) (proj2 Hj0)) as Q. change (direction M i j) with (vec_of (cdiv c a)) in Q. fold D in Q. fold c in Q. fold a in Q.
    match type of Q with _ <= entropy_of_gas _ _ ?h => match goal with |- _ <= entropy_of_gas _ _ ?g => replace g with h; [exact Q|] end end.
    apply functional_extensionality. intros k. unfold fan_average.
    transitivity ((U i k + U j k) / 2 - (dotp dim (EulerSystem.flux s dim (U j) k) c - dotp dim (EulerSystem.flux s dim (U i) k) c) / (2 * D)); [|reflexivity].
    rewrite <- !dotp_dot. rewrite !dotp_cdiv. field. lra.
  - pose proof (at_least_convex s dim s0 Hg Hs _ _ (1 / 2) (proj2 (at_least_eq _ _ _ _) Hi0) (proj2 (at_least_eq _ _ _ _) Hj0) ltac:(lra)) as Q.
    apply at_least_eq in Q. destruct Q as [_ Q].
    match type of Q with _ <= entropy_of_gas _ _ ?h => match goal with |- _ <= entropy_of_gas _ _ ?g => replace g with h; [exact Q|] end end.
    apply functional_extensionality. intros k. unfold bar_state. fold c.
    assert (Hf : forall f, dotp dim f c = 0).
    { intros f. unfold dotp. apply lsum_zero. intros x _. rewrite (cnorm_zero c (eq_sym Haz) x). ring. }
    rewrite !Hf. field. lra.
Qed.

Lemma m_low s0 order a0 l0 ln0 new0 stages i : active M i -> 0 <= s0 ->
  (forall j, In j (columns M i) -> s0 <= entropy_of_gas s dim (U j)) ->
  let V := fst (hyperbolic_update SY M nm order 0 a0 d0 l0 ln0 new0 old stages tau) i in
  positive_gas dim V /\ s0 <= entropy_of_gas s dim V.
Proof.
  intros Ha Hs H0 V. apply at_least_eq. destruct (proj1 (active_constrained M i) Ha) as [Hi Hc].
  assert (K : forall j, In j (columns M i) -> at_least s dim s0 (U j)).
  { intros j Hj. apply at_least_eq. split; [|apply H0, Hj]. apply Hgas.
    exact (cols_active M i j Hpat Ha Hj). }
  assert (Hii : In i (columns M i)) by (rewrite (columns_split M i Hpat Hi); left; reflexivity).
  apply (e_low_convex p dim M nm old d0 tau Hpat Hmass Hnm cfl Hcfl Htau Hstep Hsum Hfast
     (at_least s dim s0) order a0 l0 ln0 new0 stages i Ha (at_least_convex s dim s0 Hg Hs) (K i Hii)).
  intros j Hj. apply m_bar; try assumption; [apply K, Hii|]. apply K. apply (neighbours_columns M i j Hpat Hi Hj).
Qed.

Variable pc0 : nat -> R * R.
Hypothesis Hbig : 0 < ep_big p.
Hypothesis Hrel : 0 <= ep_relaxation p.
Hypothesis Hmod : moderate_relaxation p dim M.
Hypothesis Hpc : snd old = euler_precomputed p dim M U pc0.
Hypothesis Heps : ep_eps p = 0.
Variable order : list nat.
Hypothesis Horder : forall i, In i order -> (i < n_rows M)%nat.

Lemma m_inside a0 l0 ln0 new0 stages i : active M i ->
  entropy_inside s dim (limiter_bounds_i SY M nm old d tau order i)
    (fst (hyperbolic_update SY M nm order 0 a0 d0 l0 ln0 new0 old stages tau) i).
Proof.
  intros Ha. destruct (proj1 (active_constrained M i) Ha) as [Hi Hc].
  apply entropy_inside_eq. assert (He : 0 <= ep_eps p) by lra.
  split; [apply (e_low_inside p dim M nm old pc0 d0 tau) with (cfl := cfl); assumption|].
  assert (B : 0 < s_min (limiter_bounds_i SY M nm old d tau order i)).
  { eapply (e_limiter_bounds_positive p dim M nm old pc0 d0 tau); eassumption. }
  split; [exact B|].
  destruct (e_bounds_positive p dim M nm old pc0 d0 tau Hpat Hnum Hpairs Hdim Hnm Hbig Hmod Hg Hgas Hpc i Hi Hc (Hfast i Ha)) as [_ B4].
  assert (W : s_min (limiter_bounds_i SY M nm old d tau order i) <= s_min (bounds_step4 SY M nm old d tau i)).
  { unfold limiter_bounds_i. destruct (discontinuous M); [|lra].
    pose proof (proj1 (C20_extended_bounds_proof SY M (fun b (v : state nat) => s_min b <= v 0%nat)
        ltac:(idtac; intros a b v Q; cbn [combine_bounds euler_scheme]; unfold EulerLimiter.combine_bounds; cbn [s_min];
          pose proof (Rmin_l (s_min a) (s_min b)); pose proof (Rmin_r (s_min a) (s_min b)); destruct Q; lra)
        order (bounds_step4 SY M nm old d tau) i (fun _ => s_min (bounds_step4 SY M nm old d tau i)))) as Q. cbn beta in Q. apply Q. lra. }
  destruct (m_low (s_min (limiter_bounds_i SY M nm old d tau order i)) order a0 l0 ln0 new0 stages i Ha ltac:(lra)) as [Q1 Q2].
  - intros j Hj. eapply Rle_trans; [exact W|].
    destruct (e_bounds_contain p dim M nm old pc0 d0 tau Hpat Hnum Hpairs Hdim Hnm He Hbig Hrel Hg Hgas Hpc i j Hi Hc Hj (Hfast i Ha)) as [_ C].
    eapply Rle_trans; [exact C|]. right.
    pose proof (cols_active M i j Hpat Ha Hj) as Hjb.
    pose proof (Hgas j Hjb) as HG. apply positive_gas_eq in HG. destruct HG as [R1 R2].
    pose proof (specific_entropy_bound s dim (U j) R1) as E. pose proof (powr_gt0 (density (U j)) (gamma s) R1) as P.
    apply (Rmult_eq_reg_r (powr (density (U j)) (gamma s))); [|lra]. rewrite E. unfold entropy_of_gas, internal_energy.
    field. split; lra.
  - apply positive_gas_eq in Q1. apply entropy_of_gas_eq; [apply Q1|exact Q2].
Qed.
End Step.

(** The viscosity is at least the estimate. *)
Lemma viscosity_ge p dim M nm (old : (nat -> state nat) * PC nat (euler_scheme p dim)) d0 :
  symmetric_pattern M -> valid_numbering M -> pairs_listed M -> mesh_dimension M dim -> 1 < gamma (ep_system p) ->
  (forall i, active M i -> positive_gas dim (fst old i)) ->
  forall i j, active M i -> In j (neighbours M i) -> 0 < cnorm (c_ij M i j) ->
  er_wavespeed (ep_system p) (ep_eps p) (ep_riemann_tol p) (ep_riemann_iterations p) dim (fst old i) (fst old j) (direction M i j) <=
  dij_matrix (euler_scheme p dim) M nm old d0 i j / cnorm (c_ij M i j).
Proof.
  intros Hpat Hnum Hpairs Hdim Hg1 Hgas i j Ha Hj Hc. destruct (proj1 (active_constrained M i) Ha) as [Hi _].
  pose proof (euler_symmetric p dim M old Hg1 Hpat Hdim Hgas) as HR.
  pose proof (dij_value (euler_scheme p dim) M nm old d0 i j Hpat Hnum Hpairs HR Hi Hj) as E.
  apply Rmult_le_reg_l with (cnorm (c_ij M i j)); [exact Hc|].
  replace (cnorm (c_ij M i j) * (dij_matrix (euler_scheme p dim) M nm old d0 i j / cnorm (c_ij M i j))) with (dij_matrix (euler_scheme p dim) M nm old d0 i j) by (field; lra).
  rewrite E. eapply Rle_trans; [|apply Rmax_l]. unfold wave_viscosity. cbn [riemann_compute euler_scheme]. unfold direction. lra.
Qed.

(** The hypothesis of the section: resolved waves, or the computed viscosity. *)
Lemma m_resolved p dim M nm (old : (nat -> state nat) * PC nat (euler_scheme p dim)) d0 :
  symmetric_pattern M -> mesh_dimension M dim -> 1 < gamma (ep_system p) ->
  (forall i, active M i -> positive_gas dim (fst old i)) ->
  (forall i, active M i -> e_fast p dim M nm old d0 i) -> 0 < nm ->
  (forall i j, active M i -> In j (neighbours M i) -> 0 < cnorm (c_ij M i j) ->
     resolved (ep_system p) dim (fst old i) (fst old j) (direction M i j)
       (dij_matrix (euler_scheme p dim) M nm old d0 i j / cnorm (c_ij M i j))) ->
  forall i j, active M i -> In j (neighbours M i) -> 0 < cnorm (c_ij M i j) ->
  forall s0, 0 <= s0 -> s0 <= entropy_of_gas (ep_system p) dim (fst old i) -> s0 <= entropy_of_gas (ep_system p) dim (fst old j) ->
  s0 <= entropy_of_gas (ep_system p) dim (fan_average (ep_system p) dim (direction M i j) (fst old i) (fst old j)
    (dij_matrix (euler_scheme p dim) M nm old d0 i j / cnorm (c_ij M i j))).
Proof.
  intros Hpat Hdim Hg1 Hgas Hfast Hnm HR i j Ha Hj Hc s0 Hs Si Sj. destruct (proj1 (active_constrained M i) Ha) as [Hi _].
  destruct (neighbours_columns M i j Hpat Hi Hj) as [Hjc Hne].
  assert (Hjb : active M j) by exact (col_active M i j Hpat Hi Hj).
  pose proof (Hfast i Ha j Hj) as Hd.
  assert (Hn : unit_vector dim (cdiv (c_ij M i j) (cnorm (c_ij M i j)))).
  { split; [apply cnorm_cdiv; exact Hc|]. unfold cdiv. rewrite map_length. apply Hdim; assumption. }
  destruct (gas_pressure p dim (fst old i) Hg1 (Hgas i Ha)) as [A1 A2]. destruct (gas_pressure p dim (fst old j) Hg1 (Hgas j Hjb)) as [B1 B2].
  apply C129_bar_proof; try assumption; [exact (unit_dot dim _ Hn)| |apply HR; assumption].
  apply Rdiv_lt_0_compat; [lra|exact Hc].
Qed.

Lemma m_computed p dim M nm (old : (nat -> state nat) * PC nat (euler_scheme p dim)) d0 :
  symmetric_pattern M -> valid_numbering M -> pairs_listed M -> mesh_dimension M dim -> 1 < gamma (ep_system p) <= 5 / 3 ->
  (forall i, active M i -> positive_gas dim (fst old i)) ->
  (ep_riemann_iterations p = 0%nat \/ ep_eps p = 0) ->
  (forall i, active M i -> e_fast p dim M nm old d0 i) -> 0 < nm ->
  forall i j, active M i -> In j (neighbours M i) -> 0 < cnorm (c_ij M i j) ->
  forall s0, 0 <= s0 -> s0 <= entropy_of_gas (ep_system p) dim (fst old i) -> s0 <= entropy_of_gas (ep_system p) dim (fst old j) ->
  s0 <= entropy_of_gas (ep_system p) dim (fan_average (ep_system p) dim (direction M i j) (fst old i) (fst old j)
    (dij_matrix (euler_scheme p dim) M nm old d0 i j / cnorm (c_ij M i j))).
Proof.
  intros Hpat Hnum Hpairs Hdim Hg Hgas HN Hfast Hnm i j Ha Hj Hc s0 Hs Si Sj. destruct (proj1 (active_constrained M i) Ha) as [Hi _].
  assert (Hg1 : 1 < gamma (ep_system p)) by lra.
  destruct (neighbours_columns M i j Hpat Hi Hj) as [Hjc Hne].
  assert (Hjb : active M j) by exact (col_active M i j Hpat Hi Hj).
  pose proof (Hfast i Ha j Hj) as Hd.
  assert (Hn : unit_vector dim (cdiv (c_ij M i j) (cnorm (c_ij M i j)))).
  { split; [apply cnorm_cdiv; exact Hc|]. unfold cdiv. rewrite map_length. apply Hdim; assumption. }
  destruct (gas_pressure p dim (fst old i) Hg1 (Hgas i Ha)) as [A1 A2]. destruct (gas_pressure p dim (fst old j) Hg1 (Hgas j Hjb)) as [B1 B2].
  apply (C129_pair_proof (ep_system p) (ep_eps p) (ep_riemann_tol p) (ep_riemann_iterations p)); try assumption.
  - exact (unit_dot dim _ Hn).
  - apply Rdiv_lt_0_compat; [lra|exact Hc].
  - apply viscosity_ge; assumption.
Qed.
