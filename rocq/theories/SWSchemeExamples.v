(** * Shallow water scheme: viscosity of water at rest, concrete cases *)
From Coq Require Import Reals List Arith Bool Lia Lra Psatz.
From Verif Require Import RVec Simd Newton NewtonProofs EulerSystem EulerLimiter EulerLimiterBounds SWSystem PhysSpec PhysLib SWPhysProofs SWRiemann SWRiemannProofs
  SWLimiter SWLimiterSpec SWLimiterProofs SWLimiterFinal Indicator SWScheme SWSchemeSpec SchemeSpec SchemeProofs SchemeUpdate SchemeLimit SchemeFinal SchemeExamples
  SWSchemeProofs SWSchemeDepth SWSchemeFinal SWSchemeRest.
From Verif Require Import Scheme.
Import ListNotations.
Local Open Scope R_scope.

(** ** Gravity waves *)

Lemma wavespeed_still s eps dim U_i U_j n :
  0 < cutoff_small s eps -> 0 <= gravity s ->
  (forall k, (1 <= k <= dim)%nat -> U_j k = 0) ->
  sqrt (cutoff_small s eps * gravity s) <= sw_wavespeed s eps dim U_i U_j n.
Proof.
  intros Hc Hg Hm.
  unfold sw_wavespeed, wr_compute, wr_compute_lambda.
  set (hs := wr_compute_h_star _ _ _). clearbody hs. eapply Rle_trans; [|apply Rmax_r].
  set (dj := wr_data s eps dim U_j n).
  assert (Eu : wd_u dj = 0).
  { unfold dj, wr_data. cbn [wd_u]. unfold dot. rewrite (rsum_ext dim _ (fun _ => 0)); [apply rsum_0|].
    intros x Hx. unfold w_momentum. rewrite Hm by lia. unfold Rdiv. ring. }
  assert (Ea : sqrt (cutoff_small s eps * gravity s) <= wd_a dj).
  { unfold dj, wr_data. cbn [wd_a]. apply sqrt_le_1_alt. apply Rmult_le_compat_r; [exact Hg|].
    unfold water_depth_sharp, cutoff_small. apply Rmax_r. }
  clearbody dj. unfold wr_lambda3_plus. cbv zeta. rewrite Eu, Rplus_0_l.
  set (f := positive_part ((hs - wd_h dj) / wd_h dj)).
  assert (Hf : 0 <= f). { unfold f. rewrite positive_part_max. apply Rmax_l. }
  clearbody f.
  assert (Hs : 1 <= sqrt ((1 + 1 / 2 * f) * (1 + f))).
  { assert (A : sqrt 1 <= sqrt ((1 + 1 / 2 * f) * (1 + f))) by (apply sqrt_le_1_alt; nra).
    rewrite sqrt_1 in A. exact A. }
  set (q := sqrt ((1 + 1 / 2 * f) * (1 + f))) in *. clearbody q.
  pose proof (sqrt_pos (cutoff_small s eps * gravity s)).
  assert (Aj : 0 <= wd_a dj) by lra.
  pose proof (Rmult_le_compat_l (wd_a dj) 1 q Aj Hs) as B.
  rewrite positive_part_max. eapply Rle_trans; [|apply Rmax_r]. lra.
Qed.

Lemma still_fast p dim Z M nm (old : (nat -> state nat) * PC nat (sw_scheme p dim Z)) d0 :
  symmetric_pattern M -> valid_numbering M -> pairs_listed M ->
  0 < cutoff_small (wp_system p) (wp_eps p) -> 0 <= gravity (wp_system p) ->
  celerity p M nm ->
  (forall i, (i < n_rows M)%nat -> forall k, (1 <= k <= dim)%nat -> fst old i k = 0) ->
  forall i, active M i -> fast p dim Z M nm old d0 i.
Proof.
  intros Hpat Hnum Hpairs Hcs Hg Hcel Hm i Ha j Hj. left.
  destruct (proj1 (active_constrained M i) Ha) as [Hi _].
  rewrite (dij_value (sw_scheme p dim Z) M nm old d0 i j Hpat Hnum Hpairs (sw_symmetric p dim Z M old) Hi Hj).
  eapply Rle_trans; [|apply Rmax_l]. eapply Rle_trans; [apply (Hcel i j Hi Hj)|].
  unfold wave_viscosity. cbn [riemann_compute sw_scheme]. apply Rmult_le_compat_l; [apply cnorm_nonneg|].
  apply wavespeed_still; [exact Hcs|exact Hg|]. apply Hm. apply (neighbours_bound M i j Hpat Hi Hj).
Qed.

(** ** Complete statements *)

Lemma update_zero p dim Z M nm order a0 d0 l0 ln0 new0 (old : (nat -> state nat) * PC nat (sw_scheme p dim Z)) stages tau :
  fst (hyperbolic_update (sw_scheme p dim Z) M nm order 0 a0 d0 l0 ln0 new0 old stages tau)
  = low_order_update (sw_scheme p dim Z) M old (dij_matrix (sw_scheme p dim Z) M nm old d0) tau new0.
Proof. reflexivity. Qed.

Lemma C77_depth_nonneg_proof : forall p dim Z M nm cfl order a0 d0 l0 ln0 new0
    (old : (nat -> state nat) * PC nat (sw_scheme p dim Z)) stages tau,
  symmetric_pattern M -> positive_masses M -> valid_numbering M -> pairs_listed M ->
  (forall i, active M i -> zero_row_sum M i) ->
  0 < nm -> 0 < cutoff_small (wp_system p) (wp_eps p) ->
  0 < cfl <= 8 / 9 -> 0 <= tau ->
  (forall t, In t (row_tau (sw_scheme p dim Z) M nm cfl old d0) -> tau <= t) ->
  (forall i, (i < n_rows M)%nat -> 0 <= fst old i 0%nat) ->
  forall i, active M i ->
  0 <= fst (hyperbolic_update (sw_scheme p dim Z) M nm order 0 a0 d0 l0 ln0 new0 old stages tau) i 0%nat.
Proof.
  intros p dim Z M nm cfl order a0 d0 l0 ln0 new0 old stages tau Hpat Hmass Hnum Hpairs Hsum Hnm Hcs [Hc Hc'] Ht Hstep Hd i Ha.
  rewrite update_zero.
  apply (depth_positive_89 p dim Z M nm cfl old d0 tau Hpat Hmass Hnum Hpairs Hnm Hcs Ht Hc Hstep Hd new0 i Ha (Hsum i Ha) Hc').
Qed.

Lemma C44_verdict_proof : forall p dim Z M nm cfl level order n a0 d0 new0
    (old : (nat -> state nat) * PC nat (sw_scheme p dim Z)) stages tau,
  symmetric_pattern M -> positive_masses M -> valid_numbering M -> pairs_listed M ->
  (forall i, active M i -> zero_row_sum M i) ->
  (forall i, active M i -> mass M i <= measure_of_omega M) ->
  (forall i, In i order -> (i < n_rows M)%nat) ->
  0 < nm -> 0 < wp_eps p -> 0 <= wp_big p -> 0 < wp_tiny p -> 0 <= wp_relaxation p <= 1 ->
  0 <= dry_state_relaxation_small (wp_system p) -> 0 <= dry_state_relaxation_large (wp_system p) ->
  0 < cutoff_small (wp_system p) (wp_eps p) -> 0 <= gravity (wp_system p) -> celerity p M nm ->
  0 < cfl <= 1 -> 0 <= tau ->
  (forall t, In t (row_tau (sw_scheme p dim Z) M nm cfl old d0) -> tau <= t) ->
  lake_at_rest (wp_system p) (wp_eps p) dim M Z level (fst old) ->
  ~ violation (sw_scheme p dim Z) M nm order n (compute_alpha (sw_scheme p dim Z) M old a0)
      (dij_matrix (sw_scheme p dim Z) M nm old d0) new0 old stages tau.
Proof.
  intros. apply (rest_unflagged p dim Z M nm cfl level old stages _ order n d0 new0 tau); try assumption.
  apply still_fast; try assumption. intros i Hi. apply (H19 i Hi).
Qed.

Lemma C44_wet_step_proof : forall p dim Z M nm level order n a0 d0 l0 ln0 new0
    (old : (nat -> state nat) * PC nat (sw_scheme p dim Z)) stages tau,
  symmetric_pattern M -> (forall i, active M i -> zero_row_sum M i) ->
  lake_at_rest (wp_system p) (wp_eps p) dim M Z level (fst old) ->
  (forall i, (i < n_rows M)%nat -> Z i <= level) ->
  (forall st, In st stages -> lake_at_rest (wp_system p) (wp_eps p) dim M Z level (fst (fst st))) ->
  forall i, active M i ->
  same_state dim (fst (hyperbolic_update (sw_scheme p dim Z) M nm order n a0 d0 l0 ln0 new0 old stages tau) i) (fst old i).
Proof.
  intros p dim Z M nm level order n a0 d0 l0 ln0 new0 old stages tau Hpat Hsum Hlake Hz Hst i Ha k Hk.
  destruct (proj1 (active_constrained M i) Ha) as [Hi Hc].
  unfold hyperbolic_update, update. cbn [fst].
  rewrite (wet_passes p dim Z M nm level old stages _ _ tau Hpat Hsum Hlake Hz Hst order n n i k Hi Hc Hk).
  apply (lake_low_update p dim Z M level old _ tau Hpat Hsum Hlake new0 i k Hi Hc Hk).
Qed.

(** ** A thin layer of water *)

Definition water0 (h : R) : state nat := fun k => if Nat.eqb k 0 then h else 0.

(** eps = 1/100, so that the cut off depths are 1/100 *)
Definition pond : shallow :=
  {| gravity := 10; manning_friction_coefficient := 0; reference_water_depth := 1;
     dry_state_relaxation_factor := 1 / 5;
     dry_state_relaxation_small := 1; dry_state_relaxation_large := 1 |}.

Definition pondp : wparameters :=
  {| wp_system := pond; wp_eps := 1 / 100; wp_tiny := 1 / 1000000; wp_big := 1000000; wp_tol := 1 / 1000;
     wp_on_kin := true; wp_on_v2 := true; wp_relaxation := 1; wp_evc := 1 |}.

Lemma pond_cutoff : cutoff_small pond (1 / 100) = 1 / 100 /\ cutoff_large pond (1 / 100) = 1 / 100.
Proof. unfold cutoff_small, cutoff_large, pond. cbn. split; lra. Qed.

(** Bottom 0 and 199/200, surface at 1: the depth at the second point is
    in the range of the regularisation (cut off depth 1/100, depth 1/200). *)
Lemma C44_thin_layer_proof :
  exists s eps (Z_i Z_j level : R),
    0 < eps /\ 0 < cutoff_large s eps /\ Z_i < level /\ Z_j < level /\
    star_state s eps (water0 (level - Z_i)) Z_i Z_j 0%nat
    <> star_state s eps (water0 (level - Z_j)) Z_j Z_i 0%nat.
Proof.
  exists pond, (1 / 100), (199 / 200), 0, 1. destruct pond_cutoff as [_ E]. rewrite E.
  repeat split; try lra.
  unfold star_state, inverse_water_depth_mollified, water_depth, water0. cbn [Nat.eqb].
  fold (cutoff_large pond (1 / 100)). rewrite E.
  rewrite (Rmax_left (199 / 200) 0) by lra. rewrite (Rmax_right 0 (199 / 200)) by lra.
  rewrite !positive_part_max.
  rewrite (Rmax_right 0 (1 - 199 / 200)) by lra. rewrite (Rmax_right 0 (1 - 0)) by lra.
  rewrite (Rmax_right 0 (1 - 199 / 200 + 199 / 200 - 199 / 200)) by lra.
  rewrite (Rmax_right 0 (1 - 0 + 0 - 199 / 200)) by lra.
  rewrite (Rmax_right (1 - 199 / 200) (1 / 100)) by lra. rewrite (Rmax_left (1 - 0) (1 / 100)) by lra.
  intros H. lra.
Qed.

(** ** A periodic pond with an island: bottom 0, 1/2, 2, surface at 1 *)

Definition pond_Z (i : nat) : R := match i with 0%nat => 0 | 1%nat => 1 / 2 | _ => 2 end.
Definition pond_U : nat -> state nat := fun i => water0 (Rmax 0 (1 - pond_Z i)).
Definition pond_old : (nat -> state nat) * (nat -> R * R) := (pond_U, fun _ => (0, 0)).
(** Without the island, moving. *)
Definition flow_U : nat -> state nat :=
  fun i k => match k with 0%nat => 1 + INR i | _ => INR i end.
Definition flow_old : (nat -> state nat) * (nat -> R * R) := (flow_U, fun _ => (0, 0)).

Lemma pond_at_rest : lake_at_rest pond (1 / 100) 1 ring3 pond_Z 1 pond_U.
Proof.
  intros i Hi. split; [reflexivity|]. split; [|intros k [Hk _]; destruct k; [lia|reflexivity]].
  unfold wet_or_dry. destruct pond_cutoff as [-> ->]. unfold pond_U, water0, pond_Z. cbn [Nat.eqb].
  rows3 i Hi.
  - right. rewrite Rmax_right; lra.
  - right. rewrite Rmax_right; lra.
  - left. rewrite Rmax_left; lra.
Qed.

Lemma ring_cnorm i j : (i < 3)%nat -> In j (neighbours ring3 i) -> 1 / 2 <= cnorm (c_ij ring3 i j).
Proof.
  intros Hi Hj. rewrite <- (sqrt_square (1 / 2)) by lra.
  rows3 i Hi; cbn in Hj; destruct Hj as [<-|[<-|[]]]; unfold cnorm; apply sqrt_le_1_alt; cbn; lra.
Qed.

Lemma pond_celerity : celerity pondp ring3 (1 / 10000).
Proof.
  intros i j Hi Hj. cbn [wp_system wp_eps pondp]. destruct pond_cutoff as [-> _]. cbn [gravity pond].
  pose proof (ring_cnorm i j Hi Hj) as A.
  assert (B : 1 / 10 <= sqrt (1 / 100 * 10)).
  { rewrite <- (sqrt_square (1 / 10)) by lra. apply sqrt_le_1_alt. lra. }
  pose proof (Rmult_le_compat (1 / 2) (cnorm (c_ij ring3 i j)) (1 / 10) (sqrt (1 / 100 * 10)) ltac:(lra) ltac:(lra) A B).
  lra.
Qed.

Lemma ring3_active i : (i < 3)%nat -> active ring3 i.
Proof. intros Hi. split; [exact Hi|]. rows3 i Hi; cbn; lia. Qed.

Lemma ring3_measure i : (i < n_rows ring3)%nat -> mass ring3 i <= measure_of_omega ring3.
Proof. intros _. cbn. lra. Qed.

(** A positive step size below every proposal. *)
Lemma step_exists {K} (S : system K) M nm cfl old d0 :
  symmetric_pattern M -> positive_masses M -> 0 < nm -> 0 < cfl ->
  exists tau, 0 < tau /\ forall t, In t (row_tau S M nm cfl old d0) -> tau <= t.
Proof.
  intros Hpat Hm Hnm Hc.
  assert (P : forall l : list R, (forall t, In t l -> 0 < t) -> exists tau, 0 < tau /\ forall t, In t l -> tau <= t).
  { induction l as [|a l IH]; intros Hl.
    - exists 1. split; [lra|intros t []].
    - destruct IH as (tau & Ht & Hb); [intros t Hin; apply Hl; right; exact Hin|].
      exists (Rmin a tau). split; [apply Rmin_glb_lt; [apply Hl; left; reflexivity|exact Ht]|].
      intros t [<-|Hin]; [apply Rmin_l|]. eapply Rle_trans; [apply Rmin_r|apply Hb, Hin]. }
  apply P. intros t. apply row_tau_positive; assumption.
Qed.

Lemma pond_resolved : resolved pond (1 / 100) ring3 pond_Z pond_U.
Proof. apply (lake_resolved pond (1 / 100) 1 ring3 pond_Z 1 pond_U ring3_pattern pond_at_rest). Qed.

(** Dam break over a flat bottom: depths 1, 1/2, 0, no velocity. *)
Lemma dam_resolved : resolved pond (1 / 100) ring3 (fun _ => 0) pond_U.
Proof.
  intros i Hi. destruct (pond_at_rest i Hi) as (_ & W & _). split; [exact W|].
  intros j _. unfold reconstructed. rewrite (Rmax_left 0 0) by lra.
  replace (pond_U i 0%nat + 0 - 0) with (pond_U i 0%nat) by ring.
  destruct W as [W|(W1 & W2 & W3)]; [left; rewrite W; apply Rmax_left; lra|].
  right. rewrite Rmax_right by lra. exact W2.
Qed.

Lemma flow_volume :
  symmetric_matrices ring3 /\
  (forall i j, (i < n_rows ring3)%nat -> In j (columns ring3 i) -> i <> j -> skew_at ring3 i j) /\
  (forall i, active ring3 i -> dot 1 (w_momentum (fst flow_old i)) (vec_of (c_ij ring3 i i)) = 0) /\
  total ring3 (active_rows ring3) (fst flow_old) 0%nat = 6.
Proof.
  split; [exact ring3_symmetric|]. split; [|split].
  - intros i j Hi Hj _. unfold skew_at. cbn [c_ij ring3]. apply ring_skew; [exact Hi|].
    apply (uniform_columns ring3 ring3_pattern i j Hi Hj).
  - intros i [Hi _]. unfold dot, vec_of. cbn [rsum]. rows3 i Hi; cbn; ring.
  - unfold total. cbn. ring.
Qed.
