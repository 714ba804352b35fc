(** * Proofs: the indicators are flat at uniform states *)
From Coq Require Import Reals List Arith Lia Lra FunctionalExtensionality.
From Verif Require Import RVec PhysLib EulerSystem EulerLimiter EulerPhysProofs AeosSystem AeosPhysProofs SWSystem SWPhysProofs Scalar Indicator IndicatorProofs PhysSpec PhysExamples IndicatorFlatSpec.
Import ListNotations.
Local Open Scope R_scope.

Lemma deriv_local f g x l : (exists d, 0 < d /\ forall t, Rabs (t - x) < d -> f t = g t) ->
  derivable_pt_lim g x l -> derivable_pt_lim f x l.
Proof.
  intros (d & Hd & H) D e He. destruct (D e He) as (d' & Hd').
  assert (Hm : 0 < Rmin d d') by (apply Rmin_glb_lt; [exact Hd|apply cond_pos]).
  exists (mkposreal _ Hm). cbn. intros h Hh Hb.
  rewrite !H.
  - apply Hd'; [exact Hh|]. eapply Rlt_le_trans; [exact Hb|apply Rmin_r].
  - replace (x - x) with 0 by ring. rewrite Rabs_R0. exact Hd.
  - replace (x + h - x) with h by ring. eapply Rlt_le_trans; [exact Hb|apply Rmin_l].
Qed.

Lemma squeeze_flat f N C : 0 <= C -> (forall t, Rabs (f t) <= C * Rabs (N t)) -> N 0 = 0 ->
  derivable_pt_lim N 0 0 -> derivable_pt_lim f 0 0.
Proof.
  intros HC Hf N0 D e He.
  assert (F0 : f 0 = 0).
  { pose proof (Hf 0) as H. rewrite N0, Rabs_R0, Rmult_0_r in H. pose proof (Rabs_pos (f 0)).
    destruct (Req_dec (f 0) 0) as [->|Hn]; [reflexivity|]. apply Rabs_pos_lt in Hn. lra. }
  assert (He' : 0 < e / (C + 1)) by (apply Rdiv_lt_0_compat; lra).
  destruct (D _ He') as (d & Hd). exists d. intros h Hh Hb. specialize (Hd h Hh Hb).
  rewrite Rplus_0_l in *. rewrite N0, !Rminus_0_r in Hd. rewrite F0, !Rminus_0_r.
  unfold Rdiv in *. rewrite Rabs_mult in *. pose proof (Hf h) as H. pose proof (Rabs_pos (/ h)) as Hi.
  apply Rle_lt_trans with (C * (Rabs (N h) * Rabs (/ h))).
  - rewrite <- Rmult_assoc. apply Rmult_le_compat_r; assumption.
  - pose proof (Rmult_le_pos _ _ (Rabs_pos (N h)) Hi) as Hp.
    apply Rle_lt_trans with (C * (e * / (C + 1))); [apply Rmult_le_compat_l; lra|].
    apply Rmult_lt_reg_r with (C + 1); [lra|]. rewrite !Rmult_assoc, Rinv_l by lra. nra.
Qed.

(** ** Euler and EulerAEOS *)

Lemma dot_pressure n (m c : vec) x p k : (k < n)%nat ->
  dot n (fun l => vscal x m l + (if Nat.eqb l k then p else 0)) c = x * dot n m c + p * c k.
Proof.
  intros Hk. unfold dot at 1.
  rewrite (rsum_ext n _ (fun l => x * (m l * c l) + (if Nat.eqb l k then p * c k else 0))).
  - rewrite rsum_plus, rsum_scal. f_equal.
    clear - Hk. induction n; [lia|]. cbn [rsum]. destruct (Nat.eqb_spec n k) as [->|Hn].
    + rewrite (rsum_ext k _ (fun _ => 0)); [rewrite rsum_0; ring|]. intros l Hl. destruct (Nat.eqb_spec l k); [lia|reflexivity].
    + rewrite IHn by lia. ring.
  - intros l Hl. unfold vscal. destruct (Nat.eqb_spec l k) as [->|]; ring.
Qed.

(** g . (f(U) c) for g = (g0, - kappa n, kappa r). *)
Lemma flux_against dim U p c g0 kappa n r :
  rsum (dim + 2) (fun k => mkstate dim g0 (fun i => - kappa * n i) (kappa * r) k * dot dim (a_flux dim U p k) c) =
  g0 * dot dim (a_momentum U) c
  - kappa * (dot dim n (a_momentum U) / a_density U * dot dim (a_momentum U) c + p * dot dim n c)
  + kappa * r * ((a_total_energy dim U + p) / a_density U * dot dim (a_momentum U) c).
Proof.
  rewrite rsum_state, mkstate_0, mkstate_E. unfold a_flux. cbn [Nat.eqb]. rewrite Nat.eqb_refl, dot_scal_l.
  rewrite (rsum_ext dim _ (fun k => - kappa * (dot dim (a_momentum U) c / a_density U * (n k * a_momentum U k)) + - kappa * (p * (n k * c k)))).
  - rewrite rsum_plus, !rsum_scal. fold (dot dim n (a_momentum U)). fold (dot dim n c). unfold Rdiv. ring.
  - intros k Hk. rewrite mkstate_m by exact Hk. destruct (Nat.eqb_spec k dim); [lia|].
    replace (S k - 1)%nat with k by lia. rewrite dot_pressure by exact Hk. unfold Rdiv. ring.
Qed.

Section Gas.
Variables (dim : nat) (U V c : vec) (p eta : R -> R) (dp deta g0 kappa : R).
Local Notation rho := (a_density U).
Local Notation m := (a_momentum U).
Local Notation E := (a_total_energy dim U).
Hypothesis Hrho : 0 < rho.
Hypothesis Hp : derivable_pt_lim p 0 dp.
Hypothesis Heta : derivable_pt_lim eta 0 deta.
Hypothesis Hdeta : deta = (g0 + eta 0 / rho) * a_density V - kappa * dot dim m (a_momentum V) + kappa * rho * a_total_energy dim V.
Hypothesis Hg0 : g0 = kappa * (norm2 dim m / rho - E - p 0).

(** The contribution of one neighbour to the residual of the entropy. *)
Definition residual (t : R) : R :=
  (eta t * (1 / line U V t 0%nat) - eta 0 * (1 / rho)) * dot dim (fun i => line U V t (S i)) c
  - rsum (dim + 2) (fun k => mkstate dim g0 (fun i => - kappa * m i) (kappa * rho) k *
      dot dim (vsub (a_flux dim (line U V t) (p t) k) (a_flux dim U (p 0) k)) c).

Lemma residual_form t : residual t =
  (eta t * (1 / (rho + t * a_density V)) - eta 0 * (1 / rho)) * (dot dim m c + t * dot dim (a_momentum V) c) -
  (g0 * (dot dim m c + t * dot dim (a_momentum V) c)
   - kappa * ((norm2 dim m + t * dot dim m (a_momentum V)) * (1 / (rho + t * a_density V)) * (dot dim m c + t * dot dim (a_momentum V) c) + p t * dot dim m c)
   + kappa * rho * ((E + t * a_total_energy dim V + p t) * (1 / (rho + t * a_density V)) * (dot dim m c + t * dot dim (a_momentum V) c))
   - (g0 * dot dim m c - kappa * (norm2 dim m * (1 / rho) * dot dim m c + p 0 * dot dim m c)
      + kappa * rho * ((E + p 0) * (1 / rho) * dot dim m c))).
Proof using Type.
  unfold residual.
  assert (Em : (fun i => line U V t (S i)) = vadd m (vscal t (a_momentum V))) by reflexivity.
  rewrite Em. rewrite dot_add_l, dot_scal_l.
  change (line U V t 0%nat) with (rho + t * a_density V). f_equal.
  rewrite (rsum_ext _ _ (fun k => mkstate dim g0 (fun i => - kappa * m i) (kappa * rho) k * dot dim (a_flux dim (line U V t) (p t) k) c +
     -1 * (mkstate dim g0 (fun i => - kappa * m i) (kappa * rho) k * dot dim (a_flux dim U (p 0) k) c)))
    by (intros; rewrite dot_sub_l; ring).
  rewrite rsum_plus, rsum_scal, !flux_against.
  change (a_momentum (line U V t)) with (vadd m (vscal t (a_momentum V))).
  change (a_density (line U V t)) with (rho + t * a_density V).
  change (a_total_energy dim (line U V t)) with (E + t * a_total_energy dim V).
  rewrite !dot_add_l, !dot_add_r, !dot_scal_l, !dot_scal_r. unfold norm2, Rdiv. ring.
Qed.

Lemma residual_0 : residual 0 = 0.
Proof using Hrho. rewrite residual_form, !Rmult_0_l, !Rplus_0_r. ring. Qed.

Lemma residual_flat : derivable_pt_lim residual 0 0.
Proof using Hrho Hp Heta Hdeta Hg0.
  set (a := a_density V). set (w := dot dim (a_momentum V) c). set (mc := dot dim m c). set (mw := dot dim m (a_momentum V)). set (b := a_total_energy dim V).
  assert (D1 : derivable_pt_lim (fun t => 1 / (rho + t * a)) 0 (- a / (rho * rho))).
  { assert (X := inv_comp_deriv (fun t => rho + t * a) 0 a). cbv beta in X.
    replace (rho + 0 * a) with rho in X by ring. apply X; [lra|apply affine_deriv]. }
  assert (DM : derivable_pt_lim (fun t => mc + t * w) 0 w) by apply affine_deriv.
  assert (DL := derivable_pt_lim_mult _ _ _ _ _
     (derivable_pt_lim_minus _ _ _ _ _ (derivable_pt_lim_mult _ _ _ _ _ Heta D1) (derivable_pt_lim_const (eta 0 * (1 / rho)) 0)) DM).
  assert (DR2 := derivable_pt_lim_mult _ _ _ _ _ (derivable_pt_lim_mult _ _ _ _ _ (affine_deriv (norm2 dim m) mw 0) D1) DM).
  assert (DP := derivable_pt_lim_mult _ _ _ _ _ Hp (derivable_pt_lim_const mc 0)).
  assert (DR3 := derivable_pt_lim_mult _ _ _ _ _ (derivable_pt_lim_mult _ _ _ _ _ (derivable_pt_lim_plus _ _ _ _ _ (affine_deriv E b 0) Hp) D1) DM).
  assert (D := derivable_pt_lim_minus _ _ _ _ _ DL
     (derivable_pt_lim_minus _ _ _ _ _
       (derivable_pt_lim_plus _ _ _ _ _
         (derivable_pt_lim_minus _ _ _ _ _ (derivable_pt_lim_scal _ g0 _ _ DM) (derivable_pt_lim_scal _ kappa _ _ (derivable_pt_lim_plus _ _ _ _ _ DR2 DP)))
         (derivable_pt_lim_scal _ (kappa * rho) _ _ DR3))
       (derivable_pt_lim_const (g0 * mc - kappa * (norm2 dim m * (1 / rho) * mc + p 0 * mc) + kappa * rho * ((E + p 0) * (1 / rho) * mc)) 0))).
  eapply deriv_transfer; [| |exact D].
  - intros t. unfold minus_fct, plus_fct, mult_fct, mult_real_fct, fct_cte. rewrite residual_form. reflexivity.
  - unfold minus_fct, plus_fct, mult_fct, mult_real_fct, fct_cte. rewrite !Rmult_0_l, !Rplus_0_r, Hdeta.
    fold a b mw. rewrite Hg0. field. lra.
Qed.
End Gas.

(** The sums accumulated over a stencil. *)
Lemma e_fold_sums dim (acc : eindicator -> ientry -> eindicator) (eta : ientry -> R) (f : ientry -> nat -> vec) :
  (forall l x, acc l x = e_add dim l (ie_U x) (eta x) (f x) (ie_c x)) ->
  forall st l, let r := fold_left acc st l in
  ei_d_eta r = ei_d_eta l /\ ei_eta r = ei_eta l /\
  ei_left r - rsum (dim + 2) (fun k => ei_d_eta r k * ei_right r k) =
  ei_left l - rsum (dim + 2) (fun k => ei_d_eta l k * ei_right l k) +
  fold_right Rplus 0 (map (fun x =>
    (eta x * (1 / ie_U x 0%nat) - ei_eta l * ei_rho_inverse l) * dot dim (fun i => ie_U x (S i)) (ie_c x) -
    rsum (dim + 2) (fun k => ei_d_eta l k * dot dim (vsub (f x k) (ei_f l k)) (ie_c x))) st).
Proof.
  intros Hacc. induction st as [|x st IH]; intros l; cbn [fold_left map fold_right]; cbv zeta.
  - repeat split; ring.
  - destruct (IH (acc l x)) as (A & B & C). cbv zeta in *. rewrite Hacc in A, B, C. rewrite Hacc.
    split; [exact A|]. split; [exact B|]. etransitivity; [exact C|].
    unfold e_add. cbn [ei_d_eta ei_eta ei_left ei_right ei_f ei_rho_inverse].
    rewrite (rsum_ext (dim + 2) (fun k => ei_d_eta l k * (ei_right l k + dot dim (vsub (f x k) (ei_f l k)) (ie_c x)))
      (fun k => ei_d_eta l k * ei_right l k + ei_d_eta l k * dot dim (vsub (f x k) (ei_f l k)) (ie_c x))) by (intros; ring).
    rewrite rsum_plus. ring.
Qed.

Lemma list_flat {A} (l : list A) (g : A -> R -> R) : (forall x, In x l -> derivable_pt_lim (g x) 0 0 /\ g x 0 = 0) ->
  derivable_pt_lim (fun t => fold_right Rplus 0 (map (fun x => g x t) l)) 0 0 /\ fold_right Rplus 0 (map (fun x => g x 0) l) = 0.
Proof.
  induction l as [|x l IH]; intros H; cbn [map fold_right].
  - split; [apply derivable_pt_lim_const|reflexivity].
  - destruct IH as [D Z]; [intros y Hy; apply H; right; exact Hy|]. destruct (H x (or_introl eq_refl)) as [Dx Zx].
    split; [|rewrite Z, Zx; ring]. pose proof (derivable_pt_lim_plus _ _ _ _ _ Dx D) as DD.
    eapply deriv_transfer; [| |exact DD]; [reflexivity|ring].
Qed.

Lemma scaled_bound evc N D h : 0 <= evc -> 0 < h -> 0 <= D ->
  Rabs (value (scaled_min evc (quotient (Rabs N) (D + h)))) <= evc / h * Rabs N.
Proof.
  intros He Hh HD. unfold quotient. destruct (Req_EM_T _ _) as [Z|Z]; [lra|]. cbn [scaled_min value].
  pose proof (Rabs_pos N) as HN.
  assert (Q : 0 <= Rabs N / (D + h) <= Rabs N / h).
  { split; [apply Rmult_le_pos; [exact HN|left; apply Rinv_0_lt_compat; lra]|].
    apply Rmult_le_compat_l; [exact HN|]. apply Rinv_le_contravar; lra. }
  assert (P : 0 <= evc * (Rabs N / (D + h)) <= evc / h * Rabs N).
  { split; [apply Rmult_le_pos; lra|]. replace (evc / h * Rabs N) with (evc * (Rabs N / h)) by (field; lra). apply Rmult_le_compat_l; lra. }
  rewrite Rabs_right; [eapply Rle_trans; [apply Rmin_r|apply P]|]. apply Rle_ge, Rmin_glb; lra.
Qed.

Lemma e_alpha_flat evc dim hd (ind : R -> eindicator) eta0 : 0 <= evc -> 0 < hd -> eta0 <> 0 ->
  (forall t, ei_eta (ind t) = eta0) ->
  let N t := ei_left (ind t) - rsum (dim + 2) (fun k => ei_d_eta (ind t) k * ei_right (ind t) k) in
  derivable_pt_lim N 0 0 -> N 0 = 0 ->
  derivable_pt_lim (fun t => value (e_alpha evc dim (ind t) hd)) 0 0.
Proof.
  intros He Hh H0 Hi N D Z.
  assert (Hp : 0 < hd * Rabs eta0) by (apply Rmult_lt_0_compat; [exact Hh|apply Rabs_pos_lt; exact H0]).
  apply (squeeze_flat _ N (evc / (hd * Rabs eta0))); [| |exact Z|exact D].
  - apply Rmult_le_pos; [exact He|]. left. apply Rinv_0_lt_compat, Hp.
  - intros t. unfold e_alpha. rewrite Hi. apply scaled_bound; [exact He|exact Hp|].
    pose proof (Rabs_pos (ei_left (ind t))). pose proof (rsum_abs_nonneg (dim + 2) (fun k => ei_d_eta (ind t) k * ei_right (ind t) k)). lra.
Qed.

Lemma C127_euler_proof : forall s evc dim U hd l,
  0 < gamma s -> 0 < density U -> 0 < pressure s dim U / (gamma s - 1) -> 0 <= evc -> 0 < hd ->
  derivable_pt_lim (fun t => value (euler_indicator s evc dim U (harten_entropy s dim U) (nearby (harten_entropy s dim) U l t) hd)) 0 0.
Proof.
  intros s evc dim U hd l Hg Hr Hp He Hh.
  assert (Hg1 : gamma s - 1 <> 0).
  { intros Z. unfold pressure in Hp. rewrite Z in Hp. unfold Rdiv in Hp. rewrite Rmult_0_l in Hp. lra. }
  assert (Hq : 0 < density U * total_energy dim U - 1 / 2 * norm2 dim (momentum U)).
  { replace (density U * total_energy dim U - 1 / 2 * norm2 dim (momentum U)) with (density U * (pressure s dim U / (gamma s - 1))).
    - apply Rmult_lt_0_compat; assumption.
    - unfold pressure, internal_energy. field. split; [lra|exact Hg1]. }
  unfold euler_indicator.
  set (ind := fun t => fold_left (e_accumulate s dim) (nearby (harten_entropy s dim) U l t) (e_reset s dim U (harten_entropy s dim U))).
  set (q := density U * total_energy dim U - 1 / 2 * norm2 dim (momentum U)) in *.
  set (kappa := 1 / (gamma s + 1) * powr q (- gamma s * (1 / (gamma s + 1)))).
  assert (Hh0 : harten_entropy s dim U = kappa * ((gamma s + 1) * q)).
  { unfold harten_entropy, kappa. fold q. cbv zeta. 
    replace (powr q (1 / (gamma s + 1))) with (powr q (- gamma s * (1 / (gamma s + 1)) + 1)) by (f_equal; field; lra).
    rewrite powr_plus, powr_1 by exact Hq. field. lra. }
  assert (F : forall t, ei_left (ind t) - rsum (dim + 2) (fun k => ei_d_eta (ind t) k * ei_right (ind t) k) =
      fold_right Rplus 0 (map (fun x => residual dim U (fst x) (snd x) (fun t => pressure s dim (line U (fst x) t)) (fun t => harten_entropy s dim (line U (fst x) t))
         (kappa * total_energy dim U - harten_entropy s dim U * (1 / density U)) kappa t) l)).
    { intros t. destruct (e_fold_sums dim (e_accumulate s dim) ie_eta (fun x => EulerSystem.flux s dim (ie_U x)) ltac:(reflexivity)
        (nearby (harten_entropy s dim) U l t) (e_reset s dim U (harten_entropy s dim U))) as (_ & _ & C). cbv zeta in C. fold (ind t) in C. rewrite C.
      cbn [e_reset ei_left ei_right ei_eta ei_rho_inverse ei_f ei_d_eta].
      rewrite (rsum_ext (dim + 2) (fun k => _ * 0) (fun _ => 0)) by (intros; ring). rewrite rsum_0, Rminus_0_r, Rplus_0_l.
      unfold nearby. rewrite map_map. f_equal. apply map_ext. intros x. cbn [ie_U ie_eta ie_c]. unfold residual.
      assert (L0 : line U (fst x) 0 = U) by (apply functional_extensionality; intros; unfold line, vadd, vscal; ring).
      rewrite L0. f_equal. apply rsum_ext. intros k Hk. f_equal.
      unfold shift0, harten_entropy_derivative. cbv zeta. fold q. fold kappa.
      destruct k as [|k]; [reflexivity|]. cbn [Nat.eqb]. unfold mkstate. cbn [Nat.eqb]. reflexivity. }
  assert (Flat : forall x, In x l ->
    derivable_pt_lim (residual dim U (fst x) (snd x) (fun t => pressure s dim (line U (fst x) t)) (fun t => harten_entropy s dim (line U (fst x) t))
         (kappa * total_energy dim U - harten_entropy s dim U * (1 / density U)) kappa) 0 0 /\
    residual dim U (fst x) (snd x) (fun t => pressure s dim (line U (fst x) t)) (fun t => harten_entropy s dim (line U (fst x) t))
         (kappa * total_energy dim U - harten_entropy s dim U * (1 / density U)) kappa 0 = 0).
  { intros x _. assert (L0 : line U (fst x) 0 = U) by (apply functional_extensionality; intros; unfold line, vadd, vscal; ring).
    split; [|apply residual_0; exact Hr].
    apply (residual_flat dim U (fst x) (snd x) _ _ ((gamma s - 1) * dot (dim + 2) (internal_energy_derivative dim U) (fst x))
      (dot (dim + 2) (harten_entropy_derivative s dim U) (fst x)) _ _ Hr).
    - unfold pressure. apply (derivable_pt_lim_scal (fun t => internal_energy dim (line U (fst x) t))). apply internal_energy_deriv. exact Hr.
    - apply harten_deriv; [lra|exact Hq].
    - cbv beta. rewrite L0. unfold harten_entropy_derivative. rewrite dot_mkstate. cbv zeta. fold q. fold kappa.
      replace (fun i => - kappa * momentum U i) with (vscal (- kappa) (momentum U)) by reflexivity.
      rewrite dot_scal_l. change (a_density U) with (density U). change (a_momentum U) with (momentum U).
      change (fun k => fst x (S k)) with (a_momentum (fst x)). change (a_density (fst x)) with (fst x 0%nat). change (a_total_energy dim (fst x)) with (fst x (S dim)).
      field. lra.
    - cbv beta. rewrite L0, Hh0. change (a_density U) with (density U). change (a_momentum U) with (momentum U). change (a_total_energy dim U) with (total_energy dim U).
      unfold pressure, internal_energy, q. field. lra. }
  apply (e_alpha_flat evc dim hd ind (harten_entropy s dim U)); try assumption.
  - unfold harten_entropy. apply Rgt_not_eq, powr_gt0, Hq.
  - intros t. unfold ind. rewrite euler_fold_eta. reflexivity.
  - cbv zeta.
    eapply deriv_transfer; [intros t; symmetry; apply F|reflexivity|]. apply (list_flat l (fun x => residual dim U (fst x) (snd x) (fun t => pressure s dim (line U (fst x) t)) (fun t => harten_entropy s dim (line U (fst x) t))
         (kappa * total_energy dim U - harten_entropy s dim U * (1 / density U)) kappa)).
    apply Flat.
  - cbv zeta. rewrite F. apply (list_flat l (fun x => residual dim U (fst x) (snd x) (fun t => pressure s dim (line U (fst x) t)) (fun t => harten_entropy s dim (line U (fst x) t))
         (kappa * total_energy dim U - harten_entropy s dim U * (1 / density U)) kappa)). apply Flat.
Qed.

Section Surrogate.
Variables (e : eos) (dim : nat) (U : vec) (g : R).
Local Notation rho := (a_density U).
Local Notation C := (1 - interp_b e * rho).
Local Notation shift := (rho * a_total_energy dim U - 1 / 2 * norm2 dim (a_momentum U) - rho * rho * interp_q e - rho * interp_pinf e * C).
Hypothesis Hg : 0 < g + 1.
Hypothesis HC : 0 < C.
Hypothesis Hs : 0 < shift.
Definition s_kappa : R :=
  powr (surrogate_harten_entropy e dim U g * (1 / C)) (- g) * (1 / C * (1 / C)) / (g + 1) * C.

Lemma surrogate_value : surrogate_harten_entropy e dim U g = s_kappa * ((g + 1) * shift).
Proof using Hg HC Hs.
  unfold s_kappa.
  assert (ET : surrogate_harten_entropy e dim U g = powr (shift * powr C (g - 1)) (1 / (g + 1))) by reflexivity.
  rewrite ET. set (S0 := shift) in *. clearbody S0. set (c := C) in *. clearbody c. clear ET.
  assert (CP : 0 < powr c (g - 1)) by (apply powr_gt0; exact HC).
  assert (Q : 0 < S0 * powr c (g - 1)) by (apply Rmult_lt_0_compat; assumption).
  rewrite (powr_mult_base (powr (S0 * powr c (g - 1)) (1 / (g + 1))) (1 / c)); [|apply powr_gt0; exact Q|apply Rdiv_lt_0_compat; lra].
  rewrite powr_mult by exact Q.
  replace (1 / c) with (/ c) by (unfold Rdiv; ring).
  rewrite powr_inv, powr_opp by exact HC. rewrite Rinv_inv.
  replace (1 / (g + 1)) with (1 / (g + 1) * - g + 1) at 1 by (field; lra).
  rewrite powr_plus, powr_1 by exact Q.
  assert (Ec : powr c g = powr c (g - 1) * c).
  { rewrite <- (powr_1 c) at 3 by exact HC. rewrite <- powr_plus by exact HC. f_equal. ring. }
  rewrite Ec. field. lra.
Qed.
End Surrogate.

Lemma C127_aeos_proof : forall e evc dim g U hd l,
  0 < g + 1 -> 0 < a_density U -> 0 < 1 - interp_b e * a_density U ->
  0 < a_internal_energy dim U - a_density U * interp_q e - interp_pinf e * (1 - interp_b e * a_density U) -> 0 <= evc -> 0 < hd ->
  derivable_pt_lim (fun t => value (aeos_indicator e evc dim g U (surrogate_harten_entropy e dim U g)
    (nearby (fun u => surrogate_harten_entropy e dim u g) U l t) hd)) 0 0.
Proof.
  intros e evc dim g U hd l Hg Hr HC Hx He Hh.
  set (sh := a_density U * a_total_energy dim U - 1 / 2 * norm2 dim (a_momentum U) - a_density U * a_density U * interp_q e
       - a_density U * interp_pinf e * (1 - interp_b e * a_density U)).
  assert (Hq : 0 < sh).
  { replace sh with (a_density U * (a_internal_energy dim U - a_density U * interp_q e - interp_pinf e * (1 - interp_b e * a_density U))).
    - apply Rmult_lt_0_compat; assumption.
    - unfold sh, a_internal_energy. field. lra. }
  unfold aeos_indicator.
  set (ind := fun t => fold_left (a_accumulate_indicator e dim g) (nearby (fun u => surrogate_harten_entropy e dim u g) U l t) (a_reset_indicator e dim g U (surrogate_harten_entropy e dim U g))).
  set (kappa := s_kappa e dim U g).
  set (E0 := surrogate_harten_entropy e dim U g).
  assert (Hh0 : E0 = kappa * ((g + 1) * sh)) by (apply surrogate_value; assumption).
  set (d0 := surrogate_harten_entropy_derivative e dim U E0 g 0%nat).
  set (res := fun x : vec * vec => residual dim U (fst x) (snd x) (fun t => surrogate_pressure e dim (line U (fst x) t) g) (fun t => surrogate_harten_entropy e dim (line U (fst x) t) g)
         (d0 - E0 * (1 / a_density U)) kappa).
  assert (F : forall t, ei_left (ind t) - rsum (dim + 2) (fun k => ei_d_eta (ind t) k * ei_right (ind t) k) =
      fold_right Rplus 0 (map (fun x => res x t) l)).
  { intros t. destruct (e_fold_sums dim (a_accumulate_indicator e dim g) (fun x => surrogate_harten_entropy e dim (ie_U x) g)
        (fun x => a_flux dim (ie_U x) (surrogate_pressure e dim (ie_U x) g)) ltac:(reflexivity)
        (nearby (fun u => surrogate_harten_entropy e dim u g) U l t) (a_reset_indicator e dim g U E0)) as (_ & _ & K). cbv zeta in K. etransitivity; [exact K|].
    cbn [a_reset_indicator ei_left ei_right ei_eta ei_rho_inverse ei_f ei_d_eta].
    rewrite (rsum_ext (dim + 2) (fun k => _ * 0) (fun _ => 0)) by (intros; ring). rewrite rsum_0, Rminus_0_r, Rplus_0_l.
    unfold nearby. rewrite map_map. f_equal. apply map_ext. intros x. cbn [ie_U ie_eta ie_c]. unfold res, residual.
    assert (L0 : line U (fst x) 0 = U) by (apply functional_extensionality; intros; unfold line, vadd, vscal; ring).
    rewrite L0. f_equal. apply rsum_ext. intros k Hk. f_equal.
    unfold shift0. destruct k as [|k]; [reflexivity|]. cbn [Nat.eqb]. unfold surrogate_harten_entropy_derivative. cbv zeta.
    change (powr (E0 * (1 / (1 - interp_b e * a_density U))) (- g) * (1 / (1 - interp_b e * a_density U) * (1 / (1 - interp_b e * a_density U))) / (g + 1) *
       (1 - interp_b e * a_density U)) with kappa.
    unfold mkstate. cbn [Nat.eqb]. destruct (Nat.eqb_spec k dim); [reflexivity|].
    change kappa with (powr (E0 * (1 / (1 - interp_b e * a_density U))) (- g) * (1 / (1 - interp_b e * a_density U) * (1 / (1 - interp_b e * a_density U))) / (g + 1) *
       (1 - interp_b e * a_density U)). ring. }
  assert (Flat : forall x, In x l -> derivable_pt_lim (res x) 0 0 /\ res x 0 = 0).
  { intros x _. assert (L0 : line U (fst x) 0 = U) by (apply functional_extensionality; intros; unfold line, vadd, vscal; ring).
    split; [|apply residual_0; exact Hr].
    assert (DP : exists dp, derivable_pt_lim (fun t => surrogate_pressure e dim (line U (fst x) t) g) 0 dp).
    { assert (D1 : derivable_pt_lim (fun t => 1 / (1 - interp_b e * (a_density U + t * a_density (fst x)))) 0
         (- (- interp_b e * a_density (fst x)) / ((1 - interp_b e * a_density U) * (1 - interp_b e * a_density U)))).
      { assert (X := inv_comp_deriv (fun t => (1 - interp_b e * a_density U) + t * (- interp_b e * a_density (fst x))) 0 _ ltac:(cbv beta; lra) (affine_deriv _ _ 0)).
        eapply deriv_transfer; [| |exact X]; [intros t; cbv beta; f_equal; ring|]. cbv beta. f_equal. ring. }
      assert (D2 := derivable_pt_lim_minus _ _ _ _ _ (internal_energy_deriv dim U (fst x) Hr)
         (affine_deriv (a_density U * interp_q e) (a_density (fst x) * interp_q e) 0)).
      assert (D3 := derivable_pt_lim_minus _ _ _ _ _ (derivable_pt_lim_scal _ (g - 1) _ _ (derivable_pt_lim_mult _ _ _ _ _ D2 D1)) (derivable_pt_lim_const (g * interp_pinf e) 0)).
      eexists. eapply deriv_transfer; [|reflexivity|exact D3].
      intros t. unfold minus_fct, mult_fct, mult_real_fct, fct_cte. unfold surrogate_pressure. cbv zeta.
      change (a_density (line U (fst x) t)) with (a_density U + t * a_density (fst x)).
      change (a_internal_energy dim (line U (fst x) t)) with (internal_energy dim (line U (fst x) t)). unfold Rdiv. ring. }
    destruct DP as (dp & DP).
    apply (residual_flat dim U (fst x) (snd x) _ _ dp
      (dot (dim + 2) (surrogate_harten_entropy_derivative e dim U E0 g) (fst x)) _ _ Hr DP).
    - apply surrogate_harten_deriv; assumption.
    - cbv beta. rewrite L0. fold E0. unfold d0, surrogate_harten_entropy_derivative. cbv zeta. rewrite dot_mkstate, mkstate_0.
      match goal with |- context[dot dim (fun i => - ?a * ?b * a_momentum U i) _] =>
        replace (fun i => - a * b * a_momentum U i) with (vscal (- (a * b)) (a_momentum U)) by (apply functional_extensionality; intros; unfold vscal; ring) end.
      rewrite dot_scal_l.
      change (powr (E0 * (1 / (1 - interp_b e * a_density U))) (- g) * (1 / (1 - interp_b e * a_density U) * (1 / (1 - interp_b e * a_density U))) / (g + 1) *
       (1 - interp_b e * a_density U)) with kappa.
      change (fun k => fst x (S k)) with (a_momentum (fst x)). change (a_density (fst x)) with (fst x 0%nat). change (a_total_energy dim (fst x)) with (fst x (S dim)).
      set (z := powr (E0 * (1 / (1 - interp_b e * a_density U))) (- g)). field. lra.
    - cbv beta. rewrite L0, Hh0. unfold d0, surrogate_harten_entropy_derivative. cbv zeta. rewrite mkstate_0.
      replace (powr (E0 * (1 / (1 - interp_b e * a_density U))) (- g) * (1 / (1 - interp_b e * a_density U) * (1 / (1 - interp_b e * a_density U))) / (g + 1))
        with (kappa / (1 - interp_b e * a_density U)) by (unfold kappa, s_kappa; fold E0; field; lra).
      unfold surrogate_pressure, a_internal_energy, sh. cbv zeta. clear - Hr HC Hg. clearbody kappa. field. lra. }
  apply (e_alpha_flat evc dim hd ind E0); try assumption.
  - unfold E0, surrogate_harten_entropy. apply Rgt_not_eq, powr_gt0. apply Rmult_lt_0_compat; [exact Hq|apply powr_gt0; exact HC].
  - intros t. unfold ind. rewrite aeos_fold_eta. reflexivity.
  - cbv zeta. eapply deriv_transfer; [intros t; symmetry; apply F|reflexivity|]. apply (list_flat l res Flat).
  - cbv zeta. rewrite F. apply (list_flat l res Flat).
Qed.

(** ** ShallowWater *)

(** g . (f(U) c) for g = (g0, n). *)
Lemma water_against s eps dim U c g0 n : 0 < water_depth U -> cutoff_small s eps <= water_depth U ->
  rsum (dim + 1) (fun k => mkwater dim g0 n k * dot dim (w_f s eps U k) c) =
  g0 * dot dim (w_momentum U) c + dot dim n (w_momentum U) * (1 / water_depth U) * dot dim (w_momentum U) c + w_pressure s U * dot dim n c.
Proof.
  intros Hh Hw. rewrite rsum_water. unfold w_f. cbn [Nat.eqb]. rewrite sharp_wet by exact Hw.
  rewrite (rsum_ext dim _ (fun k => (1 / water_depth U * dot dim (w_momentum U) c) * (n k * w_momentum U k) + w_pressure s U * (n k * c k))).
  - rewrite rsum_plus, !rsum_scal. fold (dot dim n (w_momentum U)). fold (dot dim n c).
    change (fun l => w_momentum U l * (1 / water_depth U) * U 0%nat) with (fun l => w_momentum U l * (1 / water_depth U) * water_depth U).
    replace (fun l => w_momentum U l * (1 / water_depth U) * water_depth U) with (w_momentum U)
      by (apply functional_extensionality; intros; field; lra).
    change (mkwater dim g0 n 0%nat) with g0. ring.
  - intros k Hk. change (mkwater dim g0 n (S k)) with (n (S k - 1)%nat). replace (S k - 1)%nat with k by lia.
    rewrite <- (dot_pressure dim (w_momentum U) c (w_momentum U k * (1 / water_depth U)) (w_pressure s U) k Hk) at 1 ||
    replace (fun l => w_momentum U l * (1 / water_depth U) * w_momentum U k + (if Nat.eqb l k then w_pressure s U else 0))
      with (fun l => vscal (w_momentum U k * (1 / water_depth U)) (w_momentum U) l + (if Nat.eqb l k then w_pressure s U else 0))
      by (apply functional_extensionality; intros; unfold vscal; ring).
    rewrite dot_pressure by exact Hk. ring.
Qed.

Section Water.
Variables (s : shallow) (eps : R) (dim : nat) (U : vec).
Local Notation h := (water_depth U).
Local Notation m := (w_momentum U).
Hypothesis Hh : 0 < h.
Hypothesis Hwet : cutoff_small s eps < h.

(** The contribution of one neighbour. *)
Definition w_residual (V c : vec) (t : R) : R :=
  let u := line U V t in
  (w_mathematical_entropy s eps dim u + w_pressure s u) * dot dim (vscal (inverse_water_depth_sharp s eps u) (w_momentum u)) c
  - rsum (dim + 1) (fun k => w_mathematical_entropy_derivative s eps dim U k * dot dim (vsub (w_f s eps u k) (w_f s eps U k)) c).

Lemma w_residual_flat V c : derivable_pt_lim (w_residual V c) 0 0.
Proof using Hh Hwet.
  set (dh := water_depth V). set (g := gravity s). set (M0 := dot dim m c). set (w := dot dim (w_momentum V) c).
  set (mm := norm2 dim m). set (mw := dot dim m (w_momentum V)). set (ww := norm2 dim (w_momentum V)).
  set (form := fun t =>
    ((g * h * h + t * (2 * g * h * dh) + t * t * (g * dh * dh)) + (1 / 2 * mm + t * mw + t * t * (1 / 2 * ww)) * (1 / (h + t * dh))) * ((M0 + t * w) * (1 / (h + t * dh)))
    - ((g * h - 1 / 2 * mm / (h * h)) * (M0 + t * w) + (mm / h + t * (mw / h)) * (1 / (h + t * dh)) * (M0 + t * w) + (1 / 2 * g * h * h + t * (g * h * dh) + t * t * (1 / 2 * g * dh * dh)) * (M0 / h)
       - ((g * h - 1 / 2 * mm / (h * h)) * M0 + (mm / h) * (1 / h) * M0 + 1 / 2 * g * h * h * (M0 / h)))).
  assert (D1 : derivable_pt_lim (fun t => 1 / (h + t * dh)) 0 (- dh / (h * h))).
  { assert (X := inv_comp_deriv (fun t => h + t * dh) 0 dh). cbv beta in X.
    replace (h + 0 * dh) with h in X by ring. apply X; [lra|apply affine_deriv]. }
  assert (DM : derivable_pt_lim (fun t => M0 + t * w) 0 w) by apply affine_deriv.
  apply (deriv_local _ form).
  - set (gap := Rmin h (h - cutoff_small s eps)).
    assert (Hgap : 0 < gap) by (unfold gap; apply Rmin_glb_lt; lra).
    exists (gap / (Rabs dh + 1)). assert (Hd := Rabs_pos dh).
    split; [apply Rdiv_lt_0_compat; lra|]. intros t Ht. rewrite Rminus_0_r in Ht.
    assert (T : Rabs (t * dh) < gap).
    { rewrite Rabs_mult.
      assert (Rabs t * (Rabs dh + 1) < gap).
      { apply (Rmult_lt_compat_r (Rabs dh + 1)) in Ht; [|lra].
        replace (gap / (Rabs dh + 1) * (Rabs dh + 1)) with gap in Ht by (field; lra). exact Ht. }
      assert (Rabs t * Rabs dh <= Rabs t * (Rabs dh + 1)) by (apply Rmult_le_compat_l; [apply Rabs_pos|lra]). lra. }
    assert (G1 : gap <= h) by apply Rmin_l. assert (G2 : gap <= h - cutoff_small s eps) by apply Rmin_r.
    apply Rabs_def2 in T.
    assert (LH : water_depth (line U V t) = h + t * dh) by reflexivity.
    unfold w_residual. cbv zeta.
    rewrite (rsum_ext _ _ (fun k => w_mathematical_entropy_derivative s eps dim U k * dot dim (w_f s eps (line U V t) k) c +
      -1 * (w_mathematical_entropy_derivative s eps dim U k * dot dim (w_f s eps U k) c))) by (intros; rewrite dot_sub_l; ring).
    rewrite rsum_plus, rsum_scal. unfold w_mathematical_entropy_derivative. cbv zeta.
    rewrite !water_against by (rewrite ?LH; lra).
    unfold w_mathematical_entropy, kinetic_energy, w_pressure.
    rewrite !sharp_wet by (rewrite ?LH; lra). rewrite LH.
    change (line U V t 0%nat) with (h + t * dh). change (U 0%nat) with h.
    change (w_momentum (line U V t)) with (vadd m (vscal t (w_momentum V))).
    rewrite !norm2_scal, norm2_line, !dot_scal_l, !dot_add_l, !dot_add_r, !dot_scal_l, !dot_scal_r.
    fold M0 w mw ww mm. change (dot dim m m) with mm. fold g. unfold form. field. lra.
  - assert (D := derivable_pt_lim_minus _ _ _ _ _
      (derivable_pt_lim_mult _ _ _ _ _
        (derivable_pt_lim_plus _ _ _ _ _ (quad_deriv (g * h * h) (2 * g * h * dh) (g * dh * dh) 0)
          (derivable_pt_lim_mult _ _ _ _ _ (quad_deriv (1 / 2 * mm) mw (1 / 2 * ww) 0) D1))
        (derivable_pt_lim_mult _ _ _ _ _ DM D1))
      (derivable_pt_lim_minus _ _ _ _ _
        (derivable_pt_lim_plus _ _ _ _ _
          (derivable_pt_lim_plus _ _ _ _ _ (derivable_pt_lim_scal _ (g * h - 1 / 2 * mm / (h * h)) _ _ DM)
            (derivable_pt_lim_mult _ _ _ _ _ (derivable_pt_lim_mult _ _ _ _ _ (affine_deriv (mm / h) (mw / h) 0) D1) DM))
          (derivable_pt_lim_mult _ _ _ _ _ (quad_deriv (1 / 2 * g * h * h) (g * h * dh) (1 / 2 * g * dh * dh) 0) (derivable_pt_lim_const (M0 / h) 0)))
        (derivable_pt_lim_const ((g * h - 1 / 2 * mm / (h * h)) * M0 + (mm / h) * (1 / h) * M0 + 1 / 2 * g * h * h * (M0 / h)) 0))).
    eapply deriv_transfer; [| |exact D].
    + intros t. unfold minus_fct, plus_fct, mult_fct, mult_real_fct, fct_cte, form. reflexivity.
    + unfold minus_fct, plus_fct, mult_fct, mult_real_fct, fct_cte. rewrite !Rmult_0_l, ?Rmult_0_r, !Rplus_0_r. field. lra.
Qed.
End Water.

Lemma w_fold_sums s eps dim : forall st l, let r := fold_left (w_accumulate_indicator s eps dim) st l in
  wi_eta r = wi_eta l /\
  wi_left r - rsum (dim + 1) (fun k => wi_d_eta r k * wi_right r k) =
  wi_left l - rsum (dim + 1) (fun k => wi_d_eta l k * wi_right l k) +
  fold_right Rplus 0 (map (fun x =>
    (ie_eta x + w_pressure s (ie_U x)) * dot dim (vscal (inverse_water_depth_sharp s eps (ie_U x)) (w_momentum (ie_U x))) (ie_c x) -
    rsum (dim + 1) (fun k => wi_d_eta l k * dot dim (vsub (w_f s eps (ie_U x) k) (wi_f l k)) (ie_c x))) st).
Proof.
  induction st as [|x st IH]; intros l; cbn [fold_left map fold_right]; cbv zeta.
  - split; [reflexivity|ring].
  - destruct (IH (w_accumulate_indicator s eps dim l x)) as (A & C). cbv zeta in *.
    split; [exact A|]. etransitivity; [exact C|].
    unfold w_accumulate_indicator. cbn [wi_d_eta wi_eta wi_left wi_right wi_f].
    rewrite (rsum_ext (dim + 1) (fun k => wi_d_eta l k * (wi_right l k + dot dim (vsub (w_f s eps (ie_U x) k) (wi_f l k)) (ie_c x)))
      (fun k => wi_d_eta l k * wi_right l k + wi_d_eta l k * dot dim (vsub (w_f s eps (ie_U x) k) (wi_f l k)) (ie_c x))) by (intros; ring).
    rewrite rsum_plus. ring.
Qed.

Lemma C127_sw_proof : forall s eps tiny evc dim U hd l,
  0 < water_depth U -> cutoff_small s eps < water_depth U -> 0 < tiny -> 0 <= evc ->
  (forall k, (k < dim)%nat -> fold_right Rplus 0 (map (fun x : vec * vec => snd x k) l) = 0) ->
  derivable_pt_lim (fun t => value (sw_indicator s eps tiny evc dim U (w_mathematical_entropy s eps dim U)
    (nearby (w_mathematical_entropy s eps dim) U l t) hd)) 0 0.
Proof.
  intros s eps tiny evc dim U hd l Hh Hw Ht He Hc. unfold sw_indicator.
  set (ind := fun t => fold_left (w_accumulate_indicator s eps dim) (nearby (w_mathematical_entropy s eps dim) U l t) (w_reset_indicator s eps dim U (w_mathematical_entropy s eps dim U))).
  set (N := fun t => wi_left (ind t) - rsum (dim + 1) (fun k => wi_d_eta (ind t) k * wi_right (ind t) k)).
  assert (F : forall t, N t = fold_right Rplus 0 (map (fun x => w_residual s eps dim U (fst x) (snd x) t) l)).
  { intros t. destruct (w_fold_sums s eps dim (nearby (w_mathematical_entropy s eps dim) U l t) (w_reset_indicator s eps dim U (w_mathematical_entropy s eps dim U))) as (_ & K).
    cbv zeta in K. etransitivity; [exact K|]. cbn [w_reset_indicator wi_left wi_right wi_f wi_d_eta].
    rewrite (rsum_ext (dim + 1) (fun k => _ * 0) (fun _ => 0)) by (intros; ring). rewrite rsum_0, Rminus_0_r, Rplus_0_l.
    unfold nearby. rewrite map_map. f_equal. }
  assert (Z : N 0 = 0).
  { rewrite F. 
    assert (G : forall l, fold_right Rplus 0 (map (fun x : vec * vec => w_residual s eps dim U (fst x) (snd x) 0) l) =
      (w_mathematical_entropy s eps dim U + w_pressure s U) * inverse_water_depth_sharp s eps U *
        dot dim (w_momentum U) (fun k => fold_right Rplus 0 (map (fun x : vec * vec => snd x k) l))).
    { clear. induction l as [|x l IH]; cbn [map fold_right].
      - unfold dot. rewrite (rsum_ext dim _ (fun _ => 0)) by (intros; ring). rewrite rsum_0. ring.
      - rewrite IH. change (fun k => snd x k + fold_right Rplus 0 (map (fun x => snd x k) l)) with (vadd (snd x) (fun k => fold_right Rplus 0 (map (fun x : vec * vec => snd x k) l))).
        rewrite dot_add_r. unfold w_residual. cbv zeta.
        assert (L0 : line U (fst x) 0 = U) by (apply functional_extensionality; intros; unfold line, vadd, vscal; ring).
        rewrite L0, dot_scal_l. rewrite (rsum_ext (dim + 1) _ (fun _ => 0)) by (intros; rewrite dot_sub_l; ring). rewrite rsum_0. ring. }
    rewrite G. unfold dot. rewrite (rsum_ext dim _ (fun _ => 0)) by (intros k Hk; rewrite Hc by exact Hk; ring). rewrite rsum_0. ring. }
  assert (D : derivable_pt_lim N 0 0).
  { eapply deriv_transfer; [intros t; symmetry; apply F|reflexivity|].
    clear - Hh Hw. induction l as [|x l IH]; cbn [map fold_right]; [apply derivable_pt_lim_const|].
    pose proof (derivable_pt_lim_plus _ _ _ _ _ (w_residual_flat s eps dim U Hh Hw (fst x) (snd x)) IH) as DD.
    eapply deriv_transfer; [| |exact DD]; [reflexivity|ring]. }
  assert (Hp : 0 < 100 * tiny) by lra.
  apply (squeeze_flat _ N (evc / (100 * tiny))); [| |exact Z|exact D].
  - apply Rmult_le_pos; [exact He|]. left. apply Rinv_0_lt_compat, Hp.
  - intros t. unfold w_alpha. fold (ind t). rewrite Rabs_Rabsolu.
    set (A := Rabs (wi_left (ind t)) + Rabs (rsum (dim + 1) (fun k => wi_d_eta (ind t) k * wi_right (ind t) k))).
    assert (HA : 0 <= A) by (apply Rplus_le_le_0_compat; apply Rabs_pos).
    set (B := Rmax (hd * Rabs (wi_eta (ind t))) (100 * tiny)). assert (HB : 100 * tiny <= B) by apply Rmax_r. clearbody B.
    replace (A + B) with ((A + (B - 100 * tiny)) + 100 * tiny) by ring.
    apply scaled_bound; lra.
Qed.

(** ** Concrete states *)

Lemma C127_setting :
  (0 < gamma ex_euler /\ 0 < density ex_U /\ 0 < pressure ex_euler 2 ex_U / (gamma ex_euler - 1)) /\
  (0 < 7 / 5 + 1 /\ 0 < a_density ex_U /\ 0 < 1 - interp_b ex_eos * a_density ex_U /\
   0 < a_internal_energy 2 ex_U - a_density ex_U * interp_q ex_eos - interp_pinf ex_eos * (1 - interp_b ex_eos * a_density ex_U)) /\
  (0 < water_depth ex_W /\ cutoff_small ex_shallow (1 / 1000) < water_depth ex_W) /\
  (let l := [(ex_U, fun _ => 0); (ex_D, fun k => if Nat.eqb k 0 then 1 else 2); (ex_W, fun k => if Nat.eqb k 0 then -1 else -2)] in
   forall k, (k < 2)%nat -> fold_right Rplus 0 (map (fun x : vec * vec => snd x k) l) = 0).
Proof.
  split; [|split; [|split]].
  - rewrite ex_pressure. unfold ex_euler, density, ex_U. cbn. lra.
  - unfold a_internal_energy, a_density, a_total_energy, a_momentum, norm2, dot, ex_U, ex_eos. cbn. lra.
  - unfold water_depth, cutoff_small, ex_W, ex_shallow. cbn. lra.
  - cbv zeta. intros k Hk. cbn. destruct (Nat.eqb k 0); lra.
Qed.
