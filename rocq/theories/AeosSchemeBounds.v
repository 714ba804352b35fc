(** * Scheme with an arbitrary equation of state: the bounds of the limiter *)
From Coq Require Import Reals List Arith Bool Lia Lra Psatz FunctionalExtensionality.
From Verif Require Import RVec Newton PhysSpec PhysLib EulerSystem EulerLimiter EulerSpeed EulerRiemannSpec EulerRiemannProofs AeosSystem EulerLimiterBounds AeosLimiter AeosLimiterProofs AeosLimiterEntropy AeosLimiterBounds AeosRiemann AeosRiemannSpec AeosRiemannProofs AeosRiemannFinal
  AeosPrecompute Eos Indicator SWScheme SchemeSpec SchemeProofs SchemeUpdate SchemeLimit SchemeFinal ScalarSchemeProofs
  EulerScheme EulerSchemeSpec EulerSchemeProofs EulerSchemeFinal AeosScheme AeosSchemeSpec AeosSchemeProofs AeosSchemeCovolume AeosSchemeFinal.
From Verif Require Import Scheme.
Import ListNotations.
Local Open Scope R_scope.

(** ** Bounds as sets *)

Lemma a_mass_convex e b : convex_set (a_mass_inside e b).
Proof.
  intros u v a (A & [B C] & D) (A' & [B' C'] & D') Ha. split; [exact A|]. split; [|exact D].
  pose proof (Rmult_le_compat_l a _ _ (proj1 Ha) B). pose proof (Rmult_le_compat_l a _ _ (proj1 Ha) C).
  assert (Hb : 0 <= 1 - a) by lra.
  pose proof (Rmult_le_compat_l (1 - a) _ _ Hb B'). pose proof (Rmult_le_compat_l (1 - a) _ _ Hb C'). lra.
Qed.

Lemma a_inside_covolume e b u : 0 <= interp_b e -> a_mass_inside e b u ->
  0 < u 0%nat /\ 0 < 1 - interp_b e * u 0%nat.
Proof.
  intros Hb (A & [B C] & D). split; [lra|].
  pose proof (Rmult_le_compat_l (interp_b e) _ _ Hb C). lra.
Qed.

(** The lower bound of the entropy as a lower bound of the excess energy *)
Lemma entropy_threshold x r b g s : 0 < r -> 0 < 1 - b * r ->
  (s <= x * powr (1 / r - b) g / (1 - b * r) <-> s * ((1 - b * r) * powr (r / (1 - b * r)) g) <= x).
Proof.
  intros Hr Hc.
  assert (E : 1 / r - b = / (r / (1 - b * r))) by (field; lra).
  assert (P : 0 < r / (1 - b * r)) by (apply Rdiv_lt_0_compat; lra).
  rewrite E, powr_inv by exact P. pose proof (powr_gt0 _ g P) as K.
  set (k := powr (r / (1 - b * r)) g) in *. set (c := 1 - b * r) in *. clearbody k c. clear E P.
  assert (0 < c * k) by (apply Rmult_lt_0_compat; assumption).
  split; intros H1.
  - apply Rmult_le_compat_r with (r := c * k) in H1; [|lra].
    replace (x * / k / c * (c * k)) with x in H1 by (field; lra). exact H1.
  - apply Rmult_le_reg_r with (c * k); [assumption|].
    replace (x * / k / c * (c * k)) with x by (field; lra). exact H1.
Qed.

Lemma threshold_convex g b x y a : 1 <= g -> 0 < x -> 0 < y -> 0 < 1 - b * x -> 0 < 1 - b * y -> 0 <= a <= 1 ->
  let z := a * x + (1 - a) * y in
  (1 - b * z) * powr (z / (1 - b * z)) g <=
  a * ((1 - b * x) * powr (x / (1 - b * x)) g) + (1 - a) * ((1 - b * y) * powr (y / (1 - b * y)) g).
Proof.
  intros Hg Hx Hy Hcx Hcy Ha z. pose proof (mix_pos a x y Ha Hx Hy) as Hz. fold z in Hz.
  pose proof (mix_pos a _ _ Ha Hcx Hcy) as Hcz.
  replace (a * (1 - b * x) + (1 - a) * (1 - b * y)) with (1 - b * z) in Hcz by (unfold z; ring).
  set (al := a * (1 - b * x) / (1 - b * z)).
  assert (E1 : 1 - al = (1 - a) * (1 - b * y) / (1 - b * z)) by (unfold al, z in *; field; lra).
  assert (Hal : 0 <= al <= 1).
  { assert (0 < / (1 - b * z)) by (apply Rinv_0_lt_compat; exact Hcz). split.
    - apply Rmult_le_pos; [apply Rmult_le_pos; lra|lra].
    - assert (0 <= 1 - al); [|lra]. rewrite E1. apply Rmult_le_pos; [apply Rmult_le_pos; lra|lra]. }
  pose proof (powr_convex g (x / (1 - b * x)) (y / (1 - b * y)) al Hg
    ltac:(apply Rdiv_lt_0_compat; lra) ltac:(apply Rdiv_lt_0_compat; lra) Hal) as Q.
  replace (al * (x / (1 - b * x)) + (1 - al) * (y / (1 - b * y))) with (z / (1 - b * z)) in Q
    by (rewrite E1; unfold al, z in *; field; lra).
  apply Rmult_le_compat_l with (r := 1 - b * z) in Q; [|lra].
  eapply Rle_trans; [exact Q|]. rewrite E1. unfold al. right. field. lra.
Qed.

Lemma excess_concave e dim u v a : 0 < u 0%nat -> 0 < v 0%nat -> 0 <= a <= 1 ->
  a * excess_energy e dim u + (1 - a) * excess_energy e dim v <= excess_energy e dim (fun k => a * u k + (1 - a) * v k).
Proof.
  intros Hu Hv Ha. pose proof (inner_concave dim u v a Hu Hv Ha). unfold excess_energy. lra.
Qed.

Lemma a_entropy_convex e dim b : 0 <= interp_b e -> convex_set (a_entropy_inside e dim b).
Proof.
  intros Hb u v a (A & G & S1 & E) (A' & _ & _ & E') Ha.
  destruct (a_inside_covolume e b u Hb A) as [U1 U2]. destruct (a_inside_covolume e b v Hb A') as [V1 V2].
  pose proof (a_mass_convex e b u v a A A' Ha) as A2. split; [exact A2|]. split; [exact G|]. split; [exact S1|].
  destruct (a_inside_covolume e b _ Hb A2) as [W1 W2]. cbv beta in W1, W2.
  apply (proj1 (entropy_threshold _ _ _ _ _ U1 U2)) in E. apply (proj1 (entropy_threshold _ _ _ _ _ V1 V2)) in E'.
  apply (proj2 (entropy_threshold _ _ _ _ _ W1 W2)).
  eapply Rle_trans; [|apply excess_concave; assumption].
  pose proof (threshold_convex (agamma_min b) (interp_b e) (u 0%nat) (v 0%nat) a ltac:(lra) U1 V1 U2 V2 Ha) as Q. cbv zeta in Q.
  apply Rmult_le_compat_l with (r := as_min b) in Q; [|lra].
  apply Rmult_le_compat_l with (r := a) in E; [|lra]. apply Rmult_le_compat_l with (r := 1 - a) in E'; [|lra]. lra.
Qed.

Lemma surrogate_excess e dim u g : 0 < u 0%nat ->
  surrogate_specific_entropy e dim u g =
  excess_energy e dim u * powr (1 / u 0%nat - interp_b e) g / (1 - interp_b e * u 0%nat).
Proof.
  intros Hu. unfold excess_energy. rewrite inner_energy_eq by exact Hu. reflexivity.
Qed.

Lemma surrogate_positive e dim u g : admissible_gas e dim u -> 0 < 1 - interp_b e * u 0%nat ->
  0 < surrogate_specific_entropy e dim u g.
Proof.
  intros [A B] C. rewrite surrogate_excess by exact A. apply Rdiv_lt_0_compat; [|exact C].
  apply Rmult_lt_0_compat; [exact B|]. apply powr_gt0.
  replace (1 / u 0%nat - interp_b e) with ((1 - interp_b e * u 0%nat) / u 0%nat) by (field; lra).
  apply Rdiv_lt_0_compat; assumption.
Qed.

Lemma a_inside_admissible e dim b u : 0 <= interp_b e -> a_entropy_inside e dim b u ->
  admissible_gas e dim u /\ interp_b e * u 0%nat < 1.
Proof.
  intros Hb (A & G & S1 & E). destruct (a_inside_covolume e b u Hb A) as [U1 U2].
  apply (proj1 (entropy_threshold _ _ _ _ _ U1 U2)) in E. split; [|lra]. split; [exact U1|].
  eapply Rlt_le_trans; [|exact E]. apply Rmult_lt_0_compat; [exact S1|]. apply Rmult_lt_0_compat; [exact U2|].
  apply powr_gt0. apply Rdiv_lt_0_compat; assumption.
Qed.

(** ** One call of the limiter *)

Section Call.
Variables (p : aparameters) (dim : nat) (b : abounds) (u P : vec).
Local Notation s := (ap_system p).
Local Notation e := (a_eos (ap_system p)).
Definition a_call : alane := {| al_b := b; al_U := u; al_P := P; al_tmin := 0; al_tmax := 1 |}.
Local Notation L := a_call.

Lemma a_call_along t : a_along L t = fun k => u k + t * P k.
Proof. reflexivity. Qed.

Lemma a_call_zero : a_along L 0 = u.
Proof. rewrite a_call_along. apply functional_extensionality. intros. ring. Qed.

Lemma a_call_density : a_mass_inside e b u -> a_density_hyp L.
Proof.
  intros (A & [B C] & _). unfold a_density_hyp. change (al_tmin L) with 0. rewrite a_call_zero.
  unfold a_density. cbn [a_call al_b al_U al_tmin al_tmax]. repeat split; lra.
Qed.

Lemma a_call_mass : a_mass_inside e b u -> 0 <= ap_eps p ->
  let l := fst (aeos_limit p dim b u P) in
  0 <= l <= 1 /\ a_mass_inside e b (fun k => u k + l * P k).
Proof.
  intros H He l. pose proof (a_call_density H) as D.
  assert (El : l = hd 0 (fst (a_limit s (ap_eps p) (ap_tol p) (ap_iterations p) dim [L]))) by reflexivity.
  destruct (a_limit s (ap_eps p) (ap_tol p) (ap_iterations p) dim [L]) as [ts ok] eqn:E.
  assert (T : Forall (fun L => al_tmin L <= al_tmax L) [L]) by (constructor; [cbn; lra|constructor]).
  pose proof (a_limit_in_range _ _ _ _ _ _ _ _ T E) as R1.
  pose proof (a_limit_density_ok _ _ _ _ _ _ _ _ He ltac:(constructor; [exact D|constructor]) E) as R2.
  inversion R1 as [|x t l1 l2 Hr Hn]; subst. inversion Hn; subst.
  inversion R2 as [|x' t' l1' l2' Hr' Hn']; subst. cbn [fst hd] in El. rewrite El. cbn in Hr.
  split; [exact Hr|]. split; [apply H|]. split; [exact Hr'|apply H].
Qed.

Lemma a_mass_call : a_mass_inside e b u -> 0 <= ap_eps p ->
  let l := fst (aeos_limit p dim b u P) in
  0 <= l <= 1 /\ forall q, 0 <= q <= l -> a_mass_inside e b (fun k => u k + q * P k).
Proof.
  intros H He l. destruct (a_call_mass H He) as [A B]. fold l in A, B. split; [exact A|].
  intros q Hq. apply (convex_line (a_mass_inside e b) u P l q); auto. apply a_mass_convex.
Qed.

Hypothesis Heps : ap_eps p = 0.
Hypothesis Hb : 0 <= interp_b e.

Lemma a_call_entropy : a_entropy_inside e dim b u -> a_entropy_hyp s dim L.
Proof.
  intros (A & G & S1 & E). destruct (a_inside_covolume e b u Hb A) as [U1 U2].
  unfold a_entropy_hyp. change (al_tmin L) with 0. change (al_b L) with b.
  split; [apply a_call_density; exact A|]. split; [apply A|]. split; [lra|]. split; [exact G|]. split; [exact Hb|].
  split; [apply A|]. apply a_psi_entropy; rewrite a_call_zero; try assumption.
  cbn [a_call al_b]. rewrite surrogate_excess by exact U1. exact E.
Qed.

Lemma aeos_entropy_call : a_entropy_inside e dim b u ->
  let l := fst (aeos_limit p dim b u P) in
  (0 <= l <= 1 /\ forall q, 0 <= q <= l -> a_entropy_inside e dim b (fun k => u k + q * P k)) /\
  snd (aeos_limit p dim b u P) = true.
Proof.
  intros H l. assert (HM : a_mass_inside e b u) by apply H.
  destruct (a_call_mass HM) as [A B]; [lra|]. fold l in A, B.
  pose proof (a_call_entropy H) as EH.
  assert (El : l = hd 0 (fst (a_limit s 0 (ap_tol p) (ap_iterations p) dim [L])))
    by (unfold l, aeos_limit; rewrite Heps; reflexivity).
  assert (Eok : snd (aeos_limit p dim b u P) = snd (a_limit s 0 (ap_tol p) (ap_iterations p) dim [L]))
    by (unfold aeos_limit; rewrite Heps; reflexivity).
  destruct (a_limit s 0 (ap_tol p) (ap_iterations p) dim [L]) as [ts ok] eqn:E.
  split.
  - split; [exact A|].
    assert (Q : a_entropy_inside e dim b (fun k => u k + l * P k)).
    { destruct H as (_ & G & S1 & _). split; [exact B|]. split; [exact G|]. split; [exact S1|].
      pose proof (a_limit_entropy_psi _ _ _ _ _ _ _ ltac:(constructor; [exact EH|constructor]) E) as R2.
      inversion R2 as [|x' t' l1' l2' Hr' Hn']; subst. cbn [fst hd] in El. rewrite <- El in Hr'.
      destruct (a_inside_covolume e b _ Hb B) as [U1 U2].
      apply a_psi_entropy in Hr'; rewrite a_call_along in *; try assumption.
      cbn [a_call al_b] in Hr'. rewrite surrogate_excess in Hr' by exact U1. exact Hr'. }
    intros q Hq. apply (convex_line (a_entropy_inside e dim b) u P l q); auto. apply a_entropy_convex. exact Hb.
  - rewrite Eok. cbn [snd]. destruct EH as (E1 & E2 & E3 & E4 & E5 & E6 & E7).
    apply (a_limit_success _ _ _ _ _ _ _ _ (Rle_refl 0)) in E; [exact E|rewrite Rmult_0_r; lra|].
    constructor; [|constructor]. auto 7.
Qed.
End Call.

(** ** The bounds of a row *)

Lemma a_relaxed_contains0 s eps factor dim l hd :
  0 <= eps -> 0 <= factor -> 1 < agamma_min (al_bounds l) -> 0 <= interp_b (a_eos s) ->
  interp_b (a_eos s) * arho_max (al_bounds l) <= 1 ->
  0 <= arho_min (al_bounds l) -> 0 <= arho_max (al_bounds l) -> 0 <= as_min (al_bounds l) ->
  as_min (al_bounds l) <= al_s_interp_max l ->
  let b := al_bounds l in let b' := al_get_bounds s eps factor dim l hd in
  arho_min b' <= arho_min b /\ arho_max b <= arho_max b' /\ as_min b' <= as_min b.
Proof.
  intros He Hf Hg Hb Hbr H1 H2 H3 H4. cbv zeta. unfold al_get_bounds. cbv zeta.
  cbn [arho_min arho_max as_min].
  assert (R0 : 0 <= relaxation_radius dim hd * factor)
    by (apply Rmult_le_pos; [apply relaxation_radius_nonneg|exact Hf]).
  set (r := relaxation_radius dim hd * factor) in *.
  assert (Q0 : 0 <= 2 * factor * (Rabs (al_num l) / (Rabs (al_den l) + eps))).
  { assert (A := Rabs_pos (al_num l)). assert (B := Rabs_pos (al_den l)).
    apply Rmult_le_pos; [lra|]. apply Rmult_le_pos; [lra|].
    destruct (Req_dec (Rabs (al_den l) + eps) 0) as [Z|Z].
    - rewrite Z, Rinv_0. lra.
    - left. apply Rinv_0_lt_compat. lra. }
  set (q := 2 * factor * _) in *.
  assert (0 <= factor * (al_s_interp_max l - as_min (al_bounds l))) by (apply Rmult_le_pos; lra).
  set (er := factor * _) in *.
  assert (RM : arho_max (al_bounds l) <= Rmin ((1 + r) * arho_max (al_bounds l)) (arho_max (al_bounds l) + q)).
  { apply Rmin_glb; nra. }
  set (rm := Rmin ((1 + r) * arho_max (al_bounds l)) (arho_max (al_bounds l) + q)) in *.
  set (r0 := arho_max (al_bounds l)) in *. set (g := agamma_min (al_bounds l)) in *. set (b := interp_b (a_eos s)) in *.
  split; [|split].
  - apply Rmax_lub; nra.
  - apply Rmin_glb; [|exact RM].
    assert (0 <= b * rm) by (apply Rmult_le_pos; lra).
    apply Rmult_le_reg_r with (g - 1 + 2 * b * rm); [lra|].
    replace ((g + 1) * rm / (g - 1 + 2 * b * rm) * (g - 1 + 2 * b * rm)) with ((g + 1) * rm) by (field; lra).
    nra.
  - apply Rmax_lub; nra.
Qed.

Lemma a_stencil_contains0 s dim big eps factor hd gamma_i U_i f cs :
  0 <= eps -> 0 <= factor -> 0 <= big -> 1 < gamma_i -> 0 <= interp_b (a_eos s) ->
  (forall c, In c cs -> 0 <= a_density (bar_of dim U_i f c) /\
     interp_b (a_eos s) * a_density (bar_of dim U_i f c) <= 1 /\
     0 <= s_of s dim gamma_i c /\ 0 <= s_bar_of s dim gamma_i U_i f c) ->
  (exists c, In c cs /\ ac_U c = U_i) ->
  let b := al_get_bounds s eps factor dim (al_stencil s dim big gamma_i U_i f cs) hd in
  forall c, In c cs ->
    arho_min b <= a_density (bar_of dim U_i f c) <= arho_max b /\
    as_min b <= s_of s dim gamma_i c /\ as_min b <= s_bar_of s dim gamma_i U_i f c.
Proof.
  intros He Hf Hb Hg Hi Hpos (c0 & Hc0 & Hs0). cbv zeta. intros c Hc.
  assert (F := al_fold_bounds s dim cs (al_reset big gamma_i U_i f)). cbv zeta in F.
  change (fold_left (al_step s dim) cs (al_reset big gamma_i U_i f)) with (al_stencil s dim big gamma_i U_i f cs) in F.
  set (l := al_stencil s dim big gamma_i U_i f cs) in *.
  change (al_U_i (al_reset big gamma_i U_i f)) with U_i in F.
  change (al_flux_i (al_reset big gamma_i U_i f)) with f in F.
  change (agamma_min (al_bounds (al_reset big gamma_i U_i f))) with gamma_i in F.
  destruct F as ((A1 & A2 & A3 & A4 & A5) & B & C & C' & D).
  assert (X := a_relaxed_contains0 s eps factor dim l hd He Hf).
  assert (P1 : 0 <= arho_min (al_bounds l)).
  { apply C; [exact Hb|]. intros c' Hc'. apply (Hpos c' Hc'). }
  assert (P2 : 0 <= as_min (al_bounds l)).
  { apply D; [exact Hb|]. intros c' Hc'. split; apply (Hpos c' Hc'). }
  assert (P3 : 0 <= arho_max (al_bounds l)) by (simpl in A2; exact A2).
  assert (P4 : interp_b (a_eos s) * arho_max (al_bounds l) <= 1).
  { apply (C' (fun r => interp_b (a_eos s) * r <= 1)); [simpl; lra|].
    intros c' Hc'. apply (Hpos c' Hc'). }
  destruct (B c0 Hc0) as (B1 & B2 & B3 & B4).
  assert (P5 : as_min (al_bounds l) <= al_s_interp_max l).
  { unfold s_interp_of in B4. unfold s_of in B2. destruct (compute_strict_bounds s).
    - rewrite Hs0, a_vhalf_self in B4. rewrite Hs0 in B2. lra.
    - lra. }
  rewrite A5 in X.
  specialize (X Hg Hi P4 P1 P3 P2 P5). cbv zeta in X.
  destruct (B c Hc) as (G1 & G2 & G3 & _). destruct X as (X1 & X2 & X3).
  split; [split; lra|split; lra].
Qed.

(** A property of bounds that combine_bounds keeps survives the extension. *)
Section Extend.
Context {K : Type}.
Variables (Sy : system K) (M : mesh) (Q : BD K Sy -> Prop).
Hypothesis Hpat : symmetric_pattern M.
Hypothesis Hcomb : forall a b, Q a -> Q b -> Q (combine_bounds K Sy a b).

Lemma extend_keeps order b0 : (forall i, In i order -> (i < n_rows M)%nat) ->
  (forall i, active M i -> Q (b0 i)) -> forall i, active M i -> Q (extend_bounds Sy M order b0 i).
Proof using Hpat Hcomb.
  intros Ho Hb0 i Ha. unfold extend_bounds.
  assert (G : forall ord, (forall i, In i ord -> (i < n_rows M)%nat) -> forall b : nat -> BD K Sy,
    (forall i, active M i -> Q (b i)) -> forall i, active M i ->
    Q (fold_left (fun b i => if constrained M i then b
       else upd b i (fold_left (fun acc j => combine_bounds K Sy acc (if owner M j =? owner M i then b j else b0 j)%nat)
              (neighbours M i) (b i))) ord b i)).
  { clear i Ha Ho. induction ord as [|r ord IH]; intros Ho b Hb i Ha; [apply Hb, Ha|].
    cbn [fold_left]. apply IH; [intros k Hk; apply Ho; right; exact Hk| |exact Ha].
    intros k Hk. destruct (constrained M r) eqn:Ec; [apply Hb, Hk|]. unfold upd.
    destruct (k =? r)%nat; [|apply Hb, Hk].
    assert (Hr : (r < n_rows M)%nat) by (apply Ho; left; reflexivity).
    assert (Har : active M r) by (apply active_constrained; auto).
    assert (N : forall l, (forall j, In j l -> active M j) -> forall x : BD K Sy, Q x ->
       Q (fold_left (fun acc j => combine_bounds K Sy acc (if owner M j =? owner M r then b j else b0 j)%nat) l x)).
    { induction l as [|j l IHl]; intros Hl x Hx; [exact Hx|]. cbn [fold_left]. apply IHl; [intros; apply Hl; right; assumption|].
      assert (active M j) by (apply Hl; left; reflexivity).
      apply Hcomb; [exact Hx|]. destruct (owner M j =? owner M r)%nat; auto. }
    apply N; [|apply Hb, Har]. intros j Hj. apply active_constrained.
    split; [apply (neighbours_bound M r j Hpat Hr Hj)|apply (neighbour_active M r j Hpat Hr Hj)]. }
  apply (G order Ho b0 Hb0 i Ha).
Qed.
End Extend.

Section Rows.
Variables (p : aparameters) (dim : nat) (M : mesh) (nm : R).
Local Notation s := (ap_system p).
Local Notation e := (a_eos (ap_system p)).
Local Notation cb := (interp_b (a_eos (ap_system p))).
Local Notation SY := (aeos_scheme p dim).
Variables (old : (nat -> state nat) * PC nat SY) (pc0 : nat -> prec) (d0 : nat -> nat -> R) (tau : R).
Local Notation U := (fst old).
Local Notation d := (dij_matrix SY M nm old d0).
Hypothesis Hpat : symmetric_pattern M.
Hypothesis Hmass : positive_masses M.
Hypothesis Hnum : valid_numbering M.
Hypothesis Hpairs : pairs_listed M.
Hypothesis Hdim : mesh_dimension M dim.
Hypothesis Hnm : 0 < nm.
Hypothesis Heps : 0 <= ap_eps p.
Hypothesis Hbig : 0 < ap_big p.
Hypothesis Hrel : 0 <= ap_relaxation p.
Hypothesis Hmod : a_moderate p dim M.
Hypothesis Hinf : interp_pinf e = 0.
Hypothesis Hcb : 0 <= cb.
Hypothesis Hgas : forall i, active M i -> aeos_gas e dim (U i).
Hypothesis Hpc : snd old = aeos_precomputed p dim M U pc0.

Lemma a_pc_ok : precomputed_ok p dim M old.
Proof using Hpc. rewrite (surjective_pairing old), Hpc. apply precomputed_p. Qed.

Lemma a_first_p j : active M j -> prec_p (aeos_first p dim M U pc0 j) = eos_p p dim (U j) /\
  prec_gamma (aeos_first p dim M U pc0 j) = eos_g p dim (U j).
Proof using Type.
  intros Ha. destruct (proj1 (active_constrained M j) Ha) as [_ Hc].
  unfold aeos_first. rewrite Hc. split; reflexivity.
Qed.

Lemma a_gamma_row i : active M i -> 1 < prec_gamma (snd old i) /\ 0 < prec_s (snd old i).
Proof using Hpat Hgas Hpc.
  intros Ha. destruct (proj1 (active_constrained M i) Ha) as [Hi Hc]. rewrite Hpc.
  unfold aeos_precomputed. rewrite Hc. unfold cycle1_row. cbn [prec_gamma prec_s].
  destruct (Hgas i Ha) as (G1 & G2 & _). split; [|apply surrogate_positive; [exact G1|lra]].
  rewrite (columns_split M i Hpat Hi). cbn [tl].
  assert (P : forall l x, (forall j, In j l -> active M j) -> 1 < x ->
    1 < fold_left (fun g j => Rmin g (surrogate_gamma e dim (U j) (prec_p (aeos_first p dim M U pc0 j)))) l x).
  { induction l as [|j l IH]; intros x Hl Hx; [exact Hx|]. cbn [fold_left]. apply IH; [intros; apply Hl; right; assumption|].
    assert (Aj : active M j) by (apply Hl; left; reflexivity).
    apply Rmin_glb_lt; [exact Hx|]. rewrite (proj1 (a_first_p j Aj)).
    destruct (gas_n p dim (U j) (Hgas j Aj)) as [Hg _]. exact Hg. }
  apply P.
  - intros j Hj. apply (col_active M i j Hpat Hi Hj).
  - rewrite (proj2 (a_first_p i Ha)). destruct (gas_n p dim (U i) (Hgas i Ha)) as [Hg _]. exact Hg.
Qed.

Definition a_contribution (i j : nat) : acontrib :=
  {| ac_s := prec_s (snd old j); ac_U := U j; ac_flux := a_flux dim (U j) (prec_p (snd old j));
     ac_c := vec_of (cdiv (c_ij M i j) (Rmax (d i j) (100 * nm))); ac_shift := affine_shift_i SY M old d tau i |}.

Definition a_row (i : nat) : alimiter :=
  al_stencil s dim (ap_big p) (prec_gamma (snd old i)) (U i) (a_flux dim (U i) (prec_p (snd old i)))
    (map (a_contribution i) (columns M i)).

Lemma a_bounds_stencil i :
  bounds_step4 SY M nm old d tau i =
  al_get_bounds s (ap_eps p) (ap_relaxation p) dim (a_row i) (mass M i * (1 / measure_of_omega M)).
Proof using Type.
  unfold bounds_step4. cbn [limiter_bounds limiter_reset shallow_water aeos_scheme].
  f_equal. unfold a_row, al_stencil. unfold Scheme.flux. cbn [flux_contribution aeos_scheme].
  generalize (al_reset (ap_big p) (prec_gamma (snd old i)) (U i) (a_flux dim (U i) (prec_p (snd old i)))).
  induction (columns M i) as [|j l IH]; intros x; [reflexivity|].
  cbn [map fold_left]. rewrite IH. reflexivity.
Qed.

Lemma a_shift i k : affine_shift_i SY M old d tau i k = 0.
Proof using Type. unfold affine_shift_i, source. cbn [shallow_water have_source_terms aeos_scheme]. unfold splus, smult, szero. ring. Qed.

Definition a_bar (i j : nat) : state nat := bar_of dim (U i) (a_flux dim (U i) (prec_p (snd old i))) (a_contribution i j).
Local Notation bar := a_bar.

Lemma a_bar_state i j : (i < n_rows M)%nat -> In j (neighbours M i) -> 100 * nm <= d i j ->
  bar i j = bar_state SY M dim (a_F p dim) old (d i j) i j.
Proof using Hnm.
  intros Hi Hj Hd. apply functional_extensionality. intros k.
  unfold a_bar, bar_of, bar_state. rewrite !dotp_dot. unfold a_F. cbn [a_contribution ac_U ac_flux ac_c ac_shift flux_contribution aeos_scheme].
  rewrite a_shift, Rmax_left by exact Hd.
  change (fun l => a_flux dim (U j) (prec_p (snd old j)) k l - a_flux dim (U i) (prec_p (snd old i)) k l)
    with (vsub (a_flux dim (U j) (prec_p (snd old j)) k) (a_flux dim (U i) (prec_p (snd old i)) k)).
  rewrite dot_sub_l. rewrite <- !dotp_dot, !dotp_cdiv.
  change (fun x : nat => a_flux dim (U j) (prec_p (snd old j)) k x) with (a_flux dim (U j) (prec_p (snd old j)) k).
  change (fun x : nat => a_flux dim (U i) (prec_p (snd old i)) k x) with (a_flux dim (U i) (prec_p (snd old i)) k).
  field. lra.
Qed.

Lemma a_bar_diag i : bar i i = U i.
Proof using Type.
  apply functional_extensionality. intros k. unfold a_bar, bar_of. cbn [a_contribution ac_U ac_flux ac_c ac_shift]. rewrite a_shift.
  unfold dot. rewrite (rsum_ext dim _ (fun _ => 0 * 0)) by (intros; ring). rewrite rsum_scal. field.
Qed.

Lemma a_bar_gas i j : (i < n_rows M)%nat -> In j (neighbours M i) -> 100 * nm <= d i j ->
  admissible_gas e dim (bar_state SY M dim (a_F p dim) old (d i j) i j) /\
  cb * bar_state SY M dim (a_F p dim) old (d i j) i j 0%nat < 1.
Proof using Hpat Hnum Hpairs Hdim Hnm Hinf Hcb Hgas Hpc.
  intros Hi Hj Hd. set (D := d i j) in *. assert (HD : 0 < D) by lra.
  assert (E : bar_state SY M dim (a_F p dim) old D i j = fun k => / D * pair_state SY M old d dim (a_F p dim) i j k).
  { apply functional_extensionality. intros k. unfold bar_state, pair_state. fold D. field. lra. }
  rewrite E. clear E. assert (HI : 0 < / D) by (apply Rinv_0_lt_compat; exact HD).
  destruct (pair_cone p dim M nm old d0 Hpat Hnum Hdim a_pc_ok Hgas i j Hpairs Hi Hj) as [Q|[Q _]]; [|fold D in Q; lra].
  destruct (mass_pair p dim Hinf Hcb M nm old d0 Hpat Hnum Hdim a_pc_ok Hgas i j Hpairs Hi Hj) as [Q'|[Q' _]]; [|fold D in Q'; lra].
  fold D in Q, Q'. split.
  - apply cone_gas. apply (cone_mul e dim (/ D) _ _ HI) in Q. rewrite Rinv_l in Q by lra. exact Q.
  - apply (mass_mul p (/ D) _ _ HI) in Q'. rewrite Rinv_l in Q' by lra. exact Q'.
Qed.

Lemma a_bar_good i j : active M i -> In j (columns M i) -> a_fast p dim M nm old d0 i ->
  admissible_gas e dim (bar i j) /\ cb * bar i j 0%nat < 1.
Proof using Hpat Hnum Hpairs Hdim Hnm Hinf Hcb Hgas Hpc.
  intros Ha Hj Hf. destruct (proj1 (active_constrained M i) Ha) as [Hi Hc].
  rewrite (columns_split M i Hpat Hi) in Hj. destruct Hj as [<-|Hj].
  - rewrite a_bar_diag. destruct (Hgas i Ha) as (G1 & G2 & _). auto.
  - rewrite a_bar_state by auto. apply a_bar_gas; auto.
Qed.

Lemma a_col_active i j : active M i -> In j (columns M i) -> active M j.
Proof using Hpat.
  intros Ha Hj. destruct (proj1 (active_constrained M i) Ha) as [Hi Hc].
  rewrite (columns_split M i Hpat Hi) in Hj. destruct Hj as [<-|Hj]; [exact Ha|]. apply (col_active M i j Hpat Hi Hj).
Qed.

Lemma a_s_of i j : active M i -> In j (columns M i) -> 0 < s_of s dim (prec_gamma (snd old i)) (a_contribution i j).
Proof using Hpat Hgas Hpc.
  intros Ha Hj. pose proof (a_col_active i j Ha Hj) as Aj. unfold s_of. cbn [a_contribution ac_s ac_U].
  destruct (compute_strict_bounds s); [|apply a_gamma_row; exact Aj].
  destruct (Hgas j Aj) as (G1 & G2 & _). apply surrogate_positive; [exact G1|lra].
Qed.

Lemma a_s_bar i j : active M i -> In j (columns M i) -> a_fast p dim M nm old d0 i ->
  0 < surrogate_specific_entropy e dim (bar i j) (prec_gamma (snd old i)).
Proof using Hpat Hnum Hpairs Hdim Hnm Hinf Hcb Hgas Hpc.
  intros Ha Hj Hf. destruct (a_bar_good i j Ha Hj Hf) as [A B]. apply surrogate_positive; [exact A|lra].
Qed.

Lemma a_bounds_contain i j : active M i -> In j (columns M i) -> a_fast p dim M nm old d0 i ->
  let b := bounds_step4 SY M nm old d tau i in
  arho_min b <= bar i j 0%nat <= arho_max b /\
  as_min b <= surrogate_specific_entropy e dim (bar i j) (agamma_min b) /\ agamma_min b = prec_gamma (snd old i).
Proof using Hpat Hnum Hpairs Hdim Hnm Heps Hbig Hrel Hinf Hcb Hgas Hpc.
  intros Ha Hj Hf b. destruct (proj1 (active_constrained M i) Ha) as [Hi Hc].
  assert (Eg : agamma_min b = prec_gamma (snd old i)).
  { unfold b. rewrite a_bounds_stencil. unfold al_get_bounds. cbv zeta. cbn [agamma_min].
    assert (F := al_fold_bounds s dim (map (a_contribution i) (columns M i)) (al_reset (ap_big p) (prec_gamma (snd old i)) (U i) (a_flux dim (U i) (prec_p (snd old i))))).
    cbv zeta in F. destruct F as ((_ & _ & _ & _ & A5) & _). exact A5. }
  rewrite Eg. unfold b. rewrite a_bounds_stencil. unfold a_row.
  assert (Q := a_stencil_contains0 s dim (ap_big p) (ap_eps p) (ap_relaxation p) (mass M i * (1 / measure_of_omega M))
     (prec_gamma (snd old i)) (U i) (a_flux dim (U i) (prec_p (snd old i))) (map (a_contribution i) (columns M i)) Heps Hrel
     ltac:(lra) (proj1 (a_gamma_row i Ha)) Hcb). cbv zeta in Q.
  destruct (Q ltac:(idtac; intros c Hcin; apply in_map_iff in Hcin; destruct Hcin as (k & <- & Hk);
       destruct (a_bar_good i k Ha Hk Hf) as [[G1 G2] G3]; pose proof (a_s_of i k Ha Hk); pose proof (a_s_bar i k Ha Hk Hf);
       unfold s_bar_of, a_density; fold (a_bar i k); repeat split; lra)
     ltac:(exists (a_contribution i i); split; [apply in_map; rewrite (columns_split M i Hpat Hi); left; reflexivity|reflexivity])
     (a_contribution i j) ltac:(apply in_map; exact Hj)) as (Q1 & _ & Q2).
  auto.
Qed.

(** What the bounds of a row satisfy in any case *)
Definition good_bounds (b : abounds) : Prop := 0 < arho_min b /\ 1 < agamma_min b /\ 0 < as_min b.

Lemma a_row_unrelaxed i : active M i -> a_fast p dim M nm old d0 i ->
  0 < arho_min (al_bounds (a_row i)) /\ 0 < as_min (al_bounds (a_row i)) /\ 0 <= arho_max (al_bounds (a_row i)) /\
  cb * arho_max (al_bounds (a_row i)) < 1 /\ agamma_min (al_bounds (a_row i)) = prec_gamma (snd old i).
Proof using Hpat Hnum Hpairs Hdim Hnm Hbig Hinf Hcb Hgas Hpc.
  intros Ha Hf.
  assert (F := al_fold_bounds s dim (map (a_contribution i) (columns M i)) (al_reset (ap_big p) (prec_gamma (snd old i)) (U i) (a_flux dim (U i) (prec_p (snd old i))))).
  cbv zeta in F. fold (al_stencil s dim (ap_big p) (prec_gamma (snd old i)) (U i) (a_flux dim (U i) (prec_p (snd old i))) (map (a_contribution i) (columns M i))) in F.
  fold (a_row i) in F. destruct F as ((_ & A2 & _ & _ & A5) & _ & C & C' & D).
  repeat split.
  - apply (C (fun x => 0 < x)); [exact Hbig|]. intros c Hcin. apply in_map_iff in Hcin. destruct Hcin as (k & <- & Hk).
    apply (a_bar_good i k Ha Hk Hf).
  - apply (D (fun x => 0 < x)); [exact Hbig|]. intros c Hcin. apply in_map_iff in Hcin. destruct Hcin as (k & <- & Hk).
    split; [apply a_s_of; assumption|]. apply (a_s_bar i k Ha Hk Hf).
  - simpl in A2. exact A2.
  - apply (C' (fun x => cb * x < 1)); [simpl; lra|]. intros c Hcin. apply in_map_iff in Hcin. destruct Hcin as (k & <- & Hk).
    apply (a_bar_good i k Ha Hk Hf).
  - exact A5.
Qed.

Lemma a_bounds_good i : active M i -> a_fast p dim M nm old d0 i -> good_bounds (bounds_step4 SY M nm old d tau i).
Proof using Hpat Hnum Hpairs Hdim Hnm Hbig Hmod Hinf Hcb Hgas Hpc.
  intros Ha Hf. destruct (proj1 (active_constrained M i) Ha) as [Hi Hc]. rewrite a_bounds_stencil.
  destruct (a_row_unrelaxed i Ha Hf) as (P1 & P2 & _ & _ & P5). pose proof (Hmod i Hi) as Hr.
  unfold good_bounds, al_get_bounds. cbv zeta. cbn [arho_min as_min agamma_min]. rewrite P5.
  split; [|split; [apply a_gamma_row; exact Ha|]]; (eapply Rlt_le_trans; [|apply Rmax_l]); apply Rmult_lt_0_compat; lra.
Qed.

(** Without relaxation the bounds stay below the maximal density. *)
Lemma a_bounds_unrelaxed i : ap_relaxation p = 0 -> active M i -> a_fast p dim M nm old d0 i ->
  cb * arho_max (bounds_step4 SY M nm old d tau i) < 1.
Proof using Hpat Hnum Hpairs Hdim Hnm Hbig Hinf Hcb Hgas Hpc.
  intros Z Ha Hf. rewrite a_bounds_stencil. destruct (a_row_unrelaxed i Ha Hf) as (_ & _ & P3 & P4 & _).
  unfold al_get_bounds. cbv zeta. cbn [arho_max]. rewrite Z.
  eapply Rle_lt_trans; [|exact P4]. apply Rmult_le_compat_l; [exact Hcb|].
  eapply Rle_trans; [apply Rmin_r|]. eapply Rle_trans; [apply Rmin_l|]. lra.
Qed.

Variable cfl : R.
Hypothesis Hcfl : 0 < cfl <= 1.
Hypothesis Htau : 0 <= tau.
Hypothesis Hstep : forall t, In t (row_tau SY M nm cfl old d0) -> tau <= t.
Hypothesis Hsum : forall i, active M i -> zero_row_sum M i.
Hypothesis Hfast : forall i, active M i -> a_fast p dim M nm old d0 i.

Lemma a_low_convex X order a0 l0 ln0 new0 stages i : active M i -> convex_set X ->
  (forall j, In j (columns M i) -> X (bar i j)) ->
  X (fst (hyperbolic_update SY M nm order 0 a0 d0 l0 ln0 new0 old stages tau) i).
Proof using Hpat Hmass Hnm Hcfl Htau Hstep Hsum Hfast.
  intros Ha HX Hb. destruct (proj1 (active_constrained M i) Ha) as [Hi Hc].
  apply (C18_convex_combination_proof nat SY M nm cfl dim (a_F p dim) X); try assumption; auto.
  - apply aeos_plain.
  - apply aeos_central.
  - rewrite <- (a_bar_diag i). apply Hb. rewrite (columns_split M i Hpat Hi). left. reflexivity.
  - intros j Hj Hne. left. pose proof (columns_neighbours M i j Hpat Hi Hj Hne) as Hn.
    pose proof (Hfast i Ha j Hn). split; [lra|]. rewrite <- a_bar_state by assumption. apply Hb. exact Hj.
Qed.

(** The low-order update and the bounds of its row, as far as they do not need
    an upper bound below the maximal density. *)
Lemma a_low_bounds order a0 l0 ln0 new0 stages i : active M i ->
  let b := bounds_step4 SY M nm old d tau i in
  let u := fst (hyperbolic_update SY M nm order 0 a0 d0 l0 ln0 new0 old stages tau) i in
  arho_min b <= u 0%nat <= arho_max b /\ cb * u 0%nat < 1 /\
  as_min b <= excess_energy e dim u * powr (1 / u 0%nat - cb) (agamma_min b) / (1 - cb * u 0%nat).
Proof using Hpat Hmass Hnum Hpairs Hdim Hnm Heps Hbig Hrel Hmod Hinf Hcb Hgas Hpc Hcfl Htau Hstep Hsum Hfast.
  intros Ha b u. pose proof (Hfast i Ha) as Hf. pose proof (a_bounds_good i Ha Hf) as (G1 & G2 & G3). fold b in G1, G2, G3.
  set (X := fun v : state nat => arho_min b <= v 0%nat <= arho_max b /\ cb * v 0%nat < 1 /\
    as_min b * ((1 - cb * v 0%nat) * powr (v 0%nat / (1 - cb * v 0%nat)) (agamma_min b)) <= excess_energy e dim v).
  assert (Q : X u).
  { unfold u. apply a_low_convex; [exact Ha| |].
    - intros v w a (A1 & A2 & A3) (B1 & B2 & B3) Hr. unfold X. cbv beta.
      assert (Ha1 : 0 <= 1 - a) by lra.
      pose proof (Rmult_le_compat_l a _ _ (proj1 Hr) (proj1 A1)). pose proof (Rmult_le_compat_l a _ _ (proj1 Hr) (proj2 A1)).
      pose proof (Rmult_le_compat_l (1 - a) _ _ Ha1 (proj1 B1)). pose proof (Rmult_le_compat_l (1 - a) _ _ Ha1 (proj2 B1)).
      pose proof (mix_pos a (1 - cb * v 0%nat) (1 - cb * w 0%nat) Hr ltac:(lra) ltac:(lra)).
      split; [lra|]. split; [lra|].
      eapply Rle_trans; [|apply excess_concave; lra].
      pose proof (threshold_convex (agamma_min b) cb (v 0%nat) (w 0%nat) a ltac:(lra) ltac:(lra) ltac:(lra) ltac:(lra) ltac:(lra) Hr) as Q. cbv zeta in Q.
      apply Rmult_le_compat_l with (r := as_min b) in Q; [|lra].
      apply Rmult_le_compat_l with (r := a) in A3; [|lra]. apply Rmult_le_compat_l with (r := 1 - a) in B3; [|lra]. lra.
    - intros j Hj. destruct (a_bounds_contain i j Ha Hj Hf) as (A1 & A2 & _). fold b in A1, A2.
      destruct (a_bar_good i j Ha Hj Hf) as [[B1 _] B2].
      split; [exact A1|]. split; [exact B2|].
      rewrite surrogate_excess in A2 by exact B1. apply entropy_threshold; [exact B1|lra|exact A2]. }
  clearbody u. destruct Q as (Q1 & Q2 & Q3). split; [exact Q1|]. split; [exact Q2|].
  apply entropy_threshold; [lra|lra|exact Q3].
Qed.

Variable order : list nat.
Hypothesis Horder : forall i, In i order -> (i < n_rows M)%nat.

Lemma a_limiter_bounds_good i : active M i -> good_bounds (limiter_bounds_i SY M nm old d tau order i).
Proof using Hpat Hnum Hpairs Hdim Hnm Hbig Hmod Hinf Hcb Hgas Hpc Hfast Horder.
  intros Ha. unfold limiter_bounds_i. destruct (discontinuous M); [|apply a_bounds_good; auto].
  apply (extend_keeps SY M good_bounds Hpat); auto.
  - intros a b (A1 & A2 & A3) (B1 & B2 & B3). unfold good_bounds. cbn [combine_bounds aeos_scheme a_combine_bounds arho_min agamma_min as_min].
    repeat split; apply Rmin_glb_lt; assumption.
  - intros j Hj. apply a_bounds_good; auto.
Qed.

Lemma a_limiter_bounds_unrelaxed i : ap_relaxation p = 0 -> active M i ->
  cb * arho_max (limiter_bounds_i SY M nm old d tau order i) < 1.
Proof using Hpat Hnum Hpairs Hdim Hnm Hbig Hinf Hcb Hgas Hpc Hfast Horder.
  intros Z Ha. unfold limiter_bounds_i. destruct (discontinuous M); [|apply a_bounds_unrelaxed; auto].
  apply (extend_keeps SY M (fun b : abounds => cb * arho_max b < 1) Hpat); auto.
  - intros a b A B. cbn [combine_bounds aeos_scheme a_combine_bounds arho_max]. unfold Rmax. destruct (Rle_dec _ _); assumption.
  - intros j Hj. apply a_bounds_unrelaxed; auto.
Qed.

(** States with specific volume at most 1 + b remain above a lower bound with a smaller gamma. *)
Lemma power_monotone x g g' : 0 < x <= 1 -> g' <= g -> powr x g <= powr x g'.
Proof using Type.
  intros Hx Hg. unfold powr. destruct (Rlt_dec 0 x) as [_|]; [|lra]. unfold Rpower.
  assert (L : ln x <= 0).
  { destruct (Req_dec x 1) as [->|]; [rewrite ln_1; lra|]. apply Rlt_le. rewrite <- ln_1. apply ln_increasing; lra. }
  assert (g * ln x <= g' * ln x) by nra.
  destruct (Rle_lt_or_eq_dec _ _ H) as [A|A]; [left; apply exp_increasing; exact A|rewrite A; lra].
Qed.

Lemma a_low_inside a0 l0 ln0 new0 stages i : active M i ->
  let b := limiter_bounds_i SY M nm old d tau order i in
  cb * arho_max b < 1 -> (discontinuous M = false \/ 1 <= (1 + cb) * arho_min b) ->
  a_entropy_inside e dim b (fst (hyperbolic_update SY M nm order 0 a0 d0 l0 ln0 new0 old stages tau) i).
Proof using Hpat Hmass Hnum Hpairs Hdim Hnm Heps Hbig Hrel Hmod Hinf Hcb Hgas Hpc Hcfl Htau Hstep Hsum Hfast Horder.
  intros Ha b Hb Hd. pose proof (a_limiter_bounds_good i Ha) as (G1 & G2 & G3). fold b in G1, G2, G3.
  pose proof (a_low_bounds order a0 l0 ln0 new0 stages i Ha) as Q. cbv zeta in Q.
  set (u := fst (hyperbolic_update SY M nm order 0 a0 d0 l0 ln0 new0 old stages tau) i) in *. clearbody u.
  assert (W : arho_min b <= u 0%nat <= arho_max b).
  { unfold b, limiter_bounds_i. destruct (discontinuous M); [|apply Q].
    apply (proj1 (C20_extended_bounds_proof SY M (fun b (v : state nat) => arho_min b <= v 0%nat <= arho_max b)
        ltac:(idtac; intros a c v X; cbn [combine_bounds aeos_scheme]; destruct (a_combine_contains a c) as [Y1 Y2]; destruct X; lra)
        order _ i u)). apply Q. }
  split; [split; [exact G1|]; split; [exact W|exact Hb]|]. split; [exact G2|]. split; [exact G3|].
  unfold b, limiter_bounds_i in *. destruct (discontinuous M); [|apply Q].
  destruct Hd as [Hd|Hd]; [discriminate|].
  assert (Hu : 0 < u 0%nat) by lra.
  assert (Hx : 0 < 1 / u 0%nat - cb <= 1).
  { replace (1 / u 0%nat - cb) with ((1 - cb * u 0%nat) / u 0%nat) by (field; lra). split; [apply Rdiv_lt_0_compat; lra|].
    apply Rmult_le_reg_r with (u 0%nat); [exact Hu|]. replace ((1 - cb * u 0%nat) / u 0%nat * u 0%nat) with (1 - cb * u 0%nat) by (field; lra).
    assert ((1 + cb) * arho_min (extend_bounds SY M order (bounds_step4 SY M nm old d tau) i) <= (1 + cb) * u 0%nat)
      by (apply Rmult_le_compat_l; lra). lra. }
  assert (Hex : 0 <= excess_energy e dim u).
  { destruct (a_bounds_good i Ha (Hfast i Ha)) as (H1 & _ & H3). destruct Q as (_ & Q2 & Q3).
    apply entropy_threshold in Q3; [|exact Hu|lra]. eapply Rle_trans; [|exact Q3].
    apply Rmult_le_pos; [lra|]. apply Rmult_le_pos; [lra|]. left. apply powr_gt0. apply Rdiv_lt_0_compat; lra. }
  apply (proj1 (C20_extended_bounds_proof SY M (fun (b : abounds) (v : state nat) =>
        as_min b <= excess_energy e dim u * powr (1 / u 0%nat - cb) (agamma_min b) / (1 - cb * u 0%nat))
        ltac:(idtac; intros a c v X; cbn [combine_bounds aeos_scheme a_combine_bounds as_min agamma_min];
          assert (HH : 0 < / (1 - cb * u 0%nat)) by (apply Rinv_0_lt_compat; lra);
          assert (PM : forall g, Rmin (agamma_min a) (agamma_min c) <= g ->
             excess_energy e dim u * powr (1 / u 0%nat - cb) g / (1 - cb * u 0%nat) <=
             excess_energy e dim u * powr (1 / u 0%nat - cb) (Rmin (agamma_min a) (agamma_min c)) / (1 - cb * u 0%nat))
            by (intros g Hg; apply Rmult_le_compat_r; [lra|]; apply Rmult_le_compat_l; [exact Hex|]; apply power_monotone; assumption);
          destruct X as [X|X];
          [apply (Rle_trans _ _ _ (Rmin_l _ _)), (Rle_trans _ _ _ X), PM, Rmin_l
          |apply (Rle_trans _ _ _ (Rmin_r _ _)), (Rle_trans _ _ _ X), PM, Rmin_r])
        order _ i u)). apply Q.
Qed.

Hypothesis Heps0 : ap_eps p = 0.
Hypothesis Hupper : forall i, active M i -> cb * arho_max (limiter_bounds_i SY M nm old d tau order i) < 1.
Hypothesis Hvolume : forall i, active M i -> discontinuous M = false \/
  1 <= (1 + cb) * arho_min (limiter_bounds_i SY M nm old d tau order i).

Lemma a_final_inside n a0 l0 ln0 new0 stages i : (n <= 2)%nat -> active M i ->
  a_entropy_inside e dim (limiter_bounds_i SY M nm old d tau order i)
    (fst (hyperbolic_update SY M nm order n a0 d0 l0 ln0 new0 old stages tau) i).
Proof using All.
  intros Hn. apply (C20_inside_bounds_proof nat SY M nm (a_entropy_inside e dim)); try assumption.
  - intros b. apply a_entropy_convex. exact Hcb.
  - intros b u P H. apply (aeos_entropy_call p dim b u P Heps0 Hcb H).
  - intros j Hj. apply a_low_inside; auto.
Qed.

Lemma a_no_violation n a0 new0 stages :
  ~ violation SY M nm order n (compute_alpha SY M old a0) d new0 old stages tau.
Proof using All.
  intros (_ & i & j & Ha & Hj & Hne & E).
  pose proof (a_low_inside a0 (fun _ _ => 0) (fun _ _ => 0) new0 stages i Ha (Hupper i Ha) (Hvolume i Ha)) as Q.
  pose proof (aeos_entropy_call p dim _ _ (pij SY M old stages (compute_alpha SY M old a0) d tau i j) Heps0 Hcb Q) as [_ Q2].
  cbn [limiter_limit aeos_scheme] in E.
  change (fst (hyperbolic_update SY M nm order 0 a0 d0 (fun _ _ => 0) (fun _ _ => 0) new0 old stages tau) i)
    with (low_order_update SY M old d tau new0 i) in Q2. rewrite E in Q2. discriminate.
Qed.
End Rows.
