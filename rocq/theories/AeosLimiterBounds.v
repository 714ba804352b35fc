(** * Lemmas about the bounds of EulerAEOS::Limiter *)
From Coq Require Import Reals List Bool Arith Lia Lra Psatz Permutation.
From Verif Require Import RVec Newton NewtonProofs EulerSystem AeosSystem EulerLimiter EulerLimiterBounds
  AeosLimiter AeosLimiterProofs.
Import ListNotations.
Local Open Scope R_scope.

(** One call of accumulate: precomputed s_j, U_j, flux_j, scaled_c_ij, affine_shift. *)
Record acontrib := { ac_s : R; ac_U : vec; ac_flux : nat -> vec; ac_c : vec; ac_shift : vec }.

Definition al_step (s : aeos) (dim : nat) (l : alimiter) (c : acontrib) : alimiter :=
  al_accumulate s dim l (ac_s c) (ac_U c) (ac_flux c) (ac_c c) (ac_shift c).

Definition al_stencil (s : aeos) (dim : nat) (big gamma_i : R) (U_i : vec) (flux_i : nat -> vec)
    (cs : list acontrib) : alimiter :=
  fold_left (al_step s dim) cs (al_reset big gamma_i U_i flux_i).

Lemma Rmin_swap4 a x x' y y' : Rmin (Rmin (Rmin (Rmin a x) x') y) y' = Rmin (Rmin (Rmin (Rmin a y) y') x) x'.
Proof.
  apply Rle_antisym; repeat apply Rmin_glb;
    repeat first [apply Rle_refl | eapply Rle_trans; [apply Rmin_r|]; apply Rle_refl
                 | eapply Rle_trans; [apply Rmin_l|] ].
Qed.

Lemma al_step_comm s dim l x y :
  al_step s dim (al_step s dim l x) y = al_step s dim (al_step s dim l y) x.
Proof.
  unfold al_step, al_accumulate.
  cbn [al_U_i al_flux_i al_bounds arho_min arho_max as_min agamma_min al_num al_den al_s_interp_max].
  f_equal; [f_equal| |]; auto using Rmin_swap, Rmax_swap, Rplus_swap, Rmin_swap4.
Qed.

Lemma al_stencil_perm s dim big g U_i f cs cs' : Permutation cs cs' ->
  al_stencil s dim big g U_i f cs = al_stencil s dim big g U_i f cs'.
Proof.
  intros P. unfold al_stencil. apply fold_left_perm; [|exact P]. intros. apply al_step_comm.
Qed.

(** The bar state of one contribution and the entropies entering the bounds. *)
Definition bar_of (dim : nat) (U_i : vec) (f : nat -> vec) (c : acontrib) : vec :=
  fun k => 1 / 2 * (U_i k + ac_U c k)
           - 1 / 2 * dot dim (fun l => ac_flux c k l - f k l) (ac_c c) + ac_shift c k.

Lemma bar_of_eq dim U_i f c :
  a_bar_state dim U_i f (ac_U c) (ac_flux c) (ac_c c) (ac_shift c) = bar_of dim U_i f c.
Proof. reflexivity. Qed.

Definition s_of (s : aeos) (dim : nat) (gm : R) (c : acontrib) : R :=
  if compute_strict_bounds s then surrogate_specific_entropy (a_eos s) dim (ac_U c) gm else ac_s c.

Definition s_bar_of (s : aeos) (dim : nat) (gm : R) (U_i : vec) (f : nat -> vec) (c : acontrib) : R :=
  surrogate_specific_entropy (a_eos s) dim (bar_of dim U_i f c) gm.

Definition s_interp_of (s : aeos) (dim : nat) (gm : R) (U_i : vec) (f : nat -> vec) (c : acontrib) : R :=
  if compute_strict_bounds s
  then surrogate_specific_entropy (a_eos s) dim (vscal (1 / 2) (vadd U_i (ac_U c))) gm
  else s_bar_of s dim gm U_i f c.

Lemma al_fold_bounds s dim cs : forall l,
  let l' := fold_left (al_step s dim) cs l in
  let b := al_bounds l in let b' := al_bounds l' in
  let U := al_U_i l in let f := al_flux_i l in let gm := agamma_min b in
  (arho_min b' <= arho_min b /\ arho_max b <= arho_max b' /\ as_min b' <= as_min b /\
   al_s_interp_max l <= al_s_interp_max l' /\ agamma_min b' = gm) /\
  (forall c, In c cs -> arho_min b' <= a_density (bar_of dim U f c) <= arho_max b' /\
      as_min b' <= s_of s dim gm c /\ as_min b' <= s_bar_of s dim gm U f c /\
      s_interp_of s dim gm U f c <= al_s_interp_max l') /\
  (forall P : R -> Prop, P (arho_min b) -> (forall c, In c cs -> P (a_density (bar_of dim U f c))) ->
     P (arho_min b')) /\
  (forall P : R -> Prop, P (arho_max b) -> (forall c, In c cs -> P (a_density (bar_of dim U f c))) ->
     P (arho_max b')) /\
  (forall P : R -> Prop, P (as_min b) ->
     (forall c, In c cs -> P (s_of s dim gm c) /\ P (s_bar_of s dim gm U f c)) -> P (as_min b')).
Proof.
  induction cs as [|c cs IH]; intros l; cbv zeta.
  - simpl. split; [repeat split; lra|]. split; [intros c []|]. split; [|split]; intros P H _; exact H.
  - simpl fold_left. specialize (IH (al_step s dim l c)). cbv zeta in IH.
    set (l' := fold_left (al_step s dim) cs (al_step s dim l c)) in *.
    change (al_U_i (al_step s dim l c)) with (al_U_i l) in IH.
    change (al_flux_i (al_step s dim l c)) with (al_flux_i l) in IH.
    change (agamma_min (al_bounds (al_step s dim l c))) with (agamma_min (al_bounds l)) in IH.
    set (U := al_U_i l) in *. set (f := al_flux_i l) in *. set (gm := agamma_min (al_bounds l)) in *.
    destruct IH as ((A1 & A2 & A3 & A4 & A5) & B & C & C' & D).
    change (arho_min (al_bounds (al_step s dim l c))) with
      (Rmin (arho_min (al_bounds l)) (a_density (bar_of dim U f c))) in A1, C.
    change (arho_max (al_bounds (al_step s dim l c))) with
      (Rmax (arho_max (al_bounds l)) (a_density (bar_of dim U f c))) in A2, C'.
    change (as_min (al_bounds (al_step s dim l c))) with
      (Rmin (Rmin (as_min (al_bounds l)) (s_of s dim gm c)) (s_bar_of s dim gm U f c)) in A3, D.
    change (al_s_interp_max (al_step s dim l c)) with
      (Rmax (al_s_interp_max l) (s_interp_of s dim gm U f c)) in A4.
    set (rb := a_density (bar_of dim U f c)) in *.
    set (sj := s_of s dim gm c) in *. set (sb := s_bar_of s dim gm U f c) in *.
    set (si := s_interp_of s dim gm U f c) in *.
    assert (M1 := Rmin_l (arho_min (al_bounds l)) rb). assert (M2 := Rmin_r (arho_min (al_bounds l)) rb).
    assert (M3 := Rmax_l (arho_max (al_bounds l)) rb). assert (M4 := Rmax_r (arho_max (al_bounds l)) rb).
    assert (M5 := Rmin_l (Rmin (as_min (al_bounds l)) sj) sb). assert (M6 := Rmin_r (Rmin (as_min (al_bounds l)) sj) sb).
    assert (M5' := Rmin_l (as_min (al_bounds l)) sj). assert (M6' := Rmin_r (as_min (al_bounds l)) sj).
    assert (M7 := Rmax_l (al_s_interp_max l) si). assert (M8 := Rmax_r (al_s_interp_max l) si).
    split; [|split; [|split; [|split]]].
    + repeat split; try exact A5; lra.
    + intros c' [<-|Hin]; [|apply B; exact Hin]. fold rb sj sb si. repeat split; lra.
    + intros P H0 H. apply C.
      * unfold Rmin. destruct (Rle_dec _ _); [exact H0|apply H; left; reflexivity].
      * intros c' Hin. apply H. right. exact Hin.
    + intros P H0 H. apply C'.
      * unfold Rmax. destruct (Rle_dec _ _); [apply H; left; reflexivity|exact H0].
      * intros c' Hin. apply H. right. exact Hin.
    + intros P H0 H. apply D.
      * destruct (H c (or_introl eq_refl)) as [H1 H2]. fold sj in H1. fold sb in H2.
        destruct (Rle_dec (Rmin (as_min (al_bounds l)) sj) sb) as [X|X].
        -- rewrite Rmin_left by exact X. unfold Rmin. destruct (Rle_dec _ _); assumption.
        -- rewrite Rmin_right by lra. exact H2.
      * intros c' Hin. apply H. right. exact Hin.
Qed.

(** Relaxing bounds enlarges them, as long as they are below the maximal density *)
Lemma a_relaxed_contains s eps factor dim l hd :
  0 < eps -> 0 <= factor -> 1 < agamma_min (al_bounds l) -> 0 <= interp_b (a_eos s) ->
  interp_b (a_eos s) * arho_max (al_bounds l) <= 1 ->
  0 <= arho_min (al_bounds l) -> 0 <= arho_max (al_bounds l) -> 0 <= as_min (al_bounds l) ->
  as_min (al_bounds l) <= al_s_interp_max l ->
  let b := al_bounds l in let b' := al_get_bounds s eps factor dim l hd in
  arho_min b' <= arho_min b /\ arho_max b <= arho_max b' /\ as_min b' <= as_min b.
Proof.
  intros He Hf Hg Hb Hbr H1 H2 H3 H4. cbv zeta. unfold al_get_bounds. cbv zeta.
  cbn [arho_min arho_max as_min].
  assert (R0 : 0 <= relaxation_radius dim hd * factor)
    by (apply Rmult_le_pos; [apply relaxation_radius_nonneg|exact Hf]).
  set (r := relaxation_radius dim hd * factor) in *.
  assert (Q0 : 0 <= 2 * factor * (Rabs (al_num l) / (Rabs (al_den l) + eps))).
  { assert (A := Rabs_pos (al_num l)). assert (B := Rabs_pos (al_den l)).
    apply Rmult_le_pos; [lra|]. apply Rmult_le_pos; [lra|].
    left. apply Rinv_0_lt_compat. lra. }
  set (q := 2 * factor * _) in *.
  assert (0 <= factor * (al_s_interp_max l - as_min (al_bounds l))) by (apply Rmult_le_pos; lra).
  set (er := factor * _) in *.
  assert (RM : arho_max (al_bounds l) <= Rmin ((1 + r) * arho_max (al_bounds l)) (arho_max (al_bounds l) + q)).
  { apply Rmin_glb; nra. }
  set (rm := Rmin ((1 + r) * arho_max (al_bounds l)) (arho_max (al_bounds l) + q)) in *.
  set (r0 := arho_max (al_bounds l)) in *. set (g := agamma_min (al_bounds l)) in *. set (b := interp_b (a_eos s)) in *.
  split; [|split].
  - apply Rmax_lub; nra.
  - apply Rmin_glb; [|exact RM].
    assert (0 <= b * rm) by (apply Rmult_le_pos; lra).
    apply Rmult_le_reg_r with (g - 1 + 2 * b * rm); [lra|].
    replace ((g + 1) * rm / (g - 1 + 2 * b * rm) * (g - 1 + 2 * b * rm)) with ((g + 1) * rm) by (field; lra).
    nra.
  - apply Rmax_lub; nra.
Qed.

Lemma a_vhalf_self e dim U gm : surrogate_specific_entropy e dim (vscal (1 / 2) (vadd U U)) gm
  = surrogate_specific_entropy e dim U gm.
Proof.
  unfold surrogate_specific_entropy, a_internal_energy.
  assert (E : forall k, vscal (1 / 2) (vadd U U) k = U k) by (intros; unfold vscal, vadd; field).
  unfold a_density, a_total_energy. rewrite !E.
  unfold norm2. rewrite (dot_ext dim (a_momentum (vscal (1 / 2) (vadd U U))) (a_momentum U)
             (a_momentum (vscal (1 / 2) (vadd U U))) (a_momentum U)).
  - reflexivity.
  - intros k _. unfold a_momentum. apply E.
  - intros k _. unfold a_momentum. apply E.
Qed.

Lemma a_stencil_contains s dim big eps factor hd gamma_i U_i f cs :
  0 < eps -> 0 <= factor -> 0 <= big -> 1 < gamma_i -> 0 <= interp_b (a_eos s) ->
  (forall c, In c cs -> 0 <= a_density (bar_of dim U_i f c) /\
     interp_b (a_eos s) * a_density (bar_of dim U_i f c) <= 1 /\
     0 <= s_of s dim gamma_i c /\ 0 <= s_bar_of s dim gamma_i U_i f c) ->
  (exists c, In c cs /\ ac_U c = U_i) ->
  let b := al_get_bounds s eps factor dim (al_stencil s dim big gamma_i U_i f cs) hd in
  forall c, In c cs ->
    arho_min b <= a_density (bar_of dim U_i f c) <= arho_max b /\
    as_min b <= s_of s dim gamma_i c /\ as_min b <= s_bar_of s dim gamma_i U_i f c.
Proof.
  intros He Hf Hb Hg Hi Hpos (c0 & Hc0 & Hs0). cbv zeta. intros c Hc.
  assert (F := al_fold_bounds s dim cs (al_reset big gamma_i U_i f)). cbv zeta in F.
  change (fold_left (al_step s dim) cs (al_reset big gamma_i U_i f)) with (al_stencil s dim big gamma_i U_i f cs) in F.
  set (l := al_stencil s dim big gamma_i U_i f cs) in *.
  change (al_U_i (al_reset big gamma_i U_i f)) with U_i in F.
  change (al_flux_i (al_reset big gamma_i U_i f)) with f in F.
  change (agamma_min (al_bounds (al_reset big gamma_i U_i f))) with gamma_i in F.
  destruct F as ((A1 & A2 & A3 & A4 & A5) & B & C & C' & D).
  assert (X := a_relaxed_contains s eps factor dim l hd He Hf).
  assert (P1 : 0 <= arho_min (al_bounds l)).
  { apply C; [exact Hb|]. intros c' Hc'. apply (Hpos c' Hc'). }
  assert (P2 : 0 <= as_min (al_bounds l)).
  { apply D; [exact Hb|]. intros c' Hc'. split; apply (Hpos c' Hc'). }
  assert (P3 : 0 <= arho_max (al_bounds l)) by (simpl in A2; exact A2).
  assert (P4 : interp_b (a_eos s) * arho_max (al_bounds l) <= 1).
  { apply (C' (fun r => interp_b (a_eos s) * r <= 1)); [simpl; lra|].
    intros c' Hc'. apply (Hpos c' Hc'). }
  destruct (B c0 Hc0) as (B1 & B2 & B3 & B4).
  assert (P5 : as_min (al_bounds l) <= al_s_interp_max l).
  { unfold s_interp_of in B4. unfold s_of in B2. destruct (compute_strict_bounds s).
    - rewrite Hs0, a_vhalf_self in B4. rewrite Hs0 in B2. lra.
    - lra. }
  rewrite A5 in X.
  specialize (X Hg Hi P4 P1 P3 P2 P5). cbv zeta in X.
  destruct (B c Hc) as (G1 & G2 & G3 & _). destruct X as (X1 & X2 & X3).
  split; [split; lra|split; lra].
Qed.

(** The compressibility cap: inactive below the maximal density 1/b and without
    effect beyond it. *)
Lemma a_cap s eps factor dim l hd :
  1 < agamma_min (al_bounds l) -> 0 < interp_b (a_eos s) ->
  let b := interp_b (a_eos s) in
  let r := relaxation_radius dim hd * factor in
  let relaxed := Rmin ((1 + r) * arho_max (al_bounds l))
       (arho_max (al_bounds l) + 2 * factor * (Rabs (al_num l) / (Rabs (al_den l) + eps))) in
  (0 <= b * relaxed <= 1 -> arho_max (al_get_bounds s eps factor dim l hd) = relaxed) /\
  (1 < b * relaxed -> 1 < b * arho_max (al_get_bounds s eps factor dim l hd)).
Proof.
  intros Hg Hb. cbv zeta. unfold al_get_bounds. cbv zeta. cbn [arho_max].
  set (rm := Rmin _ (arho_max (al_bounds l) + _)).
  set (g := agamma_min (al_bounds l)) in *. set (b := interp_b (a_eos s)) in *. clearbody rm g b.
  assert (Hd : 0 <= b * rm -> (g + 1) * rm / (g - 1 + 2 * b * rm) * (g - 1 + 2 * b * rm) = (g + 1) * rm)
    by (intros; field; lra).
  split; intros H.
  - apply Rmin_right. specialize (Hd ltac:(lra)).
    apply Rmult_le_reg_r with (g - 1 + 2 * b * rm); [lra|]. rewrite Hd. nra.
  - specialize (Hd ltac:(lra)).
    assert (1 < b * ((g + 1) * rm / (g - 1 + 2 * b * rm))).
    { apply Rmult_lt_reg_r with (g - 1 + 2 * b * rm); [lra|].
      replace (b * ((g + 1) * rm / (g - 1 + 2 * b * rm)) * (g - 1 + 2 * b * rm))
        with (b * ((g + 1) * rm)) by (field; lra). nra. }
    unfold Rmin. destruct (Rle_dec _ _); assumption.
Qed.

Lemma a_relaxed_positive s eps factor dim l hd :
  relaxation_radius dim hd * factor < 1 ->
  (0 < arho_min (al_bounds l) -> 0 < arho_min (al_get_bounds s eps factor dim l hd)) /\
  (0 <= as_min (al_bounds l) -> 0 <= as_min (al_get_bounds s eps factor dim l hd)).
Proof.
  intros H. unfold al_get_bounds. cbv zeta. cbn [arho_min as_min]. split; intros H1.
  - eapply Rlt_le_trans; [|apply Rmax_l]. apply Rmult_lt_0_compat; lra.
  - eapply Rle_trans; [|apply Rmax_l]. apply Rmult_le_pos; lra.
Qed.

Lemma a_combine_contains l r :
  let b := a_combine_bounds l r in
  (arho_min b <= arho_min l /\ arho_max l <= arho_max b /\ as_min b <= as_min l /\ agamma_min b <= agamma_min l) /\
  (arho_min b <= arho_min r /\ arho_max r <= arho_max b /\ as_min b <= as_min r /\ agamma_min b <= agamma_min r).
Proof.
  cbv zeta. unfold a_combine_bounds. cbn [arho_min arho_max as_min agamma_min].
  repeat split; auto using Rmin_l, Rmin_r, Rmax_l, Rmax_r.
Qed.

(** ** Returning t_max when the full update is admissible *)

Lemma a_limit_density_full eps L :
  al_tmin L <= al_tmax L ->
  arho_min (al_b L) <= a_density (a_along L (al_tmax L)) <= arho_max (al_b L) ->
  a_limit_density eps L = al_tmax L.
Proof.
  rewrite a_density_along. intros H1 H2. unfold a_limit_density, mask_lt.
  destruct (Rlt_dec (arho_max (al_b L)) _) as [C|C]; [lra|].
  destruct (Rlt_dec _ (arho_min (al_b L))) as [C'|C']; [lra|].
  rewrite Rmin_left by lra. apply Rmax_left. exact H1.
Qed.

Lemma a_newton_loop_fix s eps tol dim (Inv : alane * (R * R) -> Prop) :
  (forall x, Inv x -> Inv (a_acc1 s eps dim x)) ->
  (forall x, Inv x -> Inv (a_newt1 s eps dim x)) ->
  forall fuel first success it it' b,
    a_newton_loop s eps tol dim fuel first success it = (it', b) ->
    forall k x, nth_error it k = Some x -> Inv x ->
    exists x', nth_error it' k = Some x' /\ Inv x' /\ fst x' = fst x.
Proof.
  intros Ha Hn. induction fuel as [|fuel IH]; intros first success it it' b E k x Hk Hx; simpl in E.
  - inversion E; subst. exists x. auto.
  - set (it1 := a_accept_right s eps dim it) in *.
    assert (H1 : nth_error it1 k = Some (a_acc1 s eps dim x)).
    { unfold it1, a_accept_right. rewrite nth_error_map, Hk. destruct x as [L [tl tr]]. reflexivity. }
    assert (F1 : fst (a_acc1 s eps dim x) = fst x) by (destruct x as [L [tl tr]]; reflexivity).
    destruct (a_all_equal it1); [inversion E; subst; exists (a_acc1 s eps dim x); auto|].
    destruct (a_within_tolerance tol it1); [inversion E; subst; exists (a_acc1 s eps dim x); auto|].
    assert (H2 : nth_error (a_newton_all s eps dim it1) k = Some (a_newt1 s eps dim (a_acc1 s eps dim x))).
    { unfold a_newton_all. rewrite nth_error_map, H1. destruct x as [L [tl tr]]. reflexivity. }
    destruct (IH _ _ _ _ _ E k _ H2) as (x' & X1 & X2 & X3); [auto|].
    exists x'. split; [exact X1|split; [exact X2|]]. rewrite X3.
    destruct x as [L [tl tr]]. reflexivity.
Qed.

Lemma a_limit_full s eps tol fuel dim lanes ts b k L :
  a_limit s eps tol (S fuel) dim lanes = (ts, b) ->
  nth_error lanes k = Some L ->
  al_tmin L <= al_tmax L ->
  arho_min (al_b L) <= a_density (a_along L (al_tmax L)) <= arho_max (al_b L) ->
  0 < a_psi s eps dim L (al_tmax L) ->
  nth_error ts k = Some (al_tmax L).
Proof.
  intros E Hk Ht Hd Hp. unfold a_limit in E.
  destruct (a_newton_loop _ _ _ _ _ _ _ _) as [it b'] eqn:El. inversion E; subst ts b'; clear E.
  set (Inv := fun x : alane * (R * R) =>
     let '(L', (tl, tr)) := x in L' = L -> tl = al_tmax L /\ tr = al_tmax L).
  assert (G : exists x', nth_error it k = Some x' /\ Inv x' /\ fst x' = L).
  { simpl in El.
    set (start := map (fun L0 => (L0, (al_tmin L0, a_limit_density eps L0))) lanes) in *.
    assert (S0 : nth_error start k = Some (L, (al_tmin L, a_limit_density eps L))).
    { unfold start. rewrite nth_error_map, Hk. reflexivity. }
    rewrite (a_limit_density_full eps L Ht Hd) in S0.
    set (it1 := a_accept_right s eps dim start) in *.
    assert (S1 : nth_error it1 k = Some (L, (al_tmax L, al_tmax L))).
    { unfold it1, a_accept_right. rewrite nth_error_map, S0. simpl. unfold mask_gt.
      destruct (Rgt_dec (a_psi s eps dim L (al_tmax L)) 0); [reflexivity|lra]. }
    assert (I1 : Inv (L, (al_tmax L, al_tmax L))) by (intros _; auto).
    destruct (a_all_equal it1); [inversion El; subst; eexists; eauto|].
    destruct (a_within_tolerance tol it1); [inversion El; subst; eexists; eauto|].
    assert (NI : forall x, Inv x -> Inv (a_newt1 s eps dim x)).
    { intros [L' [tl tr]] I. unfold a_newt1.
      destruct (quadratic_newton_step eps (-1) tl tr (a_psi s eps dim L' tl) (a_psi s eps dim L' tr)
          (a_dpsi s dim L' tl) (a_dpsi s dim L' tr)) as [q1 q2] eqn:Eq.
      intros HL. destruct (I HL) as [-> ->].
      apply newton_shrinks in Eq; lra. }
    assert (AI : forall x, Inv x -> Inv (a_acc1 s eps dim x)).
    { intros [L' [tl tr]] I. unfold a_acc1, Inv, mask_gt. intros HL. destruct (I HL) as [-> ->].
      destruct (Rgt_dec _ _); auto. }
    assert (S2 : nth_error (a_newton_all s eps dim it1) k = Some (a_newt1 s eps dim (L, (al_tmax L, al_tmax L)))).
    { unfold a_newton_all. rewrite nth_error_map, S1. reflexivity. }
    destruct (a_newton_loop_fix s eps tol dim Inv AI NI _ _ _ _ _ _ El k _ S2 (NI _ I1)) as (x' & X1 & X2 & X3).
    exists x'. split; [exact X1|]. split; [exact X2|]. rewrite X3. reflexivity. }
  destruct G as ([L' [tl tr]] & G1 & G2 & G3). simpl in G3. subst L'.
  rewrite nth_error_map, G1. simpl. destruct (G2 eq_refl) as [-> _]. reflexivity.
Qed.

(** ** The success flag *)

Lemma a_filter_zero s eps : a_filter_vacuum_density s eps 0 = 0.
Proof. unfold a_filter_vacuum_density. cbv zeta. destruct (Rlt_dec _ _); reflexivity. Qed.

Lemma a_density_test_ok s eps L :
  0 <= a_relaxation_large s * eps ->
  0 <= arho_min (al_b L) -> 
  arho_min (al_b L) <= a_density (al_U L) <= arho_max (al_b L) ->
  a_density_test s eps L = true.
Proof.
  intros He H0 H. unfold a_density_test, a_relax. cbv zeta.
  rewrite !Rmax_left by nra. rewrite a_filter_zero.
  destruct (Req_EM_T 0 0); [reflexivity|lra].
Qed.

Lemma a_entropy_test_ok s eps dim it :
  0 <= a_relaxation_large s * eps ->
  Forall (fun x => let '(L, (tl, _)) := x in
    0 <= as_min (al_b L) /\
    (0 < a_density (a_along L tl) /\ 0 < 1 - interp_b (a_eos s) * a_density (a_along L tl)) /\
    0 <= a_psi s eps dim L tl) it ->
  a_entropy_test s eps dim it = true.
Proof.
  intros He H. unfold a_entropy_test. apply forallb_forall. rewrite Forall_forall in H.
  intros [L [tl tr]] Hin. destruct (H _ Hin) as (A & (B & B') & C).
  assert (D : a_lower_bound s eps L tl <= 0).
  { unfold a_lower_bound, a_relax. cbv zeta. assert (K := powr_gt0 _ (agamma_min (al_b L)) B).
    assert (K' := powr_gt0 _ (- (agamma_min (al_b L) - 1)) B').
    set (r := a_density (a_along L tl)) in *. set (k := powr r _) in *. set (k' := powr (1 - _) _) in *.
    replace (1 - (1 + a_relaxation_large s * eps)) with (- (a_relaxation_large s * eps)) by ring.
    assert (0 <= (a_relaxation_large s * eps) * as_min (al_b L) * r * k * k')
      by (apply Rmult_le_pos; [apply Rmult_le_pos; [apply Rmult_le_pos; [apply Rmult_le_pos|]|]|]; lra).
    lra. }
  rewrite Rmin_left by lra. destruct (Req_EM_T 0 0); [reflexivity|lra].
Qed.

Lemma a_newton_loop_success s eps tol dim fuel it it' b :
  a_newton_loop s eps tol dim fuel false true it = (it', b) -> b = true.
Proof.
  revert it. induction fuel as [|fuel IH]; intros it E; simpl in E.
  - inversion E; reflexivity.
  - destruct (a_all_equal _); [inversion E; reflexivity|].
    destruct (a_within_tolerance _ _); [inversion E; reflexivity|].
    apply IH in E. exact E.
Qed.

Lemma a_limit_success s eps tol fuel dim lanes ts b :
  0 <= eps -> 0 <= a_relaxation_large s * eps ->
  Forall (fun L => a_density_hyp L /\ 0 < arho_min (al_b L) /\ 0 <= as_min (al_b L) /\
                   0 <= interp_b (a_eos s) /\ interp_b (a_eos s) * arho_max (al_b L) < 1 /\
                   0 <= a_psi s eps dim L (al_tmin L)) lanes ->
  a_limit s eps tol fuel dim lanes = (ts, b) -> b = true.
Proof.
  intros He Hr H E. unfold a_limit in E.
  assert (D : forallb (a_density_test s eps) lanes = true).
  { apply forallb_forall. rewrite Forall_forall in H. intros L HL.
    destruct (H L HL) as ((A1 & A2 & A3 & A4 & A5) & B & C). apply a_density_test_ok; auto; lra. }
  rewrite D in E. clear D.
  destruct fuel as [|fuel].
  - simpl in E. inversion E; reflexivity.
  - simpl in E. set (start := map (fun L0 => (L0, (al_tmin L0, a_limit_density eps L0))) lanes) in *.
    assert (T : a_entropy_test s eps dim (a_accept_right s eps dim start) = true).
    { apply a_entropy_test_ok; [exact Hr|]. unfold a_accept_right, start.
      rewrite map_map. apply Forall_map. eapply Forall_impl; [|exact H].
      intros L (A & B & C & Hb & G0 & F). split; [exact C|].
      assert (RR := a_limit_density_range eps L (proj1 (proj2 A))).
      unfold mask_gt. destruct (Rgt_dec _ _) as [G|G]; (split; [|lra]; split).
      - assert (X := a_density_between eps L (a_limit_density eps L) He A ltac:(lra)). lra.
      - assert (X := a_density_between eps L (a_limit_density eps L) He A ltac:(lra)). nra.
      - assert (X := a_density_between eps L (al_tmin L) He A ltac:(lra)). lra.
      - assert (X := a_density_between eps L (al_tmin L) He A ltac:(lra)). nra. }
    rewrite T in E. simpl in E.
    destruct (a_all_equal _); [inversion E; reflexivity|].
    destruct (a_within_tolerance _ _); [inversion E; reflexivity|].
    destruct (a_newton_loop _ _ _ _ _ _ _ _) as [it b'] eqn:El. inversion E; subst.
    eapply a_newton_loop_success. exact El.
Qed.
