(** * Lemmas about the bounds of Euler::Limiter *)
From Coq Require Import Reals List Bool Arith Lia Lra Psatz Permutation.
From Verif Require Import RVec Newton NewtonProofs EulerSystem EulerLimiter EulerLimiterProofs.
Import ListNotations.
Local Open Scope R_scope.

(** A fold with commuting steps does not depend on the order. *)
Lemma fold_left_perm {A B} (f : A -> B -> A) (l l' : list B) :
  (forall a x y, f (f a x) y = f (f a y) x) ->
  Permutation l l' -> forall a, fold_left f l a = fold_left f l' a.
Proof.
  intros C P. induction P; intros a; simpl.
  - reflexivity.
  - apply IHP.
  - rewrite C. reflexivity.
  - rewrite IHP1. apply IHP2.
Qed.

Lemma Rmin_swap a x y : Rmin (Rmin a x) y = Rmin (Rmin a y) x.
Proof. rewrite <- !Rmin_assoc. f_equal. apply Rmin_comm. Qed.

Lemma Rmax_swap a x y : Rmax (Rmax a x) y = Rmax (Rmax a y) x.
Proof. rewrite <- !Rmax_assoc. f_equal. apply Rmax_comm. Qed.

Lemma Rplus_swap a x y : a + x + y = a + y + x.
Proof. ring. Qed.

(** One call of accumulate: s_j, U_j, scaled_c_ij, affine_shift. *)
Definition contribution : Type := (R * vec * vec * vec)%type.

Definition lim_step (s : euler) (dim : nat) (l : elimiter) (c : contribution) : elimiter :=
  let '(s_j, U_j, c_ij, shift) := c in lim_accumulate s dim l s_j U_j c_ij shift.

Definition lim_stencil (s : euler) (dim : nat) (big : R) (U_i : vec) (cs : list contribution) : elimiter :=
  fold_left (lim_step s dim) cs (lim_reset big U_i).

Lemma lim_step_comm s dim l x y :
  lim_step s dim (lim_step s dim l x) y = lim_step s dim (lim_step s dim l y) x.
Proof.
  destruct x as [[[sx Ux] cx] ax]. destruct y as [[[sy Uy] cy] ay]. unfold lim_step, lim_accumulate.
  cbn [lim_U_i lim_bounds rho_min rho_max s_min rho_relaxation_numerator
       rho_relaxation_denominator s_interp_max].
  f_equal; [f_equal| |]; auto using Rmin_swap, Rmax_swap, Rplus_swap.
Qed.

Lemma lim_stencil_perm s dim big U_i cs cs' : Permutation cs cs' ->
  lim_stencil s dim big U_i cs = lim_stencil s dim big U_i cs'.
Proof.
  intros P. unfold lim_stencil. apply fold_left_perm; [|exact P]. intros. apply lim_step_comm.
Qed.

(** The density of the bar state of one contribution. *)
Definition bar_density (dim : nat) (U_i : vec) (c : contribution) : R :=
  let '(_, U_j, c_ij, shift) := c in
  1 / 2 * (density U_i + density U_j + dot dim (vsub (momentum U_i) (momentum U_j)) c_ij)
  + density shift.

Definition entropy_of (c : contribution) : R := let '(s_j, _, _, _) := c in s_j.
Definition state_of (c : contribution) : vec := let '(_, U_j, _, _) := c in U_j.

Lemma fold_U_i s dim cs l : lim_U_i (fold_left (lim_step s dim) cs l) = lim_U_i l.
Proof.
  revert l. induction cs as [|[[[sj Uj] c] a] cs IH]; intros l; simpl; [reflexivity|].
  rewrite IH. reflexivity.
Qed.

(** What the accumulated bounds are *)
Lemma fold_bounds s dim cs : forall l,
  let l' := fold_left (lim_step s dim) cs l in
  let b := lim_bounds l in let b' := lim_bounds l' in
  (rho_min b' <= rho_min b /\ rho_max b <= rho_max b' /\ s_min b' <= s_min b /\ s_interp_max l <= s_interp_max l') /\
  (forall c, In c cs -> rho_min b' <= bar_density dim (lim_U_i l) c <= rho_max b' /\ s_min b' <= entropy_of c /\
      specific_entropy s dim (vscal (1 / 2) (vadd (lim_U_i l) (state_of c))) <= s_interp_max l') /\
  (forall P : R -> Prop, P (rho_min b) -> (forall c, In c cs -> P (bar_density dim (lim_U_i l) c)) -> P (rho_min b')) /\
  (forall P : R -> Prop, P (s_min b) -> (forall c, In c cs -> P (entropy_of c)) -> P (s_min b')).
Proof.
  induction cs as [|c cs IH]; intros l; cbv zeta.
  - simpl. split; [lra|]. split; [intros c []|]. split; intros P H _; exact H.
  - simpl fold_left. specialize (IH (lim_step s dim l c)). cbv zeta in IH.
    set (l' := fold_left (lim_step s dim) cs (lim_step s dim l c)) in *.
    assert (EU : lim_U_i (lim_step s dim l c) = lim_U_i l).
    { destruct c as [[[sj Uj] cc] a]. reflexivity. }
    rewrite EU in IH.
    destruct IH as ((A1 & A2 & A3 & A4) & B & C & D).
    assert (E1 : rho_min (lim_bounds (lim_step s dim l c)) = Rmin (rho_min (lim_bounds l)) (bar_density dim (lim_U_i l) c)).
    { destruct c as [[[sj Uj] cc] a]. reflexivity. }
    assert (E2 : rho_max (lim_bounds (lim_step s dim l c)) = Rmax (rho_max (lim_bounds l)) (bar_density dim (lim_U_i l) c)).
    { destruct c as [[[sj Uj] cc] a]. reflexivity. }
    assert (E3 : s_min (lim_bounds (lim_step s dim l c)) = Rmin (s_min (lim_bounds l)) (entropy_of c)).
    { destruct c as [[[sj Uj] cc] a]. reflexivity. }
    assert (E4 : s_interp_max (lim_step s dim l c) =
      Rmax (s_interp_max l) (specific_entropy s dim (vscal (1 / 2) (vadd (lim_U_i l) (state_of c))))).
    { destruct c as [[[sj Uj] cc] a]. reflexivity. }
    rewrite E1 in A1, C. rewrite E2 in A2. rewrite E3 in A3, D. rewrite E4 in A4.
    assert (M1 := Rmin_l (rho_min (lim_bounds l)) (bar_density dim (lim_U_i l) c)).
    assert (M2 := Rmin_r (rho_min (lim_bounds l)) (bar_density dim (lim_U_i l) c)).
    assert (M3 := Rmax_l (rho_max (lim_bounds l)) (bar_density dim (lim_U_i l) c)).
    assert (M4 := Rmax_r (rho_max (lim_bounds l)) (bar_density dim (lim_U_i l) c)).
    assert (M5 := Rmin_l (s_min (lim_bounds l)) (entropy_of c)).
    assert (M6 := Rmin_r (s_min (lim_bounds l)) (entropy_of c)).
    set (si := specific_entropy s dim (vscal (1 / 2) (vadd (lim_U_i l) (state_of c)))) in *.
    assert (M7 := Rmax_l (s_interp_max l) si). assert (M8 := Rmax_r (s_interp_max l) si).
    split; [|split; [|split]].
    + repeat split; lra.
    + intros c' [<-|Hin]; [|apply B; exact Hin]. fold si. repeat split; lra.
    + intros P H0 H. apply C.
      * unfold Rmin. destruct (Rle_dec _ _); [exact H0|apply H; left; reflexivity].
      * intros c' Hin. apply H. right. exact Hin.
    + intros P H0 H. apply D.
      * unfold Rmin. destruct (Rle_dec _ _); [exact H0|apply H; left; reflexivity].
      * intros c' Hin. apply H. right. exact Hin.
Qed.

Lemma relaxation_radius_nonneg dim hd : 0 <= relaxation_radius dim hd.
Proof.
  unfold relaxation_radius. cbv zeta. assert (H := sqrt_pos hd). assert (H' := sqrt_pos (sqrt hd)).
  destruct (Nat.eqb dim 2); [|destruct (Nat.eqb dim 1)]; try exact H;
    repeat apply Rmult_le_pos; assumption.
Qed.

(** Relaxing bounds enlarges them *)
Lemma relaxed_contains eps factor dim l hd :
  0 < eps -> 0 <= factor ->
  0 <= rho_min (lim_bounds l) -> 0 <= rho_max (lim_bounds l) -> 0 <= s_min (lim_bounds l) ->
  s_min (lim_bounds l) <= s_interp_max l ->
  let b := lim_bounds l in let b' := lim_get_bounds eps factor dim l hd in
  rho_min b' <= rho_min b /\ rho_max b <= rho_max b' /\ s_min b' <= s_min b.
Proof.
  intros He Hf H1 H2 H3 H4. cbv zeta. unfold lim_get_bounds. cbv zeta.
  cbn [rho_min rho_max s_min].
  assert (R0 : 0 <= relaxation_radius dim hd * factor)
    by (apply Rmult_le_pos; [apply relaxation_radius_nonneg|exact Hf]).
  set (r := relaxation_radius dim hd * factor) in *.
  assert (Q0 : 0 <= 2 * factor * (Rabs (rho_relaxation_numerator l) / (Rabs (rho_relaxation_denominator l) + eps))).
  { assert (A := Rabs_pos (rho_relaxation_numerator l)). assert (B := Rabs_pos (rho_relaxation_denominator l)).
    apply Rmult_le_pos; [lra|]. apply Rmult_le_pos; [lra|].
    left. apply Rinv_0_lt_compat. lra. }
  set (q := 2 * factor * _) in *.
  assert (0 <= factor * (s_interp_max l - s_min (lim_bounds l))) by (apply Rmult_le_pos; lra).
  set (er := factor * _) in *.
  split; [|split].
  - apply Rmax_lub; nra.
  - apply Rmin_glb; nra.
  - apply Rmax_lub; nra.
Qed.

(** ... but not beyond the positive states *)
Lemma relaxed_positive eps factor dim l hd :
  relaxation_radius dim hd * factor < 1 ->
  (0 < rho_min (lim_bounds l) -> 0 < rho_min (lim_get_bounds eps factor dim l hd)) /\
  (0 <= s_min (lim_bounds l) -> 0 <= s_min (lim_get_bounds eps factor dim l hd)).
Proof.
  intros H. unfold lim_get_bounds. cbv zeta. cbn [rho_min s_min]. split; intros H1.
  - eapply Rlt_le_trans; [|apply Rmax_l]. apply Rmult_lt_0_compat; lra.
  - eapply Rle_trans; [|apply Rmax_l]. apply Rmult_le_pos; lra.
Qed.

Lemma vhalf_self s dim U : specific_entropy s dim (vscal (1 / 2) (vadd U U)) = specific_entropy s dim U.
Proof.
  unfold specific_entropy, internal_energy.
  assert (E : forall k, vscal (1 / 2) (vadd U U) k = U k) by (intros; unfold vscal, vadd; field).
  unfold density, total_energy. rewrite !E.
  rewrite (dot_ext dim (momentum (vscal (1 / 2) (vadd U U))) (momentum U)
             (momentum (vscal (1 / 2) (vadd U U))) (momentum U)) || idtac.
  unfold norm2. rewrite (dot_ext dim (momentum (vscal (1 / 2) (vadd U U))) (momentum U)
             (momentum (vscal (1 / 2) (vadd U U))) (momentum U)).
  - reflexivity.
  - intros k _. unfold momentum. apply E.
  - intros k _. unfold momentum. apply E.
Qed.

Lemma stencil_contains s dim big eps factor hd U_i cs :
  0 < eps -> 0 <= factor -> 0 <= big ->
  (forall c, In c cs -> 0 <= bar_density dim U_i c /\ 0 <= entropy_of c) ->
  (exists c, In c cs /\ state_of c = U_i /\ entropy_of c = specific_entropy s dim U_i) ->
  let b := lim_get_bounds eps factor dim (lim_stencil s dim big U_i cs) hd in
  forall c, In c cs ->
    rho_min b <= bar_density dim U_i c <= rho_max b /\ s_min b <= entropy_of c.
Proof.
  intros He Hf Hb Hpos (c0 & Hc0 & Hs0 & He0). cbv zeta. intros c Hc.
  assert (F := fold_bounds s dim cs (lim_reset big U_i)). cbv zeta in F.
  change (fold_left (lim_step s dim) cs (lim_reset big U_i)) with (lim_stencil s dim big U_i cs) in F.
  set (l := lim_stencil s dim big U_i cs) in *.
  change (lim_U_i (lim_reset big U_i)) with U_i in F.
  destruct F as ((A1 & A2 & A3 & A4) & B & C & D).
  assert (X := relaxed_contains eps factor dim l hd He Hf).
  assert (P1 : 0 <= rho_min (lim_bounds l)).
  { apply C; [exact Hb|]. intros c' Hc'. apply (Hpos c' Hc'). }
  assert (P2 : 0 <= s_min (lim_bounds l)).
  { apply D; [exact Hb|]. intros c' Hc'. apply (Hpos c' Hc'). }
  assert (P3 : 0 <= rho_max (lim_bounds l)) by (simpl in A2; exact A2).
  destruct (B c0 Hc0) as (B1 & B2 & B3).
  rewrite Hs0, vhalf_self in B3. rewrite He0 in B2.
  specialize (X P1 P3 P2 ltac:(lra)). cbv zeta in X.
  destruct (B c Hc) as (G1 & G2 & _). destruct X as (X1 & X2 & X3). split; [split|]; lra.
Qed.

Lemma combine_contains l r :
  let b := combine_bounds l r in
  (rho_min b <= rho_min l /\ rho_max l <= rho_max b /\ s_min b <= s_min l) /\
  (rho_min b <= rho_min r /\ rho_max r <= rho_max b /\ s_min b <= s_min r).
Proof.
  cbv zeta. unfold combine_bounds. cbn [rho_min rho_max s_min].
  repeat split; auto using Rmin_l, Rmin_r, Rmax_l, Rmax_r.
Qed.

(** ** Returning t_max when the full update is admissible *)

Lemma limit_density_full eps L :
  l_tmin L <= l_tmax L ->
  rho_min (l_bounds L) <= density (along L (l_tmax L)) <= rho_max (l_bounds L) ->
  limit_density eps L = l_tmax L.
Proof.
  rewrite density_along. intros H1 H2. unfold limit_density, mask_lt.
  destruct (Rlt_dec (rho_max (l_bounds L)) _) as [C|C]; [lra|].
  destruct (Rlt_dec _ (rho_min (l_bounds L))) as [C'|C']; [lra|].
  rewrite Rmin_left by lra. apply Rmax_left. exact H1.
Qed.

Lemma newton_loop_fix s eps tol dim (Inv : lane * (R * R) -> Prop) :
  (forall x, Inv x -> Inv (acc1 s eps dim x)) ->
  (forall x, Inv x -> Inv (newt1 s eps dim x)) ->
  forall fuel first success it it' b,
    newton_loop s eps tol dim fuel first success it = (it', b) ->
    forall k x, nth_error it k = Some x -> Inv x ->
    exists x', nth_error it' k = Some x' /\ Inv x' /\ fst x' = fst x.
Proof.
  intros Ha Hn. induction fuel as [|fuel IH]; intros first success it it' b E k x Hk Hx; simpl in E.
  - inversion E; subst. exists x. auto.
  - set (it1 := accept_right s eps dim it) in *.
    assert (H1 : nth_error it1 k = Some (acc1 s eps dim x)).
    { unfold it1, accept_right. rewrite nth_error_map, Hk. destruct x as [L [tl tr]]. reflexivity. }
    assert (F1 : fst (acc1 s eps dim x) = fst x) by (destruct x as [L [tl tr]]; reflexivity).
    destruct (all_equal it1); [inversion E; subst; exists (acc1 s eps dim x); auto|].
    destruct (within_tolerance tol it1); [inversion E; subst; exists (acc1 s eps dim x); auto|].
    assert (H2 : nth_error (newton_all s eps dim it1) k = Some (newt1 s eps dim (acc1 s eps dim x))).
    { unfold newton_all. rewrite nth_error_map, H1. destruct x as [L [tl tr]]. reflexivity. }
    destruct (IH _ _ _ _ _ E k _ H2) as (x' & X1 & X2 & X3); [auto|].
    exists x'. split; [exact X1|split; [exact X2|]]. rewrite X3.
    destruct x as [L [tl tr]]. reflexivity.
Qed.

Lemma limit_full s eps tol fuel dim lanes ts b k L :
  limit s eps tol (S fuel) dim lanes = (ts, b) ->
  nth_error lanes k = Some L ->
  l_tmin L <= l_tmax L ->
  rho_min (l_bounds L) <= density (along L (l_tmax L)) <= rho_max (l_bounds L) ->
  0 < psi s eps dim L (l_tmax L) ->
  nth_error ts k = Some (l_tmax L).
Proof.
  intros E Hk Ht Hd Hp. unfold limit in E.
  destruct (newton_loop _ _ _ _ _ _ _ _) as [it b'] eqn:El. inversion E; subst ts b'; clear E.
  set (Inv := fun x : lane * (R * R) =>
     let '(L', (tl, tr)) := x in L' = L -> tl = l_tmax L /\ tr = l_tmax L).
  assert (G : exists x', nth_error it k = Some x' /\ Inv x' /\ fst x' = L).
  { simpl in El.
    set (start := map (fun L0 => (L0, (l_tmin L0, limit_density eps L0))) lanes) in *.
    assert (S0 : nth_error start k = Some (L, (l_tmin L, limit_density eps L))).
    { unfold start. rewrite nth_error_map, Hk. reflexivity. }
    rewrite (limit_density_full eps L Ht Hd) in S0.
    set (it1 := accept_right s eps dim start) in *.
    assert (S1 : nth_error it1 k = Some (L, (l_tmax L, l_tmax L))).
    { unfold it1, accept_right. rewrite nth_error_map, S0. simpl. unfold mask_gt.
      destruct (Rgt_dec (psi s eps dim L (l_tmax L)) 0); [reflexivity|lra]. }
    assert (I1 : Inv (L, (l_tmax L, l_tmax L))) by (intros _; auto).
    destruct (all_equal it1); [inversion El; subst; eexists; eauto|].
    destruct (within_tolerance tol it1); [inversion El; subst; eexists; eauto|].
    assert (NI : forall x, Inv x -> Inv (newt1 s eps dim x)).
    { intros [L' [tl tr]] I. unfold newt1.
      destruct (quadratic_newton_step eps (-1) tl tr (psi s eps dim L' tl) (psi s eps dim L' tr)
          (dpsi s dim L' tl) (dpsi s dim L' tr)) as [q1 q2] eqn:Eq.
      intros HL. destruct (I HL) as [-> ->].
      apply newton_shrinks in Eq; lra. }
    assert (AI : forall x, Inv x -> Inv (acc1 s eps dim x)).
    { intros [L' [tl tr]] I. unfold acc1, Inv, mask_gt. intros HL. destruct (I HL) as [-> ->].
      destruct (Rgt_dec _ _); auto. }
    assert (S2 : nth_error (newton_all s eps dim it1) k = Some (newt1 s eps dim (L, (l_tmax L, l_tmax L)))).
    { unfold newton_all. rewrite nth_error_map, S1. reflexivity. }
    destruct (newton_loop_fix s eps tol dim Inv AI NI _ _ _ _ _ _ El k _ S2 (NI _ I1)) as (x' & X1 & X2 & X3).
    exists x'. split; [exact X1|]. split; [exact X2|]. rewrite X3. reflexivity. }
  destruct G as ([L' [tl tr]] & G1 & G2 & G3). simpl in G3. subst L'.
  rewrite nth_error_map, G1. simpl. destruct (G2 eq_refl) as [-> _]. reflexivity.
Qed.

(** ** The success flag *)

Lemma filter_zero s eps : filter_vacuum_density s eps 0 = 0.
Proof. unfold filter_vacuum_density. cbv zeta. destruct (Rlt_dec _ _); reflexivity. Qed.

Lemma density_test_ok s eps L :
  0 <= vacuum_state_relaxation_large s * eps ->
  0 <= rho_min (l_bounds L) -> 
  rho_min (l_bounds L) <= density (l_U L) <= rho_max (l_bounds L) ->
  density_test s eps L = true.
Proof.
  intros He H0 H. unfold density_test, relax. cbv zeta.
  rewrite !Rmax_left by nra. rewrite filter_zero.
  destruct (Req_EM_T 0 0); [reflexivity|lra].
Qed.

Lemma entropy_test_ok s eps dim it :
  0 <= vacuum_state_relaxation_large s * eps ->
  Forall (fun x => let '(L, (tl, _)) := x in
    0 <= s_min (l_bounds L) /\ 0 < density (along L tl) /\ 0 <= psi s eps dim L tl) it ->
  entropy_test s eps dim it = true.
Proof.
  intros He H. unfold entropy_test. apply forallb_forall. rewrite Forall_forall in H.
  intros [L [tl tr]] Hin. destruct (H _ Hin) as (A & B & C).
  assert (D : lower_bound s eps L tl <= 0).
  { unfold lower_bound, relax. cbv zeta. assert (K := powr_gt0 _ (gamma s) B).
    set (k := powr _ _) in *. set (r := density _) in *.
    replace (1 - (1 + vacuum_state_relaxation_large s * eps)) with (- (vacuum_state_relaxation_large s * eps)) by ring.
    assert (0 <= (vacuum_state_relaxation_large s * eps) * s_min (l_bounds L) * r * k)
      by (apply Rmult_le_pos; [apply Rmult_le_pos; [apply Rmult_le_pos|]|]; lra).
    lra. }
  rewrite Rmin_left by lra. destruct (Req_EM_T 0 0); [reflexivity|lra].
Qed.

Lemma newton_loop_success s eps tol dim fuel it it' b :
  newton_loop s eps tol dim fuel false true it = (it', b) -> b = true.
Proof.
  revert it. induction fuel as [|fuel IH]; intros it E; simpl in E.
  - inversion E; reflexivity.
  - destruct (all_equal _); [inversion E; reflexivity|].
    destruct (within_tolerance _ _); [inversion E; reflexivity|].
    apply IH in E. exact E.
Qed.

Lemma limit_success s eps tol fuel dim lanes ts b :
  0 <= eps -> 0 <= vacuum_state_relaxation_large s * eps ->
  Forall (fun L => density_hyp L /\ 0 < rho_min (l_bounds L) /\ 0 <= s_min (l_bounds L) /\
                   0 <= psi s eps dim L (l_tmin L)) lanes ->
  limit s eps tol fuel dim lanes = (ts, b) -> b = true.
Proof.
  intros He Hr H E. unfold limit in E.
  assert (D : forallb (density_test s eps) lanes = true).
  { apply forallb_forall. rewrite Forall_forall in H. intros L HL.
    destruct (H L HL) as ((A1 & A2 & A3 & A4 & A5) & B & C). apply density_test_ok; auto; lra. }
  rewrite D in E. clear D.
  destruct fuel as [|fuel].
  - simpl in E. inversion E; reflexivity.
  - simpl in E. set (start := map (fun L0 => (L0, (l_tmin L0, limit_density eps L0))) lanes) in *.
    assert (T : entropy_test s eps dim (accept_right s eps dim start) = true).
    { apply entropy_test_ok; [exact Hr|]. unfold accept_right, start.
      rewrite map_map. apply Forall_map. eapply Forall_impl; [|exact H].
      intros L (A & B & C & F). split; [exact C|].
      assert (RR := limit_density_range eps L (proj1 (proj2 A))).
      unfold mask_gt. destruct (Rgt_dec _ _) as [G|G]; (split; [|lra]).
      - assert (X := density_between eps L (limit_density eps L) He A ltac:(lra)). lra.
      - assert (X := density_between eps L (l_tmin L) He A ltac:(lra)). lra. }
    rewrite T in E. simpl in E.
    destruct (all_equal _); [inversion E; reflexivity|].
    destruct (within_tolerance _ _); [inversion E; reflexivity|].
    destruct (newton_loop _ _ _ _ _ _ _ _) as [it b'] eqn:El. inversion E; subst.
    eapply newton_loop_success. exact El.
Qed.
