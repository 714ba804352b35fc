(** * Lemmas about EulerAEOS::Limiter::limit *)
From Coq Require Import Reals List Bool Arith Lia Lra Psatz.
From Verif Require Import RVec Newton NewtonProofs NewtonSign EulerSystem AeosSystem AeosLimiter EulerLimiterProofs.
Import ListNotations.
Local Open Scope R_scope.

(** ** Components a_along the update *)

Lemma a_density_along L t : a_density (a_along L t) = a_density (al_U L) + t * a_density (al_P L).
Proof. reflexivity. Qed.

Lemma a_density_affine L a b t rmin rmax :
  a <= t <= b ->
  rmin <= a_density (a_along L a) <= rmax -> rmin <= a_density (a_along L b) <= rmax ->
  rmin <= a_density (a_along L t) <= rmax.
Proof.
  rewrite !a_density_along. set (u := a_density (al_U L)). set (p := a_density (al_P L)).
  intros Ht Ha Hb.
  destruct (Rle_lt_dec 0 p); split; nra.
Qed.

(** ** The a_density a_limit *)

Lemma a_limit_density_range eps L : al_tmin L <= al_tmax L ->
  al_tmin L <= a_limit_density eps L <= al_tmax L.
Proof.
  intros H. unfold a_limit_density. split; [apply Rmax_r|].
  apply Rmax_lub; [apply Rmin_r|exact H].
Qed.

Lemma a_limit_density_bounds eps L :
  0 <= eps -> 0 < arho_max (al_b L) ->
  al_tmin L <= al_tmax L -> 0 <= al_tmax L ->
  arho_min (al_b L) <= a_density (al_U L) <= arho_max (al_b L) ->
  arho_min (al_b L) <= a_density (a_along L (al_tmin L)) <= arho_max (al_b L) ->
  arho_min (al_b L) <= a_density (a_along L (a_limit_density eps L)) <= arho_max (al_b L).
Proof.
  intros He Hr Ht H0 HU Hmin.
  rewrite a_density_along in *. unfold a_limit_density, mask_lt.
  set (u := a_density (al_U L)) in *. set (p := a_density (al_P L)) in *.
  set (rmin := arho_min (al_b L)) in *. set (rmax := arho_max (al_b L)) in *.
  set (tmin := al_tmin L) in *. set (tmax := al_tmax L) in *.
  (* a quotient c / (|p| + eps rmax) with c >= 0 moves by at most c *)
  assert (Q : forall c, 0 <= c -> p <> 0 ->
            0 <= c * (1 / (Rabs p + eps * rmax)) /\ c * (1 / (Rabs p + eps * rmax)) * Rabs p <= c).
  { intros c Hc Hp.
    assert (Pp : 0 < Rabs p) by (apply Rabs_pos_lt; exact Hp).
    assert (Pe : 0 <= eps * rmax) by (apply Rmult_le_pos; lra).
    assert (Pi : 0 < 1 / (Rabs p + eps * rmax)) by (apply Rdiv_lt_0_compat; lra).
    split; [apply Rmult_le_pos; lra|].
    rewrite Rmult_assoc.
    assert (1 / (Rabs p + eps * rmax) * Rabs p <= 1).
    { apply Rmult_le_reg_r with (Rabs p + eps * rmax); [lra|].
      replace (1 / (Rabs p + eps * rmax) * Rabs p * (Rabs p + eps * rmax)) with (Rabs p)
        by (field; lra). lra. }
    assert (c * (1 / (Rabs p + eps * rmax) * Rabs p) <= c * 1)
      by (apply Rmult_le_compat_l; lra). lra. }
  (* the final clamping *)
  assert (F : forall t, (t <= tmax -> rmin <= u + t * p <= rmax) -> (tmax < t -> rmin <= u + tmax * p <= rmax) ->
            rmin <= u + Rmax (Rmin t tmax) tmin * p <= rmax).
  { intros t F1 F2. unfold Rmin. destruct (Rle_dec t tmax) as [Hle|Hle].
    - unfold Rmax. destruct (Rle_dec t tmin); [exact Hmin|auto].
    - assert (F2' := F2 ltac:(lra)).
      unfold Rmax. destruct (Rle_dec tmax tmin); [exact Hmin|exact F2']. }
  destruct (Rlt_dec rmax (u + tmax * p)) as [C1|C1].
  - (* rho_P > 0 *)
    assert (Hp : 0 < p) by nra.
    destruct (Q (rmax - u) ltac:(lra) ltac:(lra)) as [Q1 Q2].
    rewrite (Rabs_right p) in * by lra.
    set (t1 := (rmax - u) * (1 / (p + eps * rmax))) in *. clearbody t1.
    destruct (Rlt_dec (u + t1 * p) rmin) as [C2|C2]; [exfalso; nra|].
    apply F; intros; nra.
  - destruct (Rlt_dec (u + tmax * p) rmin) as [C2|C2].
    + assert (Hp : p < 0) by nra.
      destruct (Q (u - rmin) ltac:(lra) ltac:(lra)) as [Q1 Q2].
      rewrite (Rabs_left p) in * by lra.
      set (t1 := (u - rmin) * (1 / (- p + eps * rmax))) in *. clearbody t1.
      apply F; intros; nra.
    + apply F; intros; lra.
Qed.

(** ** Invariants of the loop *)

Definition a_acc1 s eps dim (x : alane * (R * R)) : alane * (R * R) :=
  let '(L, (t_l, t_r)) := x in (L, (mask_gt (a_psi s eps dim L t_r) 0 t_r t_l, t_r)).

Definition a_newt1 s eps dim (x : alane * (R * R)) : alane * (R * R) :=
  let '(L, (t_l, t_r)) := x in
    (L, quadratic_newton_step eps (-1) t_l t_r (a_psi s eps dim L t_l) (a_psi s eps dim L t_r)
          (a_dpsi s dim L t_l) (a_dpsi s dim L t_r)).

Lemma a_newton_loop_inv s eps tol dim (Inv Inv' : alane * (R * R) -> Prop) :
  (forall x, Inv x -> Inv' (a_acc1 s eps dim x)) ->
  (forall x, Inv' x -> Inv (a_newt1 s eps dim x)) ->
  forall fuel first success it it' b,
    Forall Inv it ->
    a_newton_loop s eps tol dim fuel first success it = (it', b) ->
    Forall (fun x => Inv x \/ Inv' x) it' /\ map fst it' = map fst it.
Proof.
  intros Ha Hn. induction fuel as [|fuel IH]; intros first success it it' b Hit E; simpl in E.
  - inversion E; subst. split; [|reflexivity].
    eapply Forall_impl; [|exact Hit]. intros; left; assumption.
  - set (it1 := a_accept_right s eps dim it) in *.
    assert (H1 : Forall Inv' it1).
    { unfold it1, a_accept_right. apply Forall_map. eapply Forall_impl; [|exact Hit].
      intros [L [tl tr]] H. apply (Ha (L, (tl, tr)) H). }
    assert (F1 : map fst it1 = map fst it).
    { unfold it1, a_accept_right. rewrite map_map. apply map_ext. intros [L [tl tr]]. reflexivity. }
    assert (D : Forall (fun x => Inv x \/ Inv' x) it1).
    { eapply Forall_impl; [|exact H1]. intros; right; assumption. }
    destruct (a_all_equal it1); [inversion E; subst; auto|].
    destruct (a_within_tolerance tol it1); [inversion E; subst; auto|].
    apply IH in E.
    + destruct E as [E1 E2]. split; [exact E1|]. rewrite E2.
      unfold a_newton_all. rewrite map_map. rewrite <- F1. apply map_ext.
      intros [L [tl tr]]. reflexivity.
    + unfold a_newton_all. apply Forall_map. eapply Forall_impl; [|exact H1].
      intros [L [tl tr]] H. apply (Hn (L, (tl, tr)) H).
Qed.

Lemma a_limit_inv s eps tol fuel dim (Inv Inv' : alane * (R * R) -> Prop) (P : alane -> R -> Prop) lanes ts b :
  (forall x, Inv x -> Inv' (a_acc1 s eps dim x)) ->
  (forall x, Inv' x -> Inv (a_newt1 s eps dim x)) ->
  (forall L tl tr, Inv (L, (tl, tr)) \/ Inv' (L, (tl, tr)) -> P L tl) ->
  Forall (fun L => Inv (L, (al_tmin L, a_limit_density eps L))) lanes ->
  a_limit s eps tol fuel dim lanes = (ts, b) ->
  Forall2 P lanes ts.
Proof.
  intros Ha Hn HP H0 E. unfold a_limit in E.
  destruct (a_newton_loop _ _ _ _ _ _ _ _) as [it b'] eqn:El. inversion E; subst ts b'; clear E.
  apply (a_newton_loop_inv s eps tol dim Inv Inv' Ha Hn) in El.
  2:{ apply Forall_map. exact H0. }
  destruct El as [E1 E2]. rewrite map_map in E2. simpl in E2. rewrite map_id in E2.
  subst lanes. clear H0. induction it as [|[L [tl tr]] it IH]; simpl; constructor.
  - inversion E1; subst. simpl. eapply HP. exact H1.
  - apply IH. inversion E1; assumption.
Qed.

(** ** C25 *)

Lemma a_limit_range s eps tol fuel dim lanes ts b :
  Forall (fun L => al_tmin L <= al_tmax L) lanes ->
  a_limit s eps tol fuel dim lanes = (ts, b) ->
  Forall2 (fun L t => al_tmin L <= t <= a_limit_density eps L) lanes ts.
Proof.
  intros H.
  apply (a_limit_inv s eps tol fuel dim
    (fun x => let '(L, (tl, tr)) := x in al_tmin L <= tl /\ tl <= tr <= a_limit_density eps L)
    (fun x => let '(L, (tl, tr)) := x in al_tmin L <= tl /\ tl <= tr <= a_limit_density eps L)).
  - intros [L [tl tr]] (A & B & C). simpl. unfold mask_gt. destruct (Rgt_dec _ _); lra.
  - intros [L [tl tr]] (A & B & C).
    unfold a_newt1. destruct (quadratic_newton_step eps (-1) tl tr (a_psi s eps dim L tl) (a_psi s eps dim L tr)
          (a_dpsi s dim L tl) (a_dpsi s dim L tr)) as [q1 q2] eqn:E.
    apply newton_shrinks in E; lra.
  - intros L tl tr [(A & B & C)|(A & B & C)]; lra.
  - eapply Forall_impl; [|exact H]. intros L HL.
    assert (X := a_limit_density_range eps L HL). lra.
Qed.



Lemma a_limit_in_range s eps tol fuel dim lanes ts b :
  Forall (fun L => al_tmin L <= al_tmax L) lanes ->
  a_limit s eps tol fuel dim lanes = (ts, b) ->
  Forall2 (fun L t => al_tmin L <= t <= al_tmax L) lanes ts.
Proof.
  intros H E. assert (F := a_limit_range _ _ _ _ _ _ _ _ H E).
  revert F. apply Forall2_combine; [exact (fun _ _ => True)|].
  intros L t Hin Ht. rewrite Forall_forall in H.
  assert (X := a_limit_density_range eps L (H L Hin)). lra.
Qed.

Definition a_density_hyp (L : alane) : Prop :=
  0 < arho_max (al_b L) /\ al_tmin L <= al_tmax L /\ 0 <= al_tmax L /\
  arho_min (al_b L) <= a_density (al_U L) <= arho_max (al_b L) /\
  arho_min (al_b L) <= a_density (a_along L (al_tmin L)) <= arho_max (al_b L).

Lemma a_density_between eps L t : 0 <= eps -> a_density_hyp L ->
  al_tmin L <= t <= a_limit_density eps L ->
  arho_min (al_b L) <= a_density (a_along L t) <= arho_max (al_b L).
Proof.
  intros He (A & B & C & D & E) Ht.
  apply (a_density_affine L (al_tmin L) (a_limit_density eps L) t); auto.
  apply a_limit_density_bounds; assumption.
Qed.

Lemma a_limit_density_ok s eps tol fuel dim lanes ts b :
  0 <= eps -> Forall a_density_hyp lanes ->
  a_limit s eps tol fuel dim lanes = (ts, b) ->
  Forall2 (fun L t => arho_min (al_b L) <= a_density (a_along L t) <= arho_max (al_b L)) lanes ts.
Proof.
  intros He H E.
  assert (F : Forall2 (fun L t => al_tmin L <= t <= a_limit_density eps L) lanes ts).
  { apply a_limit_range in E; [exact E|]. eapply Forall_impl; [|exact H]. intros L HL. apply HL. }
  revert F. apply Forall2_combine; [exact (fun _ _ => True)|].
  intros L t Hin Ht. rewrite Forall_forall in H. apply (a_density_between eps); auto.
Qed.
