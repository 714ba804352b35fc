(** * Lemmas about Euler::Limiter::limit *)
From Coq Require Import Reals List Bool Arith Lia Lra Psatz.
From Verif Require Import RVec Newton NewtonProofs NewtonSign EulerSystem EulerLimiter.
Import ListNotations.
Local Open Scope R_scope.

(** ** Components along the update *)

Lemma density_along L t : density (along L t) = density (l_U L) + t * density (l_P L).
Proof. reflexivity. Qed.

Lemma density_affine L a b t rmin rmax :
  a <= t <= b ->
  rmin <= density (along L a) <= rmax -> rmin <= density (along L b) <= rmax ->
  rmin <= density (along L t) <= rmax.
Proof.
  rewrite !density_along. set (u := density (l_U L)). set (p := density (l_P L)).
  intros Ht Ha Hb.
  destruct (Rle_lt_dec 0 p); split; nra.
Qed.

(** ** The density limit *)

Lemma limit_density_range eps L : l_tmin L <= l_tmax L ->
  l_tmin L <= limit_density eps L <= l_tmax L.
Proof.
  intros H. unfold limit_density. split; [apply Rmax_r|].
  apply Rmax_lub; [apply Rmin_r|exact H].
Qed.

Lemma limit_density_bounds eps L :
  0 <= eps -> 0 < rho_max (l_bounds L) ->
  l_tmin L <= l_tmax L -> 0 <= l_tmax L ->
  rho_min (l_bounds L) <= density (l_U L) <= rho_max (l_bounds L) ->
  rho_min (l_bounds L) <= density (along L (l_tmin L)) <= rho_max (l_bounds L) ->
  rho_min (l_bounds L) <= density (along L (limit_density eps L)) <= rho_max (l_bounds L).
Proof.
  intros He Hr Ht H0 HU Hmin.
  rewrite density_along in *. unfold limit_density, mask_lt.
  set (u := density (l_U L)) in *. set (p := density (l_P L)) in *.
  set (rmin := rho_min (l_bounds L)) in *. set (rmax := rho_max (l_bounds L)) in *.
  set (tmin := l_tmin L) in *. set (tmax := l_tmax L) in *.
  (* a quotient c / (|p| + eps rmax) with c >= 0 moves by at most c *)
  assert (Q : forall c, 0 <= c -> p <> 0 ->
            0 <= c * (1 / (Rabs p + eps * rmax)) /\ c * (1 / (Rabs p + eps * rmax)) * Rabs p <= c).
  { intros c Hc Hp.
    assert (Pp : 0 < Rabs p) by (apply Rabs_pos_lt; exact Hp).
    assert (Pe : 0 <= eps * rmax) by (apply Rmult_le_pos; lra).
    assert (Pi : 0 < 1 / (Rabs p + eps * rmax)) by (apply Rdiv_lt_0_compat; lra).
    split; [apply Rmult_le_pos; lra|].
    rewrite Rmult_assoc.
    assert (1 / (Rabs p + eps * rmax) * Rabs p <= 1).
    { apply Rmult_le_reg_r with (Rabs p + eps * rmax); [lra|].
      replace (1 / (Rabs p + eps * rmax) * Rabs p * (Rabs p + eps * rmax)) with (Rabs p)
        by (field; lra). lra. }
    assert (c * (1 / (Rabs p + eps * rmax) * Rabs p) <= c * 1)
      by (apply Rmult_le_compat_l; lra). lra. }
  (* the final clamping *)
  assert (F : forall t, (t <= tmax -> rmin <= u + t * p <= rmax) -> (tmax < t -> rmin <= u + tmax * p <= rmax) ->
            rmin <= u + Rmax (Rmin t tmax) tmin * p <= rmax).
  { intros t F1 F2. unfold Rmin. destruct (Rle_dec t tmax) as [Hle|Hle].
    - unfold Rmax. destruct (Rle_dec t tmin); [exact Hmin|auto].
    - assert (F2' := F2 ltac:(lra)).
      unfold Rmax. destruct (Rle_dec tmax tmin); [exact Hmin|exact F2']. }
  destruct (Rlt_dec rmax (u + tmax * p)) as [C1|C1].
  - (* rho_P > 0 *)
    assert (Hp : 0 < p) by nra.
    destruct (Q (rmax - u) ltac:(lra) ltac:(lra)) as [Q1 Q2].
    rewrite (Rabs_right p) in * by lra.
    set (t1 := (rmax - u) * (1 / (p + eps * rmax))) in *. clearbody t1.
    destruct (Rlt_dec (u + t1 * p) rmin) as [C2|C2]; [exfalso; nra|].
    apply F; intros; nra.
  - destruct (Rlt_dec (u + tmax * p) rmin) as [C2|C2].
    + assert (Hp : p < 0) by nra.
      destruct (Q (u - rmin) ltac:(lra) ltac:(lra)) as [Q1 Q2].
      rewrite (Rabs_left p) in * by lra.
      set (t1 := (u - rmin) * (1 / (- p + eps * rmax))) in *. clearbody t1.
      apply F; intros; nra.
    + apply F; intros; lra.
Qed.

(** ** Invariants of the loop *)

Definition acc1 s eps dim (x : lane * (R * R)) : lane * (R * R) :=
  let '(L, (t_l, t_r)) := x in (L, (mask_gt (psi s eps dim L t_r) 0 t_r t_l, t_r)).

Definition newt1 s eps dim (x : lane * (R * R)) : lane * (R * R) :=
  let '(L, (t_l, t_r)) := x in
    (L, quadratic_newton_step eps (-1) t_l t_r (psi s eps dim L t_l) (psi s eps dim L t_r)
          (dpsi s dim L t_l) (dpsi s dim L t_r)).

Lemma newton_loop_inv s eps tol dim (Inv Inv' : lane * (R * R) -> Prop) :
  (forall x, Inv x -> Inv' (acc1 s eps dim x)) ->
  (forall x, Inv' x -> Inv (newt1 s eps dim x)) ->
  forall fuel first success it it' b,
    Forall Inv it ->
    newton_loop s eps tol dim fuel first success it = (it', b) ->
    Forall (fun x => Inv x \/ Inv' x) it' /\ map fst it' = map fst it.
Proof.
  intros Ha Hn. induction fuel as [|fuel IH]; intros first success it it' b Hit E; simpl in E.
  - inversion E; subst. split; [|reflexivity].
    eapply Forall_impl; [|exact Hit]. intros; left; assumption.
  - set (it1 := accept_right s eps dim it) in *.
    assert (H1 : Forall Inv' it1).
    { unfold it1, accept_right. apply Forall_map. eapply Forall_impl; [|exact Hit].
      intros [L [tl tr]] H. apply (Ha (L, (tl, tr)) H). }
    assert (F1 : map fst it1 = map fst it).
    { unfold it1, accept_right. rewrite map_map. apply map_ext. intros [L [tl tr]]. reflexivity. }
    assert (D : Forall (fun x => Inv x \/ Inv' x) it1).
    { eapply Forall_impl; [|exact H1]. intros; right; assumption. }
    destruct (all_equal it1); [inversion E; subst; auto|].
    destruct (within_tolerance tol it1); [inversion E; subst; auto|].
    apply IH in E.
    + destruct E as [E1 E2]. split; [exact E1|]. rewrite E2.
      unfold newton_all. rewrite map_map. rewrite <- F1. apply map_ext.
      intros [L [tl tr]]. reflexivity.
    + unfold newton_all. apply Forall_map. eapply Forall_impl; [|exact H1].
      intros [L [tl tr]] H. apply (Hn (L, (tl, tr)) H).
Qed.

Lemma limit_inv s eps tol fuel dim (Inv Inv' : lane * (R * R) -> Prop) (P : lane -> R -> Prop) lanes ts b :
  (forall x, Inv x -> Inv' (acc1 s eps dim x)) ->
  (forall x, Inv' x -> Inv (newt1 s eps dim x)) ->
  (forall L tl tr, Inv (L, (tl, tr)) \/ Inv' (L, (tl, tr)) -> P L tl) ->
  Forall (fun L => Inv (L, (l_tmin L, limit_density eps L))) lanes ->
  limit s eps tol fuel dim lanes = (ts, b) ->
  Forall2 P lanes ts.
Proof.
  intros Ha Hn HP H0 E. unfold limit in E.
  destruct (newton_loop _ _ _ _ _ _ _ _) as [it b'] eqn:El. inversion E; subst ts b'; clear E.
  apply (newton_loop_inv s eps tol dim Inv Inv' Ha Hn) in El.
  2:{ apply Forall_map. exact H0. }
  destruct El as [E1 E2]. rewrite map_map in E2. simpl in E2. rewrite map_id in E2.
  subst lanes. clear H0. induction it as [|[L [tl tr]] it IH]; simpl; constructor.
  - inversion E1; subst. simpl. eapply HP. exact H1.
  - apply IH. inversion E1; assumption.
Qed.

(** ** C25 *)

Lemma limit_range s eps tol fuel dim lanes ts b :
  Forall (fun L => l_tmin L <= l_tmax L) lanes ->
  limit s eps tol fuel dim lanes = (ts, b) ->
  Forall2 (fun L t => l_tmin L <= t <= limit_density eps L) lanes ts.
Proof.
  intros H.
  apply (limit_inv s eps tol fuel dim
    (fun x => let '(L, (tl, tr)) := x in l_tmin L <= tl /\ tl <= tr <= limit_density eps L)
    (fun x => let '(L, (tl, tr)) := x in l_tmin L <= tl /\ tl <= tr <= limit_density eps L)).
  - intros [L [tl tr]] (A & B & C). simpl. unfold mask_gt. destruct (Rgt_dec _ _); lra.
  - intros [L [tl tr]] (A & B & C).
    unfold newt1. destruct (quadratic_newton_step eps (-1) tl tr (psi s eps dim L tl) (psi s eps dim L tr)
          (dpsi s dim L tl) (dpsi s dim L tr)) as [q1 q2] eqn:E.
    apply newton_shrinks in E; lra.
  - intros L tl tr [(A & B & C)|(A & B & C)]; lra.
  - eapply Forall_impl; [|exact H]. intros L HL.
    assert (X := limit_density_range eps L HL). lra.
Qed.

Lemma Forall2_combine {A B} (P Q : A -> B -> Prop) (R : A -> B -> Prop) xs ys :
  (forall x y, In x xs -> P x y -> R x y) ->
  Forall2 P xs ys -> Forall2 R xs ys.
Proof.
  intros H F. induction F; constructor.
  - apply H; [left; reflexivity|assumption].
  - apply IHF. intros; apply H; [right|]; assumption.
Qed.

Lemma limit_in_range s eps tol fuel dim lanes ts b :
  Forall (fun L => l_tmin L <= l_tmax L) lanes ->
  limit s eps tol fuel dim lanes = (ts, b) ->
  Forall2 (fun L t => l_tmin L <= t <= l_tmax L) lanes ts.
Proof.
  intros H E. assert (F := limit_range _ _ _ _ _ _ _ _ H E).
  revert F. apply Forall2_combine; [exact (fun _ _ => True)|].
  intros L t Hin Ht. rewrite Forall_forall in H.
  assert (X := limit_density_range eps L (H L Hin)). lra.
Qed.

Definition density_hyp (L : lane) : Prop :=
  0 < rho_max (l_bounds L) /\ l_tmin L <= l_tmax L /\ 0 <= l_tmax L /\
  rho_min (l_bounds L) <= density (l_U L) <= rho_max (l_bounds L) /\
  rho_min (l_bounds L) <= density (along L (l_tmin L)) <= rho_max (l_bounds L).

Lemma density_between eps L t : 0 <= eps -> density_hyp L ->
  l_tmin L <= t <= limit_density eps L ->
  rho_min (l_bounds L) <= density (along L t) <= rho_max (l_bounds L).
Proof.
  intros He (A & B & C & D & E) Ht.
  apply (density_affine L (l_tmin L) (limit_density eps L) t); auto.
  apply limit_density_bounds; assumption.
Qed.

Lemma limit_density_ok s eps tol fuel dim lanes ts b :
  0 <= eps -> Forall density_hyp lanes ->
  limit s eps tol fuel dim lanes = (ts, b) ->
  Forall2 (fun L t => rho_min (l_bounds L) <= density (along L t) <= rho_max (l_bounds L)) lanes ts.
Proof.
  intros He H E.
  assert (F : Forall2 (fun L t => l_tmin L <= t <= limit_density eps L) lanes ts).
  { apply limit_range in E; [exact E|]. eapply Forall_impl; [|exact H]. intros L HL. apply HL. }
  revert F. apply Forall2_combine; [exact (fun _ _ => True)|].
  intros L t Hin Ht. rewrite Forall_forall in H. apply (density_between eps); auto.
Qed.
