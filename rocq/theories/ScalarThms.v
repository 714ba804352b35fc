(** * ScalarConservation: the scalar part of C27; C30, C40 and C70 - C72 *)
From Coq Require Import Reals List Permutation Bool Lra.
From Verif Require Import RVec EulerSystem EulerLimiter Scalar ScalarSpec ScalarProofs.
Import ListNotations.
Local Open Scope R_scope.

(** C27 (ScalarConservation): the accumulated bounds do not depend on the order of the
    stencil. *)
Theorem C27_scalar_order : forall dim big u_i f_i cs cs',
  Permutation cs cs' -> sc_stencil dim big u_i f_i cs = sc_stencil dim big u_i f_i cs'.
Proof. exact sc_stencil_perm. Qed.
Print Assumptions C27_scalar_order.

Example C27_scalar_order_ex :
  let a := {| sc_u := 1; sc_f := fun _ => 1 / 2; sc_c := fun _ => 1; sc_shift := 0 |} in
  let b := {| sc_u := 2; sc_f := fun _ => 2; sc_c := fun _ => -1; sc_shift := 0 |} in Permutation [a; b] [b; a].
Proof. constructor. Qed.

(** C27 (ScalarConservation): the relaxed bounds contain every bar state of the stencil,
    whatever the signs of the states. *)
Theorem C27_scalar_relaxed_contains : forall dim big eps factor hd_i u_i f_i cs,
  0 < eps -> 0 <= factor ->
  let b := sc_get_bounds eps factor dim (sc_stencil dim big u_i f_i cs) hd_i in
  forall c, In c cs -> u_min b <= sc_bar_of dim u_i f_i c <= u_max b.
Proof. exact sc_stencil_contains. Qed.
Print Assumptions C27_scalar_relaxed_contains.

Example C27_scalar_relaxed_contains_ex :
  let c := {| sc_u := -2; sc_f := fun _ => 2; sc_c := fun _ => 1; sc_shift := 0 |} in
  In c [c] /\ sc_bar_of 1 (-1) (fun _ => 1 / 2) c = - (9 / 4).
Proof. split; [left; reflexivity|]. unfold sc_bar_of, sc_bar_state, dot, rsum, vsub; simpl. field. Qed.

(** C27 (ScalarConservation): combined bounds contain both. *)
Theorem C27_scalar_combine : forall l r,
  let b := sc_combine_bounds l r in
  (u_min b <= u_min l /\ u_max l <= u_max b) /\ (u_min b <= u_min r /\ u_max r <= u_max b).
Proof. exact C27_scalar_combine_proof. Qed.
Print Assumptions C27_scalar_combine.

Example C27_scalar_combine_ex :
  u_min (sc_combine_bounds {| u_min := 1; u_max := 2 |} {| u_min := -1; u_max := 1 |}) = -1.
Proof. simpl. apply Rmin_right. lra. Qed.

(** C30: every lane's coefficient lies in [t_min, t_max]. *)
Theorem C30_range : forall eps tiny lanes ts success,
  Forall (fun L => sl_tmin L <= sl_tmax L) lanes ->
  sc_limit eps tiny lanes = (ts, success) ->
  Forall2 (fun L t => sl_tmin L <= t <= sl_tmax L) lanes ts.
Proof. exact C30_range_proof. Qed.
Print Assumptions C30_range.

Example C30_range_ex : Forall (fun L => sl_tmin L <= sl_tmax L) [ex_negative].
Proof. repeat constructor. simpl. lra. Qed.

(** C30: if the low-order state and the state at t_min are within the bounds, then so is
    the limited state; when the upper bound is negative, up to t_max eps |u_max|. *)
Theorem C30_bounds : forall eps tiny lanes ts success,
  0 <= eps -> 0 < tiny -> Forall scalar_call lanes ->
  sc_limit eps tiny lanes = (ts, success) ->
  Forall2 (fun L t => value_within L (sl_tmax L * (eps * Rmax 0 (- u_max (sl_b L)))) t) lanes ts.
Proof. exact C30_bounds_proof. Qed.
Print Assumptions C30_bounds.

Example C30_bounds_ex : Forall scalar_call [ex_negative;
  {| sl_b := {| u_min := 0; u_max := 2 |}; sl_U := 1; sl_P := 3; sl_tmin := 0; sl_tmax := 1 |}].
Proof. repeat constructor; unfold value_within, value_at; simpl; lra. Qed.

(** C30: a full update within the bounds is accepted without change. *)
Theorem C30_full_update_accepted : forall eps tiny lanes ts success,
  Forall (fun L => sl_tmin L <= sl_tmax L /\ value_within L 0 (sl_tmax L)) lanes ->
  sc_limit eps tiny lanes = (ts, success) ->
  Forall2 (fun L t => t = sl_tmax L) lanes ts.
Proof. exact C30_full_update_accepted_proof. Qed.
Print Assumptions C30_full_update_accepted.

Example C30_full_update_accepted_ex :
  let L := {| sl_b := {| u_min := 0; u_max := 2 |}; sl_U := 1; sl_P := 1; sl_tmin := 0; sl_tmax := 1 |} in
  sl_tmin L <= sl_tmax L /\ value_within L 0 (sl_tmax L).
Proof. cbv zeta. unfold value_within, value_at; simpl. lra. Qed.

(** C30: in exact arithmetic the coefficient is the largest admissible one. *)
Theorem C30_largest : forall tiny lanes ts success,
  0 < tiny -> Forall (fun L => 100 * tiny <= Rabs (sl_P L) /\ scalar_call L) lanes ->
  sc_limit 0 tiny lanes = (ts, success) ->
  Forall2 (fun L t => forall t', t < t' <= sl_tmax L -> ~ value_within L 0 t') lanes ts.
Proof. exact C30_largest_proof. Qed.
Print Assumptions C30_largest.

Example C30_largest_ex : 100 * (1 / 1000) <= Rabs (sl_P ex_negative) /\ scalar_call ex_negative.
Proof. unfold scalar_call, value_within, value_at; simpl. rewrite Rabs_right; lra. Qed.

(** C30: success is reported for low-order states within the bounds ... *)
Theorem C30_success_reported : forall eps tiny lanes ts success,
  0 <= eps -> Forall (fun L => value_within L 0 0) lanes ->
  sc_limit eps tiny lanes = (ts, success) -> success = true.
Proof. exact sc_limit_success. Qed.
Print Assumptions C30_success_reported.

Example C30_success_reported_ex : value_within ex_negative 0 0.
Proof. unfold value_within, value_at; simpl. lra. Qed.

(** ... and only for those, up to a relative rounding margin. *)
Theorem C30_failure_reported : forall eps tiny lanes ts,
  0 <= eps -> sc_limit eps tiny lanes = (ts, true) ->
  Forall (fun L =>
    sl_U L - u_max (sl_b L) <= 10000 * eps * Rmax (Rabs (sl_U L)) (Rabs (u_max (sl_b L))) /\
    u_min (sl_b L) - sl_U L <= 10000 * eps * Rmax (Rabs (sl_U L)) (Rabs (u_min (sl_b L)))) lanes.
Proof. exact sc_limit_failure. Qed.
Print Assumptions C30_failure_reported.

Example C30_failure_reported_ex : snd (sc_limit (1 / 1000000000) (1 / 1000000000) [ex_negative]) = true.
Proof.
  refine (sc_limit_success (1 / 1000000000) (1 / 1000000000) [ex_negative] _ _ _ _ (surjective_pairing _)).
  - lra.
  - repeat constructor; unfold value_at; simpl; lra.
Qed.

(** C70 is false: for a negative upper bound the limited state exceeds the bounds,
    whatever the machine precision. *)
Theorem C70_exact_bounds_refuted : forall eps tiny,
  0 < eps < 1 / 2 -> 0 < tiny < 1 / 1000 ->
  exists L, scalar_call L /\ ~ value_within L 0 (sc_limit1 eps tiny L).
Proof. exact C70_exact_bounds_refuted_proof. Qed.
Print Assumptions C70_exact_bounds_refuted.

Example C70_exact_bounds_refuted_ex : 0 < 1 / 1000000 < 1 / 2 /\ 0 < 1 / 1000000 < 1 / 1000.
Proof. lra. Qed.

(** C40: for a flux that is convex or concave between two states, the estimate (in its
    default setting) bounds the speed of every wave between them: the characteristic
    speeds and the shock speed. *)
Theorem C40_convex : forall F averaged draws dim u_i u_j n,
  convex_between F dim n u_i u_j ->
  let lambda := sc_wavespeed F false averaged draws dim u_i u_j n in
  (forall u, Rmin u_i u_j <= u <= Rmax u_i u_j -> Rabs (dflux_n F dim n u) <= lambda) /\
  Rabs (flux_n F dim n u_i - flux_n F dim n u_j) <= lambda * Rabs (u_i - u_j).
Proof. exact C40_convex_proof. Qed.
Print Assumptions C40_convex.

Example C40_convex_ex : convex_between (burgers (1 / 1000)) 2 (fun k => match k with O => 3 / 5 | _ => - (4 / 5) end) (-1) 2.
Proof. apply burgers_convex. Qed.

(** C40: with a graph viscosity at least the estimate, the bar state of two states lies
    between them. *)
Theorem C40_bar_state : forall F averaged draws dim u_i u_j c d,
  let cc := sqrt (norm2 dim c) in let n := vscal (/ cc) c in
  0 < norm2 dim c -> 0 < d -> convex_between F dim n u_i u_j ->
  cc * sc_wavespeed F false averaged draws dim u_i u_j n <= d ->
  Rmin u_i u_j <= sc_bar_state dim u_i u_j (sc_flux F u_i) (sc_flux F u_j) (vscal (1 / d) c) 0 <= Rmax u_i u_j.
Proof. exact sc_bar_principle. Qed.
Print Assumptions C40_bar_state.

Example C40_bar_state_ex : forall n, 0 < norm2 1 (fun _ => 2) /\ convex_between (burgers (1 / 1000)) 1 n (-1) 2.
Proof. intros n. split; [unfold norm2, dot, rsum; simpl; lra|apply burgers_convex]. Qed.

(** C40: for every flux and every setting (also the greedy one), this holds for states
    that are at least twice the approximation delta apart. *)
Theorem C40_separated : forall F greedy averaged draws dim u_i u_j c d,
  let cc := sqrt (norm2 dim c) in let n := vscal (/ cc) c in
  0 < norm2 dim c -> 0 < d -> 0 <= fl_delta F -> u_i <> u_j -> 2 * fl_delta F <= Rabs (u_i - u_j) ->
  cc * sc_wavespeed F greedy averaged draws dim u_i u_j n <= d ->
  Rmin u_i u_j <= sc_bar_state dim u_i u_j (sc_flux F u_i) (sc_flux F u_j) (vscal (1 / d) c) 0 <= Rmax u_i u_j.
Proof. exact sc_bar_separated. Qed.
Print Assumptions C40_separated.

Example C40_separated_ex : 2 * fl_delta (kpp (1 / 1000)) <= Rabs (0 - 1).
Proof. simpl. rewrite Rabs_left; lra. Qed.

(** C71: the Kruzkov entropy inequality holds, up to the approximation delta, for the bar
    state and every enforced constant, for every flux and every setting. *)
Theorem C71_kruzkov : forall F greedy averaged draws dim u_i u_j n k mu,
  0 < fl_delta F -> enforced averaged draws u_i u_j k ->
  sc_wavespeed F greedy averaged draws dim u_i u_j n <= mu -> 0 < mu ->
  let ubar := 1 / 2 * (u_i + u_j) - 1 / (2 * mu) * (flux_n F dim n u_j - flux_n F dim n u_i) in
  Rabs (k - ubar) <=
  1 / 2 * (Rabs (k - u_i) + Rabs (k - u_j)) -
  1 / (2 * mu) * (entropy_flux F dim n k u_j - entropy_flux F dim n k u_i) + fl_delta F.
Proof. exact kruzkov_inequality. Qed.
Print Assumptions C71_kruzkov.

Example C71_kruzkov_ex : enforced true [1 / 4] (-1) 3 1 /\ enforced true [1 / 4] (-1) 3 2.
Proof. split; [left; split; [reflexivity|field]|right]. exists (1 / 4). split; [left; reflexivity|field]. Qed.

(** C72 is false: for the KPP flux, close states and the estimate itself as viscosity, in
    the greedy and in the default setting the bar state leaves the interval of the states. *)
Theorem C72_kpp_refuted : forall greedy delta, 0 < delta <= 1 ->
  exists u_i u_j c,
    let cc := sqrt (norm2 2 c) in let F := kpp delta in
    let d := cc * sc_wavespeed F greedy true [] 2 u_i u_j (vscal (/ cc) c) in
    0 < norm2 2 c /\ 0 < d /\
    sc_bar_state 2 u_i u_j (sc_flux F u_i) (sc_flux F u_j) (vscal (1 / d) c) 0 < Rmin u_i u_j.
Proof. exact C72_kpp_refuted_proof. Qed.
Print Assumptions C72_kpp_refuted.

Example C72_kpp_refuted_ex : 0 < 1 / 1000 <= 1.
Proof. lra. Qed.

(** C73 (scalar conservation): exchanging the states, reversing the normal and drawing the
    mirrored random numbers does not change the computed speed (in particular if no random
    entropies are used); it is never negative. *)
Theorem C73_scalar_symmetric : forall F greedy averaged draws dim u_i u_j n,
  sc_wavespeed F greedy averaged (map (fun x => 1 - x) draws) dim u_j u_i (fun k => - n k) =
  sc_wavespeed F greedy averaged draws dim u_i u_j n.
Proof. exact sc_wavespeed_symmetric. Qed.
Print Assumptions C73_scalar_symmetric.

Example C73_scalar_symmetric_ex : forall u_i u_j (n : vec),
  sc_wavespeed (burgers (1 / 1000)) false true [] 2 u_j u_i (fun k => - n k) =
  sc_wavespeed (burgers (1 / 1000)) false true [] 2 u_i u_j n.
Proof. intros. apply (C73_scalar_symmetric (burgers (1 / 1000)) false true []). Qed.

Theorem C73_scalar_nonneg : forall F greedy averaged draws dim u_i u_j n, 0 < fl_delta F ->
  0 <= sc_wavespeed F greedy averaged draws dim u_i u_j n.
Proof. exact sc_wavespeed_nonneg. Qed.
Print Assumptions C73_scalar_nonneg.

Example C73_scalar_nonneg_ex : 0 < fl_delta (burgers (1 / 1000)).
Proof. simpl. lra. Qed.
