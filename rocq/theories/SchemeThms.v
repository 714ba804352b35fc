(** * C17 - C22, C61, C62: the hyperbolic step (property theorems)

    [hyperbolic_update S M num_min order n a0 d0 l0 ln0 new0 old stages tau] is
    one call of HyperbolicModule::step with given step size for an arbitrary
    system of equations [S] on an arbitrary mesh [M]; the arguments
    [a0 d0 l0 ln0 new0] are the previous contents of temporary storage and of
    the result vector, [order] is the order in which rows extend their bounds.
    [dij_matrix], [row_tau]: viscosities and step size proposals. *)
From Coq Require Import Reals List Arith Bool Lia Lra Permutation FunctionalExtensionality.
From Verif Require TimeInt.
From Verif Require Import Scheme SchemeSpec SchemeProofs SchemeUpdate SchemeLimit SchemeIndep
  SchemeExamples SchemeFinal.
Import ListNotations.
Local Open Scope R_scope.

(** Non-vacuity: Burgers' equation on a periodic mesh with three rows that is
    distributed over two ranks. *)
Example C17_instance :
  symmetric_pattern ring3 /\ positive_masses ring3 /\ valid_numbering ring3 /\
  pairs_listed ring3 /\ symmetric_matrices ring3 /\
  (forall i, (i < n_rows ring3)%nat -> zero_row_sum ring3 i) /\
  symmetric_riemann burgers ring3 ring_state /\ nonneg_riemann burgers /\ plain burgers /\
  central_flux burgers 1 (fun a _ _ => a) /\ active ring3 2 /\
  fst ring_state 1%nat tt <> fst ring_state 2%nat tt.
Proof. exact ring3_instance. Qed.

(** ** C17 *)

(** Off-diagonal entries: maximum of the two wave viscosities of the pair, for
    every distribution and numbering; in particular symmetric and nonnegative. *)
Theorem C17_viscosity :
  forall K (S : system K) M num_min old d0 i j,
    symmetric_pattern M -> valid_numbering M -> pairs_listed M ->
    symmetric_riemann S M old -> nonneg_riemann S ->
    (i < n_rows M)%nat -> In j (columns M i) -> j <> i ->
    let d := dij_matrix S M num_min old d0 in
    d i j = Rmax (wave_viscosity S M old i j) (wave_viscosity S M old j i) /\
    d j i = d i j /\ 0 <= d i j.
Proof. exact C17_viscosity_proof. Qed.
Print Assumptions C17_viscosity.

(** Diagonal entries: minus the sum of the off-diagonal ones, with a floor. *)
Theorem C17_diagonal :
  forall K (S : system K) M num_min old d0 i,
    symmetric_pattern M -> (i < n_rows M)%nat ->
    let d := dij_matrix S M num_min old d0 in
    d i i = - Rmax (lsum (d i) (remove Nat.eq_dec i (columns M i))) (1000000 * num_min).
Proof. exact C17_diagonal_proof. Qed.
Print Assumptions C17_diagonal.

(** The computed step size: positive, at most the cap, tau * 2 |d_ii| <= cfl m_i
    in every row, and it is either the cap or there is equality in a row. *)
Theorem C17_step_size :
  forall K (S : system K) M num_min cfl old d0 tau_max,
    symmetric_pattern M -> positive_masses M -> 0 < num_min -> 0 < cfl -> 0 < tau_max ->
    exists tau,
      TimeInt.select_tau 0 (Some tau_max) (row_tau S M num_min cfl old d0) = TimeInt.Ok tau /\
      0 < tau <= tau_max /\
      (forall i, active M i ->
         tau * (2 * Rabs (dij_matrix S M num_min old d0 i i)) <= cfl * mass M i) /\
      (tau = tau_max \/ exists i, active M i /\
         tau * (2 * Rabs (dij_matrix S M num_min old d0 i i)) = cfl * mass M i).
Proof. exact C17_step_size_proof. Qed.
Print Assumptions C17_step_size.

(** ** C18 *)

(** Without limiter passes and with a step size below all proposals, the new
    state of a row lies in every convex set that contains the old state and the
    bar states of the row (pairs without viscosity must have equal fluxes). *)
Theorem C18_convex_combination :
  forall K (S : system K) M num_min cfl dim F X order a0 d0 l0 ln0 new0 old stages tau i,
    plain S -> central_flux S dim F -> symmetric_pattern M -> positive_masses M ->
    0 < num_min -> 0 < cfl <= 1 -> zero_row_sum M i -> active M i ->
    0 <= tau -> (forall t, In t (row_tau S M num_min cfl old d0) -> tau <= t) ->
    convex_set X -> X (fst old i) ->
    let d := dij_matrix S M num_min old d0 in
    (forall j, In j (columns M i) -> j <> i ->
       (0 < d i j /\ X (bar_state S M dim F old (d i j) i j)) \/
       (d i j = 0 /\ forall k,
          dotp dim (F (flux_contribution K S (snd old) j (fst old j)) k) (c_ij M i j) =
          dotp dim (F (flux_contribution K S (snd old) i (fst old i)) k) (c_ij M i j))) ->
    X (fst (hyperbolic_update S M num_min order 0 a0 d0 l0 ln0 new0 old stages tau) i).
Proof. exact C18_convex_combination_proof. Qed.
Print Assumptions C18_convex_combination.

(** Hence: if the Riemann solver's estimate is large enough for a convex set
    [X], then [X] is invariant under the low-order update. *)
Theorem C18_invariant_domain :
  forall K (S : system K) M num_min cfl dim F X order a0 d0 l0 ln0 new0 old stages tau,
    plain S -> central_flux S dim F -> symmetric_pattern M -> positive_masses M ->
    valid_numbering M -> pairs_listed M -> symmetric_riemann S M old -> nonneg_riemann S ->
    mesh_dimension M dim -> 0 < num_min -> 0 < cfl <= 1 -> (forall i, active M i -> zero_row_sum M i) ->
    0 <= tau -> (forall t, In t (row_tau S M num_min cfl old d0) -> tau <= t) ->
    convex_set X -> wave_bound S dim F (snd old) X -> (forall i, active M i -> X (fst old i)) ->
    forall i, active M i ->
    X (fst (hyperbolic_update S M num_min order 0 a0 d0 l0 ln0 new0 old stages tau) i).
Proof. exact C18_invariant_domain_proof. Qed.
Print Assumptions C18_invariant_domain.

Example C18_instance : forall b, wave_bound burgers 1 (fun a _ _ => a) tt (in_interval b).
Proof. exact burgers_wave_bound. Qed.

(** ** C19 *)

(** The total of a component changes only by the diagonal and boundary flux
    terms, whatever the limiter returns, for any number of limiter passes. *)
Theorem C19_conservation :
  forall K (S : system K) M num_min order n a0 d0 l0 ln0 new0 old stages tau k,
    symmetric_pattern M -> positive_masses M -> valid_numbering M -> pairs_listed M ->
    symmetric_matrices M -> symmetric_riemann S M old -> nonneg_riemann S ->
    source_free S k -> swapped_equilibrated S ->
    (skew_divergence S M (flux_divergence K S) k /\
     (have_high_order_flux K S = true ->
      skew_divergence S M (high_order_flux_divergence K S) k)
     \/ (stages = [] /\ have_high_order_flux K S = false)) ->
    let rows := active_rows M in
    total M rows (fst (hyperbolic_update S M num_min order n a0 d0 l0 ln0 new0 old stages tau)) k =
    total M rows (fst old) k
    + tau * lsum (fun i => lsum (fun j =>
        flux_divergence K S (flux_contribution K S (snd old) i (fst old i))
          (flux_contribution K S (snd old) j (fst old j)) (c_ij M i j) k) (columns M i)) rows.
Proof. exact C19_conservation_proof. Qed.
Print Assumptions C19_conservation.

(** Exact conservation when c_ij = -c_ji for all pairs and c_ii = 0. *)
Theorem C19_exact :
  forall K (S : system K) M num_min dim F order n a0 d0 l0 ln0 new0 old stages tau k,
    symmetric_pattern M -> positive_masses M -> valid_numbering M ->
    symmetric_matrices M -> symmetric_riemann S M old -> nonneg_riemann S ->
    plain S -> central_flux S dim F -> have_high_order_flux K S = false ->
    (forall i j, active M i -> In j (columns M i) -> skew_at M i j) ->
    let rows := active_rows M in
    total M rows (fst (hyperbolic_update S M num_min order n a0 d0 l0 ln0 new0 old stages tau)) k =
    total M rows (fst old) k.
Proof. exact C19_exact_proof. Qed.
Print Assumptions C19_exact.

(** ** C20 *)

(** If the low-order result is within the bounds of each row and the limiter
    satisfies its contract for one pair, the result is within the bounds of
    each row (no, one or two limiter passes). *)
Theorem C20_inside_bounds :
  forall K (S : system K) M num_min inside order n a0 d0 l0 ln0 new0 old stages tau,
    symmetric_pattern M -> (forall b, convex_set (inside b)) -> limiter_guarantee S inside ->
    (n <= 2)%nat ->
    let bounds := limiter_bounds_i S M num_min old (dij_matrix S M num_min old d0) tau order in
    let result n := fst (hyperbolic_update S M num_min order n a0 d0 l0 ln0 new0 old stages tau) in
    (forall i, active M i -> inside (bounds i) (result 0%nat i)) ->
    forall i, active M i -> inside (bounds i) (result n i).
Proof. exact C20_inside_bounds_proof. Qed.
Print Assumptions C20_inside_bounds.

Example C20_instance :
  (forall b, convex_set (in_interval b)) /\ limiter_guarantee burgers in_interval /\
  fst (interval_limit (0, 1) (fun _ => 1 / 2) (fun _ => 2)) = 1 / 4.
Proof. exact interval_instance. Qed.

(** Discontinuous ansatz: the bounds of a row after the extension contain its own bounds and
    those of all rows of its stencil, in whatever order the rows are processed. *)
Theorem C20_extended_bounds :
  forall K (S : system K) M (inside : BD K S -> state K -> Prop),
    (forall a b u, inside a u \/ inside b u -> inside (combine_bounds K S a b) u) ->
    forall order b0 i u,
      (inside (b0 i) u -> inside (extend_bounds S M order b0 i) u) /\
      (In i order -> constrained M i = false -> forall j, In j (neighbours M i) -> inside (b0 j) u ->
       inside (extend_bounds S M order b0 i) u).
Proof. exact @C20_extended_bounds_proof. Qed.
Print Assumptions C20_extended_bounds.

(** Upper bounds that are combined by their maximum, on a chain of three rows. *)
Example C20_extended_ex :
  (forall a b u, (u tt <= a \/ u tt <= b) -> u tt <= combine_bounds unit chain_system a b) /\
  extend_bounds chain_system chain [2; 1; 0]%nat INR 1%nat = 2.
Proof.
  split; [|apply chain_bounds_down].
  intros a b u [H|H]; simpl; [pose proof (Rmax_l a b)|pose proof (Rmax_r a b)]; lra.
Qed.

(** ** C21 *)

(** A uniform state remains unchanged, for all stage weights and limiters. *)
Theorem C21_uniform :
  forall K (S : system K) M num_min dim F u f order n a0 d0 l0 ln0 new0 old stages tau i,
    symmetric_pattern M -> plain S -> have_high_order_flux K S = false -> central_flux S dim F ->
    (forall i, active M i -> zero_row_sum M i) ->
    (forall v, v = old \/ In v (map fst stages) -> forall j, active M j ->
       fst v j = u /\ flux_contribution K S (snd v) j u = f) ->
    active M i ->
    fst (hyperbolic_update S M num_min order n a0 d0 l0 ln0 new0 old stages tau) i = u.
Proof. exact C21_uniform_proof. Qed.
Print Assumptions C21_uniform.

(** ** C22 *)

(** The complete step (step size, update, strategy) as the time integrator
    sees it: it is flagged exactly if the limiter reports a violation for some
    pair of some active row; a positive given step size is used as it is. *)
Theorem C22_verdict :
  forall K (S : system K) M num_min order n a0 d0 l0 ln0 new0
         (s : TimeInt.mstate ((nat -> state K) * PC K S)) old stages tau pc_new,
    symmetric_pattern M -> positive_masses M -> 0 < num_min -> 0 < TimeInt.st_cfl _ s ->
    0 < tau -> (exists i, active M i) ->
    let upd old stages tau :=
      let r := hyperbolic_update S M num_min order n a0 d0 l0 ln0 new0 old stages tau in
      ((fst r, pc_new), snd r) in
    let step := TimeInt.hyperbolic_step _ (fun cfl old => row_tau S M num_min cfl old d0) upd
                  old stages tau None s in
    let flagged := violation S M num_min order n (compute_alpha S M old a0)
                     (dij_matrix S M num_min old d0) new0 old stages tau in
    let new := fst (upd old stages tau) in
    (~ flagged -> step = (TimeInt.Ok (new, tau), s)) /\
    (flagged -> TimeInt.st_hyp _ s = TimeInt.raise_exception ->
       step = (TimeInt.Restart, TimeInt.count_hyp _ 1 0 s)) /\
    (flagged -> TimeInt.st_hyp _ s = TimeInt.warn ->
       step = (TimeInt.Ok (new, tau), TimeInt.count_hyp _ 0 1 s)) /\
    (n = 0%nat -> ~ flagged).
Proof. exact C22_verdict_proof. Qed.
Print Assumptions C22_verdict.

(** With at least one pass, a step on a set of rows that is not flagged has a
    low-order update within all bounds, if success means just that. *)
Theorem C22_unflagged :
  forall K (S : system K) M num_min (inside : BD K S -> state K -> Prop)
         order n a0 d0 l0 ln0 new0 old stages tau i,
    symmetric_pattern M -> n <> 0%nat ->
    (forall b u p, snd (limiter_limit K S b u p) = true <-> inside b u) ->
    ~ violation S M num_min order n (compute_alpha S M old a0)
        (dij_matrix S M num_min old d0) new0 old stages tau ->
    active M i ->
    inside (limiter_bounds_i S M num_min old (dij_matrix S M num_min old d0) tau order i)
      (fst (hyperbolic_update S M num_min order 0 a0 d0 l0 ln0 new0 old stages tau) i).
Proof. exact C22_unflagged_proof. Qed.
Print Assumptions C22_unflagged.

(** ** C61 *)

(** If nothing is limited and diagonal fluxes vanish (rows away from the
    boundary), stages enter with exactly the given weights. *)
Theorem C61_unlimited_update :
  forall K (S : system K) M num_min order n a0 d0 l0 ln0 new0 old stages tau i k,
    plain S -> symmetric_pattern M -> positive_masses M -> symmetric_matrices M ->
    (forall i a k, active M i ->
       flux_divergence K S a a (c_ij M i i) k = 0 /\
       (have_high_order_flux K S = true ->
        high_order_flux_divergence K S a a (c_ij M i i) k = 0)) ->
    (forall b u p, fst (limiter_limit K S b u p) = 1) ->
    (n = 1 \/ n = 2)%nat -> active M i ->
    fst (hyperbolic_update S M num_min order n a0 d0 l0 ln0 new0 old stages tau) i k =
    weighted_update S M (compute_alpha S M old a0) (dij_matrix S M num_min old d0)
      old stages tau i k.
Proof. exact C61_unlimited_update_proof. Qed.
Print Assumptions C61_unlimited_update.

(** At boundary rows (c_ii <> 0) it does not: the diagonal flux of the stages
    is lost.  Linear advection on one element, the old state is 0, the only
    stage is the uniform state 1 (whose flux divergence vanishes). *)
Theorem C61_boundary_rows_refuted :
  exists K (S : system K) M num_min order a0 d0 l0 ln0 new0 old stages tau i k,
    plain S /\ symmetric_pattern M /\ positive_masses M /\ symmetric_matrices M /\
    (forall i, zero_row_sum M i) /\ 0 < tau /\
    (forall b u p, fst (limiter_limit K S b u p) = 1) /\ active M i /\
    fst (hyperbolic_update S M num_min order 1 a0 d0 l0 ln0 new0 old stages tau) i k <>
    weighted_update S M (compute_alpha S M old a0) (dij_matrix S M num_min old d0)
      old stages tau i k.
Proof. exact C61_boundary_rows_refuted_proof. Qed.
Print Assumptions C61_boundary_rows_refuted.

(** The same for source terms: a uniform state with u' = u and no fluxes; the
    source of the only stage should enter with its weight. *)
Theorem C61_sources_refuted :
  exists K (S : system K) M num_min order a0 d0 l0 ln0 new0 old stage w tau i k,
    symmetric_pattern M /\ positive_masses M /\ symmetric_matrices M /\
    (forall i, zero_row_sum M i) /\ 0 < tau /\
    (forall a b c k, flux_divergence K S a b c k = 0) /\
    (forall b u p, fst (limiter_limit K S b u p) = 1) /\ active M i /\
    (forall j, fst old j = fst old i /\ fst stage j = fst stage i) /\
    fst (hyperbolic_update S M num_min order 1 a0 d0 l0 ln0 new0 old [(stage, w)] tau) i k <>
    fst old i k + tau *
      ((1 - w) * nodal_source K S (snd old) i (fst old i) tau k
       + w * nodal_source K S (snd stage) i (fst stage i) tau k).
Proof. exact C61_sources_refuted_proof. Qed.
Print Assumptions C61_sources_refuted.

(** ** C62 *)

(** Two distributions / numberings / vectorizations of the same problem, any
    previous contents of temporary storage: same result (continuous ansatz). *)
Theorem C62_independence :
  forall K (S : system K) M M' num_min old stages tau n
         order order' a0 a0' d0 d0' l0 l0' ln0 ln0' new0 new0',
    same_problem M M' -> symmetric_pattern M -> symmetric_pattern M' ->
    order_independent S -> valid_numbering M -> valid_numbering M' ->
    pairs_listed M -> pairs_listed M' -> symmetric_riemann S M old ->
    discontinuous M = false -> (n <= 2)%nat ->
    let r := hyperbolic_update S M num_min order n a0 d0 l0 ln0 new0 old stages tau in
    let r' := hyperbolic_update S M' num_min order' n a0' d0' l0' ln0' new0' old stages tau in
    (forall i, active M i -> fst r' i = fst r i) /\ snd r' = snd r.
Proof. exact C62_independence_proof. Qed.
Print Assumptions C62_independence.

(** The step size proposals are the same, too (any ansatz). *)
Theorem C62_step_size :
  forall K (S : system K) M M' num_min cfl old d0 d0',
    same_problem M M' -> symmetric_pattern M -> symmetric_pattern M' ->
    valid_numbering M -> valid_numbering M' -> pairs_listed M -> pairs_listed M' ->
    symmetric_riemann S M old ->
    row_tau S M' num_min cfl old d0' = row_tau S M num_min cfl old d0.
Proof. exact C62_step_size_proof. Qed.
Print Assumptions C62_step_size.

Example C62_instance :
  same_problem ring3 ring3' /\ order_independent burgers /\
  symmetric_pattern ring3' /\ valid_numbering ring3' /\ pairs_listed ring3' /\
  owner ring3 2%nat <> owner ring3 0%nat /\ owner ring3' 2%nat = owner ring3' 0%nat.
Proof. exact ring3'_instance. Qed.

(** For a discontinuous ansatz rows combine the bounds of their neighbours in
    place: the result depends on the order in which (concurrent) rows do so. *)
Theorem C62_discontinuous_refuted :
  exists K (S : system K) M num_min a0 d0 l0 ln0 new0 old stages tau order order' i,
    symmetric_pattern M /\ positive_masses M /\ valid_numbering M /\ pairs_listed M /\
    symmetric_matrices M /\ order_independent S /\ symmetric_riemann S M old /\
    (forall a b, combine_bounds K S a b = combine_bounds K S b a) /\
    Permutation order order' /\ active M i /\
    fst (hyperbolic_update S M num_min order 1 a0 d0 l0 ln0 new0 old stages tau) i <>
    fst (hyperbolic_update S M num_min order' 1 a0 d0 l0 ln0 new0 old stages tau) i.
Proof. exact C62_discontinuous_refuted_proof. Qed.
Print Assumptions C62_discontinuous_refuted.
