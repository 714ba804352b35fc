(** * Property theorems: scheme with an arbitrary equation of state (C122 - C125) *)
From Coq Require Import Reals List Arith Bool Lia Lra.
From Verif Require Import RVec EulerSystem EulerLimiter AeosSystem AeosLimiter AeosPrecompute Eos SchemeSpec SchemeExamples
  EulerSchemeSpec AeosScheme AeosSchemeSpec AeosSchemeFinal AeosSchemeExamples AeosSchemeLimits AeosSchemeDiscontinuous.
From Verif Require Import Scheme.
Import ListNotations.
Local Open Scope R_scope.

(** ** C122 *)

(** On one rank the sums of density, momentum and energy over all rows are conserved by a
    step, for any equation of state, any state and any step size. *)
Theorem C122_one_rank : forall p dim M num_min order n a0 d0 l0 ln0 new0
    (old : (nat -> state nat) * PC nat (aeos_scheme p dim)) stages tau k,
  symmetric_pattern M -> positive_masses M -> valid_numbering M -> symmetric_matrices M ->
  (forall i j, active M i -> In j (columns M i) -> skew_at M i j) ->
  (forall i j, (i < n_rows M)%nat -> (j < n_rows M)%nat -> owner M i = owner M j) ->
  total M (active_rows M) (fst (hyperbolic_update (aeos_scheme p dim) M num_min order n a0 d0 l0 ln0 new0 old stages tau)) k =
  total M (active_rows M) (fst old) k.
Proof. exact C122_one_rank_proof. Qed.
Print Assumptions C122_one_rank.

(** Three rows on a ring. *)
Example C122_one_rank_ex :
  symmetric_pattern ring3' /\ positive_masses ring3' /\ valid_numbering ring3' /\ symmetric_matrices ring3' /\
  (forall i j, active ring3' i -> In j (columns ring3' i) -> skew_at ring3' i j) /\
  (forall i j, (i < n_rows ring3')%nat -> (j < n_rows ring3')%nat -> owner ring3' i = owner ring3' j) /\
  (exists i j, active ring3' i /\ In j (columns ring3' i) /\ i <> j).
Proof. exact C122_one_rank_setting. Qed.

(** On several ranks this holds if, for any two neighbours on different ranks, the
    pressures differ, or the surrogate gammas are at most 5/3, or strict bounds are
    used and pinf = 0. *)
Theorem C122_ranks : forall p dim M num_min order n a0 d0 l0 ln0 new0
    (old : (nat -> state nat) * PC nat (aeos_scheme p dim)) pc0 stages tau k,
  symmetric_pattern M -> positive_masses M -> valid_numbering M -> symmetric_matrices M -> mesh_dimension M dim ->
  (forall i j, active M i -> In j (columns M i) -> skew_at M i j) ->
  let e := a_eos (ap_system p) in
  let pressure u := eos_pressure e (a_density u) (a_internal_energy dim u / a_density u) in
  (forall i, active M i -> aeos_gas e dim (fst old i)) ->
  snd old = aeos_precomputed p dim M (fst old) pc0 ->
  (forall i j, active M i -> In j (columns M i) -> owner M i <> owner M j ->
     let U_i := fst old i in let U_j := fst old j in
     pressure U_i <> pressure U_j \/
     (surrogate_gamma e dim U_i (pressure U_i) <= 5 / 3 /\ surrogate_gamma e dim U_j (pressure U_j) <= 5 / 3) \/
     (compute_strict_bounds (ap_system p) = true /\ interp_pinf e = 0)) ->
  total M (active_rows M) (fst (hyperbolic_update (aeos_scheme p dim) M num_min order n a0 d0 l0 ln0 new0 old stages tau)) k =
  total M (active_rows M) (fst old) k.
Proof. exact C122_ranks_proof. Qed.
Print Assumptions C122_ranks.

(** A Noble-Abel gas on a ring of three rows on two ranks. *)
Example C122_ranks_ex :
  symmetric_pattern ring3 /\ positive_masses ring3 /\ valid_numbering ring3 /\ symmetric_matrices ring3 /\ mesh_dimension ring3 1 /\
  (forall i j, active ring3 i -> In j (columns ring3 i) -> skew_at ring3 i j) /\
  (forall i, active ring3 i -> aeos_gas gas_eos 1 (noble_U i)) /\
  (forall i j, active ring3 i -> In j (columns ring3 i) -> owner ring3 i <> owner ring3 j ->
     eos_pressure gas_eos (a_density (noble_U i)) (a_internal_energy 1 (noble_U i) / a_density (noble_U i)) <>
     eos_pressure gas_eos (a_density (noble_U j)) (a_internal_energy 1 (noble_U j) / a_density (noble_U j))) /\
  (exists i j, active ring3 i /\ In j (columns ring3 i) /\ owner ring3 i <> owner ring3 j).
Proof. exact C122_ranks_setting. Qed.

(** Otherwise it may fail: equal pressures on both sides of a rank boundary, gamma = 3
    and interpolated bounds.  The total density grows. *)
Theorem C122_ranks_refuted :
  exists p M (old : (nat -> state nat) * PC nat (aeos_scheme p 1)) pc0 num_min cfl tau,
    symmetric_pattern M /\ positive_masses M /\ valid_numbering M /\ symmetric_matrices M /\ pairs_listed M /\ mesh_dimension M 1 /\
    (forall i j, active M i -> In j (columns M i) -> skew_at M i j) /\
    (forall i, active M i -> aeos_gas (a_eos (ap_system p)) 1 (fst old i)) /\
    snd old = aeos_precomputed p 1 M (fst old) pc0 /\
    0 < num_min /\ 0 < cfl <= 1 /\ 0 < tau /\
    (forall d0 t, In t (row_tau (aeos_scheme p 1) M num_min cfl old d0) -> tau <= t) /\
    forall order a0 d0 l0 ln0 new0 stages,
    total M (active_rows M) (fst old) 0%nat <
    total M (active_rows M) (fst (hyperbolic_update (aeos_scheme p 1) M num_min order 0 a0 d0 l0 ln0 new0 old stages tau)) 0%nat.
Proof. exact C122_ranks_refuted_proof. Qed.
Print Assumptions C122_ranks_refuted.

(** ** C123 *)

(** The low-order update keeps density and excess energy positive, for any equation of
    state and any interpolation constants. *)
Theorem C123_admissible : forall p dim M num_min cfl order a0 d0 l0 ln0 new0
    (old : (nat -> state nat) * PC nat (aeos_scheme p dim)) pc0 stages tau,
  symmetric_pattern M -> positive_masses M -> valid_numbering M -> pairs_listed M -> mesh_dimension M dim ->
  0 < num_min -> 0 < cfl <= 1 -> 0 <= tau ->
  (forall t, In t (row_tau (aeos_scheme p dim) M num_min cfl old d0) -> tau <= t) ->
  (forall i, active M i -> zero_row_sum M i) ->
  snd old = aeos_precomputed p dim M (fst old) pc0 ->
  let e := a_eos (ap_system p) in
  (forall i, active M i -> aeos_gas e dim (fst old i)) ->
  forall i, active M i ->
  admissible_gas e dim (fst (hyperbolic_update (aeos_scheme p dim) M num_min order 0 a0 d0 l0 ln0 new0 old stages tau) i).
Proof. exact C123_admissible_proof. Qed.
Print Assumptions C123_admissible.

(** For pinf = 0 the density stays below 1 / b. *)
Theorem C123_covolume : forall p dim M num_min cfl order a0 d0 l0 ln0 new0
    (old : (nat -> state nat) * PC nat (aeos_scheme p dim)) pc0 stages tau,
  symmetric_pattern M -> positive_masses M -> valid_numbering M -> pairs_listed M -> mesh_dimension M dim ->
  0 < num_min -> 0 < cfl <= 1 -> 0 <= tau ->
  (forall t, In t (row_tau (aeos_scheme p dim) M num_min cfl old d0) -> tau <= t) ->
  (forall i, active M i -> zero_row_sum M i) ->
  snd old = aeos_precomputed p dim M (fst old) pc0 ->
  let e := a_eos (ap_system p) in
  interp_pinf e = 0 ->
  (forall i, active M i -> aeos_gas e dim (fst old i)) ->
  forall i, active M i ->
  interp_b e * fst (hyperbolic_update (aeos_scheme p dim) M num_min order 0 a0 d0 l0 ln0 new0 old stages tau) i 0%nat < 1.
Proof. exact C123_covolume_proof. Qed.
Print Assumptions C123_covolume.

(** For pinf = 0 and a pressure that is positive wherever the excess energy is, the set of
    states is invariant. *)
Theorem C123_invariant : forall p dim M num_min cfl order a0 d0 l0 ln0 new0
    (old : (nat -> state nat) * PC nat (aeos_scheme p dim)) pc0 stages tau,
  symmetric_pattern M -> positive_masses M -> valid_numbering M -> pairs_listed M -> mesh_dimension M dim ->
  0 < num_min -> 0 < cfl <= 1 -> 0 <= tau ->
  (forall t, In t (row_tau (aeos_scheme p dim) M num_min cfl old d0) -> tau <= t) ->
  (forall i, active M i -> zero_row_sum M i) ->
  snd old = aeos_precomputed p dim M (fst old) pc0 ->
  let e := a_eos (ap_system p) in
  compatible_eos e -> interp_pinf e = 0 ->
  (forall i, active M i -> aeos_gas e dim (fst old i)) ->
  forall i, active M i ->
  aeos_gas e dim (fst (hyperbolic_update (aeos_scheme p dim) M num_min order 0 a0 d0 l0 ln0 new0 old stages tau) i).
Proof. exact C123_invariant_proof. Qed.
Print Assumptions C123_invariant.

(** This is the case for polytropic gases, Noble-Abel stiffened gases and van der
    Waals gases. *)
Theorem C123_compatible :
  (forall o, 1 < pg_gamma o -> compatible_eos (pg_eos o)) /\
  (forall o gamma r b q pinf, 1 < gamma -> compatible_eos (na_eos (na_parse gamma r b q pinf o))) /\
  (forall o gamma a b r, 1 < gamma -> 0 <= a -> 0 < b -> compatible_eos (vw_eos (vw_parse gamma a b r o))).
Proof. exact C123_compatible_proof. Qed.
Print Assumptions C123_compatible.

(** A Noble-Abel gas on a ring of three rows on two ranks. *)
Example C123_ex :
  exists tau, 0 < tau /\
  symmetric_pattern ring3 /\ positive_masses ring3 /\ valid_numbering ring3 /\ pairs_listed ring3 /\ mesh_dimension ring3 1 /\
  (forall t, In t (row_tau (aeos_scheme noble_params 1) ring3 (1 / 10000) 1 (noble_old ring3) (fun _ _ => 0)) -> tau <= t) /\
  (forall i, active ring3 i -> zero_row_sum ring3 i) /\
  snd (noble_old ring3) = aeos_precomputed noble_params 1 ring3 (fst (noble_old ring3)) noble_pc0 /\
  compatible_eos gas_eos /\ interp_pinf gas_eos = 0 /\ interp_b gas_eos = 1 / 8 /\
  (forall i, active ring3 i -> aeos_gas gas_eos 1 (fst (noble_old ring3) i)) /\
  fst (noble_old ring3) 0%nat 0%nat <> fst (noble_old ring3) 2%nat 0%nat.
Proof. exact C123_setting. Qed.

(** For pinf > 0 the density bound may fail: two streams of a liquid under tension
    collide, and the density exceeds 1 / b after the step. *)
Theorem C123_covolume_refuted :
  forall strict,
  exists p M (old : (nat -> state nat) * PC nat (aeos_scheme p 1)) pc0 num_min cfl tau,
    symmetric_pattern M /\ positive_masses M /\ valid_numbering M /\ pairs_listed M /\ mesh_dimension M 1 /\
    (forall i, active M i -> zero_row_sum M i) /\
    compute_strict_bounds (ap_system p) = strict /\ compatible_eos (a_eos (ap_system p)) /\
    (forall i, active M i -> aeos_gas (a_eos (ap_system p)) 1 (fst old i)) /\
    snd old = aeos_precomputed p 1 M (fst old) pc0 /\
    0 < num_min /\ 0 < cfl <= 1 /\ 0 < tau /\
    (forall d0 t, In t (row_tau (aeos_scheme p 1) M num_min cfl old d0) -> tau <= t) /\
    exists i, active M i /\ forall order a0 d0 l0 ln0 new0 stages,
    1 < interp_b (a_eos (ap_system p)) *
      fst (hyperbolic_update (aeos_scheme p 1) M num_min order 0 a0 d0 l0 ln0 new0 old stages tau) i 0%nat.
Proof. exact C123_covolume_refuted_proof. Qed.
Print Assumptions C123_covolume_refuted.

(** ** C124 *)

(** The update after up to two limiter passes is inside of the bounds used by the limiter,
    hence admissible and below the maximal density, and no violation is reported, if
    the bounds are below the maximal density and, for a discontinuous ansatz, above
    1 / (1 + b). *)
Theorem C124_bounds_partial :
  forall p dim M num_min cfl order d0 (old : (nat -> state nat) * PC nat (aeos_scheme p dim)) pc0 tau,
  limited_step p dim M num_min cfl order d0 old pc0 tau ->
  let bounds := limiter_bounds_i (aeos_scheme p dim) M num_min old (dij_matrix (aeos_scheme p dim) M num_min old d0) tau order in
  (forall i, active M i -> interp_b (a_eos (ap_system p)) * arho_max (bounds i) < 1) ->
  (forall i, active M i -> discontinuous M = false \/ 1 <= (1 + interp_b (a_eos (ap_system p))) * arho_min (bounds i)) ->
  forall n a0 l0 ln0 new0 stages, (n <= 2)%nat ->
  (forall i, active M i ->
     let u := fst (hyperbolic_update (aeos_scheme p dim) M num_min order n a0 d0 l0 ln0 new0 old stages tau) i in
     a_entropy_inside (a_eos (ap_system p)) dim (bounds i) u /\
     admissible_gas (a_eos (ap_system p)) dim u /\ interp_b (a_eos (ap_system p)) * u 0%nat < 1) /\
  ~ violation (aeos_scheme p dim) M num_min order n (compute_alpha (aeos_scheme p dim) M old a0)
      (dij_matrix (aeos_scheme p dim) M num_min old d0) new0 old stages tau.
Proof. exact C124_bounds_partial_proof. Qed.
Print Assumptions C124_bounds_partial.

(** For a continuous ansatz and without relaxation of the bounds or without covolume this
    holds without further conditions: the scheme keeps admissible states admissible. *)
Theorem C124_unrelaxed :
  forall p dim M num_min cfl order d0 (old : (nat -> state nat) * PC nat (aeos_scheme p dim)) pc0 tau,
  limited_step p dim M num_min cfl order d0 old pc0 tau ->
  ap_relaxation p = 0 \/ interp_b (a_eos (ap_system p)) = 0 -> discontinuous M = false ->
  forall n a0 l0 ln0 new0 stages, (n <= 2)%nat ->
  (forall i, active M i ->
     let u := fst (hyperbolic_update (aeos_scheme p dim) M num_min order n a0 d0 l0 ln0 new0 old stages tau) i in
     admissible_gas (a_eos (ap_system p)) dim u /\ interp_b (a_eos (ap_system p)) * u 0%nat < 1) /\
  ~ violation (aeos_scheme p dim) M num_min order n (compute_alpha (aeos_scheme p dim) M old a0)
      (dij_matrix (aeos_scheme p dim) M num_min old d0) new0 old stages tau.
Proof. exact C124_unrelaxed_proof. Qed.
Print Assumptions C124_unrelaxed.

(** A Noble-Abel gas on a ring of three rows. *)
Example C124_ex :
  exists num_min tau, 0 < tau /\
  limited_step noble_params 1 ring3 num_min 1 [0; 1; 2]%nat (fun _ _ => 0) (noble_old ring3) noble_pc0 tau /\
  ap_relaxation noble_params = 0 /\ interp_b gas_eos = 1 / 8 /\ discontinuous ring3 = false /\
  fst (noble_old ring3) 0%nat 0%nat <> fst (noble_old ring3) 2%nat 0%nat.
Proof. exact C124_setting. Qed.

(** ** C125 *)

(** Bounds combined from two neighbours contain the states of each of them if both use the
    same gamma, or for specific volumes up to 1 + b. *)
Theorem C125_combine : forall e dim a b u,
  0 <= interp_b e -> 0 <= excess_energy e dim u ->
  (0 < arho_min a /\ interp_b e * arho_max a < 1 /\ 1 < agamma_min a /\ 0 < as_min a) ->
  (0 < arho_min b /\ interp_b e * arho_max b < 1 /\ 1 < agamma_min b /\ 0 < as_min b) ->
  agamma_min a = agamma_min b \/ 1 <= (1 + interp_b e) * u 0%nat ->
  a_entropy_inside e dim a u \/ a_entropy_inside e dim b u ->
  a_entropy_inside e dim (a_combine_bounds a b) u.
Proof. exact C125_combine_proof. Qed.
Print Assumptions C125_combine.

(** Two bounds with different gammas and a state between. *)
Example C125_ex :
  exists e a b u,
  interp_b e = 1 / 8 /\ 0 < excess_energy e 1 u /\
  (0 < arho_min a /\ interp_b e * arho_max a < 1 /\ 1 < agamma_min a /\ 0 < as_min a) /\
  (0 < arho_min b /\ interp_b e * arho_max b < 1 /\ 1 < agamma_min b /\ 0 < as_min b) /\
  agamma_min a <> agamma_min b /\ 1 <= (1 + interp_b e) * u 0%nat /\ u 0%nat < 1 /\
  a_entropy_inside e 1 a u /\ as_min a <> as_min b.
Proof. exact C125_combine_setting. Qed.

(** Otherwise a low-order update may be outside of the extended bounds of its own row:
    four cells at rest with equal pressures, with strict or interpolated bounds. *)
Theorem C125_extended_refuted :
  forall strict,
  exists p M num_min order (old : (nat -> state nat) * PC nat (aeos_scheme p 1)) pc0,
  compute_strict_bounds (ap_system p) = strict /\ ap_relaxation p = 0 /\ discontinuous M = true /\
  exists tau, 0 < tau /\ limited_step p 1 M num_min 1 order (fun _ _ => 0) old pc0 tau /\
  exists i, active M i /\ forall a0 l0 ln0 new0 stages,
  ~ a_entropy_inside (a_eos (ap_system p)) 1
      (limiter_bounds_i (aeos_scheme p 1) M num_min old (dij_matrix (aeos_scheme p 1) M num_min old (fun _ _ => 0)) tau order i)
      (fst (hyperbolic_update (aeos_scheme p 1) M num_min order 0 a0 (fun _ _ => 0) l0 ln0 new0 old stages tau) i).
Proof. exact C125_extended_refuted_proof. Qed.
Print Assumptions C125_extended_refuted.
