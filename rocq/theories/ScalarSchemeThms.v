(** * Property theorems: scheme for scalar conservation equations (C114 - C117) *)
From Coq Require Import Reals List Lra.
From Verif Require Import RVec EulerSystem EulerLimiter Scalar ScalarSpec ScalarScheme ScalarSchemeSpec SchemeSpec SchemeExamples ScalarSchemeFinal.
From Verif Require Import Scheme.
Import ListNotations.
Local Open Scope R_scope.

(** ** C114 *)

(** The integral of the unknown is unchanged by the complete update if the random
    numbers of the two rows of a pair mirror each other, in particular without
    random entropies: any number of ranks, limiter passes, stages, any step. *)
Theorem C114_conservation :
  forall p dim M num_min order n a0 d0 l0 ln0 new0
         (old : (nat -> state unit) * PC unit (scalar_scheme p dim)) stages tau k,
    symmetric_pattern M -> positive_masses M -> valid_numbering M -> symmetric_matrices M -> pairs_listed M ->
    (forall i j, active M i -> In j (columns M i) -> skew_at M i j) ->
    (forall i j, sp_draws p j i = map (fun x => 1 - x) (sp_draws p i j)) ->
    let rows := active_rows M in
    total M rows (fst (hyperbolic_update (scalar_scheme p dim) M num_min order n a0 d0 l0 ln0 new0 old stages tau)) k =
    total M rows (fst old) k.
Proof. exact C114_conservation_proof. Qed.
Print Assumptions C114_conservation.

(** Burgers on a ring of three rows on two ranks. *)
Example C114_conservation_ex :
  symmetric_pattern ring3 /\ positive_masses ring3 /\ valid_numbering ring3 /\ symmetric_matrices ring3 /\ pairs_listed ring3 /\
  (forall i j, active ring3 i -> In j (columns ring3 i) -> skew_at ring3 i j) /\
  (forall i j, sp_draws water j i = map (fun x => 1 - x) (sp_draws water i j)) /\
  (exists i j, (i < n_rows ring3)%nat /\ (j < n_rows ring3)%nat /\ owner ring3 i <> owner ring3 j).
Proof. exact C114_setting. Qed.

(** On a single rank with any random numbers. *)
Theorem C114_one_rank :
  forall p dim M num_min order n a0 d0 l0 ln0 new0
         (old : (nat -> state unit) * PC unit (scalar_scheme p dim)) stages tau k,
    symmetric_pattern M -> positive_masses M -> valid_numbering M -> symmetric_matrices M ->
    (forall i j, active M i -> In j (columns M i) -> skew_at M i j) ->
    (forall i j, (i < n_rows M)%nat -> (j < n_rows M)%nat -> owner M i = owner M j) ->
    let rows := active_rows M in
    total M rows (fst (hyperbolic_update (scalar_scheme p dim) M num_min order n a0 d0 l0 ln0 new0 old stages tau)) k =
    total M rows (fst old) k.
Proof. exact C114_one_rank_proof. Qed.
Print Assumptions C114_one_rank.

(** The ring on one rank. *)
Example C114_one_rank_ex :
  symmetric_pattern ring3' /\ positive_masses ring3' /\ valid_numbering ring3' /\ symmetric_matrices ring3' /\
  (forall i j, active ring3' i -> In j (columns ring3' i) -> skew_at ring3' i j) /\
  (forall i j, (i < n_rows ring3')%nat -> (j < n_rows ring3')%nat -> owner ring3' i = owner ring3' j).
Proof. exact C114_one_setting. Qed.

(** With random entropies on two ranks the integral changes: the viscosity of a pair
    across the ranks is computed on both with different numbers. *)
Theorem C114_ranks_refuted :
  exists p M (old : (nat -> state unit) * PC unit (scalar_scheme p 1)) pc0 num_min cfl tau,
    (forall i j, exists x, sp_draws p i j = [x] /\ 0 <= x <= 1) /\
    symmetric_pattern M /\ positive_masses M /\ valid_numbering M /\ symmetric_matrices M /\ pairs_listed M /\
    (forall i j, active M i -> In j (columns M i) -> skew_at M i j) /\
    snd old = scalar_precomputed p 1 M (fst old) pc0 /\
    0 < num_min /\ 0 < cfl <= 1 /\ 0 < tau /\
    (forall d0 t, In t (row_tau (scalar_scheme p 1) M num_min cfl old d0) -> tau <= t) /\
    forall order a0 d0 l0 ln0 new0 stages,
    total M (active_rows M) (fst (hyperbolic_update (scalar_scheme p 1) M num_min order 0 a0 d0 l0 ln0 new0 old stages tau)) tt <
    total M (active_rows M) (fst old) tt.
Proof. exact C114_ranks_refuted_proof. Qed.
Print Assumptions C114_ranks_refuted.

(** ** C115 *)

(** The low-order update is between the smallest and the largest value of the
    stencil. *)
Theorem C115_low_order :
  forall p dim M num_min cfl order a0 d0 l0 ln0 new0 pc0
         (old : (nat -> state unit) * PC unit (scalar_scheme p dim)) stages tau a b i,
    symmetric_pattern M -> positive_masses M -> valid_numbering M -> pairs_listed M ->
    (forall i, active M i -> zero_row_sum M i) ->
    snd old = scalar_precomputed p dim M (fst old) pc0 ->
    well_estimated p dim M (fst old) ->
    0 < num_min -> 0 < cfl <= 1 -> 0 <= tau ->
    (forall t, In t (row_tau (scalar_scheme p dim) M num_min cfl old d0) -> tau <= t) ->
    active M i -> (forall j, In j (columns M i) -> a <= fst old j tt <= b) ->
    a <= fst (hyperbolic_update (scalar_scheme p dim) M num_min order 0 a0 d0 l0 ln0 new0 old stages tau) i tt <= b.
Proof. exact C115_low_order_proof. Qed.
Print Assumptions C115_low_order.

(** A jump from 1 to 0. *)
Example C115_low_order_ex : 
  well_estimated water 1 ring3 (fst water_old) /\ step_U 0%nat tt <> step_U 2%nat tt /\
  (forall i, active ring3 i -> zero_row_sum ring3 i) /\
  snd water_old = scalar_precomputed water 1 ring3 (fst water_old) (fun _ _ => 0) /\
  exists tau, 0 < tau /\
  forall t, In t (row_tau (scalar_scheme water 1) ring3 (1 / 10000) 1 water_old (fun _ _ => 0)) -> tau <= t.
Proof. exact C115_setting. Qed.

(** Values of neighbours that are equal or far apart, with the flux of KPP. *)
Example C115_separated_ex : well_estimated (kpp_params true (1 / 10)) 2 ring_plane (fun i _ => if (i =? 1)%nat then 1 else 0).
Proof. exact C115_separated. Qed.

(** Not so for close values and the flux of KPP, with and without greedy wave
    speeds, averaged entropy switched on. *)
Theorem C115_kpp_refuted : forall greedy delta, 0 < delta <= 1 ->
  exists M (old : (nat -> state unit) * PC unit (scalar_scheme (kpp_params greedy delta) 2)) pc0 num_min cfl tau,
    symmetric_pattern M /\ positive_masses M /\ valid_numbering M /\ pairs_listed M /\
    (forall i, active M i -> zero_row_sum M i) /\
    snd old = scalar_precomputed (kpp_params greedy delta) 2 M (fst old) pc0 /\
    0 < num_min /\ 0 < cfl <= 1 /\ 0 <= tau /\
    (forall d0 t, In t (row_tau (scalar_scheme (kpp_params greedy delta) 2) M num_min cfl old d0) -> tau <= t) /\
    (forall j, (j < n_rows M)%nat -> - (delta / 2) <= fst old j tt <= delta / 2) /\
    exists i, active M i /\ forall order a0 d0 l0 ln0 new0 stages,
      fst (hyperbolic_update (scalar_scheme (kpp_params greedy delta) 2) M num_min order 0 a0 d0 l0 ln0 new0 old stages tau) i tt < - (delta / 2).
Proof. exact C115_kpp_refuted_proof. Qed.
Print Assumptions C115_kpp_refuted.

(** ** C116 *)

(** The result of the complete update with at most two limiter passes is within the
    bounds of the limiter. *)
Theorem C116_inside :
  forall p dim M num_min cfl order n a0 d0 l0 ln0 new0 pc0
         (old : (nat -> state unit) * PC unit (scalar_scheme p dim)) stages tau,
    symmetric_pattern M -> positive_masses M -> valid_numbering M -> pairs_listed M ->
    (forall i, active M i -> zero_row_sum M i) ->
    snd old = scalar_precomputed p dim M (fst old) pc0 ->
    well_estimated p dim M (fst old) -> zero_or_fast p dim M num_min old d0 ->
    0 < num_min -> 0 <= sp_eps p -> 0 < sp_tiny p -> 0 <= sp_relaxation p ->
    0 < cfl <= 1 -> 0 <= tau ->
    (forall t, In t (row_tau (scalar_scheme p dim) M num_min cfl old d0) -> tau <= t) ->
    (n <= 2)%nat ->
    let bounds := limiter_bounds_i (scalar_scheme p dim) M num_min old
                    (dij_matrix (scalar_scheme p dim) M num_min old d0) tau order in
    (sp_eps p = 0 \/ forall i, active M i -> 0 <= u_max (bounds i)) ->
    forall i, active M i ->
    value_inside (bounds i)
      (fst (hyperbolic_update (scalar_scheme p dim) M num_min order n a0 d0 l0 ln0 new0 old stages tau) i).
Proof. exact C116_inside_proof. Qed.
Print Assumptions C116_inside.

(** The jump from 1 to 0 with a positive machine epsilon. *)
Example C116_inside_ex : 
  zero_or_fast water 1 ring3 (1 / 10000) water_old (fun _ _ => 0) /\
  forall tau order i, active ring3 i ->
    0 <= u_max (limiter_bounds_i (scalar_scheme water 1) ring3 (1 / 10000) water_old
      (dij_matrix (scalar_scheme water 1) ring3 (1 / 10000) water_old (fun _ _ => 0)) tau order i).
Proof. exact C116_setting. Qed.

(** No limiter call of the first pass reports a violation. *)
Theorem C116_verdict :
  forall p dim M num_min cfl order n a0 d0 new0 pc0
         (old : (nat -> state unit) * PC unit (scalar_scheme p dim)) stages tau,
    symmetric_pattern M -> positive_masses M -> valid_numbering M -> pairs_listed M ->
    (forall i, active M i -> zero_row_sum M i) ->
    snd old = scalar_precomputed p dim M (fst old) pc0 ->
    well_estimated p dim M (fst old) -> zero_or_fast p dim M num_min old d0 ->
    0 < num_min -> 0 <= sp_eps p -> 0 <= sp_relaxation p ->
    0 < cfl <= 1 -> 0 <= tau ->
    (forall t, In t (row_tau (scalar_scheme p dim) M num_min cfl old d0) -> tau <= t) ->
    ~ violation (scalar_scheme p dim) M num_min order n (compute_alpha (scalar_scheme p dim) M old a0)
        (dij_matrix (scalar_scheme p dim) M num_min old d0) new0 old stages tau.
Proof. exact C116_verdict_proof. Qed.
Print Assumptions C116_verdict.

(** The viscosities of the jump are above the cut off. *)
Example C116_verdict_ex : zero_or_fast water 1 ring3 (1 / 10000) water_old (fun _ _ => 0).
Proof. exact water_fast. Qed.

(** ** C117 *)

(** Without relaxation the result of the complete update is between the smallest and
    the largest value of the stencil. *)
Theorem C117_local :
  forall p dim M num_min cfl order n a0 d0 l0 ln0 new0 pc0
         (old : (nat -> state unit) * PC unit (scalar_scheme p dim)) stages tau a b i,
    symmetric_pattern M -> positive_masses M -> valid_numbering M -> pairs_listed M ->
    (forall i, active M i -> zero_row_sum M i) -> discontinuous M = false ->
    snd old = scalar_precomputed p dim M (fst old) pc0 ->
    well_estimated p dim M (fst old) -> zero_or_fast p dim M num_min old d0 ->
    0 < num_min -> 0 <= sp_eps p -> 0 < sp_tiny p -> sp_relaxation p = 0 ->
    0 < cfl <= 1 -> 0 <= tau ->
    (forall t, In t (row_tau (scalar_scheme p dim) M num_min cfl old d0) -> tau <= t) ->
    (n <= 2)%nat -> (sp_eps p = 0 \/ forall k, active M k -> 0 <= fst old k tt) ->
    - sp_big p <= b -> a <= sp_big p ->
    active M i -> (forall j, In j (columns M i) -> a <= fst old j tt <= b) ->
    a <= fst (hyperbolic_update (scalar_scheme p dim) M num_min order n a0 d0 l0 ln0 new0 old stages tau) i tt <= b.
Proof. exact C117_local_proof. Qed.
Print Assumptions C117_local.

(** The values of the jump are in [0, 1]. *)
Example C117_local_ex : values_in ring3 0 1 step_U.
Proof. exact step_values. Qed.

(** With relaxation the window grows by the relative amount r_i of the row, which is
    (m_i / |Omega|)^(3/2) in one dimension with the default factor 1. *)
Theorem C117_relaxed :
  forall p dim M num_min cfl order n a0 d0 l0 ln0 new0 pc0
         (old : (nat -> state unit) * PC unit (scalar_scheme p dim)) stages tau a b i,
    symmetric_pattern M -> positive_masses M -> valid_numbering M -> pairs_listed M ->
    (forall i, active M i -> zero_row_sum M i) -> discontinuous M = false ->
    snd old = scalar_precomputed p dim M (fst old) pc0 ->
    well_estimated p dim M (fst old) -> zero_or_fast p dim M num_min old d0 ->
    0 < num_min -> 0 <= sp_eps p -> 0 < sp_tiny p -> 0 <= sp_relaxation p ->
    0 < cfl <= 1 -> 0 <= tau ->
    (forall t, In t (row_tau (scalar_scheme p dim) M num_min cfl old d0) -> tau <= t) ->
    (n <= 2)%nat -> (sp_eps p = 0 \/ forall k, active M k -> 0 <= fst old k tt) ->
    - sp_big p <= b -> a <= sp_big p ->
    let r := relaxation_radius dim (mass M i * (1 / measure_of_omega M)) * sp_relaxation p in
    r <= 1 -> active M i -> (forall j, In j (columns M i) -> a <= fst old j tt <= b) ->
    a - r * Rabs a <=
    fst (hyperbolic_update (scalar_scheme p dim) M num_min order n a0 d0 l0 ln0 new0 old stages tau) i tt <=
    b + r * Rabs b.
Proof. exact C117_relaxed_proof. Qed.
Print Assumptions C117_relaxed.

(** On the ring of three rows with factor 1. *)
Example C117_relaxed_ex : forall i, relaxation_radius 1 (mass ring3 i * (1 / measure_of_omega ring3)) * 1 <= 1.
Proof. exact ring_radius. Qed.

(** Whole simulations without relaxation: values never leave an interval that contains
    the initial values and all Dirichlet data. *)
Theorem C117_run :
  forall p dim M num_min cfl order (D : R -> Prop) start U a b,
    symmetric_pattern M -> positive_masses M -> valid_numbering M -> pairs_listed M ->
    (forall i, active M i -> zero_row_sum M i) -> (forall i, In i order -> (i < n_rows M)%nat) ->
    0 < num_min -> 0 <= sp_eps p -> 0 < sp_tiny p -> sp_relaxation p = 0 -> 0 < cfl <= 1 ->
    - sp_big p <= b -> a <= sp_big p -> (sp_eps p = 0 \/ 0 <= a) ->
    (forall x, D x -> a <= x <= b) -> values_in M a b start ->
    scalar_run p dim M num_min cfl order D start U ->
    values_in M a b U.
Proof. exact C117_run_proof. Qed.
Print Assumptions C117_run.

(** A step followed by a Dirichlet condition. *)
Example C117_run_ex : exists U, U 0%nat tt <> step_U 0%nat tt /\
  scalar_run water 1 ring3 (1 / 10000) 1 [0; 1; 2]%nat (fun x => x = 1 / 2) step_U U.
Proof. exact water_run. Qed.
