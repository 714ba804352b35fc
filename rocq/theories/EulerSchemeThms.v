(** * Property theorems: scheme for the Euler equations (C81 - C85) *)
From Coq Require Import Reals List Lra.
From Verif Require Import RVec EulerSystem EulerLimiter EulerRiemann EulerScheme EulerSchemeSpec SchemeSpec SchemeExamples
  EulerSpeed EulerRiemannFinal EulerSchemeProofs EulerSchemeFinal EulerSchemeBounds EulerSchemeExamples.
From Verif Require Import Scheme.
Import ListNotations.
Local Open Scope R_scope.

(** ** C81 *)

(** Mass, momentum and energy integrated over the domain are unchanged by the
    complete update: any number of limiter passes, any stages, any step size. *)
Theorem C81_conservation :
  forall p dim M num_min order n a0 d0 l0 ln0 new0
         (old : (nat -> state nat) * PC nat (euler_scheme p dim)) stages tau k,
    symmetric_pattern M -> positive_masses M -> valid_numbering M -> symmetric_matrices M -> mesh_dimension M dim ->
    1 < gamma (ep_system p) -> (forall i, active M i -> positive_gas dim (fst old i)) ->
    (forall i j, active M i -> In j (columns M i) -> skew_at M i j) ->
    let rows := active_rows M in
    total M rows (fst (hyperbolic_update (euler_scheme p dim) M num_min order n a0 d0 l0 ln0 new0 old stages tau)) k =
    total M rows (fst old) k.
Proof. exact C81_conservation_proof. Qed.
Print Assumptions C81_conservation.

(** A gas at rest with a jump of density and pressure, on a ring of three rows. *)
Example C81_ex : symmetric_pattern ring3 /\ positive_masses ring3 /\ valid_numbering ring3 /\ pairs_listed ring3 /\
  symmetric_matrices ring3 /\ mesh_dimension ring3 1 /\
  (forall i j, (i < n_rows ring3)%nat -> In j (columns ring3 i) -> skew_at ring3 i j) /\
  (forall i, active ring3 i -> zero_row_sum ring3 i) /\
  (forall i, active ring3 i -> positive_gas 1 (tube_U i)) /\ tube_U 0%nat 0%nat <> tube_U 1%nat 0%nat /\
  (forall i, (i < 3)%nat -> active ring3 i).
Proof. exact tube_setting. Qed.

(** ** C82 *)

(** The low-order update of a step not larger than the proposals of the rows
    keeps density and internal energy positive. *)
Theorem C82_positivity :
  forall p dim M num_min cfl order a0 d0 l0 ln0 new0
         (old : (nat -> state nat) * PC nat (euler_scheme p dim)) stages tau,
    symmetric_pattern M -> positive_masses M -> valid_numbering M -> pairs_listed M -> mesh_dimension M dim ->
    0 < num_min -> 1 < gamma (ep_system p) <= 5 / 3 -> ep_riemann_iterations p = 0%nat ->
    0 < cfl <= 1 -> 0 <= tau ->
    (forall t, In t (row_tau (euler_scheme p dim) M num_min cfl old d0) -> tau <= t) ->
    (forall i, active M i -> zero_row_sum M i) ->
    (forall i, active M i -> positive_gas dim (fst old i)) ->
    forall i, active M i ->
    positive_gas dim (fst (hyperbolic_update (euler_scheme p dim) M num_min order 0 a0 d0 l0 ln0 new0 old stages tau) i).
Proof. exact C82_positivity_proof. Qed.
Print Assumptions C82_positivity.

Example C82_ex : exists tau, 0 < tau /\
  forall t, In t (row_tau (euler_scheme (gas_params 0) 1) ring3 (1 / 10000) 1 (tube_old 0) (fun _ _ => 0)) -> tau <= t.
Proof. exact (tube_step 0). Qed.

(** The estimate of the wave speed vanishes for no pair of gases. *)
Theorem C82_estimate_positive :
  forall s eps tol dim U_i U_j n,
    1 < gamma s <= 5 / 3 -> dot dim n n = 1 ->
    0 < density U_i -> 0 < pressure s dim U_i -> 0 < density U_j -> 0 < pressure s dim U_j ->
    0 < er_wavespeed s eps tol 0 dim U_i U_j n.
Proof. exact er_wavespeed_positive. Qed.
Print Assumptions C82_estimate_positive.

Example C82_estimate_ex : 1 < gamma ex_air <= 5 / 3 /\
  0 < density (tube_U 0) /\ 0 < pressure ex_air 1 (tube_U 0) /\ 0 < density (tube_U 1) /\ 0 < pressure ex_air 1 (tube_U 1).
Proof. exact tube_estimate. Qed.

(** ** C83 *)

(** After the complete update with at most two limiter passes the density is
    positive and within the bounds used by the limiter. *)
Theorem C83_density :
  forall p dim M num_min (old : (nat -> state nat) * PC nat (euler_scheme p dim)) pc0 d0 tau,
    symmetric_pattern M -> positive_masses M -> valid_numbering M -> pairs_listed M -> mesh_dimension M dim ->
    0 < num_min -> 0 <= ep_eps p -> 0 < ep_big p -> 0 <= ep_relaxation p -> moderate_relaxation p dim M ->
    1 < gamma (ep_system p) ->
    (forall i, active M i -> positive_gas dim (fst old i)) ->
    snd old = euler_precomputed p dim M (fst old) pc0 ->
    forall cfl, 0 < cfl <= 1 -> 0 <= tau ->
    (forall t, In t (row_tau (euler_scheme p dim) M num_min cfl old d0) -> tau <= t) ->
    (forall i, active M i -> zero_row_sum M i) ->
    (forall i, active M i -> e_fast p dim M num_min old d0 i) ->
    forall order, (forall i, In i order -> (i < n_rows M)%nat) ->
    forall n a0 l0 ln0 new0 stages i, (n <= 2)%nat -> active M i ->
    mass_inside
      (limiter_bounds_i (euler_scheme p dim) M num_min old
         (dij_matrix (euler_scheme p dim) M num_min old d0) tau order i)
      (fst (hyperbolic_update (euler_scheme p dim) M num_min order n a0 d0 l0 ln0 new0 old stages tau) i).
Proof. exact e_final_mass. Qed.
Print Assumptions C83_density.

Example C83_ex : moderate_relaxation (gas_params (1 / 1000)) 1 ring3 /\
  snd (tube_old (1 / 1000)) = euler_precomputed (gas_params (1 / 1000)) 1 ring3 (fst (tube_old (1 / 1000))) (fun _ => (0, 0)) /\
  (forall i, active ring3 i -> e_fast (gas_params (1 / 1000)) 1 ring3 (1 / 10000) (tube_old (1 / 1000)) (fun _ _ => 0) i) /\
  exists tau, 0 < tau /\
    forall t, In t (row_tau (euler_scheme (gas_params (1 / 1000)) 1) ring3 (1 / 10000) 1 (tube_old (1 / 1000)) (fun _ _ => 0)) -> tau <= t.
Proof. exact (conj (gas_moderate _) (conj eq_refl (conj (tube_fast _) (tube_step _)))). Qed.

(** ** C84 *)

(** If the low-order update satisfies the bounds on density and entropy, so does
    the complete update with at most two passes; density and internal energy are
    positive.  Machine epsilon is taken as zero. *)
Theorem C84_entropy :
  forall p dim M num_min order n a0 d0 l0 ln0 new0
         (old : (nat -> state nat) * PC nat (euler_scheme p dim)) stages tau,
    symmetric_pattern M -> 1 < gamma (ep_system p) -> ep_eps p = 0 -> (n <= 2)%nat ->
    let bounds := limiter_bounds_i (euler_scheme p dim) M num_min old
                    (dij_matrix (euler_scheme p dim) M num_min old d0) tau order in
    let result n := fst (hyperbolic_update (euler_scheme p dim) M num_min order n a0 d0 l0 ln0 new0 old stages tau) in
    (forall i, active M i -> entropy_inside (ep_system p) dim (bounds i) (result 0%nat i)) ->
    forall i, active M i ->
    entropy_inside (ep_system p) dim (bounds i) (result n i) /\ positive_gas dim (result n i).
Proof. exact C84_entropy_proof. Qed.
Print Assumptions C84_entropy.

(** In that case the step is accepted. *)
Theorem C84_verdict :
  forall p dim M num_min order n a0 d0 l0 ln0 new0
         (old : (nat -> state nat) * PC nat (euler_scheme p dim)) stages tau,
    ep_eps p = 0 ->
    let bounds := limiter_bounds_i (euler_scheme p dim) M num_min old
                    (dij_matrix (euler_scheme p dim) M num_min old d0) tau order in
    (forall i, active M i -> entropy_inside (ep_system p) dim (bounds i)
       (fst (hyperbolic_update (euler_scheme p dim) M num_min order 0 a0 d0 l0 ln0 new0 old stages tau) i)) ->
    ~ violation (euler_scheme p dim) M num_min order n (compute_alpha (euler_scheme p dim) M old a0)
        (dij_matrix (euler_scheme p dim) M num_min old d0) new0 old stages tau.
Proof. exact C85_verdict_proof. Qed.
Print Assumptions C84_verdict.

(** A uniform stream of gas, with arbitrary stages. *)
Example C84_ex : forall order a0 l0 ln0 new0 stages tau i, active ring3 i ->
  entropy_inside ex_air 1
    (limiter_bounds_i (euler_scheme (gas_params 0) 1) ring3 (1 / 10000) (stream_old 0)
      (dij_matrix (euler_scheme (gas_params 0) 1) ring3 (1 / 10000) (stream_old 0) (fun _ _ => 0)) tau order i)
    (fst (hyperbolic_update (euler_scheme (gas_params 0) 1) ring3 (1 / 10000) order 0 a0 (fun _ _ => 0) l0 ln0 new0 (stream_old 0) stages tau) i).
Proof. exact stream_inside. Qed.

(** ** C85 *)

(** One limiter pass, step accepted: density and internal energy are positive
    without any assumption on the low-order update. *)
Theorem C85_accepted :
  forall p dim M num_min (old : (nat -> state nat) * PC nat (euler_scheme p dim)) pc0 d0 tau,
    symmetric_pattern M -> positive_masses M -> valid_numbering M -> pairs_listed M -> mesh_dimension M dim ->
    0 < num_min -> 0 <= ep_eps p -> 0 < ep_big p -> 0 <= ep_relaxation p -> moderate_relaxation p dim M ->
    1 < gamma (ep_system p) ->
    (forall i, active M i -> positive_gas dim (fst old i)) ->
    snd old = euler_precomputed p dim M (fst old) pc0 ->
    forall cfl, 0 < cfl <= 1 -> 0 <= tau ->
    (forall t, In t (row_tau (euler_scheme p dim) M num_min cfl old d0) -> tau <= t) ->
    (forall i, active M i -> zero_row_sum M i) ->
    (forall i, active M i -> e_fast p dim M num_min old d0 i) ->
    forall order, (forall i, In i order -> (i < n_rows M)%nat) ->
    forall a0 l0 ln0 new0 stages, ep_eps p = 0 ->
    ~ violation (euler_scheme p dim) M num_min order 1 (compute_alpha (euler_scheme p dim) M old a0)
        (dij_matrix (euler_scheme p dim) M num_min old d0) new0 old stages tau ->
    forall i, active M i ->
    positive_gas dim (fst (hyperbolic_update (euler_scheme p dim) M num_min order 1 a0 d0 l0 ln0 new0 old stages tau) i).
Proof. exact e_final_gas. Qed.
Print Assumptions C85_accepted.

Example C85_ex : forall order n a0 new0 stages tau,
  ~ violation (euler_scheme (gas_params 0) 1) ring3 (1 / 10000) order n
      (compute_alpha (euler_scheme (gas_params 0) 1) ring3 (stream_old 0) a0)
      (dij_matrix (euler_scheme (gas_params 0) 1) ring3 (1 / 10000) (stream_old 0) (fun _ _ => 0)) new0 (stream_old 0) stages tau.
Proof. exact stream_unflagged. Qed.
