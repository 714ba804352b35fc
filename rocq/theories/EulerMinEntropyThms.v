(** * Property theorems: minimum entropy principle of the Euler scheme (C129) *)
From Coq Require Import Reals List Arith Bool Lia Lra.
From Verif Require Import RVec EulerSystem EulerLimiter EulerRiemann EulerRiemannSpec EulerRiemannFinal PhysSpec EulerScheme EulerSchemeSpec SchemeSpec SchemeExamples EulerSchemeExamples
  EulerMinEntropySpec EulerMinEntropyBar EulerMinEntropyPair EulerMinEntropyFinal EulerMinEntropyExamples.
From Verif Require Import Scheme.
Import ListNotations.
Local Open Scope R_scope.

(** If lambda bounds the signal speeds of the exact Riemann problem between two gases, their
    bar state has positive density and no less entropy than both. *)
Theorem C129_bar :
  forall s dim U_i U_j n lambda s0,
  1 < gamma s -> dot dim n n = 1 -> 0 < lambda ->
  0 < density U_i -> 0 < pressure s dim U_i -> 0 < density U_j -> 0 < pressure s dim U_j ->
  resolved s dim U_i U_j n lambda ->
  0 <= s0 -> s0 <= entropy_of_gas s dim U_i -> s0 <= entropy_of_gas s dim U_j ->
  let B := fan_average s dim n U_i U_j lambda in
  0 < density B /\ s0 <= entropy_of_gas s dim B.
Proof. exact C129_bar_proof. Qed.
Print Assumptions C129_bar.

(** The same holds with the computed wave speed for all pairs of gases, also where it
    underestimates the exact speed (C37_mixed_refuted); with Newton iterations (the default
    is none) machine epsilon is taken as zero. *)
Theorem C129_pair :
  forall s eps tol N dim U_i U_j n lambda s0,
  1 < gamma s <= 5 / 3 -> dot dim n n = 1 ->
  0 < density U_i -> 0 < pressure s dim U_i -> 0 < density U_j -> 0 < pressure s dim U_j ->
  (N = 0%nat \/ eps = 0) ->
  0 < lambda -> er_wavespeed s eps tol N dim U_i U_j n <= lambda ->
  0 <= s0 -> s0 <= entropy_of_gas s dim U_i -> s0 <= entropy_of_gas s dim U_j ->
  let B := fan_average s dim n U_i U_j lambda in
  0 < density B /\ s0 <= entropy_of_gas s dim B.
Proof. exact C129_pair_proof. Qed.
Print Assumptions C129_pair.

(** Two streams of density 7/5 and pressure 1 collide with the velocities 5/4 and -5/4. *)
Example C129_pair_ex :
  let U_i := jet (7 / 4) in let U_j := jet (- (7 / 4)) in let n : vec := fun _ => 1 in
  1 < gamma ex_air <= 5 / 3 /\ dot 1 n n = 1 /\
  0 < density U_i /\ 0 < pressure ex_air 1 U_i /\ 0 < density U_j /\ 0 < pressure ex_air 1 U_j /\
  same_kind ex_air 1 U_i U_j n /\ resolved ex_air 1 U_i U_j n (3 / 4).
Proof. exact jets_pair. Qed.

(** A dense gas and a light gas with a rarefaction and a shock; the shock is faster than the
    computed speed. *)
Example C129_pair_mixed_ex :
  let n : vec := fun _ => 1 in
  1 < gamma ex_air <= 5 / 3 /\ dot 1 n n = 1 /\
  0 < density ex_dense /\ 0 < pressure ex_air 1 ex_dense /\ 0 < density ex_light /\ 0 < pressure ex_air 1 ex_light /\
  0 < er_wavespeed ex_air 0 0 0 1 ex_dense ex_light n /\
  0 < entropy_of_gas ex_air 1 ex_dense /\ 0 < entropy_of_gas ex_air 1 ex_light /\
  exists us ps sl sr,
    e_fan (gamma ex_air) (density ex_dense) (normal_velocity 1 n ex_dense) (pressure ex_air 1 ex_dense)
          (density ex_light) (normal_velocity 1 n ex_light) (pressure ex_air 1 ex_light) us ps sl sr /\
    pressure ex_air 1 ex_light < ps < pressure ex_air 1 ex_dense /\
    er_wavespeed ex_air 0 0 0 1 ex_dense ex_light n < sr.
Proof. exact mixed_pair. Qed.

(** Minimum entropy principle of the low-order update: if the viscosity of each pair resolves
    its Riemann problem, the new entropy of a row is not below the smallest old entropy of
    its stencil. *)
Theorem C129_minimum :
  forall p dim M num_min (old : (nat -> state nat) * PC nat (euler_scheme p dim)) d0 tau cfl,
  symmetric_pattern M -> positive_masses M -> valid_numbering M -> pairs_listed M -> mesh_dimension M dim ->
  0 < num_min -> 1 < gamma (ep_system p) ->
  (forall i, active M i -> positive_gas dim (fst old i)) ->
  0 < cfl <= 1 -> 0 <= tau ->
  (forall t, In t (row_tau (euler_scheme p dim) M num_min cfl old d0) -> tau <= t) ->
  (forall i, active M i -> zero_row_sum M i) ->
  (forall i, active M i -> e_fast p dim M num_min old d0 i) ->
  (forall i j, active M i -> In j (neighbours M i) -> 0 < cnorm (c_ij M i j) ->
     resolved (ep_system p) dim (fst old i) (fst old j) (direction M i j)
       (dij_matrix (euler_scheme p dim) M num_min old d0 i j / cnorm (c_ij M i j))) ->
  forall s0 order a0 l0 ln0 new0 stages i, active M i -> 0 <= s0 ->
  (forall j, In j (columns M i) -> s0 <= entropy_of_gas (ep_system p) dim (fst old j)) ->
  let V := fst (hyperbolic_update (euler_scheme p dim) M num_min order 0 a0 d0 l0 ln0 new0 old stages tau) i in
  positive_gas dim V /\ s0 <= entropy_of_gas (ep_system p) dim V.
Proof. exact C129_minimum_proof. Qed.
Print Assumptions C129_minimum.

(** Minimum entropy principle of the low-order update with the computed viscosity. *)
Theorem C129_computed :
  forall p dim M num_min (old : (nat -> state nat) * PC nat (euler_scheme p dim)) d0 tau cfl,
  symmetric_pattern M -> positive_masses M -> valid_numbering M -> pairs_listed M -> mesh_dimension M dim ->
  0 < num_min -> 1 < gamma (ep_system p) <= 5 / 3 -> (ep_riemann_iterations p = 0%nat \/ ep_eps p = 0) ->
  (forall i, active M i -> positive_gas dim (fst old i)) ->
  0 < cfl <= 1 -> 0 <= tau ->
  (forall t, In t (row_tau (euler_scheme p dim) M num_min cfl old d0) -> tau <= t) ->
  (forall i, active M i -> zero_row_sum M i) ->
  (forall i, active M i -> e_fast p dim M num_min old d0 i) ->
  forall s0 order a0 l0 ln0 new0 stages i, active M i -> 0 <= s0 ->
  (forall j, In j (columns M i) -> s0 <= entropy_of_gas (ep_system p) dim (fst old j)) ->
  let V := fst (hyperbolic_update (euler_scheme p dim) M num_min order 0 a0 d0 l0 ln0 new0 old stages tau) i in
  positive_gas dim V /\ s0 <= entropy_of_gas (ep_system p) dim V.
Proof. exact C129_computed_proof. Qed.
Print Assumptions C129_computed.

(** The complete step with at most two limiter passes is accepted, density and internal
    energy are positive, density and entropy are within the bounds of the limiter, without a
    hypothesis about the low-order update (compare C84).  Machine epsilon is taken as zero. *)
Theorem C129_step :
  forall p dim M num_min (old : (nat -> state nat) * PC nat (euler_scheme p dim)) pc0 d0 tau cfl,
  symmetric_pattern M -> positive_masses M -> valid_numbering M -> pairs_listed M -> mesh_dimension M dim ->
  0 < num_min -> ep_eps p = 0 -> 0 < ep_big p -> 0 <= ep_relaxation p -> moderate_relaxation p dim M ->
  1 < gamma (ep_system p) <= 5 / 3 ->
  (forall i, active M i -> positive_gas dim (fst old i)) ->
  snd old = euler_precomputed p dim M (fst old) pc0 ->
  0 < cfl <= 1 -> 0 <= tau ->
  (forall t, In t (row_tau (euler_scheme p dim) M num_min cfl old d0) -> tau <= t) ->
  (forall i, active M i -> zero_row_sum M i) ->
  (forall i, active M i -> e_fast p dim M num_min old d0 i) ->
  forall order, (forall i, In i order -> (i < n_rows M)%nat) ->
  forall n a0 l0 ln0 new0 stages, (n <= 2)%nat ->
  (forall i, active M i ->
     let V := fst (hyperbolic_update (euler_scheme p dim) M num_min order n a0 d0 l0 ln0 new0 old stages tau) i in
     positive_gas dim V /\
     entropy_inside (ep_system p) dim
       (limiter_bounds_i (euler_scheme p dim) M num_min old (dij_matrix (euler_scheme p dim) M num_min old d0) tau order i) V) /\
  ~ violation (euler_scheme p dim) M num_min order n (compute_alpha (euler_scheme p dim) M old a0)
      (dij_matrix (euler_scheme p dim) M num_min old d0) new0 old stages tau.
Proof. exact C129_step_proof. Qed.
Print Assumptions C129_step.

(** A ring of three nodes with the velocities 5/4, -5/4, -5/4: two shocks, two rarefactions
    and a pair of equal states. *)
Example C129_ex :
  symmetric_pattern ring3 /\ positive_masses ring3 /\ valid_numbering ring3 /\ pairs_listed ring3 /\ mesh_dimension ring3 1 /\
  moderate_relaxation (gas_params 0) 1 ring3 /\
  (forall i, active ring3 i -> positive_gas 1 (jets_U i)) /\ jets_U 0%nat <> jets_U 1%nat /\
  (forall i, active ring3 i -> zero_row_sum ring3 i) /\
  (forall i, active ring3 i -> e_fast (gas_params 0) 1 ring3 (1 / 10000) (jets_old 0) (fun _ _ => 0) i) /\
  (forall i j, active ring3 i -> In j (neighbours ring3 i) -> 0 < cnorm (c_ij ring3 i j) ->
     resolved ex_air 1 (jets_U i) (jets_U j) (direction ring3 i j)
       (dij_matrix (euler_scheme (gas_params 0) 1) ring3 (1 / 10000) (jets_old 0) (fun _ _ => 0) i j / cnorm (c_ij ring3 i j))) /\
  exists tau, 0 < tau /\
    forall t, In t (row_tau (euler_scheme (gas_params 0) 1) ring3 (1 / 10000) 1 (jets_old 0) (fun _ _ => 0)) -> tau <= t.
Proof. exact jets_case. Qed.
