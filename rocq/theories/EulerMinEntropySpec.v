(** * Notions used in the statements about the minimum entropy principle *)
From Coq Require Import Reals List.
From Verif Require Import RVec EulerSystem PhysSpec EulerRiemannSpec SWScheme SchemeSpec.
From Verif Require Import Scheme.
Local Open Scope R_scope.

(** The exact solution of the Riemann problem between two states in direction n (a fan or
    a vacuum) has no signals faster than lambda. *)
Definition resolved (s : euler) (dim : nat) (U_i U_j n : vec) (lambda : R) : Prop :=
  let g := gamma s in
  let rho_i := density U_i in let u_i := normal_velocity dim n U_i in let p_i := pressure s dim U_i in
  let rho_j := density U_j in let u_j := normal_velocity dim n U_j in let p_j := pressure s dim U_j in
  (exists us ps sl sr, e_fan g rho_i u_i p_i rho_j u_j p_j us ps sl sr /\ - lambda <= sl /\ sr <= lambda) \/
  (exists sl sr, e_vacuum g rho_i u_i p_i rho_j u_j p_j sl sr /\ - lambda <= sl /\ sr <= lambda).

(** The exact solution consists of two rarefactions, of two shocks, or opens a vacuum. *)
Definition same_kind (s : euler) (dim : nat) (U_i U_j n : vec) : Prop :=
  let g := gamma s in
  let rho_i := density U_i in let u_i := normal_velocity dim n U_i in let p_i := pressure s dim U_i in
  let rho_j := density U_j in let u_j := normal_velocity dim n U_j in let p_j := pressure s dim U_j in
  (exists us ps sl sr, e_fan g rho_i u_i p_i rho_j u_j p_j us ps sl sr /\ (ps <= Rmin p_i p_j \/ Rmax p_i p_j <= ps)) \/
  (exists sl sr, e_vacuum g rho_i u_i p_i rho_j u_j p_j sl sr).

(** Internal energy over density to the power gamma, a monotone function of the physical
    entropy per mass. *)
Definition entropy_of_gas (s : euler) (dim : nat) (U : vec) : R :=
  (total_energy dim U - norm2 dim (momentum U) / (2 * density U)) / powr (density U) (gamma s).

(** The average of the exact solution over -lambda t <= x <= lambda t, by conservation
    (U_i + U_j) / 2 - (f(U_j) - f(U_i)) n / (2 lambda). *)
Definition fan_average (s : euler) (dim : nat) (n U_i U_j : vec) (lambda : R) : vec :=
  fun k => (U_i k + U_j k) / 2 - (dot dim (EulerSystem.flux s dim U_j k) n - dot dim (EulerSystem.flux s dim U_i k) n) / (2 * lambda).

(** The direction in which two degrees of freedom of the mesh see each other. *)
Definition direction (M : mesh) (i j : nat) : vec := vec_of (cdiv (c_ij M i j) (cnorm (c_ij M i j))).
