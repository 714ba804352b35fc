(** * Property theorems: kinds of boundary conditions (C32, continued) *)
From Coq Require Import Reals Arith.
From Verif Require Import RVec EulerSystem AeosSystem SWSystem Scalar ScalarScheme BoundaryKinds.
Local Open Scope R_scope.

(** Euler: Dirichlet conditions prescribe the data, the remaining kinds keep the state. *)
Theorem C32_euler_kinds : forall s dim U n data,
  apply_boundary_conditions s dim dirichlet U n data = data /\
  (forall id, id = do_nothing \/ id = periodic \/ id = dirichlet_momentum -> apply_boundary_conditions s dim id U n data = U).
Proof. exact C32_euler_kinds_proof. Qed.
Print Assumptions C32_euler_kinds.

(** Euler with arbitrary equation of state: exactly the dynamic kind is refused. *)
Theorem C32_aeos_kinds : forall dim U n data,
  a_apply_boundary_conditions dim dirichlet U n data = Some data /\
  (forall id, id = do_nothing \/ id = periodic \/ id = dirichlet_momentum -> a_apply_boundary_conditions dim id U n data = Some U) /\
  (forall id, a_apply_boundary_conditions dim id U n data = None <-> id = dynamic).
Proof. exact C32_aeos_kinds_proof. Qed.
Print Assumptions C32_aeos_kinds.

(** Shallow water: dirichlet_momentum keeps the depth and prescribes the discharge. *)
Theorem C32_sw_kinds : forall s eps dim U n data,
  w_apply_boundary_conditions s eps dim dirichlet U n data = data /\
  (forall id, id = do_nothing \/ id = periodic -> w_apply_boundary_conditions s eps dim id U n data = U) /\
  (let V := w_apply_boundary_conditions s eps dim dirichlet_momentum U n data in
   water_depth V = water_depth U /\ forall k, (k < dim)%nat -> w_momentum V k = w_momentum data k).
Proof. exact C32_sw_kinds_proof. Qed.
Print Assumptions C32_sw_kinds.

(** Scalar equations: slip, no-slip and dynamic conditions are refused. *)
Theorem C32_scalar_kinds : forall u data,
  sc_apply_boundary_conditions dirichlet u data = Some data /\
  (forall id, id = do_nothing \/ id = periodic \/ id = dirichlet_momentum -> sc_apply_boundary_conditions id u data = Some u) /\
  (forall id, sc_apply_boundary_conditions id u data = None <-> id = slip \/ id = no_slip \/ id = dynamic).
Proof. exact C32_scalar_kinds_proof. Qed.
Print Assumptions C32_scalar_kinds.

(** The theorems have no hypotheses; state and data that differ in depth and momentum. *)
Example C32_kinds_ex : water_depth (fun k => INR k) <> water_depth (fun k => INR (k + 1)) /\
  w_momentum (fun k => INR k) 0%nat <> w_momentum (fun k => INR (k + 1)) 0%nat.
Proof. exact kinds_ex. Qed.
