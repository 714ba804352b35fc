(** * Boundary kinds: what is prescribed and what is kept *)
From Coq Require Import Reals Arith Lia Lra.
From Verif Require Import RVec EulerSystem AeosSystem SWSystem Scalar ScalarScheme PhysExamples.
Local Open Scope R_scope.

Lemma C32_euler_kinds_proof : forall s dim U n data,
  apply_boundary_conditions s dim dirichlet U n data = data /\
  (forall id, id = do_nothing \/ id = periodic \/ id = dirichlet_momentum -> apply_boundary_conditions s dim id U n data = U).
Proof. intros. split; [reflexivity|]. intros id [-> |[-> | ->]]; reflexivity. Qed.

Lemma C32_aeos_kinds_proof : forall dim U n data,
  a_apply_boundary_conditions dim dirichlet U n data = Some data /\
  (forall id, id = do_nothing \/ id = periodic \/ id = dirichlet_momentum -> a_apply_boundary_conditions dim id U n data = Some U) /\
  (forall id, a_apply_boundary_conditions dim id U n data = None <-> id = dynamic).
Proof.
  intros. split; [reflexivity|]. split.
  - intros id [-> |[-> | ->]]; reflexivity.
  - intros id. destruct id; split; intros H; try discriminate H; reflexivity.
Qed.

Lemma C32_sw_kinds_proof : forall s eps dim U n data,
  w_apply_boundary_conditions s eps dim dirichlet U n data = data /\
  (forall id, id = do_nothing \/ id = periodic -> w_apply_boundary_conditions s eps dim id U n data = U) /\
  (let V := w_apply_boundary_conditions s eps dim dirichlet_momentum U n data in
   water_depth V = water_depth U /\ forall k, (k < dim)%nat -> w_momentum V k = w_momentum data k).
Proof.
  intros. split; [reflexivity|]. split; [intros id [-> | ->]; reflexivity|]. cbv zeta. cbn [w_apply_boundary_conditions]. split; [reflexivity|].
  intros k Hk. unfold set_momentum, w_momentum. change (Nat.eqb (S k) 0) with false. cbv iota.
  rewrite (proj2 (Nat.leb_le (S k) dim)) by lia. replace (S k - 1)%nat with k by lia. reflexivity.
Qed.

Lemma C32_scalar_kinds_proof : forall u data,
  sc_apply_boundary_conditions dirichlet u data = Some data /\
  (forall id, id = do_nothing \/ id = periodic \/ id = dirichlet_momentum -> sc_apply_boundary_conditions id u data = Some u) /\
  (forall id, sc_apply_boundary_conditions id u data = None <-> id = slip \/ id = no_slip \/ id = dynamic).
Proof.
  intros. split; [reflexivity|]. split.
  - intros id [-> |[-> | ->]]; reflexivity.
  - intros id. destruct id; cbn; split; intros H; try discriminate; try tauto; destruct H as [H|[H|H]]; discriminate.
Qed.

(** Different data. *)
Lemma kinds_ex : water_depth (fun k => INR k) <> water_depth (fun k => INR (k + 1)) /\
  w_momentum (fun k => INR k) 0%nat <> w_momentum (fun k => INR (k + 1)) 0%nat.
Proof. unfold water_depth, w_momentum. cbn. lra. Qed.
