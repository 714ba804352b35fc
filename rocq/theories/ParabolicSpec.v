(** * Specifications for the parabolic step: velocity and internal energy of a
    state, Newtonian stress, balances, boundary rows, what is assumed of the
    linear solver. *)
From Coq Require Import Reals List Bool Arith.
From Verif Require Import RVec BoundaryMap EulerSystem Assembly AssemblySpec Parabolic.
Import ListNotations.
Local Open Scope R_scope.

(** Velocity and specific internal energy of a state (rho, m, E). *)
Definition vel (U : vec) : vec := fun d => U (S d) / U 0%nat.
Definition specific_energy (dim : nat) (U : vec) : R :=
  (U (S dim) - 1 / 2 * rsum dim (fun d => U (S d) * U (S d)) / U 0%nat) / U 0%nat.

(** Gradient of a scalar and of a velocity field given by nodal values. *)
Definition slope (G : geometry) (e : nat -> R) (c q b : nat) : R :=
  rsum (g_n_dofs G) (fun I => e I * basis_grad G I c q b).
Definition velocity_gradient (G : geometry) (v : nat -> vec) (c q a b : nat) : R :=
  slope G (fun I => v I a) c q b.

(** The stress of a Newtonian fluid with shear viscosity mu and bulk viscosity
    lambda in three space dimensions, from the velocity gradient. *)
Definition newtonian (par : viscosity) (dim : nat) (A : nat -> nat -> R) (a b : nat) : R :=
  mu par * (A a b + A b a)
  + (if Nat.eqb a b then (lambda par - 2 / 3 * mu par) * rsum dim (fun d => A d d) else 0).
Definition contraction (dim : nat) (A B : nat -> nat -> R) : R :=
  rsum dim (fun a => rsum dim (fun b => A a b * B a b)).

(** The lumped mass of a degree of freedom: the integral of its basis function. *)
Definition nodal_mass (G : geometry) (I : nat) : R :=
  if is_constrained G I then 0 else integral G (fun c q => basis G I c q).

(** Integral of a component of the state, kinetic energy. *)
Definition total (G : geometry) (U : nat -> vec) (k : nat) : R :=
  rsum (g_n_dofs G) (fun I => nodal_mass G I * U I k).
Definition kinetic_energy (G : geometry) (U : nat -> vec) : R :=
  rsum (g_n_dofs G) (fun I => nodal_mass G I * (1 / 2 * U I 0%nat * norm2 (g_dim G) (vel (U I)))).

(** Boundary entries of a degree of freedom. *)
Definition entries (boundary_map : list description) (I : nat) : list description :=
  filter (fun e => Nat.eqb (d_index e) I) boundary_map.
Definition with_id (id : nat) (l : list description) : list description := filter (fun e => Nat.eqb (d_id e) id) l.
(** Slip is 2, no slip 3, Dirichlet 4. *)
Definition no_strong_condition (bm : list description) (I : nat) : Prop :=
  forall e, In e (entries bm I) -> d_id e <> 2%nat /\ d_id e <> 3%nat /\ d_id e <> 4%nat.
Definition no_dirichlet (bm : list description) (I : nat) : Prop :=
  forall e, In e (entries bm I) -> d_id e <> 4%nat.
(** Unit normals, orthogonal to each other. *)
Definition orthonormal (dim : nat) (ns : list vec) : Prop :=
  (forall n, In n ns -> dot dim n n = 1) /\ ForallOrdPairs (fun n n' => dot dim n n' = 0) ns.
Definition slip_normals (bm : list description) (I : nat) : list vec := map d_normal (with_id 2 (entries bm I)).
(** Walls: a no slip condition, or slip conditions with orthonormal normals, or
    neither; no Dirichlet condition. *)
Definition wall (dim : nat) (bm : list description) (I : nat) : Prop :=
  no_dirichlet bm I /\
  ((exists e, In e (entries bm I) /\ d_id e = 3%nat) \/ orthonormal dim (slip_normals bm I)).

(** What is assumed of the discretization and of the state. *)
Definition proper (G : geometry) : Prop := valid_indices G /\ closed_constraints G /\ partition_of_unity G.
Definition gas (G : geometry) (U : nat -> vec) : Prop := forall I, free G I -> 0 < U I 0%nat.
(** Weaker: the density does not vanish. *)
Definition dense (G : geometry) (U : nat -> vec) : Prop := forall I, free G I -> U I 0%nat <> 0.

(** ** The linear solver *)

(** The returned vector solves the system up to a residual of tol per entry. *)
Definition accurate_block (n dim : nat) (tol : R) (solve : solver field) : Prop :=
  forall A P x0 b x, solve A P x0 b = Some x -> forall i d, (i < n)%nat -> (d < dim)%nat -> Rabs (A x i d - b i d) <= tol.
Definition accurate (n : nat) (tol : R) (solve : solver (nat -> R)) : Prop :=
  forall A P x0 b x, solve A P x0 b = Some x -> forall i, (i < n)%nat -> Rabs (A x i - b i) <= tol.

(** Iterations of the preconditioned conjugate gradient method, for whatever
    step lengths: solution, residual, search direction. *)
Inductive search (A P : field -> field) (x0 b : field) : field -> field -> field -> Prop :=
| search_start : let r := (fun i => vsub (b i) (A x0 i)) in search A P x0 b x0 r (P r)
| search_next : forall x r p alpha beta, search A P x0 b x r p ->
    let r' := (fun i => vsub (r i) (vscal alpha (A p i))) in
    search A P x0 b (fun i => vadd (x i) (vscal alpha (p i))) r' (fun i => vadd (P r' i) (vscal beta (p i))).
Definition iterates_block (solve : solver field) : Prop :=
  forall A P x0 b x, solve A P x0 b = Some x -> exists r p, search A P x0 b x r p.

Inductive search1 (A P : (nat -> R) -> nat -> R) (x0 b : nat -> R) : (nat -> R) -> (nat -> R) -> (nat -> R) -> Prop :=
| search1_start : let r := (fun i => b i - A x0 i) in search1 A P x0 b x0 r (P r)
| search1_next : forall x r p alpha beta, search1 A P x0 b x r p ->
    let r' := (fun i => r i - alpha * A p i) in
    search1 A P x0 b (fun i => x i + alpha * p i) r' (fun i => P r' i + beta * p i).
Definition iterates (solve : solver (nat -> R)) : Prop :=
  forall A P x0 b x, solve A P x0 b = Some x -> exists r p, search1 A P x0 b x r p.

(** ** More about the discretization and the data *)

(** Quadrature weights and shape functions are nonnegative, masses positive. *)
Definition positive_weights (G : geometry) : Prop :=
  forall c q, (c < g_n_cells G)%nat -> (q < g_n_points G)%nat -> 0 <= g_JxW G c q.
Definition positive_masses (G : geometry) : Prop := forall I, free G I -> 0 < nodal_mass G I.
Definition positive_basis (G : geometry) : Prop :=
  forall I c q, free G I -> (c < g_n_cells G)%nat -> (q < g_n_points G)%nat -> 0 <= basis G I c q.
(** Entries of the stiffness matrix of the Laplacian. *)
Definition laplace (G : geometry) (I J : nat) : R :=
  integral G (fun c q => rsum (g_dim G) (fun b => basis_grad G J c q b * basis_grad G I c q b)).
(** Nonnegative viscosities and heat conductivity, at most three space dimensions. *)
Definition physical (par : viscosity) (dim : nat) : Prop :=
  0 <= mu par /\ 0 <= lambda par /\ 0 <= cv_inverse_kappa par /\ (dim <= 3)%nat.
(** Rigid motions: skew velocity gradient. *)
Definition rigid (G : geometry) (v : nat -> vec) : Prop :=
  forall c q a b, (c < g_n_cells G)%nat -> (q < g_n_points G)%nat -> (a < g_dim G)%nat -> (b < g_dim G)%nat ->
    velocity_gradient G v c q a b + velocity_gradient G v c q b a = 0.
(** Rows where the strong conditions determine the velocity: the value is
    prescribed, or the slip normals are orthonormal. *)
Definition posed (dim : nat) (bm : list description) (I : nat) : Prop :=
  (exists e, In e (entries bm I) /\ (d_id e = 3%nat \/ d_id e = 4%nat)) \/ orthonormal dim (slip_normals bm I).
(** A state that meets the conditions of its row already. *)
Definition compatible (dim : nat) (bm : list description) (init : vec -> R -> vec) (t : R) (I : nat) (U : vec) : Prop :=
  forall e, In e (entries bm I) ->
    (d_id e = 2%nat -> dot dim (vel U) (d_normal e) = 0) /\
    (d_id e = 3%nat -> forall d, (d < dim)%nat -> vel U d = 0) /\
    (d_id e = 4%nat -> (forall d, (d < dim)%nat -> vel U d = vel (init (d_position e) t) d) /\
                       specific_energy dim U = specific_energy dim (init (d_position e) t)).
