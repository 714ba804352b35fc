(** * Specifications for the assembled matrices: basis functions, quadrature,
    what is assumed of the finite element and of the mesh. *)
From Coq Require Import Reals List Bool Arith.
From Verif Require Import RVec Assembly SchemeSpec.
Import ListNotations.
Local Open Scope R_scope.

(** Basis function of the degree of freedom [I] (constraints resolved), its
    partial derivatives and its trace on a face, at the points of a quadrature. *)
Definition basis (G : geometry) (I c q : nat) : R :=
  rsum (g_n_local G) (fun i => weight G I (g_dof G c i) * g_value G c i q).
Definition basis_grad (G : geometry) (I c q d : nat) : R :=
  rsum (g_n_local G) (fun i => weight G I (g_dof G c i) * g_grad G c i q d).
Definition basis_face (G : geometry) (I c f q : nat) : R :=
  rsum (g_n_local G) (fun i => weight G I (g_dof G c i) * g_face_value G c f i q).

(** Quadrature over the domain, over the boundary and over the interior faces
    (each seen from both sides; the integrand gets both sides). *)
Definition integral (G : geometry) (F : nat -> nat -> R) : R :=
  rsum (g_n_cells G) (fun c => rsum (g_n_points G) (fun q => F c q * g_JxW G c q)).
Definition boundary_integral (G : geometry) (F : nat -> nat -> nat -> R) : R :=
  rsum (g_n_cells G) (fun c => rsum (g_n_faces G) (fun f =>
    match g_neighbor G c f with
    | None => rsum (g_n_face_points G) (fun q => F c f q * g_face_JxW G c f q)
    | Some _ => 0
    end)).
Definition interior_integral (G : geometry) (F : nat -> nat -> nat -> nat -> nat -> R) : R :=
  rsum (g_n_cells G) (fun c => rsum (g_n_faces G) (fun f =>
    match g_neighbor G c f with
    | None => 0
    | Some (c', f') => rsum (g_n_face_points G) (fun q => F c f c' f' q * g_face_JxW G c f q)
    end)).

(** A degree of freedom that exists and is not constrained. *)
Definition free (G : geometry) (I : nat) : Prop := (I < g_n_dofs G)%nat /\ g_constraint G I = None.

(** Indices are indices; constraints are resolved (masters are free) and have
    coefficients that add up to one, as hanging node and periodicity
    constraints. *)
Definition valid_indices (G : geometry) : Prop :=
  forall c i, (c < g_n_cells G)%nat -> (i < g_n_local G)%nat -> (g_dof G c i < g_n_dofs G)%nat.
Definition closed_constraints (G : geometry) : Prop :=
  forall g line, (g < g_n_dofs G)%nat -> g_constraint G g = Some line ->
    lsum snd line = 1 /\ forall e, In e line -> free G (fst e).

(** The shape functions are a partition of unity. *)
Definition partition_of_unity (G : geometry) : Prop :=
  forall c, (c < g_n_cells G)%nat ->
    (forall q, (q < g_n_points G)%nat ->
       rsum (g_n_local G) (fun i => g_value G c i q) = 1 /\
       forall d, rsum (g_n_local G) (fun i => g_grad G c i q d) = 0) /\
    (forall f q, (f < g_n_faces G)%nat -> (q < g_n_face_points G)%nat ->
       rsum (g_n_local G) (fun i => g_face_value G c f i q) = 1).

(** Integration by parts on a cell: the quadratures are exact. *)
Definition gauss_theorem (G : geometry) : Prop :=
  forall c d i j, (c < g_n_cells G)%nat -> (d < g_dim G)%nat -> (i < g_n_local G)%nat -> (j < g_n_local G)%nat ->
    rsum (g_n_points G) (fun q =>
      (g_value G c i q * g_grad G c j q d + g_value G c j q * g_grad G c i q d) * g_JxW G c q) =
    rsum (g_n_faces G) (fun f => rsum (g_n_face_points G) (fun q =>
      g_normal G c f q d * g_face_value G c f i q * g_face_value G c f j q * g_face_JxW G c f q)).

(** Neighborhood of cells is mutual; both sides of a face have the same
    quadrature points (in the same order) and opposite normals. *)
Definition matching_faces (G : geometry) : Prop :=
  forall c f c' f', (c < g_n_cells G)%nat -> (f < g_n_faces G)%nat -> g_neighbor G c f = Some (c', f') ->
    (c' < g_n_cells G)%nat /\ (f' < g_n_faces G)%nat /\ g_neighbor G c' f' = Some (c, f) /\
    (forall q, (q < g_n_face_points G)%nat -> g_face_JxW G c' f' q = g_face_JxW G c f q /\
       forall d, g_normal G c' f' q d = - g_normal G c f q d).

(** Traces of the basis functions agree on both sides (continuous ansatz). *)
Definition continuous_basis (G : geometry) : Prop :=
  forall c f c' f' q I, (c < g_n_cells G)%nat -> (f < g_n_faces G)%nat -> g_neighbor G c f = Some (c', f') ->
    (q < g_n_face_points G)%nat -> free G I -> basis_face G I c' f' q = basis_face G I c f q.

(** Shape functions without support on a face vanish there. *)
Definition support_correct (G : geometry) : Prop :=
  forall c f i, (c < g_n_cells G)%nat -> (f < g_n_faces G)%nat -> (i < g_n_local G)%nat -> g_support G i f = false ->
    (forall q, g_face_value G c f i q = 0) /\ (forall q, g_node_value G c f i q = 0).

(** Faces without neighbor are at the boundary and not marked as periodic; the
    masters of a degree of freedom on the boundary are on the boundary. *)
Definition boundary_marked (G : geometry) : Prop :=
  forall c f, (c < g_n_cells G)%nat -> (f < g_n_faces G)%nat -> g_neighbor G c f = None ->
    g_at_boundary G c f = true /\ g_boundary_id G c f <> 1%nat /\
    forall i line e, (i < g_n_local G)%nat -> g_support G i f = true ->
      g_constraint G (g_dof G c i) = Some line -> In e line ->
      exists c' f' j, (c' < g_n_cells G)%nat /\ (f' < g_n_faces G)%nat /\ (j < g_n_local G)%nat /\
        g_neighbor G c' f' = None /\ g_support G j f' = true /\ g_dof G c' j = fst e.

(** Shape functions with positive integral, nonnegative
    coefficients of the constraints, every free degree of freedom occurs in a cell. *)
Definition positive_shapes (G : geometry) : Prop :=
  (forall c i, (c < g_n_cells G)%nat -> (i < g_n_local G)%nat ->
     0 < rsum (g_n_points G) (fun q => g_value G c i q * g_JxW G c q)) /\
  (forall g line e, g_constraint G g = Some line -> In e line -> 0 <= snd e) /\
  (forall I, free G I -> exists c i, (c < g_n_cells G)%nat /\ (i < g_n_local G)%nat /\ g_dof G c i = I).

(** The ranks: every cell is owned by one rank, which sees the neighbors; the
    owner of a row sees the cells that contribute to the row and their neighbors
    (ghost layer). *)
Definition ghost_layer (G : geometry) : Prop :=
  (forall c, (c < g_n_cells G)%nat -> (g_rank G c < g_n_ranks G)%nat) /\
  (forall c f c' f', (c < g_n_cells G)%nat -> (f < g_n_faces G)%nat -> g_neighbor G c f = Some (c', f') ->
     g_visible G (g_rank G c) c' = true) /\
  (forall c i I, (c < g_n_cells G)%nat -> (i < g_n_local G)%nat -> weight G I (g_dof G c i) <> 0 ->
     g_visible G (g_row_rank G I) c = true /\
     forall f c' f', (f < g_n_faces G)%nat -> g_neighbor G c f = Some (c', f') -> g_visible G (g_row_rank G I) c' = true).

(** Degrees of freedom of a discontinuous ansatz belong to one cell, whose rank
    owns them, and there are no constraints. *)
Definition cellwise (G : geometry) : Prop :=
  g_discontinuous G = true /\ (forall g, g_constraint G g = None) /\
  (forall c i c' i', (c < g_n_cells G)%nat -> (i < g_n_local G)%nat -> (c' < g_n_cells G)%nat -> (i' < g_n_local G)%nat ->
     g_dof G c i = g_dof G c' i' -> c = c' /\ i = i') /\
  (forall c i, (c < g_n_cells G)%nat -> (i < g_n_local G)%nat -> g_row_rank G (g_dof G c i) = g_rank G c).

(** Inverse of a local matrix. *)
Definition inverse_matrix (n : nat) (A X : nat -> nat -> R) : Prop :=
  forall i j, (i < n)%nat -> (j < n)%nat ->
    rsum n (fun k => X i k * A k j) = (if Nat.eqb i j then 1 else 0) /\
    rsum n (fun k => A i k * X k j) = (if Nat.eqb i j then 1 else 0).

(** The interior faces do not contribute to integrals of the traces: both sides
    cancel (also where a face is refined on one side only). *)
Definition faces_cancel (G : geometry) : Prop :=
  forall d I J, (d < g_dim G)%nat -> free G I -> free G J ->
    interior_integral G (fun c f _ _ q => g_normal G c f q d * basis_face G I c f q * basis_face G J c f q) = 0.

(** What the theorems about both kinds of ansatz assume of the discretization. *)
Definition valid_ansatz (G : geometry) : Prop :=
  valid_indices G /\ closed_constraints G /\ partition_of_unity G /\ gauss_theorem G /\
  (if g_discontinuous G then cellwise G /\ matching_faces G else faces_cancel G).

(** A vector of nodal values that satisfies the constraints, and the function it
    stands for. *)
Definition satisfies_constraints (G : geometry) (U : nat -> R) : Prop :=
  forall g line, (g < g_n_dofs G)%nat -> g_constraint G g = Some line -> U g = lsum (fun e => snd e * U (fst e)) line.
Definition fe_function (G : geometry) (U : nat -> R) (c q : nat) : R :=
  rsum (g_n_local G) (fun i => U (g_dof G c i) * g_value G c i q).

(** How often a pair of degrees of freedom meets at a node of a face. *)
Definition encounters (G : geometry) (eps : R) (I J : nat) : nat :=
  length (filter (fun '(c, f, q, i, j) =>
    match g_neighbor G c f with
    | Some (c', f') =>
        Nat.eqb (g_dof G c i) I && Nat.eqb (g_dof G c' j) J &&
        (if Rlt_dec (100 * eps) (Rabs (g_node_value G c f i q * g_node_value G c' f' j q)) then true else false)
    | None => false
    end)
    (list_prod (list_prod (list_prod (list_prod (seq 0 (g_n_cells G)) (seq 0 (g_n_faces G))) (seq 0 (g_n_nodes G)))
       (seq 0 (g_n_local G))) (seq 0 (g_n_local G)))).

(** All that the time step relies on. *)
Definition complete_ansatz (G : geometry) : Prop :=
  valid_ansatz G /\ positive_shapes G /\ support_correct G /\ boundary_marked G /\
  (forall c, (c < g_n_cells G)%nat -> (g_rank G c < g_n_ranks G)%nat) /\
  (g_discontinuous G = true -> forall c, (c < g_n_cells G)%nat ->
     inverse_matrix (g_n_local G) (cell_mass G c) (g_invert G (cell_mass G c))).

(** A domain without boundary (periodic in all directions). *)
Definition no_boundary (G : geometry) : Prop :=
  forall c f, (c < g_n_cells G)%nat -> (f < g_n_faces G)%nat -> g_neighbor G c f <> None.
