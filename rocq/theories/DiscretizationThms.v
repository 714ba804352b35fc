(** * Property theorems: finite elements and quadratures (C149) *)
From Coq Require Import Reals List Bool Arith.
From Verif Require Import RVec SchemeSpec AssemblySpec Discretization DiscretizationSpec DiscretizationProofs DiscretizationFinal DiscretizationExamples.
From Verif Require Import Assembly.
Import ListNotations.
Local Open Scope R_scope.

(** ** One direction (C149) *)

(** The selected quadratures with n points are exact for polynomials of degree 2 n - 1. *)
Theorem C149_gauss : forall n P,
  (1 <= n <= 4)%nat -> (length P <= 2 * n)%nat ->
  rsum n (fun q => gauss_weight n q * peval P (gauss_point n q)) = integral01 P.
Proof. exact C149_gauss_proof. Qed.
Print Assumptions C149_gauss.

(** A cubic polynomial. *)
Example C149_gauss_ex :
  rsum 2 (fun q => gauss_weight 2 q * peval [0; -1; 0; 1] (gauss_point 2 q)) = - (1 / 4).
Proof. exact gauss_case. Qed.

(** The shape functions are one in their own point and zero in the others, and a partition of unity; the gradients
    are their derivatives. *)
Theorem C149_lagrange : forall a i j x,
  (i <= degree a)%nat -> (j <= degree a)%nat ->
  peval (lagrange (degree a) i) (lobatto_point (S (degree a)) j) = (if Nat.eqb j i then 1 else 0) /\
  rsum (S (degree a)) (fun k => peval (lagrange (degree a) k) x) = 1 /\
  derivable_pt_lim (peval (lagrange (degree a) i)) x (peval (pderiv (lagrange (degree a) i)) x).
Proof. exact C149_lagrange_proof. Qed.
Print Assumptions C149_lagrange.

(** Their points are the Gauss-Lobatto points: nodal values times lumped weights integrate polynomials of degree
    2 p - 1 exactly. *)
Theorem C149_lobatto : forall a P,
  (1 <= degree a)%nat -> (length P <= 2 * degree a)%nat ->
  rsum (S (degree a)) (fun i => integral01 (lagrange (degree a) i) * peval P (lobatto_point (S (degree a)) i)) = integral01 P.
Proof. exact C149_lobatto_proof. Qed.
Print Assumptions C149_lobatto.

(** The fifth power and cubic elements. *)
Example C149_lobatto_ex :
  rsum 4 (fun i => integral01 (lagrange 3 i) * peval [0; 0; 0; 0; 0; 1] (lobatto_point 4 i)) = 1 / 6.
Proof. exact lobatto_case. Qed.

(** ** Meshes of boxes *)

(** Every ansatz in every dimension: the shape functions are a partition of unity in cells and on faces, *)
Theorem C149_partition : forall a extent G,
  box_mesh a extent G -> partition_of_unity G.
Proof. exact C149_partition_proof. Qed.
Print Assumptions C149_partition.

(** integration by parts holds exactly for the quadratures, *)
Theorem C149_parts : forall a extent G,
  box_mesh a extent G -> gauss_theorem G.
Proof. exact C149_parts_proof. Qed.
Print Assumptions C149_parts.

(** the integrals of the shape functions are positive, *)
Theorem C149_positive : forall a extent G c i,
  box_mesh a extent G ->
  0 < rsum (g_n_points G) (fun q => g_value G c i q * g_JxW G c q).
Proof. exact C149_positive_proof. Qed.
Print Assumptions C149_positive.

(** those without support on a face vanish there, *)
Theorem C149_support : forall a extent G,
  box_mesh a extent G -> support_correct G.
Proof. exact C149_support_proof. Qed.
Print Assumptions C149_support.

(** and each point of the nodal quadrature of a face belongs to exactly one of them. *)
Theorem C149_nodes : forall a extent G c f q,
  box_mesh a extent G -> (f < g_n_faces G)%nat ->
  exists i0, (i0 < g_n_local G)%nat /\ g_support G i0 f = true /\
    forall i, (i < g_n_local G)%nat -> g_node_value G c f i q = if Nat.eqb i i0 then 1 else 0.
Proof. exact C149_nodes_proof. Qed.
Print Assumptions C149_nodes.

(** Faces that are shared have the same quadrature and opposite normals, *)
Theorem C149_matching : forall a extent G,
  box_mesh a extent G -> conforming extent G -> matching_faces G.
Proof. exact C149_matching_proof. Qed.
Print Assumptions C149_matching.

(** and on them the functions of a continuous ansatz are continuous. *)
Theorem C149_continuous : forall a extent G,
  box_mesh a extent G -> conforming extent G -> (forall g, g_constraint G g = None) -> shared_dofs a G -> continuous_basis G.
Proof. exact C149_continuous_proof. Qed.
Print Assumptions C149_continuous.

(** Rows of boxes, discontinuous ansatz, *)
Example C149_row : forall a dim m,
  (1 <= dim)%nat -> (1 <= m)%nat -> box_discretization a row_extent (row a true dim m).
Proof. exact row_case. Qed.

(** and continuous ansatz. *)
Example C149_row_continuous : forall a dim m,
  (1 <= dim)%nat -> (1 <= m)%nat -> (1 <= degree a)%nat ->
  box_discretization a row_extent (row a false dim m) /\ shared_dofs a (row a false dim m) /\ conforming row_extent (row a false dim m).
Proof. exact row_continuous. Qed.

(** ** What follows for the assembled matrices *)

(** Everything that C103 assumes holds, *)
Theorem C149_ansatz : forall a extent G,
  box_discretization a extent G -> valid_ansatz G.
Proof. exact C149_ansatz_proof. Qed.
Print Assumptions C149_ansatz.

(** lumped masses are positive and add up to the volume of the boxes, *)
Theorem C149_lumped : forall a extent G,
  box_discretization a extent G ->
  (forall I, (I < g_n_dofs G)%nat -> exists c i, (c < g_n_cells G)%nat /\ (i < g_n_local G)%nat /\ g_dof G c i = I) ->
  (forall I, (I < g_n_dofs G)%nat -> 0 < lumped G (mass_entry G) I) /\
  rsum (g_n_dofs G) (lumped G (mass_entry G)) = rsum (g_n_cells G) (fun c => volume (g_dim G) (extent c)).
Proof. exact C149_lumped_proof. Qed.
Print Assumptions C149_lumped.

(** Three boxes with edges of length 1, 2 and 3. *)
Example C149_lumped_ex : forall a,
  rsum (g_n_dofs (row a true 3 3)) (lumped (row a true 3 3) (mass_entry (row a true 3 3))) = 18.
Proof. exact row_mass. Qed.

(** and everything that C106 assumes of the discretization holds. *)
Theorem C149_complete : forall a extent G,
  box_discretization a extent G ->
  (forall I, (I < g_n_dofs G)%nat -> exists c i, (c < g_n_cells G)%nat /\ (i < g_n_local G)%nat /\ g_dof G c i = I) ->
  (forall c f, (c < g_n_cells G)%nat -> (f < g_n_faces G)%nat -> g_neighbor G c f = None ->
     g_at_boundary G c f = true /\ g_boundary_id G c f <> 1%nat) ->
  (forall c, (c < g_n_cells G)%nat -> (g_rank G c < g_n_ranks G)%nat) ->
  (g_discontinuous G = true -> forall c, (c < g_n_cells G)%nat ->
     inverse_matrix (g_n_local G) (cell_mass G c) (g_invert G (cell_mass G c))) ->
  complete_ansatz G.
Proof. exact C149_complete_proof. Qed.
Print Assumptions C149_complete.

(** Three boxes with cubic elements in three dimensions. *)
Example C149_complete_ex :
  complete_ansatz (row cg_q3 false 3 3).
Proof. exact row_complete. Qed.
