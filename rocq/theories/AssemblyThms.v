(** * C102 - C106: the assembled matrices (property theorems)

    [basis], [basis_grad], [basis_face]: the global basis functions with the
    constraints resolved, at quadrature points; [integral],
    [boundary_integral], [interior_integral]: quadrature (AssemblySpec.v).
    [mass_entry], [cij_entry d], [mass_inverse_entry], [incidence_entry]: the
    matrices assembled on one rank, [trilinos], [without_trilinos]: on many.
    [line k n per]: linear continuous (CG1), linear discontinuous (DG1) or
    constant (DG0) elements on n cells of size one, periodic or not. *)
From Coq Require Import Reals List Bool Arith Lia Lra.
From Verif Require Import RVec Scheme SchemeSpec SchemeExamples AssemblySpec AssemblyProofs AssemblyFinal AssemblyRanks AssemblyMesh AssemblyExamples.
From Verif Require Import Assembly.
Import ListNotations.
Local Open Scope R_scope.

(** Non-vacuity: three continuous elements with a constrained degree of freedom
    (periodicity), an interval with boundary, discontinuous elements. *)
Example C102_instance :
  complete_ansatz (line CG1 3 true) /\ complete_ansatz (line CG1 3 false) /\ complete_ansatz (line DG1 3 true) /\
  free (line CG1 3 true) 0 /\ free (line CG1 3 true) 2 /\ ~ free (line CG1 3 true) 3 /\ ghost_layer (line DG1 3 true) /\ cellwise (line DG1 3 true).
Proof.
  split; [apply line_complete; lia|]. split; [apply line_complete; lia|]. split; [apply line_complete; lia|].
  split; [split; [cbn; lia|reflexivity]|]. split; [split; [cbn; lia|reflexivity]|]. split; [intros [_ E]; cbn in E; discriminate|].
  split; [apply line_ghosts|apply line_cellwise; reflexivity].
Qed.

(** ** C102 *)

(** Entries are the integrals of products of basis functions. *)
Theorem C102_galerkin : forall G I J,
  free G I ->
  mass_entry G I J = integral G (fun c q => basis G I c q * basis G J c q).
Proof. exact C102_galerkin_proof. Qed.
Print Assumptions C102_galerkin.

(** Symmetry between degrees of freedom that carry unknowns. *)
Theorem C102_symmetric : forall G I J,
  free G I -> free G J -> mass_entry G I J = mass_entry G J I.
Proof. exact C102_symmetric_proof. Qed.
Print Assumptions C102_symmetric.

(** Positive semidefinite for nonnegative quadrature weights. *)
Theorem C102_definite : forall G x,
  (forall I, is_constrained G I = true -> x I = 0) ->
  (forall c q, (c < g_n_cells G)%nat -> (q < g_n_points G)%nat -> 0 <= g_JxW G c q) ->
  0 <= rsum (g_n_dofs G) (fun I => rsum (g_n_dofs G) (fun J => x I * x J * mass_entry G I J)).
Proof. exact C102_definite_proof. Qed.
Print Assumptions C102_definite.

(** The lumped mass is the integral of the basis function. *)
Theorem C102_lumped : forall G I,
  valid_indices G -> closed_constraints G -> partition_of_unity G -> free G I ->
  lumped G (mass_entry G) I = integral G (fun c q => basis G I c q).
Proof. exact C102_lumped_proof. Qed.
Print Assumptions C102_lumped.

(** Constrained degrees of freedom have no mass. *)
Theorem C102_constrained : forall G I,
  valid_indices G -> closed_constraints G -> is_constrained G I = true ->
  lumped G (mass_entry G) I = 0.
Proof. exact C102_constrained_proof. Qed.
Print Assumptions C102_constrained.

(** A vector that satisfies the constraints is a combination of basis functions, *)
Theorem C102_expansion : forall G U c q,
  valid_indices G -> closed_constraints G -> satisfies_constraints G U -> (c < g_n_cells G)%nat ->
  fe_function G U c q = rsum (g_n_dofs G) (fun I => U I * basis G I c q).
Proof. exact C102_expansion_proof. Qed.
Print Assumptions C102_expansion.

(** and its sum weighted with the lumped masses is its integral. *)
Theorem C102_integral : forall G U,
  valid_indices G -> closed_constraints G -> partition_of_unity G -> satisfies_constraints G U ->
  rsum (g_n_dofs G) (fun I => lumped G (mass_entry G) I * U I) = integral G (fe_function G U).
Proof. exact C102_integral_proof. Qed.
Print Assumptions C102_integral.

(** The lumped masses add up to the measure of the domain. *)
Theorem C102_measure : forall G,
  valid_indices G -> closed_constraints G -> partition_of_unity G ->
  rsum (g_n_dofs G) (lumped G (mass_entry G)) = integral G (fun _ _ => 1).
Proof. exact C102_measure_proof. Qed.
Print Assumptions C102_measure.

(** Lumped masses are positive and at most the measure of the domain. *)
Theorem C102_positive : forall G I,
  valid_indices G -> closed_constraints G -> partition_of_unity G -> positive_shapes G -> free G I ->
  0 < lumped G (mass_entry G) I <= integral G (fun _ _ => 1).
Proof. exact C102_positive_proof. Qed.
Print Assumptions C102_positive.

Example C102_hat : satisfies_constraints (line CG1 3 true) (fun I => fst hat_state I tt) /\
  integral (line CG1 3 true) (fe_function (line CG1 3 true) (fun I => fst hat_state I tt)) = 1.
Proof. split; [exact hat_constraints|]. unfold integral, fe_function. cbn. lra. Qed.

(** ** C103 *)

(** Continuous ansatz: integrals of basis function times gradient. *)
Theorem C103_continuous : forall G d I J,
  g_discontinuous G = false -> free G I ->
  cij_entry G d I J = integral G (fun c q => basis G I c q * basis_grad G J c q d).
Proof. exact C103_continuous_proof. Qed.
Print Assumptions C103_continuous.

(** Discontinuous ansatz: with half of the jump on the interior faces. *)
Theorem C103_discontinuous : forall G d I J,
  g_discontinuous G = true -> free G I ->
  cij_entry G d I J = integral G (fun c q => basis G I c q * basis_grad G J c q d)
    + 1 / 2 * interior_integral G (fun c f c' f' q =>
        g_normal G c f q d * basis_face G I c f q * (basis_face G J c' f' q - basis_face G J c f q)).
Proof. exact C103_discontinuous_proof. Qed.
Print Assumptions C103_discontinuous.

(** Rows add up to zero. *)
Theorem C103_row_sum : forall G d I,
  valid_ansatz G -> free G I -> rsum (g_n_dofs G) (fun J => cij_entry G d I J) = 0.
Proof. exact C103_row_sum_proof. Qed.
Print Assumptions C103_row_sum.

(** c_ij + c_ji is the boundary integral of the normal with both basis functions. *)
Theorem C103_boundary : forall G d I J,
  valid_ansatz G -> (d < g_dim G)%nat -> free G I -> free G J ->
  cij_entry G d I J + cij_entry G d J I =
  boundary_integral G (fun c f q => g_normal G c f q d * basis_face G I c f q * basis_face G J c f q).
Proof. exact C103_boundary_proof. Qed.
Print Assumptions C103_boundary.

(** Skew symmetry of pairs that are not both on the same boundary face. *)
Theorem C103_skew : forall G d I J,
  valid_ansatz G -> (d < g_dim G)%nat -> free G I -> free G J ->
  (forall c f q, (c < g_n_cells G)%nat -> (f < g_n_faces G)%nat -> (q < g_n_face_points G)%nat -> g_neighbor G c f = None ->
     basis_face G I c f q * basis_face G J c f q = 0) ->
  cij_entry G d J I = - cij_entry G d I J.
Proof. exact C103_skew_proof. Qed.
Print Assumptions C103_skew.

(** Columns add up to the boundary integral of the normal. *)
Theorem C103_column_sum : forall G d J,
  valid_ansatz G -> (d < g_dim G)%nat -> free G J ->
  rsum (g_n_dofs G) (fun I => cij_entry G d I J) = boundary_integral G (fun c f q => g_normal G c f q d * basis_face G J c f q).
Proof. exact C103_column_sum_proof. Qed.
Print Assumptions C103_column_sum.

(** The interior faces cancel if the faces match and the traces agree. *)
Theorem C103_faces_cancel : forall G,
  matching_faces G -> continuous_basis G -> faces_cancel G.
Proof. exact C103_faces_cancel_proof. Qed.
Print Assumptions C103_faces_cancel.

Example C103_instance : matching_faces (line CG1 3 true) /\ continuous_basis (line CG1 3 true) /\
  cij_entry (line CG1 3 false) 0 0 0 = - (1 / 2) /\ cij_entry (line CG1 3 false) 0 1 2 = 1 / 2.
Proof.
  split; [apply line_matching|]. split; [apply line_continuous; lia|].
  rewrite !C103_continuous_proof by (first [reflexivity|split; [cbn; lia|reflexivity]]). unfold integral, basis, basis_grad, weight. cbn. lra.
Qed.

(** ** C104 *)

(** The block inverse is the inverse of the mass matrix. *)
Theorem C104_inverse : forall G c i c' j,
  valid_indices G -> cellwise G ->
  (forall c, (c < g_n_cells G)%nat -> inverse_matrix (g_n_local G) (cell_mass G c) (g_invert G (cell_mass G c))) ->
  (c < g_n_cells G)%nat -> (i < g_n_local G)%nat -> (c' < g_n_cells G)%nat -> (j < g_n_local G)%nat ->
  rsum (g_n_dofs G) (fun K => mass_inverse_entry G (g_dof G c i) K * mass_entry G K (g_dof G c' j)) =
  if Nat.eqb (g_dof G c i) (g_dof G c' j) then 1 else 0.
Proof. exact C104_inverse_proof. Qed.
Print Assumptions C104_inverse.

(** It is symmetric. *)
Theorem C104_inverse_symmetric : forall G I J,
  (forall c, (c < g_n_cells G)%nat -> inverse_matrix (g_n_local G) (cell_mass G c) (g_invert G (cell_mass G c))) ->
  mass_inverse_entry G I J = mass_inverse_entry G J I.
Proof. exact C104_inverse_symmetric_proof. Qed.
Print Assumptions C104_inverse_symmetric.

(** The incidence matrix is symmetric. *)
Theorem C104_incidence_symmetric : forall G eps m I J,
  matching_faces G -> incidence_entry G eps m I J = incidence_entry G eps m J I.
Proof. exact C104_incidence_symmetric_proof. Qed.
Print Assumptions C104_incidence_symmetric.

(** Entries of the incidence matrix: the weight of the pair for each node at which it
    meets. *)
Theorem C104_encounters : forall G eps m I J,
  cellwise G ->
  incidence_entry G eps m I J = INR (encounters G eps I J) * incidence_weight G m I J.
Proof. exact C104_encounters_proof. Qed.
Print Assumptions C104_encounters.

(** Not every pair is visited precisely once (comments in the code): with two cells in
    a periodic direction the pair meets at both faces and has twice the weight. *)
Theorem C104_once_refuted : exists G, complete_ansatz G /\ cellwise G /\ no_boundary G /\
  exists eps I J, 0 < eps /\ free G I /\ free G J /\ I <> J /\
    incidence_entry G eps (lumped G (mass_entry G)) I J = 2 * incidence_weight G (lumped G (mass_entry G)) I J /\
    0 < incidence_weight G (lumped G (mass_entry G)) I J.
Proof. exact C104_once_refuted_proof. Qed.
Print Assumptions C104_once_refuted.

Example C104_instance : forall c, inverse_matrix 2 (cell_mass (line DG1 3 true) c) (g_invert (line DG1 3 true) (cell_mass (line DG1 3 true) c)).
Proof. exact (line_inverse DG1 3 true). Qed.

(** ** C105 *)

(** With Trilinos: sums over the ranks of what they assemble for their own cells. *)
Theorem C105_with_trilinos : forall G eps m d I J,
  ghost_layer G ->
  trilinos G (fun cells _ => mass_tmp G cells) I J = mass_entry G I J /\
  trilinos G (fun cells vis => cij_tmp G cells vis d) I J = cij_entry G d I J /\
  trilinos G (fun cells _ => mass_inverse_tmp G cells) I J = mass_inverse_entry G I J /\
  trilinos G (incidence_tmp G eps m) I J = incidence_entry G eps m I J.
Proof. exact C105_with_trilinos_proof. Qed.
Print Assumptions C105_with_trilinos.

(** Without: every rank assembles the cells it sees and keeps its rows. *)
Theorem C105_without_trilinos : forall G eps m d I J,
  ghost_layer G -> free G I ->
  without_trilinos G (fun cells _ => mass_tmp G cells) I J = mass_entry G I J /\
  without_trilinos G (fun cells vis => cij_tmp G cells vis d) I J = cij_entry G d I J /\
  without_trilinos G (fun cells _ => mass_inverse_tmp G cells) I J = mass_inverse_entry G I J /\
  without_trilinos G (incidence_tmp G eps m) I J = incidence_entry G eps m I J.
Proof. exact C105_without_trilinos_proof. Qed.
Print Assumptions C105_without_trilinos.

(** Matrices that are not compressed: their rows are complete at the owner. *)
Theorem C105_uncompressed : forall G eps m I J,
  ghost_layer G -> cellwise G -> (I < g_n_dofs G)%nat ->
  let p := g_row_rank G I in
  mass_inverse_tmp G (fun c => Nat.eqb (g_rank G c) p) I J = mass_inverse_entry G I J /\
  incidence_tmp G eps m (fun c => Nat.eqb (g_rank G c) p) (g_visible G p) I J = incidence_entry G eps m I J.
Proof. exact C105_uncompressed_proof. Qed.
Print Assumptions C105_uncompressed.

(** The measure of the domain with Trilinos. *)
Theorem C105_measure : forall G,
  ghost_layer G -> measure G = integral G (fun _ _ => 1).
Proof. exact C105_measure_proof. Qed.
Print Assumptions C105_measure.

(** Without, cells are counted by every rank that sees them. *)
Theorem C105_measure_without : forall G,
  measure_without_trilinos G = integral G (fun c _ => INR (length (filter (fun p => g_visible G p c) (seq 0 (g_n_ranks G))))).
Proof. exact C105_measure_without_proof. Qed.
Print Assumptions C105_measure_without.

(** Two ranks: the measure of the domain is doubled. *)
Theorem C105_measure_refuted : exists G, complete_ansatz G /\ ghost_layer G /\
  integral G (fun _ _ => 1) = 3 /\ measure_without_trilinos G = 6.
Proof. exact C105_measure_refuted_proof. Qed.
Print Assumptions C105_measure_refuted.

Example C105_instance : ghost_layer (line DG1 3 true) /\ cellwise (line DG1 3 true) /\
  g_row_rank (line DG1 3 true) 0 <> g_row_rank (line DG1 3 true) 2.
Proof. split; [apply line_ghosts|]. split; [apply line_cellwise; reflexivity|]. discriminate. Qed.

(** ** C106 *)

(** Entries outside of the sparsity pattern are zero. *)
Theorem C106_outside : forall G e m d I J,
  valid_ansatz G -> support_correct G -> 0 <= e -> free G I -> (J < g_n_dofs G)%nat -> ~ In J (stencil G I) ->
  mass_entry G I J = 0 /\ cij_entry G d I J = 0 /\ mass_inverse_entry G I J = 0 /\ incidence_entry G e m I J = 0.
Proof. exact C106_outside_proof. Qed.
Print Assumptions C106_outside.

(** The assembled mesh meets the assumptions of C17 - C22. *)
Theorem C106_mesh : forall G eps,
  complete_ansatz G ->
  let M := assembled_mesh G eps in
  symmetric_pattern M /\ positive_masses M /\ symmetric_matrices M /\ mesh_dimension M (g_dim G) /\ pairs_listed M /\
  (forall i, active M i -> zero_row_sum M i) /\
  (forall i, active M i -> 0 < mass M i <= measure_of_omega M) /\
  (no_boundary G -> forall i j, active M i -> In j (columns M i) -> skew_at M i j).
Proof. exact C106_mesh_proof. Qed.
Print Assumptions C106_mesh.

(** On a domain without boundary a time step of a system without sources preserves the
    integral of every component (of the vector with constraints distributed). *)
Theorem C106_conservation : forall K (S : system K) G eps num_min F order n a0 d0 l0 ln0 new0 old stages tau k V,
  complete_ansatz G -> no_boundary G ->
  let M := assembled_mesh G eps in
  valid_numbering M -> symmetric_riemann S M old -> nonneg_riemann S ->
  plain S -> central_flux S (g_dim G) F -> have_high_order_flux K S = false ->
  (forall I, free G I -> active M I) ->
  (forall I, active M I -> V I = fst (hyperbolic_update S M num_min order n a0 d0 l0 ln0 new0 old stages tau) I) ->
  satisfies_constraints G (fun I => V I k) -> satisfies_constraints G (fun I => fst old I k) ->
  integral G (fe_function G (fun I => V I k)) = integral G (fe_function G (fun I => fst old I k)).
Proof. exact C106_conservation_proof. Qed.
Print Assumptions C106_conservation.

(** Uniform states are preserved. *)
Theorem C106_uniform : forall K (S : system K) G eps num_min F u f order n a0 d0 l0 ln0 new0 old stages tau i,
  complete_ansatz G ->
  let M := assembled_mesh G eps in
  plain S -> have_high_order_flux K S = false -> central_flux S (g_dim G) F ->
  (forall v, v = old \/ In v (map fst stages) -> forall j, active M j -> fst v j = u /\ flux_contribution K S (snd v) j u = f) ->
  active M i ->
  fst (hyperbolic_update S M num_min order n a0 d0 l0 ln0 new0 old stages tau) i = u.
Proof. exact C106_uniform_proof. Qed.
Print Assumptions C106_uniform.

Example C106_instance : complete_ansatz (line CG1 3 true) /\ no_boundary (line CG1 3 true) /\
  (forall eps, valid_numbering (assembled_mesh (line CG1 3 true) eps)) /\
  (forall eps I, free (line CG1 3 true) I -> active (assembled_mesh (line CG1 3 true) eps) I) /\
  (forall M old, symmetric_riemann burgers M old) /\ nonneg_riemann burgers /\ plain burgers /\
  central_flux burgers (g_dim (line CG1 3 true)) (fun a _ _ => a) /\
  satisfies_constraints (line CG1 3 true) (fun I => fst hat_state I tt).
Proof.
  split; [apply line_complete; lia|]. split; [apply line_no_boundary; lia|]. split; [apply line_numbering|]. split; [apply line_active|].
  split; [apply burgers_symmetric|]. split; [apply burgers_nonneg|]. split; [split; reflexivity|]. split; [apply burgers_central|apply hat_constraints].
Qed.
