(** * Assembly of the matrices: OfflineData::assemble

    source/offline_data.template.h:426-1000.  The finite element values
    (dealii::FEValues), the constraints (dealii::AffineConstraints) and the
    distribution of the cells over the ranks are given data; the loops that
    form the local matrices, distribute them, lump the mass matrix and build
    the incidence matrix are modelled. *)
From Coq Require Import Reals List Bool Arith.
From Verif Require Import RVec BoundaryMap.
From Verif Require Scheme.
Import ListNotations.
Local Open Scope R_scope.

(** What the loops read from deal.II, source/offline_data.template.h:500-671,
    source/scratch_data.h:23-72. *)
Record geometry := Geometry {
  g_dim : nat;
  g_n_dofs : nat;                              (** dof_handler.n_dofs() *)
  g_n_cells : nat;                             (** active cells *)
  g_n_local : nat;                             (** dofs_per_cell *)
  g_dof : nat -> nat -> nat;                   (** get_dof_indices: cell, local index *)
  g_n_points : nat;                            (** quadrature points of a cell *)
  g_JxW : nat -> nat -> R;                     (** cell, point *)
  g_value : nat -> nat -> nat -> R;            (** shape_value: cell, local index, point *)
  g_grad : nat -> nat -> nat -> nat -> R;      (** shape_grad: cell, local index, point, component *)
  g_n_faces : nat;                             (** faces of a cell *)
  g_neighbor : nat -> nat -> option (nat * nat);
    (** neighbor_or_periodic_neighbor of cell and face, with the number of the
        face seen from there; None: at the boundary and not periodic *)
  g_at_boundary : nat -> nat -> bool;          (** face->at_boundary() *)
  g_boundary_id : nat -> nat -> nat;           (** face->boundary_id() *)
  g_support : nat -> nat -> bool;              (** has_support_on_face: local index, face *)
  g_n_face_points : nat;
  g_face_JxW : nat -> nat -> nat -> R;         (** cell, face, point *)
  g_normal : nat -> nat -> nat -> nat -> R;    (** cell, face, point, component *)
  g_face_value : nat -> nat -> nat -> nat -> R;(** cell, face, local index, point *)
  g_n_nodes : nat;                             (** points of the nodal face quadrature *)
  g_node_value : nat -> nat -> nat -> nat -> R;
  g_constraint : nat -> option (list (nat * R));
    (** lines of the closed affine_constraints_; inhomogeneities are zero *)
  g_discontinuous : bool;                      (** have_discontinuous_ansatz *)
  g_even : bool;                               (** Ansatz dg_q0 or dg_q2 *)
  g_relaxation_even : R;
  g_relaxation_odd : R;
  g_extra : nat -> nat -> R;
    (** what distribute_local_to_global adds to the diagonal of a constrained
        row for a cell (to keep the matrix regular) *)
  g_invert : (nat -> nat -> R) -> nat -> nat -> R; (** FullMatrix::invert *)
  g_n_ranks : nat;
  g_rank : nat -> nat;                         (** rank owning a cell *)
  g_visible : nat -> nat -> bool;              (** rank, cell: not artificial *)
  g_row_rank : nat -> nat;                     (** rank owning a degree of freedom *)
  g_row_index : nat -> nat;                    (** its index there *)
  g_row_lanes : nat -> list nat }.             (** rows of the same SIMD group *)

Section Assembly.
Variable G : geometry.
Let nl := g_n_local G.

(** ** The local matrices *)

(** cell_measure_, source/offline_data.template.h:558-564 *)
Definition cell_measure (c : nat) : R := rsum (g_n_points G) (fun q => g_JxW G c q).

(** cell_mass_matrix(i, j), source/offline_data.template.h:560-578 *)
Definition cell_mass (c i j : nat) : R :=
  rsum (g_n_points G) (fun q => g_value G c i q * (g_value G c j q * g_JxW G c q)).

(** The cell has a neighbor behind the face and it is not artificial for the
    rank with the visible cells [vis], source/offline_data.template.h:588-609. *)
Definition has_neighbor (vis : nat -> bool) (c f : nat) : bool :=
  match g_neighbor G c f with Some (c', _) => vis c' | None => false end.

(** cell_cij_matrix[d](i, j), source/offline_data.template.h:560-578 and, for a
    discontinuous ansatz, 580-629. *)
Definition cell_cij (vis : nat -> bool) (c d i j : nat) : R :=
  rsum (g_n_points G) (fun q => g_value G c i q * (g_grad G c j q d * g_JxW G c q))
  - (if g_discontinuous G then
       rsum (g_n_faces G) (fun f =>
         if has_neighbor vis c f then
           rsum (g_n_face_points G) (fun q =>
             1 / 2 * g_normal G c f q d * g_face_value G c f i q
             * (g_face_value G c f j q * g_face_JxW G c f q))
         else 0)
     else 0).

(** interface_cij_matrix[f][d](i, j) with the face values of the neighbor,
    source/offline_data.template.h:631-660. *)
Definition interface_cij (c f c' f' d i j : nat) : R :=
  rsum (g_n_face_points G) (fun q =>
    1 / 2 * g_normal G c f q d * g_face_value G c f i q
    * (g_face_value G c' f' j q * g_face_JxW G c f q)).

(** ** The distribution into the global matrices *)

(** AffineConstraints::is_constrained of deal.II for affine_constraints_assembly, source/offline_data.template.h:702-724. *)
Definition is_constrained (g : nat) : bool :=
  match g_constraint G g with Some _ => true | None => false end.

(** Coefficient of the degree of freedom I in the constraint of g (1 for g
    itself if there is none).  deal.II, as used by source/offline_data.template.h:702-724. *)
Definition weight (I g : nat) : R :=
  match g_constraint G g with
  | None => if Nat.eqb I g then 1 else 0
  | Some line => fold_right (fun e s => (if Nat.eqb (fst e) I then snd e else 0) + s) 0 line
  end.

(** AffineConstraints::distribute_local_to_global(A, rows, cols, matrix), as
    called in source/offline_data.template.h:702-724,963-967: every entry of A
    is added to the rows and columns its indices are expanded to. *)
Definition distribute (A : nat -> nat -> R) (rows cols : nat -> nat) (I J : nat) : R :=
  rsum nl (fun i => rsum nl (fun j => weight I (rows i) * weight J (cols j) * A i j)).

(** The variant with one index set also fills the diagonal of constrained rows.
    deal.II, called in source/offline_data.template.h:702-724. *)
Definition distribute_square (c : nat) (A : nat -> nat -> R) (I J : nat) : R :=
  distribute A (g_dof G c) (g_dof G c) I J
  + (if Nat.eqb I J && is_constrained I then g_extra G c I else 0).

(** Loop over the cells that a rank assembles.
    source/offline_data.template.h:729, 972 (WorkStream). *)
Definition over_cells (cells : nat -> bool) (F : nat -> R) : R :=
  rsum (g_n_cells G) (fun c => if cells c then F c else 0).

(** mass_matrix_tmp on a rank, source/offline_data.template.h:702-703 *)
Definition mass_tmp (cells : nat -> bool) (I J : nat) : R :=
  over_cells cells (fun c => distribute_square c (cell_mass c) I J).

(** cij_matrix_tmp[d] on a rank, source/offline_data.template.h:705-718 *)
Definition cij_tmp (cells vis : nat -> bool) (d I J : nat) : R :=
  over_cells cells (fun c =>
    distribute_square c (cell_cij vis c d) I J
    + (if g_discontinuous G then
         rsum (g_n_faces G) (fun f =>
           match g_neighbor G c f with
           | Some (c', f') =>
               if vis c' then distribute (interface_cij c f c' f' d) (g_dof G c) (g_dof G c') I J else 0
           | None => 0
           end)
       else 0)).

(** mass_matrix_inverse_tmp on a rank, source/offline_data.template.h:663-670,720-724
    (zero where the code has no such matrix). *)
Definition mass_inverse_tmp (cells : nat -> bool) (I J : nat) : R :=
  if g_discontinuous G then over_cells cells (fun c => distribute_square c (g_invert G (cell_mass c)) I J) else 0.

(** measure_of_omega_, source/offline_data.template.h:428,563-564,726,761-762: the
    sum over the ranks of the cells they assemble.  With Trilinos these are the
    cells they own (line 520), without those that are not artificial (line 528). *)
Definition measure_over (cells : nat -> nat -> bool) : R :=
  rsum (g_n_ranks G) (fun p => over_cells (cells p) cell_measure).
(** See the comment above, source/offline_data.template.h:428,563-564,726,761-762. *)
Definition measure : R := measure_over (fun p c => Nat.eqb (g_rank G c) p).
(** See the comment above, source/offline_data.template.h:428,563-564,726,761-762. *)
Definition measure_without_trilinos : R := measure_over (g_visible G).

(** With Trilinos every rank assembles the cells it owns and compress() adds up
    the contributions, source/offline_data.template.h:519-520,740-748. *)
Definition trilinos (tmp : (nat -> bool) -> (nat -> bool) -> nat -> nat -> R) (I J : nat) : R :=
  rsum (g_n_ranks G) (fun p => tmp (fun c => Nat.eqb (g_rank G c) p) (g_visible G p) I J).

(** Without, a rank assembles the cells it sees and keeps its own rows,
    source/offline_data.template.h:521-531,749-754. *)
Definition without_trilinos (tmp : (nat -> bool) -> (nat -> bool) -> nat -> nat -> R) (I J : nat) : R :=
  let p := g_row_rank G I in tmp (g_visible G p) (g_visible G p) I J.

(** One rank that owns everything.
    The case of a run with one rank, source/offline_data.template.h:520-530. *)
Definition serial (tmp : (nat -> bool) -> (nat -> bool) -> nat -> nat -> R) (I J : nat) : R :=
  tmp (fun _ => true) (fun _ => true) I J.

(** mass_matrix_ as assembled in source/offline_data.template.h:702-703 and 729-754. *)
Definition mass_entry : nat -> nat -> R := serial (fun cells _ => mass_tmp cells).
(** mass_matrix_inverse_ as assembled in source/offline_data.template.h:720-724 and 729-754. *)
Definition mass_inverse_entry : nat -> nat -> R := serial (fun cells _ => mass_inverse_tmp cells).
(** cij_matrix_ as assembled in source/offline_data.template.h:705-718 and 729-754. *)
Definition cij_entry (d : nat) : nat -> nat -> R := serial (fun cells vis => cij_tmp cells vis d).

(** ** The lumped mass matrix *)

(** lumped_mass_matrix_, source/offline_data.template.h:764-806: the
    product with the vector of ones, set to zero at constrained indices. *)
Definition lumped (M : nat -> nat -> R) (I : nat) : R :=
  rsum (g_n_dofs G) (fun J => M I J * (if is_constrained J then 0 else 1)).

(** lumped_mass_matrix_inverse_, source/offline_data.template.h:782-783,800-801.
    (1 / 0 is infinite in the code; it occurs in constrained rows only.) *)
Definition lumped_inverse (M : nat -> nat -> R) (I : nat) : R := 1 / lumped M I.

(** ** The incidence matrix *)

(** r_ij, source/offline_data.template.h:898-924 *)
Definition incidence_weight (m : nat -> R) (i j : nat) : R :=
  let hd_ij := 1 / 2 * (m i + m j) / measure in
  powr hd_ij ((if g_even G then g_relaxation_even G else g_relaxation_odd G) / INR (g_dim G)).

(** interface_incidence_matrix[f](i, j), source/offline_data.template.h:887-930 *)
Definition interface_incidence (eps : R) (m : nat -> R) (c f c' f' i j : nat) : R :=
  rsum (g_n_nodes G) (fun q =>
    if Rlt_dec (100 * eps) (Rabs (g_node_value G c f i q * g_node_value G c' f' j q))
    then incidence_weight m (g_dof G c i) (g_dof G c' j) else 0).

(** incidence_matrix_tmp on a rank, source/offline_data.template.h:808-990 (zero
    where the code has no such matrix). *)
Definition incidence_tmp (eps : R) (m : nat -> R) (cells vis : nat -> bool) (I J : nat) : R :=
  if g_discontinuous G then
    over_cells cells (fun c =>
      rsum (g_n_faces G) (fun f =>
        match g_neighbor G c f with
        | Some (c', f') =>
            if vis c' then distribute (interface_incidence eps m c f c' f') (g_dof G c) (g_dof G c') I J else 0
        | None => 0
        end))
  else 0.

(** See the comment above, source/offline_data.template.h:808-990. *)
Definition incidence_entry (eps : R) (m : nat -> R) : nat -> nat -> R := serial (incidence_tmp eps m).

(** ** The sparsity pattern *)

(** I is among the indices g is expanded to.
    deal.II, as used by source/offline_data.template.h:149-172. *)
Definition reaches (I g : nat) : bool :=
  match g_constraint G g with
  | None => Nat.eqb I g
  | Some line => existsb (fun e => Nat.eqb (fst e) I) line
  end.

(** Couplings within a cell (add_entries_local_to_global with
    keep_constrained = false), source/offline_data.template.h:149-172,
    source/local_index_handling.h:404-422,457-464. *)
Definition touches (I c : nat) : bool := existsb (fun i => reaches I (g_dof G c i)) (seq 0 nl).
(** See the comment above, source/offline_data.template.h:149-172 and source/local_index_handling.h:404-422,457-464. *)
Definition couples_cell (I J : nat) : bool :=
  existsb (fun c => touches I c && touches J c) (seq 0 (g_n_cells G)).

(** Couplings across faces for a discontinuous ansatz,
    source/local_index_handling.h:466-508. *)
Definition touches_face (I c f : nat) : bool :=
  existsb (fun i => g_support G i f && reaches I (g_dof G c i)) (seq 0 nl).
(** See the comment above, source/local_index_handling.h:466-508. *)
Definition couples_face (I J : nat) : bool :=
  g_discontinuous G &&
  existsb (fun c => existsb (fun f =>
    match g_neighbor G c f with
    | Some (c', f') => touches_face I c f && touches_face J c' f'
    | None => false
    end) (seq 0 (g_n_faces G))) (seq 0 (g_n_cells G)).

(** The columns of a row, the diagonal first; constrained rows have only the
    diagonal, source/offline_data.template.h:146-182. *)
Definition stencil (I : nat) : list nat :=
  if is_constrained I then [I]
  else I :: filter (fun J => negb (Nat.eqb J I) && negb (is_constrained J) && (couples_cell I J || couples_face I J))
              (seq 0 (g_n_dofs G)).

(** ** Boundary pairs *)

(** The loop over cells, faces and local indices,
    source/offline_data.template.h:1394-1428, on one rank that sees all cells. *)
Definition boundary_visits : list face_visit :=
  flat_map (fun c => flat_map (fun f => map (fun j =>
    FVisit false (g_at_boundary G c f) (g_support G j f) (g_boundary_id G c f) (g_dof G c j))
    (seq 0 nl)) (seq 0 (g_n_faces G))) (seq 0 (g_n_cells G)).

(** ** The result *)

(** The matrices and vectors of OfflineData as HyperbolicModule::step reads them
    ([Scheme.mesh]), source/offline_data.template.h:426-990. *)
Definition assembled_mesh (eps : R) : Scheme.mesh :=
  {| Scheme.n_rows := g_n_dofs G;
     Scheme.owner := g_row_rank G;
     Scheme.index := g_row_index G;
     Scheme.lanes := g_row_lanes G;
     Scheme.columns := stencil;
     Scheme.mass := lumped mass_entry;
     Scheme.mass_inv := lumped_inverse mass_entry;
     Scheme.mass_ij := mass_entry;
     Scheme.mass_ij_inv := mass_inverse_entry;
     Scheme.c_ij := fun I J => map (fun d => cij_entry d I J) (seq 0 (g_dim G));
     Scheme.incidence := incidence_entry eps (lumped mass_entry);
     Scheme.coupling_pairs := map (fun '(i, _, j) => (i, j))
       (collect_coupling_boundary_pairs (g_n_dofs G) (g_n_dofs G) stencil boundary_visits);
     Scheme.measure_of_omega := measure;
     Scheme.discontinuous := g_discontinuous G |}.
End Assembly.
