(** * Meshes of boxes with the selected elements and quadratures *)
From Coq Require Import Reals List Arith.
From Verif Require Import RVec Assembly AssemblySpec Discretization.
Import ListNotations.
Local Open Scope R_scope.

(** The integral over [0, 1] of a polynomial given by its coefficients. *)
Fixpoint integral_from (k : nat) (P : list R) : R :=
  match P with [] => 0 | c :: P' => c / INR (S k) + integral_from (S k) P' end.
Definition integral01 (P : list R) : R := integral_from 0 P.

(** What deal.II hands to the assembly on a mesh whose cells are boxes; [extent c k] is the
    extent of cell [c] in direction [k]. *)
Definition box_mesh (a : ansatz) (extent : nat -> nat -> R) (G : geometry) : Prop :=
  (1 <= g_dim G)%nat /\ (forall c k, 0 < extent c k) /\
  g_n_local G = box_n_local a (g_dim G) /\ g_n_points G = box_n_points a (g_dim G) /\
  g_n_faces G = (2 * g_dim G)%nat /\ g_n_face_points G = box_n_face_points a (g_dim G) /\
  g_n_nodes G = box_n_nodes a (g_dim G) /\
  (forall c i q, g_value G c i q = box_value a (g_dim G) i q) /\
  (forall c q, g_JxW G c q = box_JxW a (g_dim G) (extent c) q) /\
  (forall c i q d, g_grad G c i q d = box_grad a (g_dim G) (extent c) i q d) /\
  (forall c f i q, g_face_value G c f i q = box_face_value a (g_dim G) f i q) /\
  (forall c f q, g_face_JxW G c f q = box_face_JxW a (g_dim G) (extent c) f q) /\
  (forall c f q d, g_normal G c f q d = box_normal f q d) /\
  (forall c f i q, g_node_value G c f i q = box_node_value a (g_dim G) f i q) /\
  (forall i f, g_support G i f = box_support a i f).

(** The product of the extents. *)
Definition volume (dim : nat) (h : nat -> R) : R := rprod dim h.

(** The face on the opposite side. *)
Definition opposite (f : nat) : nat := if Nat.eqb (f mod 2) 0 then S f else (f - 1)%nat.

(** Neighbors share complete faces. *)
Definition conforming (extent : nat -> nat -> R) (G : geometry) : Prop :=
  forall c f c' f', (c < g_n_cells G)%nat -> (f < g_n_faces G)%nat -> g_neighbor G c f = Some (c', f') ->
    (c' < g_n_cells G)%nat /\ f' = opposite f /\ g_neighbor G c' f' = Some (c, f) /\
    forall m, m <> (f / 2)%nat -> extent c' m = extent c m.

(** The position of a shape function in each direction, and on a face the first or the last one. *)
Definition position (a : ansatz) (i k : nat) : nat := digit (S (degree a)) i k.
Definition on_face (a : ansatz) (i f : nat) : Prop :=
  position a i (f / 2) = if Nat.eqb (f mod 2) 0 then 0%nat else degree a.

(** Continuous ansatz: shape functions in the same point of a face have the same number. *)
Definition shared_dofs (a : ansatz) (G : geometry) : Prop :=
  (1 <= degree a)%nat /\
  forall c f c' f' i i', (c < g_n_cells G)%nat -> (f < g_n_faces G)%nat -> g_neighbor G c f = Some (c', f') ->
    (i < g_n_local G)%nat -> (i' < g_n_local G)%nat -> on_face a i f -> on_face a i' f' ->
    (forall m, (m < g_dim G)%nat -> m <> (f / 2)%nat -> position a i m = position a i' m) ->
    g_dof G c i = g_dof G c' i'.

(** All of it: a mesh of boxes without hanging nodes and without constraints. *)
Definition box_discretization (a : ansatz) (extent : nat -> nat -> R) (G : geometry) : Prop :=
  box_mesh a extent G /\ conforming extent G /\ valid_indices G /\ (forall g, g_constraint G g = None) /\
  (if g_discontinuous G then cellwise G else shared_dofs a G).
