(** * Levels of the mesh and diagonals of their operators *)
From Coq Require Import Reals List Arith.
From Verif Require Import RVec BoundaryMap AssemblySpec ParabolicSpec.
From Verif Require Import Assembly Parabolic Multigrid.
Local Open Scope R_scope.

(** A level of the mesh: continuous elements without constraints, the unknowns of a cell are
    different from each other. *)
Definition level_mesh (G : geometry) : Prop :=
  proper G /\ (forall g, g_constraint G g = None) /\ positive_weights G /\ positive_masses G /\
  forall c i j, (c < g_n_cells G)%nat -> (i < g_n_local G)%nat -> (j < g_n_local G)%nat -> g_dof G c i = g_dof G c j -> i = j.

(** Diagonal entries of an operator on scalar and on vector valued functions. *)
Definition entry (A : (nat -> R) -> nat -> R) (I : nat) : R := A (fun J => if Nat.eqb J I then 1 else 0) I.
Definition entry_block (A : field -> field) (I a : nat) : R :=
  A (fun J b => if Nat.eqb J I then if Nat.eqb b a then 1 else 0 else 0) I a.

(** The normal is plus or minus the k-th coordinate direction for some k. *)
Definition along_axis (dim : nat) (n : vec) : Prop :=
  exists k, (k < dim)%nat /\ (n k = 1 \/ n k = -1) /\ forall d, d <> k -> n d = 0.

(** The index of the last step before or at step k that sets up the levels. *)
Definition last_setup (k : nat) : nat := (4 * (k / 4))%nat.

(** The state of the multigrid data after a call of prepare() and the first k + 1 steps. *)
Fixpoint after (uv ue : bool) (kappa : R) (interpolate : nat -> (nat -> R) -> nat -> nat -> R) (mesh : nat)
    (tau : nat -> R) (rho : nat -> nat -> R) (s : multigrid) (k : nat) : multigrid :=
  mg_step uv ue kappa interpolate (tau k) (rho k)
    (match k with O => mg_prepare uv ue mesh s | S j => after uv ue kappa interpolate mesh tau rho s j end).
