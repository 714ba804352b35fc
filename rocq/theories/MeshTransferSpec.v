(** * What a state on a mesh means *)
From Coq Require Import Reals List Arith.
Import ListNotations.
From Verif Require Import RVec Discretization MeshTransfer.
Local Open Scope R_scope.

Section Spec.
Variables (a : ansatz) (dim : nat).

(** The value of the state in a point of the coarse cell [0, 1]^dim. *)
Fixpoint value_at (t : tree) (x : nat -> R) (v : nat) : R :=
  match t with
  | leaf U => cell_value a dim U x v
  | sons s => let c := son_of dim x in value_at (s c) (in_son c x) v
  end.

(** The mass of a shape function on a box with extents [h], as the assembly computes it. *)
Definition shape_mass (h : nat -> R) (i : nat) : R :=
  rsum (box_n_points a dim) (fun q => box_value a dim i q * box_JxW a dim h q).

(** The total of component [v] on a coarse cell with extents [h]. *)
Fixpoint total_of (h : nat -> R) (t : tree) (v : nat) : R :=
  match t with
  | leaf U => rsum (box_n_local a dim) (fun i => shape_mass h i * U i v)
  | sons s => rsum (2 ^ dim) (fun c => total_of (fun k => h k / 2) (s c) v)
  end.

(** The number of active cells. *)
Fixpoint n_active (t : tree) : nat :=
  match t with
  | leaf _ => 1
  | sons s => fold_right (fun c m => n_active (s c) + m)%nat 0%nat (seq 0 (2 ^ dim))
  end.

(** All nodal states belong to a set. *)
Fixpoint all_states (X : (nat -> R) -> Prop) (t : tree) : Prop :=
  match t with
  | leaf U => forall i, (i < box_n_local a dim)%nat -> X (U i)
  | sons s => forall c, (c < 2 ^ dim)%nat -> all_states X (s c)
  end.

(** The L2 projection of the function on the sons, tested with each shape function of the
    parent, on the unit cell. *)
Definition projects (restrict : (nat -> nat -> nat -> R) -> nat -> nat -> R) : Prop :=
  let unit := fun _ : nat => 1 in
  let point q := fun k => gauss_point (n_gauss a) (digit (n_gauss a) q k) in
  forall s i v, (i < box_n_local a dim)%nat ->
    rsum (box_n_points a dim) (fun q => shape_at a dim i (point q) * cell_value a dim (restrict s) (point q) v * box_JxW a dim unit q) =
    rsum (2 ^ dim) (fun c => rsum (box_n_points a dim) (fun q =>
      shape_at a dim i (in_parent c (point q)) * cell_value a dim (s c) (point q) v * box_JxW a dim (fun _ => 1 / 2) q)).
End Spec.

(** Flags that only refine. *)
Definition only_refines (m : list nat -> flag) : Prop := forall way, m way <> coarsen.

(** The cell to which a way (numbers of sons) leads. *)
Fixpoint at_way (t : tree) (way : list nat) {struct way} : option tree :=
  match way, t with
  | nil, _ => Some t
  | cons c rest, sons s => at_way (s c) rest
  | cons _ _, leaf _ => None
  end.

(** The way leads through existing sons. *)
Definition way_in (dim : nat) (way : list nat) : Prop := forall c, In c way -> (c < 2 ^ dim)%nat.

(** All sons of the cell at [way] are active and marked for coarsening. *)
Definition all_coarsen (dim : nat) (m : list nat -> flag) (t : tree) (way : list nat) : Prop :=
  forall c, (c < 2 ^ dim)%nat -> (exists U, at_way t (way ++ cons c nil) = Some (leaf U)) /\ m (way ++ cons c nil)%list = coarsen.
