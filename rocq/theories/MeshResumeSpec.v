(** * What a mesh means *)
From Coq Require Import Reals List Arith.
Import ListNotations.
From Verif Require Import RVec Discretization MeshTransfer MeshResume.
Local Open Scope R_scope.

(** The point of space that belongs to a point of the coarse cell. *)
Fixpoint place_of (dim : nat) (m : mesh) (x : nat -> R) (d : nat) : R :=
  match m with
  | active V => cell_value cg_q1 dim V x d
  | parent _ s => let c := son_of dim x in place_of dim (s c) (in_son c x) d
  end.

(** The active cells. *)
Fixpoint active_cells (dim : nat) (m : mesh) : list cell :=
  match m with
  | active V => V :: nil
  | parent _ s => flat_map (fun c => active_cells dim (s c)) (seq 0 (2 ^ dim))
  end.

(** The cell to which a way (numbers of sons) leads. *)
Fixpoint cell_at (m : mesh) (way : list nat) {struct way} : option mesh :=
  match way, m with
  | nil, _ => Some m
  | cons c rest, parent _ s => cell_at (s c) rest
  | cons _ _, active _ => None
  end.

(** All sons of the cell at [way] are active and marked for coarsening. *)
Definition all_removed (dim : nat) (flags : list nat -> flag) (m : mesh) (way : list nat) : Prop :=
  forall c, (c < 2 ^ dim)%nat -> (exists V, cell_at m (way ++ cons c nil) = Some (active V)) /\ flags (way ++ cons c nil)%list = coarsen.
