(** * Notions for the points of manifolds *)
From Coq Require Import Reals String List Bool Arith.
From Verif Require Import QuantitiesMesh.
Import ListNotations.
Local Open Scope R_scope.

(** The mesh without its distribution: the degrees of freedom, their positions, lumped
    masses and whether they are free of constraints. *)
Record global_mesh := { occurs : nat -> Prop; pos : nat -> position; gmass : nat -> R; free : nat -> Prop }.

(** M is a distribution of G over the ranks: every degree of freedom has one owner,
    which also owns a cell with it; the owner's local indices are distinct and below
    n_owned, those of others are not; the rows of constrained ones have length one. *)
Definition distributes (ranks : nat) (G : global_mesh) (M : mesh) (owner : nat -> nat) : Prop :=
  (forall c g x, In c (cells M) -> In (g, x) (cell_dofs c) -> occurs G g /\ x = pos G g) /\
  (forall g, occurs G g -> (owner g < ranks)%nat /\ exists c x, In c (cells M) /\ cell_owner c = owner g /\ In (g, x) (cell_dofs c)) /\
  (forall g r, occurs G g -> ((to_local M r g < n_owned M r)%nat <-> r = owner g)) /\
  (forall g h, occurs G g -> occurs G h -> owner g = owner h -> to_local M (owner g) g = to_local M (owner h) h -> g = h) /\
  (forall g, occurs G g -> (row_length M (owner g) (to_local M (owner g) g) <> 1%nat <-> free G g)) /\
  (forall g, occurs G g -> mass M (owner g) (to_local M (owner g) g) = gmass G g).

(** What all ranks together select. *)
Definition all_points (ranks : nat) (M : mesh) (f : level_set) : list (R * position) :=
  flat_map (fun r => map (fun p => (snd (fst p), snd p)) (interior_map M r f)) (seq 0 ranks).

(** The content of a file on disk: the last one written under this name. *)
Definition kind_eqb (a b : file_kind) : bool :=
  match a, b with Points, Points => true | Instantaneous, Instantaneous => true | _, _ => false end.
Definition name_eqb (a b : file_name) : bool :=
  (String.eqb (fst (fst a)) (fst (fst b)) && Nat.eqb (snd (fst a)) (snd (fst b)) && kind_eqb (snd a) (snd b))%bool.
Definition stored (d : list file) (n : file_name) : option (list (list (list R))) :=
  fold_left (fun acc f => if name_eqb (fst f) n then Some (snd f) else acc) d None.

(** The cycles of the calls of write_out() increase. *)
Fixpoint increasing (last : option nat) (l : list event) : Prop :=
  match l with
  | [] => True
  | Prepare _ :: r => increasing last r
  | WriteOut k _ :: r => match last with Some j => (j < k)%nat | None => True end /\ increasing (Some k) r
  end.

(** The maps of the last call of prepare(). *)
Fixpoint last_maps (l : list event) (acc : maps) : maps :=
  match l with [] => acc | Prepare p :: r => last_maps r p | WriteOut _ _ :: r => last_maps r acc end.

(** No manifold has the name of another one. *)
Definition distinct_names (p : maps) : Prop :=
  NoDup (map (fun e => m_name (fst e)) (interior p ++ boundary p)).
