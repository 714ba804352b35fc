(** * What the plots are supposed to show *)
From Coq Require Import Reals String List Bool Arith.
From Verif Require Import RVec Extractor Postprocess.
Import ListNotations.
Local Open Scope R_scope.

(** The sum of f over a list of rows. *)
Fixpoint psum (l : list nat) (f : nat -> R) : R :=
  match l with [] => 0 | j :: rest => f j + psum rest f end.

(** On row i the discrete gradient is exact for affine functions: constants have
    gradient zero and the coordinates x have the unit vectors as gradients.  (The nodal
    interpolant of an affine function is that function, and the gradient is weighted
    with the shape function of row i, whose integral is the lumped mass.) *)
Definition exact_gradient (M : pmesh) (x : nat -> vec) (i : nat) : Prop :=
  0 < p_mass M i /\
  (forall a, (a < p_dim M)%nat -> psum (p_columns M i) (fun j => p_c M i j a) = 0) /\
  (forall a b, (a < p_dim M)%nat -> (b < p_dim M)%nat ->
     psum (p_columns M i) (fun j => p_c M i j a * x j b) = if (a =? b)%nat then p_mass M i else 0).

(** An affine vector field: q(x) = A x + v. *)
Definition affine_field (dim : nat) (A : nat -> nat -> R) (v : vec) (x : vec) : vec :=
  fun k => rsum dim (fun b => A k b * x b) + v k.

(** All rows. *)
Definition owned (M : pmesh) : list nat := concat (p_ranks M).

(** The same mesh, distributed over other ranks. *)
Definition redistributed (M N : pmesh) : Prop :=
  p_dim N = p_dim M /\ p_columns N = p_columns M /\ p_c N = p_c M /\ p_mass N = p_mass M /\
  p_constraint N = p_constraint M /\ (forall i, In i (owned M) <-> In i (owned N)).

(** Constraints that average: nonnegative weights of sum at most one on
    unconstrained rows. *)
Definition averaging (M : pmesh) (i : nat) : Prop :=
  (forall j w, In (j, w) (p_constraint M i) -> 0 <= w /\ p_constrained M j = false) /\
  fold_right (fun jw s => snd jw + s) 0 (p_constraint M i) <= 1.

(** Value number k of the output at row i. *)
Definition shown (s : pstate) (k i : nat) : option R := option_map (fun q => q i) (nth_error (p_quantities s) k).

(** The raw value number k at row i. *)
Definition raw_at (raws : list (nat -> R)) (k i : nat) : option R := option_map (fun q => q i) (nth_error raws k).
