(** * What the reported errors are supposed to be *)
From Coq Require Import Reals String List Bool Arith Permutation.
From Verif Require Import Extractor ErrorNorms.
Import ListNotations.
Local Open Scope R_scope.

(** The same mesh, with rows and cells distributed over other ranks. *)
Definition same_mesh (M N : emesh) : Prop :=
  (forall i, In i (concat (e_rows M)) <-> In i (concat (e_rows N))) /\
  Permutation (concat (e_cells M)) (concat (e_cells N)) /\
  e_constraint M = e_constraint N.

(** A constrained value that is the combination prescribed by its constraint. *)
Definition obeys (M : emesh) (f : nat -> R) : Prop :=
  forall i l, e_constraint M i = Some l -> f i = fold_right (fun jw s => snd jw * f (fst jw) + s) 0 l.

(** Two fields with the same values on the unconstrained degrees of freedom. *)
Definition same_free (M : emesh) (f g : nat -> R) : Prop :=
  forall i, e_constraint M i = None -> f i = g i.

(** Constraints refer to unconstrained degrees of freedom. *)
Definition closed (M : emesh) : Prop :=
  forall i l j w, e_constraint M i = Some l -> In (j, w) l -> e_constraint M j = None.

(** Quadrature weights are nonnegative. *)
Definition weighted (M : emesh) : Prop :=
  forall K w phi, In K (concat (e_cells M)) -> In (w, phi) K -> 0 <= w.

(** Componentwise sums of triples. *)
Definition add3 (a b : R * R * R) : R * R * R :=
  let '(a1, a2, a3) := a in let '(b1, b2, b3) := b in (a1 + b1, a2 + b2, a3 + b3).

(** No analytic norm of component k vanishes. *)
Definition nonzero_norms (M : emesh) (a : nat -> R) : Prop :=
  e_linf M a <> 0 /\ e_l1 M a <> 0 /\ e_l2 M a <> 0.
