(** * Vocabulary for C24 *)
From Coq Require Import Reals.
Local Open Scope R_scope.

(** psi is three times differentiable on [a, b]. *)
Definition smooth3 (psi psi1 psi2 psi3 : R -> R) (a b : R) : Prop :=
  forall x, a <= x <= b ->
    derivable_pt_lim psi x (psi1 x) /\ derivable_pt_lim psi1 x (psi2 x) /\
    derivable_pt_lim psi2 x (psi3 x).

(** A function that does not change its sign on [a, b]. *)
Definition one_signed (f : R -> R) (a b : R) : Prop :=
  (forall x, a <= x <= b -> f x <= 0) \/ (forall x, a <= x <= b -> 0 <= f x).
