(** * Condition on the interval lists of an index set *)
From Coq Require Import List.
From Verif Require Import MultiVec.

(** An index lies in at most one interval. *)
Definition disjoint_intervals (s : index_set) : Prop :=
  forall i j x a b a' b', nth_error s i = Some (a, b) -> nth_error s j = Some (a', b') ->
    a <= x < b -> a' <= x < b' -> i = j.

