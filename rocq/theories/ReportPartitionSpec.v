(** * Specification: extremes with their ranks *)
From Coq Require Import Reals List.
Import ListNotations.
Local Open Scope R_scope.

(** m is the smallest of the values and k the first rank that has it, for
    source/time_loop.template.h:954-955. *)
Definition first_smallest (l : list R) (m : R) (k : nat) : Prop :=
  nth_error l k = Some m /\ (forall j x, nth_error l j = Some x -> m <= x) /\
  (forall j x, (j < k)%nat -> nth_error l j = Some x -> m < x).
(** m is the largest of the values and k the first rank that has it, for
    source/time_loop.template.h:957-958. *)
Definition first_largest (l : list R) (m : R) (k : nat) : Prop :=
  nth_error l k = Some m /\ (forall j x, nth_error l j = Some x -> x <= m) /\
  (forall j x, (j < k)%nat -> nth_error l j = Some x -> x < m).
