(** * Positive and negative part (source/simd.h) for real numbers *)
From Coq Require Import Reals.
Local Open Scope R_scope.

(** source/simd.h:111-115 *)
Definition positive_part (number : R) : R := 1 / 2 * (Rabs number + number).

(** source/simd.h:123-127 *)
Definition negative_part (number : R) : R := 1 / 2 * (Rabs number - number).
