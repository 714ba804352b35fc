(** * C58 *)
From Coq Require Import Reals Lra.
From Verif Require Import Simd SimdProofs.
Local Open Scope R_scope.

(** C58: positive_part and negative_part are max(x, 0) and -min(x, 0) *)
Theorem C58_max_min : forall x, positive_part x = Rmax x 0 /\ negative_part x = - Rmin x 0.
Proof. exact C58_max_min_proof. Qed.
Print Assumptions C58_max_min.

Example C58_max_min_ex : positive_part (-3) = 0 /\ negative_part (-3) = 3.
Proof. unfold positive_part, negative_part. rewrite Rabs_left by lra. lra. Qed.

(** C58: decomposition of every number into its two parts *)
Theorem C58_decomposition : forall x,
  0 <= positive_part x /\ 0 <= negative_part x /\
  x = positive_part x - negative_part x /\
  Rabs x = positive_part x + negative_part x /\
  positive_part x * negative_part x = 0.
Proof. exact C58_decomposition_proof. Qed.
Print Assumptions C58_decomposition.

Example C58_decomposition_ex : positive_part (5 / 2) - negative_part (5 / 2) = 5 / 2.
Proof. unfold positive_part, negative_part. lra. Qed.
