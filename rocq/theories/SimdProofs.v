(** * Lemmas about positive and negative part *)
From Coq Require Import Reals Lra Psatz.
From Verif Require Import Simd.
Local Open Scope R_scope.

(** ** Statements of the property theorems *)

Lemma C58_max_min_proof : forall x, positive_part x = Rmax x 0 /\ negative_part x = - Rmin x 0.
Proof.
  intros x. unfold positive_part, negative_part, Rabs, Rmax, Rmin.
  destruct (Rcase_abs x); destruct (Rle_dec x 0); split; lra.
Qed.

Lemma C58_decomposition_proof : forall x,
  0 <= positive_part x /\ 0 <= negative_part x /\
  x = positive_part x - negative_part x /\
  Rabs x = positive_part x + negative_part x /\
  positive_part x * negative_part x = 0.
Proof.
  intros x. unfold positive_part, negative_part, Rabs. destruct (Rcase_abs x); repeat split; try lra; nra.
Qed.
