(** * C23, C24: the quadratic Newton step (property theorems) *)
From Coq Require Import Reals.
From Verif Require Import NewtonSpec Newton NewtonProofs NewtonSign NewtonFinal.
Local Open Scope R_scope.

(** ** C23 *)

(** Whatever the function values and derivatives, for either sign and for
    vanishing denominators: the new bracket is an interval inside the old one. *)
Theorem C23_bracket_shrinks :
  forall eps sign p1 p2 f1 f2 d1 d2 q1 q2,
    p1 <= p2 ->
    quadratic_newton_step eps sign p1 p2 f1 f2 d1 d2 = (q1, q2) ->
    p1 <= q1 /\ q1 <= q2 /\ q2 <= p2.
Proof. exact newton_shrinks. Qed.
Print Assumptions C23_bracket_shrinks.

(** A proper step: 1 - x^2 on [0, 2] is solved by one step. *)
Example C23_instance :
  quadratic_newton_step 0 (-1) 0 2 (cubic 1 0 (-1) 0 0) (cubic 1 0 (-1) 0 2)
    (cubic1 0 (-1) 0 0) (cubic1 0 (-1) 0 2) = (1, 1).
Proof. exact ex_step. Qed.

(** ** C24 *)

(** Exact arithmetic (machine epsilon 0): psi stays nonnegative on the whole
    interval between the old and the new left end, provided that a zero of psi
    at the right end is not approached from below. *)
Theorem C24_left_end_admissible :
  forall psi psi1 psi2 psi3 p1 p2 q1 q2,
    p1 <= p2 -> smooth3 psi psi1 psi2 psi3 p1 p2 -> one_signed psi3 p1 p2 ->
    0 <= psi p1 -> psi p2 <= 0 -> (psi p2 = 0 -> psi1 p2 <= 0) ->
    quadratic_newton_step 0 (-1) p1 p2 (psi p1) (psi p2) (psi1 p1) (psi1 p2) = (q1, q2) ->
    forall x, p1 <= x <= q1 -> 0 <= psi x.
Proof. exact newton_left_end_exact'. Qed.
Print Assumptions C24_left_end_admissible.

(** The side condition is reproduced by the step (for psi''' >= 0; it is not
    needed for psi''' <= 0), so that the step can be iterated. *)
Theorem C24_iterable :
  forall psi psi1 psi2 psi3 p1 p2 q1 q2,
    p1 <= p2 -> smooth3 psi psi1 psi2 psi3 p1 p2 ->
    (forall x, p1 <= x <= p2 -> 0 <= psi3 x) ->
    0 <= psi p1 -> psi p2 <= 0 -> (psi p2 = 0 -> psi1 p2 <= 0) ->
    quadratic_newton_step 0 (-1) p1 p2 (psi p1) (psi p2) (psi1 p1) (psi1 p2) = (q1, q2) ->
    q1 = q2 \/ (psi q2 = 0 -> psi1 q2 <= 0).
Proof. exact newton_iterable. Qed.
Print Assumptions C24_iterable.

(** The same for the default sign +1 and a bracket with psi(p1) <= 0 <= psi(p2). *)
Theorem C24_left_end_admissible_plus :
  forall psi psi1 psi2 psi3 p1 p2 q1 q2,
    p1 <= p2 -> smooth3 psi psi1 psi2 psi3 p1 p2 -> one_signed psi3 p1 p2 ->
    psi p1 <= 0 -> 0 <= psi p2 -> (psi p2 = 0 -> 0 <= psi1 p2) ->
    quadratic_newton_step 0 1 p1 p2 (psi p1) (psi p2) (psi1 p1) (psi1 p2) = (q1, q2) ->
    forall x, p1 <= x <= q1 -> psi x <= 0.
Proof. exact newton_left_end_exact_plus. Qed.
Print Assumptions C24_left_end_admissible_plus.

(** With the machine epsilon of the code: psi is violated by at most a multiple
    of eps, provided that psi is nonincreasing at the right end or the right
    value is not within eps of zero. *)
Theorem C24_left_end_admissible_up_to_eps :
  forall eps M psi psi1 psi2 psi3 p1 p2 q1 q2,
    0 <= eps -> p1 <= p2 -> smooth3 psi psi1 psi2 psi3 p1 p2 -> one_signed psi3 p1 p2 ->
    (forall x, p1 <= x <= p2 -> Rabs (psi1 x) <= M) ->
    0 <= psi p1 -> psi p2 <= 0 ->
    (psi1 p2 <= 0 \/ (psi p2 < 0 /\ psi p2 <= - eps * (p2 - p1 + eps))) ->
    quadratic_newton_step eps (-1) p1 p2 (psi p1) (psi p2) (psi1 p1) (psi1 p2) = (q1, q2) ->
    forall x, p1 <= x <= q1 -> - ((9 * M + 2 * (p2 - p1)) * eps) <= psi x.
Proof. exact newton_left_end_eps'. Qed.
Print Assumptions C24_left_end_admissible_up_to_eps.

(** The hypotheses of the three theorems hold e.g. for every cubic; 1 - x^2 on
    [0, 2] (C23_instance) has psi(0) = 1, psi(2) = -3, psi'(2) = -4. *)
Example C24_instance : forall a0 a1 a2 a3 a b,
  smooth3 (cubic a0 a1 a2 a3) (cubic1 a1 a2 a3) (cubic2 a2 a3) (fun _ => 6 * a3) a b.
Proof. exact cubic_smooth. Qed.

(** The unconditional claim is false: if psi vanishes at the right end with
    positive slope the new left end can be far outside of the admissible set. *)
Theorem C24_zero_at_right_end_refuted :
  forall eps, 0 < eps <= 1 / 100 ->
  exists psi psi1 psi2 psi3 p1 p2 q1 q2,
    p1 < p2 /\ smooth3 psi psi1 psi2 psi3 p1 p2 /\
    (forall x, p1 <= x <= p2 -> 0 <= psi3 x) /\ 0 <= psi p1 /\ psi p2 <= 0 /\
    quadratic_newton_step eps (-1) p1 p2 (psi p1) (psi p2) (psi1 p1) (psi1 p2) = (q1, q2) /\
    psi q1 < - (1 / 10).
Proof. exact zero_right_refuted. Qed.
Print Assumptions C24_zero_at_right_end_refuted.

(** And with a positive machine epsilon psi can become (slightly) negative even
    for a strictly decreasing psi: the eps in the theorem above is needed. *)
Theorem C24_exact_sign_with_eps_refuted :
  forall eps, 0 < eps <= 1 / 100 ->
  exists psi psi1 psi2 psi3 p1 p2 q1 q2,
    p1 < p2 /\ smooth3 psi psi1 psi2 psi3 p1 p2 /\
    (forall x, p1 <= x <= p2 -> psi3 x = 0) /\ 0 < psi p1 /\ psi p2 < 0 /\
    (forall x, p1 < x -> psi1 x < 0) /\
    quadratic_newton_step eps (-1) p1 p2 (psi p1) (psi p2) (psi1 p1) (psi1 p2) = (q1, q2) /\
    psi q1 < 0.
Proof. exact sign_eps_refuted. Qed.
Print Assumptions C24_exact_sign_with_eps_refuted.
