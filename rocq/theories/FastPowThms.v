(** * Property theorems: the approximate power function (C154) *)
From Coq Require Import Reals ZArith.
From Verif Require Import FastPow FastPowFinal.
Local Open Scope R_scope.

(** ** The approximate power function (C154) *)

(** A positive finite result has a relative error of about 2e-4 (|y| + 1) at most, whatever the bias. *)
Theorem C154_accuracy : forall b x y r,
  powerRZ 2 (-126) <= x -> Rabs y <= 1000000 -> fast_pow b x y = finite r -> 0 < r ->
  exists d, Rabs d <= 2 / 10000 * (Rabs y + 1) /\ r = Rpower x y * exp d.
Proof. exact C154_accuracy_proof. Qed.
Print Assumptions C154_accuracy.

(** If the exact power is well within the range of single precision the result is positive and finite, *)
Theorem C154_range : forall b x y,
  powerRZ 2 (-126) <= x -> Rabs y <= 1000 -> powerRZ 2 (-125) <= Rpower x y <= powerRZ 2 127 ->
  exists r, 0 < r /\ fast_pow b x y = finite r.
Proof. exact C154_range_proof. Qed.
Print Assumptions C154_range.

(** 3 to the power 1.4. *)
Example C154_accuracy_ex :
  powerRZ 2 (-126) <= 3 /\ Rabs (14 / 10) <= 1000 /\ powerRZ 2 (-125) <= Rpower 3 (14 / 10) <= powerRZ 2 127 /\
  exists r, 0 < r /\ fast_pow none 3 (14 / 10) = finite r /\ Rabs (ln r - 14 / 10 * ln 3) <= 5 / 10000.
Proof. exact C154_accuracy_case. Qed.

(** and outside of that range it is infinite or zero. *)
Theorem C154_overflow : forall b x y,
  powerRZ 2 (-126) <= x -> Rabs y <= 1000 ->
  (powerRZ 2 129 <= Rpower x y -> fast_pow b x y = infinite) /\
  (Rpower x y <= powerRZ 2 (-127) -> fast_pow b x y = finite 0).
Proof. exact C154_overflow_proof. Qed.
Print Assumptions C154_overflow.

(** 2^50 to the powers 3 and -3. *)
Example C154_overflow_ex :
  fast_pow none (powerRZ 2 50) 3 = infinite /\ fast_pow none (powerRZ 2 50) (-3) = finite 0.
Proof. exact C154_overflow_case. Qed.

(** Powers of two whose power is a power of two are exact. *)
Theorem C154_exact : forall b k y n,
  (-126 <= k <= 127)%Z -> (-126 <= n <= 127)%Z -> IZR k * y = IZR n ->
  fast_pow b (powerRZ 2 k) y = finite (powerRZ 2 n).
Proof. exact C154_exact_proof. Qed.
Print Assumptions C154_exact.

(** 8 to the power -2/3. *)
Example C154_exact_ex :
  fast_pow none (powerRZ 2 3) (-2 / 3) = finite (powerRZ 2 (-2)).
Proof. exact C154_exact_case. Qed.

(** The exponent zero, and the base zero. *)
Theorem C154_trivial : forall b x,
  fast_pow b x 0 = finite 1 /\ (forall y, 0 < y -> fast_pow b 0 y = finite 0) /\
  (forall y, y < 0 -> fast_pow b 0 y = infinite).
Proof. exact C154_trivial_proof. Qed.
Print Assumptions C154_trivial.

(** With Bias::max the result can be less than the power, *)
Theorem C154_max_refuted :
  exists x r, fast_pow max x 2 = finite r /\ r < Rpower x 2 - 3 / 10000.
Proof. exact C154_max_refuted_proof. Qed.
Print Assumptions C154_max_refuted.

(** with Bias::min it can be greater, *)
Theorem C154_min_refuted :
  exists x r, fast_pow min x 2 = finite r /\ Rpower x 2 + 1 / 10000 < r.
Proof. exact C154_min_refuted_proof. Qed.
Print Assumptions C154_min_refuted.

(** it is not monotone in the base, *)
Theorem C154_monotone_refuted :
  forall b, exists x x' r r',
  1 < x < x' /\ fast_pow b x 2 = finite r /\ fast_pow b x' 2 = finite r' /\ r' < r - 5 / 100000.
Proof. exact C154_monotone_refuted_proof. Qed.
Print Assumptions C154_monotone_refuted.

(** and the sign of the base is dropped: (-2)^3 is 8. *)
Theorem C154_sign_refuted :
  (forall b x y, fast_pow b (- x) y = fast_pow b x y) /\
  (forall b, fast_pow b (-2) 3 = finite 8 /\ (-2) ^ 3 = -8).
Proof. exact C154_sign_refuted_proof. Qed.
Print Assumptions C154_sign_refuted.
