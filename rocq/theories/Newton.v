(** * The quadratic Newton step

    Numbers are real numbers.  The machine epsilon that the code takes from
    [std::numeric_limits] is a parameter [eps]: the code has eps > 0 (for double
    eps = 2^-52), [eps = 0] is the limit of exact arithmetic.  For eps > 0 and
    p_1 <= p_2 no division by zero occurs, so the real-valued model does not
    hide a NaN. *)
From Coq Require Import Reals.
Local Open Scope R_scope.

(** dealii::compare_and_apply_mask<SIMDComparison::less_than>(a, b, x, y) for
    one lane, as used in source/newton.h:74-78. *)
Definition mask_lt (a b x y : R) : R := if Rlt_dec a b then x else y.

(** dealii::compare_and_apply_mask<SIMDComparison::greater_than>(a, b, x, y) for
    one lane, as used in source/euler/limiter.template.h:188-190. *)
Definition mask_gt (a b x y : R) : R := if Rgt_dec a b then x else y.

(** source/newton.h:63-64,68,73-78 (left point) and 65-66,69,80-85 (right
    point): the same formula for either point [p] with value [f], derivative
    [d] and divided difference [dd]. *)
Definition newton_candidate (eps sign p f d dd : R) : R :=
  let discriminant := Rabs (d * d - 4 * f * dd) in
  let denominator := d + sign * sqrt discriminant in
  p - mask_lt (Rabs denominator) eps 0 (2 * f / denominator).

(** source/newton.h:89-90 and 92-93. *)
Definition clamp (p1 p2 t : R) : R := Rmin p2 (Rmax p1 t).

(** quadratic_newton_step, source/newton.h:37-101: the pair of the new values
    of p_1 and p_2. *)
Definition quadratic_newton_step (eps sign p1 p2 f1 f2 d1 d2 : R) : R * R :=
  let scaling := 1 / (p2 - p1 + eps) in
  let dd_12 := (f2 - f1) * scaling in
  let dd_112 := (dd_12 - d1) * scaling in
  let dd_122 := (d2 - dd_12) * scaling in
  let t1 := clamp p1 p2 (newton_candidate eps sign p1 f1 d1 dd_112) in
  let t2 := clamp p1 p2 (newton_candidate eps sign p2 f2 d2 dd_122) in
  (Rmin t1 t2, Rmax t1 t2).
