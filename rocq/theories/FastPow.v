(** * Model: the approximate power function

    source/simd_fast_pow.template.h, source/simd.template.h and
    source/simd.h:175-229, for builds with SSE2 (without it std::pow is
    called).  Simplifications: one lane of the vector; exact arithmetic instead
    of single precision, hence the terms that compensate rounding vanish (they
    are kept in the model); decimal literals are read as written, the constants
    VM_LOG2E, VM_LN2 and VM_SQRT2 of the vector class library, which are cast
    to float, are the nearest floats.  That library is not part of the
    repository; its functions are modelled after their documentation. *)
From Coq Require Import Reals ZArith Lra.
Local Open Scope R_scope.

(** The third argument, source/simd.h:178-195. *)
Inductive bias := none | max | min.

(** A value of type float that is not NaN; a negative infinity does not occur.
    The arguments of fast_pow_impl, source/simd_fast_pow.template.h. *)
Inductive value := finite (r : R) | infinite.

(** round() of the vector class library, used in
    source/simd_fast_pow.template.h:103, 116, 127.  Ties are rounded up, the
    library rounds them to even. *)
Definition nearest (r : R) : Z := up (r - 1 / 2).

(** exponent_f(), used in source/simd_fast_pow.template.h:98: the integral part of the
    binary logarithm. *)
Definition exponent (x : R) : Z := (up (ln x / ln 2) - 1)%Z.

(** fraction_2(), used in source/simd_fast_pow.template.h:85: half of the mantissa. *)
Definition fraction_2 (x : R) : R := x / powerRZ 2 (exponent x + 1).

(** (float)(VM_SQRT2 * 0.5), source/simd_fast_pow.template.h:88. *)
Definition half_sqrt2 : R := 11863283 / 16777216.

(** (float)VM_LOG2E, source/simd_fast_pow.template.h:45, 116. *)
Definition log2e : R := 12102203 / 8388608.

(** (float)VM_LN2, source/simd_fast_pow.template.h:121, 129. *)
Definition ln2 : R := 11629080 / 16777216.

(** ln2f_hi, source/simd_fast_pow.template.h:44. *)
Definition ln2f_hi : R := 693359375 / 1000000000.

(** The polynomial in the logarithm, coefficients of
    source/simd_fast_pow.template.h:47-55, evaluated in line 94. *)
Definition log_poly (x : R) : R :=
  33333331174 / 100000000000 + x * (-24999993993 / 100000000000 + x * (20000714765 / 100000000000
  + x * (-16668057665 / 100000000000 + x * (14249322787 / 100000000000 + x * (-12420140846 / 100000000000
  + x * (11676998740 / 100000000000 + x * (-11514610310 / 100000000000 + x * (70376836292 / 1000000000000)))))))).

(** The polynomial in the exponential function, coefficients of
    source/simd_fast_pow.template.h:57-62, evaluated in line 133. *)
Definition exp_poly (x : R) : R :=
  1 / 2 + x * (1 / 6 + x * (1 / 24 + x * (1 / 120 + x * (1 / 720 + x * (1 / 5040))))).

(** Lines 84-136 of source/simd_fast_pow.template.h: exponent and mantissa of
    the result for positive normal x1. *)
Definition parts (x1 y : R) : Z * R :=
  let x := fraction_2 x1 in
  let blend := if Rlt_dec half_sqrt2 x then true else false in
  let x := if blend then x else x + x in
  let x := x - 1 in
  let x2 := x * x in
  let lg1 := log_poly x * (x2 * x) in
  let ef := IZR (exponent x1) in
  let ef := if blend then ef + 1 else ef in
  let e1 := nearest (ef * y) in
  let yr := ef * y - IZR e1 in
  let lg := - (1 / 2 * x2) + x + lg1 in
  let x2err := 1 / 2 * x * x - 1 / 2 * x2 in
  let lgerr := 1 / 2 * x2 + (lg - x) - lg1 in
  let e2 := nearest (lg * y * log2e) in
  let v := lg * y - IZR e2 * ln2f_hi in
  let v := v - ((lgerr + x2err) * y - yr * ln2) in
  let e3 := nearest (v * log2e) in
  let x := v - IZR e3 * ln2 in
  let x2 := x * x in
  let z := exp_poly x * x2 + x + 1 in
  ((e1 + e2 + e3)%Z, z).

(** wm_pow_case_x0() of the vector class library, called in
    source/simd_fast_pow.template.h:158. *)
Definition case_x0 (y : R) : value :=
  if Rlt_dec y 0 then infinite else if Req_EM_T y 0 then finite 1 else finite 0.

(** fast_pow(), source/simd_fast_pow.template.h:35-162 and
    source/simd.template.h:280-320; the argument of type Bias has no name.  The
    exponent ej of lines 136-155 is the biased exponent of the result, which is
    outside of 1..254 where the result is not a normal number. *)
Definition fast_pow (_ : bias) (x0 y : R) : value :=
  let x1 := Rabs x0 in
  if Rlt_dec x1 (powerRZ 2 (-126)) then case_x0 y
  else
    let '(ee, z) := parts x1 y in
    let r := z * powerRZ 2 ee in
    if Rle_dec (powerRZ 2 128) r then infinite
    else if Rlt_dec 300 (IZR ee) then infinite
    else if Rlt_dec r (powerRZ 2 (-126)) then finite 0
    else if Rlt_dec (IZR ee) (-300) then finite 0
    else finite r.
