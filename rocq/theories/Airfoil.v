(** * Model: the airfoil geometry

    The manifolds that place new vertices on and around the airfoil, the
    sample points of the NACA 4 digit series, and the parametrizations of the
    airfoil by splines.  The spline itself (GSL) is an arbitrary function of
    the support points; deal.II's polar coordinates are spelled out. *)
From Coq Require Import Reals ZArith List Bool Arith Sorting.Sorted.
From Verif Require Import RVec.
Import ListNotations.
Local Open Scope R_scope.

(** ** Polar coordinates *)

(** std::atan2(y, x), source/geometry_airfoil.h:745, and in
    dealii::PolarManifold (source/geometry_airfoil.h:87). *)
Definition atan2 (y x : R) : R :=
  if Rlt_dec 0 x then atan (y / x)
  else if Rlt_dec x 0 then (if Rle_dec 0 y then atan (y / x) + PI else atan (y / x) - PI)
  else if Rlt_dec 0 y then PI / 2
  else if Rlt_dec y 0 then - (PI / 2)
  else 0.

(** The angle in [0, 2 pi), source/geometry_airfoil.h:745-747; the same
    computation is done by dealii::PolarManifold<2>::pull_back, called in
    source/geometry_airfoil.h:87. *)
Definition angle (x y : R) : R := let phi := atan2 y x in if Rlt_dec phi 0 then phi + 2 * PI else phi.

(** source/geometry_airfoil.h:744-747 and dealii::PolarManifold<2>::pull_back,
    called in source/geometry_airfoil.h:87. *)
Definition polar_pull_back (p : R * R) : R * R :=
  (sqrt (fst p * fst p + snd p * snd p), angle (fst p) (snd p)).

(** dealii::PolarManifold<2>::push_forward, called in
    source/geometry_airfoil.h:117. *)
Definition polar_push_forward (q : R * R) : R * R := (fst q * cos (snd q), fst q * sin (snd q)).

(** ** AirfoilManifold *)

(** The members of source/geometry_airfoil.h:135-143. *)
Record airfoil := {
  airfoil_center : R * R;
  psi_front : R -> R; psi_upper : R -> R; psi_lower : R -> R;
  upper_side : bool;
  ratio : R }.

(** The constructor, source/geometry_airfoil.h:47-65 (the assertions on the
    seam exist in debug builds only). *)
Definition make_airfoil (center : R * R) (front upper lower : R -> R) (side : bool) (psi_ratio : R) : airfoil :=
  {| airfoil_center := center; psi_front := front; psi_upper := upper; psi_lower := lower; upper_side := side;
     ratio := psi_ratio * front 0 / front PI |}.

(** source/geometry_airfoil.h:67-92. *)
Definition airfoil_pull_back (a : airfoil) (space_point : R * R) : R * R :=
  let x := fst space_point - fst (airfoil_center a) in
  let y := snd space_point - snd (airfoil_center a) in
  if Rlt_dec 0 x then
    if upper_side a
    then (1 + y - psi_upper a x, 0.5 * PI - ratio a * x)
    else (1 - y + psi_lower a x, 1.5 * PI + ratio a * x)
  else
    let q := polar_pull_back (x, y) in (1 + fst q - psi_front a (snd q), snd q).

(** source/geometry_airfoil.h:94-121 (the assertions on [upper_side] exist in
    debug builds only). *)
Definition airfoil_push_forward (a : airfoil) (q : R * R) : R * R :=
  let c :=
    if Rlt_dec (snd q) (0.5 * PI) then
      let x := (0.5 * PI - snd q) / ratio a in (x, fst q - 1 + psi_upper a x)
    else if Rlt_dec (1.5 * PI) (snd q) then
      let x := (snd q - 1.5 * PI) / ratio a in (x, 1 - fst q + psi_lower a x)
    else polar_push_forward (fst q - 1 + psi_front a (snd q), snd q) in
  (fst c + fst (airfoil_center a), snd c + snd (airfoil_center a)).

(** source/geometry_airfoil.h:123-132. *)
Definition airfoil_clone (a : airfoil) : airfoil :=
  make_airfoil (airfoil_center a) (psi_front a) (psi_upper a) (psi_lower a) (upper_side a)
    (ratio a * psi_front a PI / psi_front a 0).

(** dealii::ChartManifold::get_new_point, inherited by the class in
    source/geometry_airfoil.h:42: the weighted sum of the chart points is
    pushed forward. *)
Definition chart_new_point (pull push : R * R -> R * R) (points : list ((R * R) * R)) : R * R :=
  push (fold_right (fun pw s => (snd pw * fst (pull (fst pw)) + fst s, snd pw * snd (pull (fst pw)) + snd s)) (0, 0) points).

(** ** GradingManifold, one coordinate

    source/geometry_airfoil.h:185-194 and 203-214 treat the coordinates
    separately; [center], [direction] and the point stand for one of them. *)

(** std::copysign(1., direction[d]), source/geometry_airfoil.h:187 (positive
    for zero; the branch is not entered then). *)
Definition sgn (x : R) : R := if Rlt_dec x 0 then -1 else 1.

(** The offset 1.e-14 of source/geometry_airfoil.h:190 and 211. *)
Definition nudge : R := / 100000000000000.

(** source/geometry_airfoil.h:180-196, one coordinate. *)
Definition grading_pull_back (center direction grading epsilon p : R) : R :=
  let chart := p - center in
  if Rlt_dec (/ 10000000000) (Rabs direction) then
    let x := chart * sgn direction in
    let x_hat := powr (x + epsilon) (1 / grading) - powr epsilon (1 / grading) + nudge in
    chart + (x_hat - x) * sgn direction
  else chart.

(** source/geometry_airfoil.h:198-217, one coordinate. *)
Definition grading_push_forward (center direction grading epsilon q : R) : R :=
  let space :=
    if Rlt_dec (/ 10000000000) (Rabs direction) then
      let x_hat := q * sgn direction in
      let x := powr (x_hat + powr epsilon (1 / grading)) grading - epsilon + nudge in
      q + (x - x_hat) * sgn direction
    else q in
  center + space.

(** source/geometry_airfoil.h:166-178: extrapolation is cut off; [rest] is
    dealii::ChartManifold::get_new_point.  [None]: fewer than two points. *)
Definition grading_new_point (rest : list (R * R) -> list R -> R * R) (points : list (R * R)) (weights : list R) : option (R * R) :=
  match points, weights with
  | p0 :: p1 :: _, w0 :: w1 :: _ =>
    Some (if Rlt_dec 1 w0 then p0 else if Rlt_dec 1 w1 then p1 else rest points weights)
  | _, _ => None
  end.

(** ** ExtrudedManifold *)

(** source/geometry_airfoil.h:250-283: the first two coordinates by the two
    dimensional manifold, the third by the weighted sum.  The projected
    points are written into the inline storage of a container for 100
    elements (lines 257-267) without resizing it; more points run over its
    end ([None]).  Simplified: with at most 100 points the write behind
    end(), but within the storage, is taken to succeed. *)
Definition extruded_new_point (flat : list (R * R) -> list R -> R * R) (points : list (R * R * R)) (weights : list R) : option (R * R * R) :=
  if (length points <=? 100)%nat then
    Some (flat (map fst points) weights, fold_right Rplus 0 (map (fun pw => snd pw * snd (fst pw)) (combine points weights)))
  else None.

(** ** NACA 4 digit airfoils *)

(** Half of the thickness, source/geometry_airfoil.h:326-329. *)
Definition naca_thickness (t x : R) : R :=
  5 * t * (0.2969 * sqrt x + x * (-0.126 + x * (-0.3516 + x * (0.2843 + x * (-0.1036))))).

(** The camber line, source/geometry_airfoil.h:331-333. *)
Definition naca_camber (m p x : R) : R :=
  if Rlt_dec x p then m / (p * p) * (2 * p * x - x * x)
  else m / ((1 - p) * (1 - p)) * (1 - 2 * p + 2 * p * x - x * x).

(** Its slope, source/geometry_airfoil.h:335-336. *)
Definition naca_slope (m p x : R) : R :=
  if Rlt_dec x p then 2 * m / (p * p) * (p - x) else 2 * m / ((1 - p) * (1 - p)) * (p - x).

(** The four vectors, source/geometry_airfoil.h:319-322. *)
Record profile := { x_up : list R; y_up : list R; x_lo : list R; y_lo : list R }.

(** [v.front() = 0.], source/geometry_airfoil.h:347; undefined for an empty vector. *)
Definition fix_front (l : list R) : list R := match l with [] => [] | _ :: l => 0 :: l end.

(** [v.back() = 0.], source/geometry_airfoil.h:348. *)
Definition fix_back (l : list R) : list R := rev (fix_front (rev l)).

(** source/geometry_airfoil.h:298-353 for the digits of the serial number;
    [None] for a vanishing thickness (exception), for no samples (undefined
    behaviour of front()) and for one sample (0/0).  Simplified: a serial
    number consists of four decimal digits (lines 301-302 check the length only). *)
Definition naca_points (d0 d1 d2 d3 : nat) (n_samples : nat) : option profile :=
  let t := 0.1 * INR d2 + 0.01 * INR d3 in
  let m := 0.01 * INR d0 in
  let p := 0.1 * INR d1 in
  if Rlt_dec 0 t then
    if (2 <=? n_samples)%nat then
      let xs := map (fun i => 1 * INR i / INR (n_samples - 1)) (seq 0 n_samples) in
      let y x := naca_thickness t x in
      let y_c x := naca_camber m p x in
      let theta x := atan (naca_slope m p x) in
      Some {| x_up := map (fun x => x - y x * sin (theta x)) xs;
              y_up := fix_back (fix_front (map (fun x => y_c x + y x * cos (theta x)) xs));
              x_lo := map (fun x => x + y x * sin (theta x)) xs;
              y_lo := fix_back (fix_front (map (fun x => y_c x - y x * cos (theta x)) xs)) |}
    else None
  else None.

(** ** Parametrization by splines *)

(** Support points strictly increasing, as GSL demands of
    gsl_spline_init (source/cubic_spline.h:48). *)
Fixpoint increasing (l : list R) : bool :=
  match l with
  | x :: ((y :: _) as l') => (if Rlt_dec x y then true else false) && increasing l'
  | _ => true
  end.

(** source/cubic_spline.h:37-51 and 81-84: a spline through the points, evaluated
    within their range; [None] is the error handler of GSL (too few points,
    points not increasing, evaluation outside).  [S] is the interpolation. *)
Definition cubic_spline (S : list R -> list R -> R -> R) (xs ys : list R) (x : R) : option R :=
  if increasing xs && (3 <=? length xs)%nat && (length xs =? length ys)%nat then
    if Rle_dec (hd 0 xs) x then if Rle_dec x (last xs 0) then Some (S xs ys x) else None else None
  else None.

(** The debug assertions of source/geometry_airfoil.h:651-672. *)
Definition psi_assertions (f : profile) (x_center : R) : Prop :=
  (2 <= length (x_up f))%nat /\ hd 1 (x_up f) = 0 /\ last (x_up f) 0 = 1 /\ Sorted Rle (x_up f) /\
  (2 <= length (x_lo f))%nat /\ hd 1 (x_lo f) = 0 /\ last (x_lo f) 0 = 1 /\ Sorted Rle (x_lo f) /\
  length (y_up f) = length (x_up f) /\ hd 1 (y_up f) = 0 /\
  length (y_lo f) = length (x_lo f) /\ hd 1 (y_lo f) = 0 /\
  last (y_lo f) 0 < last (y_up f) 0 /\ 0 < x_center < 1.

(** psi_upper of source/geometry_airfoil.h:674-682 and psi_lower of lines
    684-693: they differ in the support points only. *)
Definition psi_side (S : list R -> list R -> R -> R) (xs ys : list R) (x_center y_center scaling x_hat : R) : option R :=
  let x := x_hat / scaling in
  let value := if Rlt_dec (1 - x_center) x then cubic_spline S xs ys 1 else cubic_spline S xs ys (x + x_center) in
  match value with Some v => Some (scaling * (v - y_center)) | None => None end.

(** The loop source/geometry_airfoil.h:702-707 (and 726-731): the points in
    front of the center. *)
Fixpoint before (x_center : R) (xs ys : list R) : list (R * R) :=
  match xs, ys with
  | x :: xs, y :: ys => if Rle_dec x_center x then [] else (x, y) :: before x_center xs ys
  | _, _ => []
  end.

(** source/geometry_airfoil.h:716-719 (and 733-736): three points around the
    place where the parametrizations are glued together. *)
Definition glue (S : list R -> list R -> R -> R) (xs ys : list R) (x_center : R) : option (list (R * R)) :=
  match cubic_spline S xs ys x_center, cubic_spline S xs ys (x_center + 0.01), cubic_spline S xs ys (x_center + 0.02) with
  | Some a, Some b, Some c => Some [(x_center, a); (x_center + 0.01, b); (x_center + 0.02, c)]
  | _, _, _ => None
  end.

(** source/geometry_airfoil.h:699-736: upper points reversed and without the
    nose, then the lower points. *)
Definition combined (S : list R -> list R -> R -> R) (f : profile) (x_center : R) : option (list (R * R)) :=
  match glue S (x_up f) (y_up f) x_center, glue S (x_lo f) (y_lo f) x_center with
  | Some u, Some l =>
    Some (removelast (rev (before x_center (x_up f) (y_up f) ++ u)) ++ before x_center (x_lo f) (y_lo f) ++ l)
  | _, _ => None
  end.

(** source/geometry_airfoil.h:740-751: angle and distance. *)
Definition to_polar (x_center y_center : R) (p : R * R) : R * R :=
  let q := polar_pull_back (fst p - x_center, snd p - y_center) in (snd q, fst q).

(** The last angle must not be 0, source/geometry_airfoil.h:754-755. *)
Definition fix_last (l : list R) : list R :=
  match rev l with x :: r => if Req_EM_T x 0 then rev (2 * PI :: r) else l | [] => [] end.

(** psi_front, source/geometry_airfoil.h:759-766. *)
Definition psi_nose (S : list R -> list R -> R -> R) (f : profile) (x_center y_center scaling phi : R) : option R :=
  match combined S f x_center with
  | Some l =>
    let pts := map (to_polar x_center y_center) l in
    if Req_EM_T phi 0 then Some (scaling * (1 - x_center))
    else match cubic_spline S (fix_last (map fst pts)) (map snd pts) phi with
         | Some v => Some (scaling * v) | None => None end
  | None => None
  end.
