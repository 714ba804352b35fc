(** * Property theorems: the airfoil geometry (C139, C140) *)
From Coq Require Import Reals List Bool Arith.
From Verif Require Import Airfoil AirfoilSpec AirfoilProofs AirfoilFinal AirfoilNaca AirfoilPsi AirfoilExamples.
Import ListNotations.
Local Open Scope R_scope.

(** ** Manifolds (C139) *)

(** Every point except the center is recovered from its chart coordinates. *)
Theorem C139_round_trip :
  forall a p, 0 < ratio a -> p <> airfoil_center a ->
  airfoil_push_forward a (airfoil_pull_back a p) = p.
Proof. exact C139_round_trip_proof. Qed.
Print Assumptions C139_round_trip.

(** Chart points on the side of the manifold are recovered. *)
Theorem C139_chart :
  forall a q, 0 < ratio a ->
  (upper_side a = true /\ snd q <= 3 * PI / 2 \/ upper_side a = false /\ PI / 2 <= snd q) ->
  (PI / 2 <= snd q <= 3 * PI / 2 -> 0 < fst q - 1 + psi_front a (snd q)) ->
  airfoil_pull_back a (airfoil_push_forward a q) = q.
Proof. exact C139_chart_proof. Qed.
Print Assumptions C139_chart.

(** The center itself never is: its angle is 0, which belongs to the upper back part. *)
Theorem C139_center_refuted :
  forall a, 0 < ratio a ->
  airfoil_push_forward a (airfoil_pull_back a (airfoil_center a)) <> airfoil_center a.
Proof. exact C139_center_refuted_proof. Qed.
Print Assumptions C139_center_refuted.

(** New vertices of the airfoil boundary lie on the curve. *)
Theorem C139_curve :
  forall a points, 0 < ratio a -> (forall phi, PI / 2 <= phi <= 3 * PI / 2 -> 0 < psi_front a phi) ->
  average points -> (forall p w, In (p, w) points -> on_curve a p) ->
  on_curve a (chart_new_point (airfoil_pull_back a) (airfoil_push_forward a) points).
Proof. exact C139_curve_proof. Qed.
Print Assumptions C139_curve.

(** A bullet; an edge across the seam. *)
Example C139_curve_ex :
  0 < ratio (bullet true) /\ (forall phi, PI / 2 <= phi <= 3 * PI / 2 -> 0 < psi_front (bullet true) phi) /\
  on_curve (bullet true) (1, 1 / 2) /\ on_curve (bullet true) (- (1 / 2), 0) /\
  average [((1, 1 / 2), 1 / 2); ((- (1 / 2), 0), 1 / 2)].
Proof. exact bullet_case. Qed.

(** Behind the center the abscissa of a new point is the mean of the abscissas. *)
Theorem C139_abscissa :
  forall a points, 0 < ratio a -> average points ->
  (forall p w, In (p, w) points -> fst (airfoil_center a) < fst p) ->
  fst (chart_new_point (airfoil_pull_back a) (airfoil_push_forward a) points) =
  fold_right (fun pw s => snd pw * fst (fst pw) + s) 0 points.
Proof. exact C139_abscissa_proof. Qed.
Print Assumptions C139_abscissa.

(** The chart of the upper side is continuous across the seam if and only if the curves meet there. *)
Theorem C139_seam :
  forall a s, 0 < ratio a -> upper_side a = true ->
  continuity_pt (psi_upper a) 0 -> continuity_pt (psi_front a) (PI / 2) ->
  ((continuity_pt (fun phi => fst (airfoil_push_forward a (s, phi))) (PI / 2) /\
    continuity_pt (fun phi => snd (airfoil_push_forward a (s, phi))) (PI / 2)) <-> psi_upper a 0 = psi_front a (PI / 2)).
Proof. exact C139_seam_proof. Qed.
Print Assumptions C139_seam.

(** The bullet. *)
Example C139_seam_ex :
  0 < ratio (bullet true) /\ upper_side (bullet true) = true /\ continuity_pt (psi_upper (bullet true)) 0 /\
  continuity_pt (psi_front (bullet true)) (PI / 2) /\ psi_upper (bullet true) 0 = psi_front (bullet true) (PI / 2).
Proof. exact seam_case. Qed.

(** The same on the lower side. *)
Theorem C139_seam_lower :
  forall a s, 0 < ratio a -> upper_side a = false ->
  continuity_pt (psi_lower a) 0 -> continuity_pt (psi_front a) (3 * PI / 2) ->
  ((continuity_pt (fun phi => fst (airfoil_push_forward a (s, phi))) (3 * PI / 2) /\
    continuity_pt (fun phi => snd (airfoil_push_forward a (s, phi))) (3 * PI / 2)) <-> psi_lower a 0 = - psi_front a (3 * PI / 2)).
Proof. exact C139_seam_lower_proof. Qed.
Print Assumptions C139_seam_lower.

(** A copy of the manifold (made when it is attached to a triangulation) places points as the original. *)
Theorem C139_clone :
  forall center front upper lower side psi_ratio, front 0 <> 0 -> front PI <> 0 ->
  let a := make_airfoil center front upper lower side psi_ratio in
  (forall p, airfoil_pull_back (airfoil_clone a) p = airfoil_pull_back a p) /\
  (forall q, airfoil_push_forward (airfoil_clone a) q = airfoil_push_forward a q).
Proof. exact C139_clone_proof. Qed.
Print Assumptions C139_clone.

(** The graded chart does not recover points exactly: they move outwards by more than 1e-14, and by no
    more than the given multiple of it. *)
Theorem C139_grading :
  forall center direction grading epsilon p, / 10000000000 < Rabs direction -> 1 <= grading -> 0 < epsilon ->
  let x := (p - center) * (direction / Rabs direction) in
  let x' := (grading_push_forward center direction grading epsilon (grading_pull_back center direction grading epsilon p) - center) * (direction / Rabs direction) in
  let d := / 100000000000000 in
  0 < x + epsilon -> x + d < x' <= x + d + grading * d * Rpower (Rpower (x + epsilon) (1 / grading) + d) (grading - 1).
Proof. exact C139_grading_proof. Qed.
Print Assumptions C139_grading.

(** A graded new vertex lies between the old ones, up to that error. *)
Theorem C139_between :
  forall center direction grading epsilon p0 p1 w, / 10000000000 < Rabs direction -> 1 <= grading -> 0 < epsilon ->
  let x p := (p - center) * (direction / Rabs direction) in
  let q := w * grading_pull_back center direction grading epsilon p0 + (1 - w) * grading_pull_back center direction grading epsilon p1 in
  let d := / 100000000000000 in
  0 <= w <= 1 -> 0 < x p0 + epsilon -> x p0 <= x p1 ->
  x p0 + d < x (grading_push_forward center direction grading epsilon q) <=
  x p1 + d + grading * d * Rpower (Rpower (x p1 + epsilon) (1 / grading) + d) (grading - 1).
Proof. exact C139_between_proof. Qed.
Print Assumptions C139_between.

(** The default grading. *)
Example C139_grading_ex :
  / 10000000000 < Rabs (-1) /\ 1 <= 5.5 /\ 0 < 0.02 /\ 0 < (-1 - 0) * (-1 / Rabs (-1)) + 0.02.
Proof. exact grading_case. Qed.

(** Coordinates that are not graded are left alone. *)
Theorem C139_flat :
  forall center direction grading epsilon p, Rabs direction <= / 10000000000 ->
  grading_pull_back center direction grading epsilon p = p - center /\
  grading_push_forward center direction grading epsilon (p - center) = p.
Proof. exact C139_flat_proof. Qed.
Print Assumptions C139_flat.

(** Extrapolation is cut off at the point that has the weight above one. *)
Theorem C139_cut :
  forall rest p0 p1 points w0 w1 weights,
  grading_new_point rest (p0 :: p1 :: points) (w0 :: w1 :: weights) <> None /\
  (1 < w0 -> grading_new_point rest (p0 :: p1 :: points) (w0 :: w1 :: weights) = Some p0) /\
  (w0 <= 1 < w1 -> grading_new_point rest (p0 :: p1 :: points) (w0 :: w1 :: weights) = Some p1) /\
  (w0 <= 1 -> w1 <= 1 -> grading_new_point rest (p0 :: p1 :: points) (w0 :: w1 :: weights) = Some (rest (p0 :: p1 :: points) (w0 :: w1 :: weights))).
Proof. exact C139_cut_proof. Qed.
Print Assumptions C139_cut.

(** In three dimensions the first two coordinates are those of the two dimensional manifold, the third
    stays between those of the given points. *)
Theorem C139_extruded :
  forall flat points weights lo hi, (length points <= 100)%nat -> length weights = length points ->
  (forall w, In w weights -> 0 <= w) -> fold_right Rplus 0 weights = 1 -> (forall p, In p points -> lo <= snd p <= hi) ->
  exists z, extruded_new_point flat points weights = Some (flat (map fst points) weights, z) /\ lo <= z <= hi.
Proof. exact C139_extruded_proof. Qed.
Print Assumptions C139_extruded.

(** ** Profiles (C140) *)

(** Sample points of NACA airfoils start at (0, 0) and end at (1, 0), on both sides. *)
Theorem C140_ends :
  forall d0 d1 d2 d3 n f, naca_points d0 d1 d2 d3 n = Some f ->
  length (x_up f) = n /\ length (y_up f) = n /\ length (x_lo f) = n /\ length (y_lo f) = n /\
  hd 1 (x_up f) = 0 /\ hd 1 (y_up f) = 0 /\ hd 1 (x_lo f) = 0 /\ hd 1 (y_lo f) = 0 /\
  last (x_up f) 0 = 1 /\ last (y_up f) 1 = 0 /\ last (x_lo f) 0 = 1 /\ last (y_lo f) 1 = 0.
Proof. exact C140_ends_proof. Qed.
Print Assumptions C140_ends.

(** Inner sample points: as in the definition of the series, their midpoint is on the mean line, their
    distance is the thickness, and they lie perpendicular to the mean line. *)
Theorem C140_shape :
  forall d0 d1 d2 d3 n f i, naca_points d0 d1 d2 d3 n = Some f -> (d1 <= 9)%nat -> (0 < i < n - 1)%nat ->
  let t := INR (10 * d2 + d3) / 100 in
  let m := INR d0 / 100 in let p := INR d1 / 10 in let x := INR i / INR (n - 1) in
  let xu := nth i (x_up f) 0 in let yu := nth i (y_up f) 0 in
  let xl := nth i (x_lo f) 0 in let yl := nth i (y_lo f) 0 in
  (xu + xl) / 2 = x /\ (yu + yl) / 2 = mean_line m p x /\ yl < yu /\
  (xu - xl) ^ 2 + (yu - yl) ^ 2 = (2 * half_thickness t x) ^ 2 /\
  exists slope, derivable_pt_lim (mean_line m p) x slope /\ (xu - xl) + slope * (yu - yl) = 0.
Proof. exact C140_shape_proof. Qed.
Print Assumptions C140_shape.

(** NACA 2412. *)
Example C140_shape_ex :
  exists f, naca_points 2 4 1 2 101 = Some f /\ (4 <= 9)%nat /\ (0 < 50 < 101 - 1)%nat.
Proof. exact naca_2412. Qed.

(** Symmetric airfoils: sample points are symmetric and fit for the spline. *)
Theorem C140_symmetric :
  forall d1 d2 d3 n f, naca_points 0 d1 d2 d3 n = Some f ->
  x_up f = x_lo f /\ increasing (x_up f) = true /\ forall i, nth i (y_lo f) 0 = - nth i (y_up f) 0.
Proof. exact C140_symmetric_proof. Qed.
Print Assumptions C140_symmetric.

(** NACA 0012. *)
Example C140_symmetric_ex :
  exists f, naca_points 0 0 1 2 101 = Some f.
Proof. exact naca_0012. Qed.

(** For every cambered airfoil and enough samples the abscissas are not increasing (the spline library
    stops with an error). *)
Theorem C140_cambered_refuted :
  forall d0 d1 d2 d3, (0 < d0)%nat -> (0 < d1 <= 9)%nat -> (0 < d2 + d3)%nat ->
  exists N, forall n, (N <= n)%nat -> exists f, naca_points d0 d1 d2 d3 n = Some f /\ nth 1 (x_up f) 0 < 0 /\ increasing (x_up f) = false.
Proof. exact C140_cambered_refuted_proof. Qed.
Print Assumptions C140_cambered_refuted.

(** No NACA airfoil passes the assertions of debug builds. *)
Theorem C140_debug_refuted :
  forall d0 d1 d2 d3 n f x_center, naca_points d0 d1 d2 d3 n = Some f -> ~ psi_assertions f x_center.
Proof. exact C140_debug_refuted_proof. Qed.
Print Assumptions C140_debug_refuted.

(** Front, upper and lower parametrization meet above and below the center; the nose is where it should be. *)
Theorem C140_seam :
  forall S f x_center y_center scaling, interpolates S -> 0 < x_center < 1 -> 0 < scaling ->
  (forall u v, hd 1 (x_up f) = 0 -> psi_side S (x_up f) (y_up f) x_center y_center scaling 0 = Some u -> 0 < u ->
     psi_nose S f x_center y_center scaling (PI / 2) = Some v -> v = u) /\
  (forall u v, psi_side S (x_lo f) (y_lo f) x_center y_center scaling 0 = Some u -> u < 0 ->
     psi_nose S f x_center y_center scaling (3 * PI / 2) = Some v -> v = - u) /\
  (forall v, hd 1 (x_lo f) = 0 -> hd 1 (y_lo f) = 0 -> y_center = 0 ->
     psi_nose S f x_center y_center scaling PI = Some v -> v = scaling * x_center).
Proof. exact C140_seam_proof. Qed.
Print Assumptions C140_seam.

(** The front is described by the samples in front of the center and three spline points behind it, on both sides,
    the upper ones in reverse without the nose. *)
Theorem C140_front :
  forall S f x_center l, combined S f x_center = Some l ->
  exists up lo, l = rev (tl up) ++ lo /\ front_side S (x_up f) (y_up f) x_center up /\ front_side S (x_lo f) (y_lo f) x_center lo.
Proof. exact C140_front_proof. Qed.
Print Assumptions C140_front.

(** The last angle is made positive without changing the direction; other angles are left alone. *)
Theorem C140_angles :
  forall l i,
  length (fix_last l) = length l /\
  cos (nth i (fix_last l) 0) = cos (nth i l 0) /\ sin (nth i (fix_last l) 0) = sin (nth i l 0) /\
  (l <> [] -> last (fix_last l) 0 <> 0) /\
  (nth i (fix_last l) 0 = nth i l 0 \/ (S i = length l)%nat /\ nth i l 0 = 0).
Proof. exact C140_angles_proof. Qed.
Print Assumptions C140_angles.

(** A quarter, a half and a whole turn. *)
Example C140_angles_ex :
  fix_last [PI / 2; PI; 0] = [PI / 2; PI; 2 * PI].
Proof. exact front_case. Qed.

(** Behind the trailing edge the parametrizations are constant, their distance is that of the end points. *)
Theorem C140_trailing :
  forall S f x_center y_center scaling back_length, interpolates S -> 0 < scaling ->
  psi_nose S f x_center y_center scaling 0 = Some back_length -> last (x_up f) 0 = 1 -> last (x_lo f) 0 = 1 ->
  back_length = scaling * (1 - x_center) /\
  forall x_hat u l, back_length <= x_hat ->
    psi_side S (x_up f) (y_up f) x_center y_center scaling x_hat = Some u ->
    psi_side S (x_lo f) (y_lo f) x_center y_center scaling x_hat = Some l ->
    u = scaling * (last (y_up f) 0 - y_center) /\ u - l = scaling * (last (y_up f) 0 - last (y_lo f) 0).
Proof. exact C140_trailing_proof. Qed.
Print Assumptions C140_trailing.

(** A diamond interpolated by straight lines. *)
Example C140_seam_ex :
  interpolates linear /\ 0 < 1 / 4 < 1 /\ 0 < (2 : R) /\
  hd 1 (x_up diamond) = 0 /\ last (x_up diamond) 0 = 1 /\ last (x_lo diamond) 0 = 1 /\
  psi_side linear (x_up diamond) (y_up diamond) (1 / 4) 0 2 0 = Some (3 / 2) /\
  psi_side linear (x_lo diamond) (y_lo diamond) (1 / 4) 0 2 0 = Some (- (3 / 2)) /\
  (forall phi, PI / 2 <= phi <= 3 * PI / 2 -> exists v, psi_nose linear diamond (1 / 4) 0 2 phi = Some v) /\
  psi_nose linear diamond (1 / 4) 0 2 0 = Some (3 / 2).
Proof. exact diamond_case. Qed.
