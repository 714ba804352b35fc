(** * Property theorems: transfinite interpolation (C141, C142) *)
From Coq Require Import Reals List Bool Arith.
From Verif Require Import Transfinite TransfiniteSpec TransfiniteProofs TransfiniteFinal TransfiniteExamples.
Import ListNotations.
Local Open Scope R_scope.

(** ** The map of a cell (C141) *)

(** In two dimensions the map is the blend of the four curves around the cell. *)
Theorem C141_blend :
  forall M c x left right bottom top e,
  edges_2 M c left right bottom top ->
  push_forward_2 M c x e =
    blend left right bottom top (vertex c 0) (vertex c 1) (vertex c 2) (vertex c 3) (x 0%nat) (x 1%nat) e.
Proof. exact formula_2. Qed.
Print Assumptions C141_blend.

(** It takes the sides of the unit square onto the curves, whatever the other curves are. *)
Theorem C141_edges :
  forall M c left right bottom top v e,
  edges_2 M c left right bottom top ->
  joins left (vertex c 0) (vertex c 2) -> joins right (vertex c 1) (vertex c 3) ->
  joins bottom (vertex c 0) (vertex c 1) -> joins top (vertex c 2) (vertex c 3) ->
  push_forward_2 M c (chart (0, v)) e = left v e /\ push_forward_2 M c (chart (1, v)) e = right v e /\
  push_forward_2 M c (chart (v, 0)) e = bottom v e /\ push_forward_2 M c (chart (v, 1)) e = top v e.
Proof. exact edges_ok. Qed.
Print Assumptions C141_edges.

(** The hypotheses of the preceding theorem hold for manifolds that return a point given with weight one. *)
Theorem C141_joins :
  forall M c i a b curve, is_edge M c i a b curve ->
  (forall n, ~ plain c i -> i = id n ->
     forall e, M n [vertex c a; vertex c b] [1; 0] e = vertex c a e /\ M n [vertex c a; vertex c b] [0; 1] e = vertex c b e) ->
  joins curve (vertex c a) (vertex c b).
Proof. exact edge_joins. Qed.
Print Assumptions C141_joins.

(** The unit square with one curved side: its curves, *)
Example C141_ex :
  edges_2 bulges bent bent_left (straight (unit_vertex 1) (unit_vertex 3))
  (straight (unit_vertex 0) (unit_vertex 1)) (straight (unit_vertex 2) (unit_vertex 3)).
Proof. exact bent_edges. Qed.

(** which meet in the vertices, *)
Example C141_joins_ex :
  joins bent_left (vertex bent 0) (vertex bent 2) /\
  joins (straight (unit_vertex 1) (unit_vertex 3)) (vertex bent 1) (vertex bent 3) /\
  joins (straight (unit_vertex 0) (unit_vertex 1)) (vertex bent 0) (vertex bent 1) /\
  joins (straight (unit_vertex 2) (unit_vertex 3)) (vertex bent 2) (vertex bent 3).
Proof. exact bent_joins. Qed.

(** and the position of two new points. *)
Example C141_value_ex :
  push_forward_2 bulges bent (chart (1 / 2, 1 / 2)) 0%nat = 5 / 8 /\
  push_forward_2 bulges bent (chart (0, 1 / 2)) 0%nat = 1 / 4.
Proof. exact bent_center. Qed.

(** In three dimensions the map is the blend of faces, lines and vertices, up to the error of leaving out
    contributions of weight below 1e-13. *)
Theorem C141_blend_3 :
  forall M c L F x y z e B,
  is_skeleton M c L -> (forall f, (f < 6)%nat -> is_face M c L f (F f)) -> below F L x y z e B ->
  Rabs (push_forward_3 M c (xyz x y z) e - blend_3 F L (vertex c) x y z e) <= 18 * cutoff * B.
Proof. exact formula_3. Qed.
Print Assumptions C141_blend_3.

(** It takes the sides of the unit cube onto the faces, up to that error. *)
Theorem C141_faces :
  forall M c L F a b e B,
  is_skeleton M c L -> (forall f, (f < 6)%nat -> is_face M c L f (F f)) ->
  (forall l, (l < 12)%nat -> joins (L l) (vertex c (fst (line_ends l))) (vertex c (snd (line_ends l)))) ->
  (forall f, (f < 6)%nat -> ~ plain c (face_id c f) ->
     let '(l0, l1, l2, l3) := face_lines f in bounded_by (F f) (L l0) (L l1) (L l2) (L l3)) ->
  (forall x y z, In x [0; 1; a; b] -> In y [0; 1; a; b] -> In z [0; 1; a; b] -> below F L x y z e B) ->
  let S x y z := push_forward_3 M c (xyz x y z) e in
  Rabs (S 0 a b - F 0%nat a b e) <= 18 * cutoff * B /\ Rabs (S 1 a b - F 1%nat a b e) <= 18 * cutoff * B /\
  Rabs (S b 0 a - F 2%nat a b e) <= 18 * cutoff * B /\ Rabs (S b 1 a - F 3%nat a b e) <= 18 * cutoff * B /\
  Rabs (S a b 0 - F 4%nat a b e) <= 18 * cutoff * B /\ Rabs (S a b 1 - F 5%nat a b e) <= 18 * cutoff * B.
Proof. exact faces_3. Qed.
Print Assumptions C141_faces.

(** A cube with a curved face. *)
Example C141_faces_ex :
  Rabs (push_forward_3 bulges cushion (xyz 0 (1 / 2) (1 / 2)) 0%nat - 1 / 256) <= 18 * cutoff * 1.
Proof. exact cushion_face. Qed.

(** ** Inverse and new points (C142) *)

(** Whatever the map: the search for chart coordinates either fails, or ends one quasi-Newton step from a
    point at most 0.2 outside of the unit square whose image is within tolerance and no farther off than that
    of the guess. *)
Theorem C142_safe :
  forall S tol p g,
  pull_back S tol p g = outside \/
  exists x J, near_square (2 / 10) x /\ norm_square (minus p (S x)) < tol /\
    norm_square (minus p (S x)) <= norm_square (minus p (S (project g))) /\
    pull_back S tol p g = axpy x 1 (apply J (minus p (S x))).
Proof. exact pull_back_safe. Qed.
Print Assumptions C142_safe.

(** A correct guess is returned. *)
Theorem C142_start :
  forall S tol g, 0 < tol -> near_square 0 g -> pull_back S tol (S g) g = g.
Proof. exact pull_back_exact_start. Qed.
Print Assumptions C142_start.

(** On parallelograms the image of the result is within tolerance, *)
Theorem C142_solved :
  forall S tol p g, 0 < tol -> parallelogram S ->
  pull_back S tol p g = outside \/ norm_square (minus p (S (pull_back S tol p g))) < tol.
Proof. exact solved. Qed.
Print Assumptions C142_solved.

(** and the search succeeds for all points at most 0.2 outside. *)
Theorem C142_found :
  forall S tol q g, 0 < tol -> parallelogram S -> near_square (2 / 10) q ->
  pull_back S tol (S q) g <> outside /\ norm_square (minus (S q) (S (pull_back S tol (S q) g))) < tol.
Proof. exact found. Qed.
Print Assumptions C142_found.

(** Such are the flat cells in the shape of a parallelogram. *)
Theorem C142_flat :
  forall M c,
  cell_is_flat 2 c = true ->
  (forall e, (e < 2)%nat -> vertex c 3 e = vertex c 1 e + vertex c 2 e - vertex c 0 e) ->
  (vertex c 1 0%nat - vertex c 0 0%nat) * (vertex c 2 1%nat - vertex c 0 1%nat)
  - (vertex c 1 1%nat - vertex c 0 1%nat) * (vertex c 2 0%nat - vertex c 0 0%nat) > 0 ->
  parallelogram (map_2 M c).
Proof. exact flat_cell_parallelogram. Qed.
Print Assumptions C142_flat.

(** New points of parallelograms are the weighted means of the given points, within tolerance. *)
Theorem C142_mean :
  forall ks points weights d r,
  Forall (fun k => 0 < c_tolerance k <= d * d /\ parallelogram (c_map k)) ks -> 0 <= d ->
  length weights = length points -> fold_right Rplus 0 weights = 1 ->
  get_new_point mean ks points weights = Some r ->
  Rabs (fst r - fst (mean points weights)) <= fold_right Rplus 0 (map Rabs weights) * d /\
  Rabs (snd r - snd (mean points weights)) <= fold_right Rplus 0 (map Rabs weights) * d.
Proof. exact new_point_mean. Qed.
Print Assumptions C142_mean.

(** They exist if the first candidate cell holds all given points. *)
Theorem C142_exists :
  forall chart_manifold k ks qs weights,
  0 < c_tolerance k -> parallelogram (c_map k) -> Forall (near_square 0) qs ->
  get_new_point chart_manifold (k :: ks) (map (c_map k) qs) weights <> None.
Proof. exact new_point_exists. Qed.
Print Assumptions C142_exists.

(** The midpoint of a diagonal. *)
Example C142_ex :
  exists r,
  get_new_point mean [slanted_cell] [(0, 0); (3, 1)] [1 / 2; 1 / 2] = Some r /\
  Rabs (fst r - 3 / 2) <= / 1000 /\ Rabs (snd r - 1 / 2) <= / 1000.
Proof. exact slanted_new_point. Qed.

(** The search is given up only if it fails from all guesses, among them the center of the cell. *)
Theorem C142_guesses :
  forall S tol p cheap affine,
  fst (chart_point_of S tol p cheap affine) = 20 ->
  fst (pull_back S tol p affine) = 20 /\ fst (pull_back S tol p (1 / 2, 1 / 2)) = 20 /\
  (forall g, cheap = Some g -> fst (pull_back S tol p g) = 20).
Proof. exact chart_point_guesses. Qed.
Print Assumptions C142_guesses.

(** On other cells the inverse Jacobian is updated such that it maps the last change of the residual to the last
    step (secant equation), and nothing else changes. *)
Theorem C142_secant :
  forall tol J dx df, 0 <= tol ->
  1 / 10 * tol < Rabs (fst dx * fst (apply J df) + snd dx * snd (apply J df)) ->
  apply (broyden false tol J dx df) df = dx /\
  (forall v, fst dx * fst (apply J v) + snd dx * snd (apply J v) = 0 ->
     apply (broyden false tol J dx df) v = apply J v).
Proof. exact broyden_secant. Qed.
Print Assumptions C142_secant.

(** An update that is carried out. *)
Example C142_secant_ex :
  1 / 10 * 1 < Rabs (fst (1, 1) * fst (apply ((1, 0), (0, 1)) (2, 1)) + snd (1, 1) * snd (apply ((1, 0), (0, 1)) (2, 1))).
Proof. exact broyden_example. Qed.
