(** * Specification: transfinite interpolation

    Written without the functions of the model, except for the data a cell
    consists of. *)
From Coq Require Import Reals List Bool Arith.
From Verif Require Import Transfinite.
Import ListNotations.
Local Open Scope R_scope.

(** The straight line from a to b. *)
Definition straight (a b : pt) (t : R) : pt := fun e => (1 - t) * a e + t * b e.

(** A line is straight if it carries no manifold of its own, that is, if its
    manifold is the flat one or that of the cell. *)
Definition plain (c : cell) (i : manifold_id) : Prop := i = flat \/ i = my_id c.

(** The curve of a line between two vertices: the straight line, or what the
    manifold of the line gives for the weights 1 - t and t. *)
Definition is_edge (M : nat -> manifold) (c : cell) (i : manifold_id) (a b : nat) (curve : R -> pt) : Prop :=
  (plain c i -> forall t e, curve t e = straight (vertex c a) (vertex c b) t e) /\
  (forall n, ~ plain c i -> i = id n -> forall t e, curve t e = M n [vertex c a; vertex c b] [1 - t; t] e).

(** A curve starts in a and ends in b. *)
Definition joins (curve : R -> pt) (a b : pt) : Prop := forall e, curve 0 e = a e /\ curve 1 e = b e.

(** The blend of four curves, two across and two along: the sum of the two
    ruled surfaces minus the bilinear surface of the corners. *)
Definition blend (left right bottom top : R -> pt) (p0 p1 p2 p3 : pt) (u v : R) : pt := fun e =>
  ((1 - u) * left v e + u * right v e) + ((1 - v) * bottom u e + v * top u e)
  - ((1 - u) * (1 - v) * p0 e + u * (1 - v) * p1 e + (1 - u) * v * p2 e + u * v * p3 e).

(** ** Two dimensions: vertices 0, 1 below, 2, 3 above; lines left, right,
    bottom, top *)

(** The four curves around a cell. *)
Record edges_2 (M : nat -> manifold) (c : cell) (left right bottom top : R -> pt) : Prop := {
  e_left : is_edge M c (line_id c 0) 0 2 left; e_right : is_edge M c (line_id c 1) 1 3 right;
  e_bottom : is_edge M c (line_id c 2) 0 1 bottom; e_top : is_edge M c (line_id c 3) 2 3 top }.

(** ** Three dimensions: vertex a + 2 b + 4 c sits at (a, b, c) *)

(** First and last vertex of a line. *)
Definition line_ends (l : nat) : nat * nat :=
  match l with
  | 0 => (0, 2) | 1 => (1, 3) | 2 => (0, 1) | 3 => (2, 3)
  | 4 => (4, 6) | 5 => (5, 7) | 6 => (4, 5) | 7 => (6, 7)
  | 8 => (0, 4) | 9 => (1, 5) | 10 => (2, 6) | _ => (3, 7)
  end%nat.

(** The lines bounding a face, at s = 0, s = 1, t = 0, t = 1. *)
Definition face_lines (f : nat) : nat * nat * nat * nat :=
  match f with
  | 0 => (8, 10, 0, 4) | 1 => (9, 11, 1, 5) | 2 => (2, 6, 8, 9)
  | 3 => (3, 7, 10, 11) | 4 => (0, 1, 2, 3) | _ => (4, 5, 6, 7)
  end%nat.

(** The vertices of a face at (0,0), (1,0), (0,1), (1,1). *)
Definition face_corners (f : nat) : nat * nat * nat * nat :=
  match f with
  | 0 => (0, 2, 4, 6) | 1 => (1, 3, 5, 7) | 2 => (0, 4, 1, 5)
  | 3 => (2, 6, 3, 7) | 4 => (0, 1, 2, 3) | _ => (4, 5, 6, 7)
  end%nat.

(** The twelve curves. *)
Definition is_skeleton (M : nat -> manifold) (c : cell) (L : nat -> R -> pt) : Prop :=
  forall l, (l < 12)%nat -> is_edge M c (line_id c l) (fst (line_ends l)) (snd (line_ends l)) (L l).

(** The surface of a face: the blend of its lines, or what its manifold gives
    for bilinear weights. *)
Definition is_face (M : nat -> manifold) (c : cell) (L : nat -> R -> pt) (f : nat) (surface : R -> R -> pt) : Prop :=
  let '(l0, l1, l2, l3) := face_lines f in
  let '(v0, v1, v2, v3) := face_corners f in
  (plain c (face_id c f) -> forall s t e,
     surface s t e = blend (L l0) (L l1) (L l2) (L l3) (vertex c v0) (vertex c v1) (vertex c v2) (vertex c v3) s t e) /\
  (forall n, ~ plain c (face_id c f) -> face_id c f = id n -> forall s t e,
     surface s t e = M n [vertex c v0; vertex c v1; vertex c v2; vertex c v3]
                         [(1 - s) * (1 - t); s * (1 - t); (1 - s) * t; s * t] e).

(** A surface is bounded by the lines of its face. *)
Definition bounded_by (surface : R -> R -> pt) (l0 l1 l2 l3 : R -> pt) : Prop :=
  forall r e, surface 0 r e = l0 r e /\ surface 1 r e = l1 r e /\ surface r 0 e = l2 r e /\ surface r 1 e = l3 r e.

(** The blend of six surfaces, twelve curves and eight vertices. *)
Definition blend_3 (F : nat -> R -> R -> pt) (L : nat -> R -> pt) (V : nat -> pt) (x y z : R) : pt := fun e =>
  ((1 - x) * F 0%nat y z e + x * F 1%nat y z e + (1 - y) * F 2%nat z x e + y * F 3%nat z x e
   + (1 - z) * F 4%nat x y e + z * F 5%nat x y e)
  - ((1 - x) * (1 - z) * L 0%nat y e + x * (1 - z) * L 1%nat y e + (1 - y) * (1 - z) * L 2%nat x e
     + y * (1 - z) * L 3%nat x e + (1 - x) * z * L 4%nat y e + x * z * L 5%nat y e
     + (1 - y) * z * L 6%nat x e + y * z * L 7%nat x e + (1 - x) * (1 - y) * L 8%nat z e
     + x * (1 - y) * L 9%nat z e + (1 - x) * y * L 10%nat z e + x * y * L 11%nat z e)
  + ((1 - x) * (1 - y) * (1 - z) * V 0%nat e + x * (1 - y) * (1 - z) * V 1%nat e
     + (1 - x) * y * (1 - z) * V 2%nat e + x * y * (1 - z) * V 3%nat e
     + (1 - x) * (1 - y) * z * V 4%nat e + x * (1 - y) * z * V 5%nat e
     + (1 - x) * y * z * V 6%nat e + x * y * z * V 7%nat e).

(** The chart coordinates x, y, z. *)
Definition xyz (x y z : R) : nat -> R := fun d => match d with O => x | 1%nat => y | _ => z end.

(** All surfaces and curves stay below B in one component, at the parameters
    that belong to (x, y, z). *)
Definition below (F : nat -> R -> R -> pt) (L : nat -> R -> pt) (x y z : R) (e : nat) (B : R) : Prop :=
  (forall f, (f < 6)%nat -> forall s t, In (s, t) [(y, z); (z, x); (x, y)] -> Rabs (F f s t e) <= B) /\
  (forall l, (l < 12)%nat -> forall t, In t [x; y; z] -> Rabs (L l t e) <= B).

(** ** The inverse *)

(** A map of the unit square onto a parallelogram that keeps orientation. *)
Definition parallelogram (S : R * R -> R * R) : Prop :=
  exists o a b : R * R, fst a * snd b - snd a * fst b > 0 /\
    forall u v, S (u, v) = (fst o + u * fst a + v * fst b, snd o + u * snd a + v * snd b).

(** Chart coordinates at most r away from the unit square. *)
Definition near_square (r : R) (p : R * R) : Prop := - r <= fst p <= 1 + r /\ - r <= snd p <= 1 + r.

(** The weighted mean of points. *)
Definition mean (points : list (R * R)) (weights : list R) : R * R :=
  (fold_right Rplus 0 (map (fun pw => snd pw * fst (fst pw)) (combine points weights)),
   fold_right Rplus 0 (map (fun pw => snd pw * snd (fst pw)) (combine points weights))).
