(** * Property theorems: annulus geometry (C148) *)
From Coq Require Import Reals List Bool Arith.
From Verif Require Import Annulus AnnulusSpec AnnulusProofs.
Import ListNotations.
Local Open Scope R_scope.

(** ** The cells that are removed (C148) *)

(** The mesh keeps exactly the cells without a face whose midpoint lies between the circles and within the coverage angle. *)
Theorem C148_remaining :
  forall i o a cells c,
  In c (remaining i o a cells) <->
  In c cells /\ forall p q, In (p, q) [(v0 c, v1 c); (v2 c, v3 c); (v0 c, v2 c); (v1 c, v3 c)] ->
    let m := midpoint p q in
    ~ (i + 1 / 10 ^ 8 < sqrt (fst m * fst m + snd m * snd m) < o - 1 / 10 ^ 3 /\
       Rabs (snd m) < Rabs (fst m) * tan (deg a) + 1 / 10 ^ 8).
Proof. exact C148_remaining_proof. Qed.
Print Assumptions C148_remaining.

(** Of a cell on the axis and one inside of the inner circle the latter stays. *)
Example C148_remaining_ex :
  remaining 4 5 45 [polar_cell 5 6 0 (0 + PI / 64); polar_cell 1 2 0 (PI / 64)] = [polar_cell 1 2 0 (PI / 64)].
Proof. exact remaining_case. Qed.

(** Mirror images of cells are treated alike. *)
Theorem C148_reflect : forall i o a sx sy c,
  (sx = 1 \/ sx = -1) -> (sy = 1 \/ sy = -1) ->
  removed i o a (reflect sx sy c) = removed i o a c.
Proof. exact C148_reflect_proof. Qed.
Print Assumptions C148_reflect.

(** Of the cells of the annulus itself those are removed that begin at an angle of at most the coverage, up to a
    tolerance of 1e-8; in all four quadrants. *)
Theorem C148_wall : forall i o a j k sx sy,
  0 < i -> i + 8 / 1000 < o -> 0 <= a < 90 -> (j < 4)%nat -> (k < 32)%nat ->
  (sx = 1 \/ sx = -1) -> (sy = 1 \/ sy = -1) ->
  let c := reflect sx sy (annulus_cell i o j k) in
  (INR k * (360 / 128) <= a -> removed i o a c = true) /\
  (a < INR k * (360 / 128) -> 1 / 10 ^ 8 <= i * sin (deg (INR k * (360 / 128) - a)) -> removed i o a c = false).
Proof. exact C148_wall_proof. Qed.
Print Assumptions C148_wall.

(** With the default parameters. *)
Example C148_wall_ex :
  removed (6 / 10) (7 / 10) 45 (annulus_cell (6 / 10) (7 / 10) 3 10) = true /\
  removed (6 / 10) (7 / 10) 45 (reflect (-1) 1 (annulus_cell (6 / 10) (7 / 10) 2 17)) = false.
Proof. exact wall_case. Qed.

(** No cell inside of the annulus is removed, *)
Theorem C148_inside : forall i o a c,
  0 <= i -> vertices_all (inside i) c -> removed i o a c = false.
Proof. exact C148_inside_proof. Qed.
Print Assumptions C148_inside.

(** and no cell outside with a face on the outer circle, if the mesh is fine enough there. *)
Theorem C148_outside : forall i o a c t1 t2,
  0 < o -> v0 c = polar o t1 -> v1 c = polar o t2 ->
  outside o (midpoint (v0 c) (v2 c)) -> outside o (midpoint (v1 c) (v3 c)) -> outside o (midpoint (v2 c) (v3 c)) ->
  o * ((t2 - t1) * (t2 - t1)) <= 8 / 1000 -> removed i o a c = false.
Proof. exact C148_outside_proof. Qed.
Print Assumptions C148_outside.

(** With the default parameters. *)
Example C148_outside_ex :
  removed (6 / 10) (7 / 10) 45 (polar_cell (7 / 10) (8 / 10) 0 (PI / 64)) = false.
Proof. exact outside_case. Qed.

(** With an outer radius of 4 or more cells outside of the annulus are removed. *)
Theorem C148_large_refuted : forall i o a c t,
  4 <= o -> 0 <= i -> i <= o * (1 - 1 / 2000) - 1 / 1000 -> 0 <= a < 90 -> 0 <= t -> t + PI / 128 <= deg a ->
  v0 c = polar o t -> v1 c = polar o (t + PI / 64) -> removed i o a c = true.
Proof. exact C148_large_refuted_proof. Qed.
Print Assumptions C148_large_refuted.

(** The inner radius 4 and the outer radius 5. *)
Example C148_large_ex :
  removed 4 5 45 (polar_cell 5 6 0 (0 + PI / 64)) = true.
Proof. exact large_case. Qed.

(** With the default parameters a cell is removed that lies beyond the coverage angle of 45 degrees. *)
Theorem C148_coverage_refuted : forall j,
  (j < 4)%nat ->
  exists c r1 r2, c = annulus_cell (6 / 10) (7 / 10) j 16 /\ c = polar_cell r1 r2 (deg 45) (deg (45 + 360 / 128)) /\ 0 < r1 < r2 /\
    removed (6 / 10) (7 / 10) 45 c = true.
Proof. exact C148_coverage_refuted_proof. Qed.
Print Assumptions C148_coverage_refuted.

(** The outermost vertices are moved onto the square, corners onto corners, and stay there, *)
Theorem C148_square : forall eps length k,
  0 < eps -> eps <= length / 2 -> (k < 8)%nat ->
  let p := fix_up eps length (shell_vertex (length / 2 * sqrt 2) k) in
  on_square length p /\ fix_up eps length p = p /\
  (Nat.Odd k -> Rabs (fst p) = length / 2 /\ Rabs (snd p) = length / 2) /\
  (Nat.Even k -> fst p = 0 \/ snd p = 0).
Proof. exact C148_square_proof. Qed.
Print Assumptions C148_square.

(** and vertices of circles inside of the square are left in place. *)
Theorem C148_hole : forall eps length r k,
  0 < eps -> eps <= r <= length / 2 -> (k < 8)%nat -> fix_up eps length (shell_vertex r k) = shell_vertex r k.
Proof. exact C148_hole_proof. Qed.
Print Assumptions C148_hole.

(** The vertex at 90 degrees of a square with edges of length 2. *)
Example C148_square_ex :
  fix_up (1 / 10 ^ 10) 2 (shell_vertex (2 / 2 * sqrt 2) 2) = (0, 1).
Proof. exact square_case. Qed.
