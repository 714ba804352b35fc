(** * Discs, squares and reflections *)
From Coq Require Import Reals.
From Verif Require Import Annulus.
Local Open Scope R_scope.

(** All vertices of the cell satisfy [P]. *)
Definition vertices_all (P : point -> Prop) (c : cell) : Prop := P (v0 c) /\ P (v1 c) /\ P (v2 c) /\ P (v3 c).

(** The closed disc, and the outside of the open disc, around the origin. *)
Definition inside (r : R) (p : point) : Prop := fst p * fst p + snd p * snd p <= r * r.
Definition outside (r : R) (p : point) : Prop := r * r <= fst p * fst p + snd p * snd p.

(** The midpoint of two points. *)
Definition midpoint (p q : point) : point := ((fst p + fst q) / 2, (snd p + snd q) / 2).

(** Reflection of a cell at the coordinate axes. *)
Definition flip (sx sy : R) (p : point) : point := (sx * fst p, sy * snd p).
Definition reflect (sx sy : R) (c : cell) : cell :=
  {| v0 := flip sx sy (v0 c); v1 := flip sx sy (v1 c); v2 := flip sx sy (v2 c); v3 := flip sx sy (v3 c) |}.

(** Degrees. *)
Definition deg (a : R) : R := PI / 180 * a.

(** The boundary of the square with side [length] around the origin. *)
Definition on_square (length : R) (p : point) : Prop := Rmax (Rabs (fst p)) (Rabs (snd p)) = length / 2.
