(** * Specification: boundary conditions and conformity of the generated meshes *)
From Coq Require Import Reals ZArith List.
From Verif Require Import EulerSystem Geometry.
Local Open Scope R_scope.

(** The condition a user configures for a side of the rectangular domain: the lower or upper
    side in the given coordinate direction. *)
Definition configured (p : rectangle) (d : nat) (up : bool) : boundary :=
  match d, up with
  | O, false => boundary_left p   | O, true => boundary_right p
  | 1%nat, false => boundary_bottom p | 1%nat, true => boundary_top p
  | _, false => boundary_back p   | _, true => boundary_front p
  end.

(** The place of that side. *)
Definition wall_of (p : rectangle) (d : nat) (up : bool) : R := if up then point_right p d else point_left p d.

(** The number of cells asked for. *)
Definition requested (p : rectangle) (d : nat) : Z :=
  match d with O => subdivisions_x p | 1%nat => subdivisions_y p | _ => subdivisions_z p end.

(** A vertex of a block. *)
Definition vertex (dim : nat) (b : block) (x : nat -> R) : Prop :=
  forall e, (e < dim)%nat -> exists i, (0 <= i <= cells b e)%Z /\ x e = node b e i.

(** A point of the region covered by a block. *)
Definition covered (dim : nat) (b : block) (x : nat -> R) : Prop :=
  forall e, (e < dim)%nat -> lower b e <= x e <= upper b e.

(** No hanging vertices: a vertex of a block that touches another block is a vertex of it. *)
Definition conforming (dim : nat) (mesh : list block) : Prop :=
  forall b b' x, In b mesh -> In b' mesh -> vertex dim b x -> covered dim b' x -> vertex dim b' x.

(** The width of the cells of a block. *)
Definition width (b : block) (d : nat) : R := (upper b d - lower b d) / IZR (cells b d).
