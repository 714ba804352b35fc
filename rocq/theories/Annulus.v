(** * Model: the partial annulus

    GridGenerator::annulus builds a ball, a shell and a square with a hole
    with deal.II, glues them, refines twice and then removes the cells of the
    shell within the coverage angle.  deal.II's generators and refinement are
    modelled by the positions of the vertices they are documented to give
    ([shell_vertex], [polar_cell]); the two loops over cells of ryujin are modelled
    line by line.  Not modelled: manifold ids (source/geometry_annulus.h:52-91)
    and the flattening and copying of the triangulation. *)
From Coq Require Import Reals List Bool.
Import ListNotations.
Local Open Scope R_scope.

(** dealii::Point<2> as used in source/geometry_annulus.h:165. *)
Definition point : Type := (R * R)%type.

(** vertex.norm(), source/geometry_annulus.h:61, 166. *)
Definition norm (p : point) : R := sqrt (fst p * fst p + snd p * snd p).

(** The four vertices of a cell in the order of deal.II,
    source/geometry_annulus.h:124. *)
Record cell := { v0 : point; v1 : point; v2 : point; v3 : point }.

(** The faces of a cell, cell->face_indices(),
    source/geometry_annulus.h:160-161. *)
Definition faces (c : cell) : list (point * point) :=
  [(v0 c, v2 c); (v1 c, v3 c); (v0 c, v1 c); (v2 c, v3 c)].

(** face->center() is the mean of the vertices of the face,
    source/geometry_annulus.h:162. *)
Definition center (f : point * point) : point :=
  ((fst (fst f) + fst (snd f)) / 2, (snd (fst f) + snd (snd f)) / 2).

(** Comparison of numbers, source/geometry_annulus.h:168, 171-174. *)
Definition less (a b : R) : bool := if Rlt_dec a b then true else false.

(** source/geometry_annulus.h:167-168 *)
Definition in_anulus (inner_radius outer_radius radius : R) : bool :=
  less (1 / 10 ^ 8) (radius - inner_radius) && less (1 / 10 ^ 3) (outer_radius - radius).

(** source/geometry_annulus.h:170-174, [angle] in degrees *)
Definition partial_annulus (angle : R) (position : point) : bool :=
  less (Rabs (snd position) - Rabs (fst position) * tan (PI / 180 * angle)) (1 / 10 ^ 8).

(** Whether the loop over the faces inserts the cell, source/geometry_annulus.h:160-179. *)
Definition removed (inner_radius outer_radius angle : R) (c : cell) : bool :=
  existsb (fun f =>
    let position := center f in
    let radius := norm position in
    in_anulus inner_radius outer_radius radius && partial_annulus angle position) (faces c).

(** create_triangulation_with_removed_cells: the other cells stay,
    source/geometry_annulus.h:159-183. *)
Definition remaining (inner_radius outer_radius angle : R) (cells : list cell) : list cell :=
  filter (fun c => negb (removed inner_radius outer_radius angle c)) cells.

(** The point with polar coordinates; vertices of dealii::GridGenerator::hyper_shell,
    source/geometry_annulus.h:108-110. *)
Definition polar (r theta : R) : point := (r * cos theta, r * sin theta).

(** A cell of a shell between two radii and two angles: the spherical manifold places
    new vertices at the mean radius and the mean angle,
    source/geometry_annulus.h:108-110, 151-152. *)
Definition polar_cell (r1 r2 theta1 theta2 : R) : cell :=
  {| v0 := polar r1 theta1; v1 := polar r1 theta2; v2 := polar r2 theta1; v3 := polar r2 theta2 |}.

(** The 4 times 128 cells of the shell: 32 cells refined twice,
    source/geometry_annulus.h:108-110, 152. *)
Definition annulus_cell (inner_radius outer_radius : R) (j k : nat) : cell :=
  let r i := inner_radius + INR i * ((outer_radius - inner_radius) / 4) in
  let theta i := INR i * (2 * PI / 128) in
  polar_cell (r j) (r (S j)) (theta k) (theta (S k)).

(** The vertices of the outer shell of eight cells at the two radii,
    source/geometry_annulus.h:116-120. *)
Definition shell_vertex (radius : R) (k : nat) : point := polar radius (INR k * (2 * PI / 8)).

(** std::copysign, source/geometry_annulus.h:127, 129; the sign of zero is not used. *)
Definition copysign (a b : R) : R := if Rlt_dec b 0 then - Rabs a else Rabs a.

(** One pass over a vertex, source/geometry_annulus.h:125-129. *)
Definition fix_up (eps length : R) (vertex : point) : point :=
  let vertex :=
    if less (Rabs (fst vertex)) eps && less (length / 2) (Rabs (snd vertex))
    then (fst vertex, copysign (length / 2) (snd vertex)) else vertex in
  if less (Rabs (snd vertex)) eps && less (length / 2) (Rabs (fst vertex))
  then (copysign (length / 2) (fst vertex), snd vertex) else vertex.
