(** * Model: the rectangular domain, the wall, the step, the wave tank and the cylinder

    The mesh generators create blocks of cells with
    dealii::GridGenerator::subdivided_hyper_rectangle, glue them with
    dealii::GridGenerator::merge_triangulations, and then set a boundary id
    on every face at the boundary.  Both deal.II functions are modelled by
    what they are documented to do ([subdivided_hyper_rectangle],
    [boundary_face]); everything after them is modelled line by line.
    Points are functions from the coordinate (0, 1, 2) to the reals. *)
From Coq Require Import Reals ZArith List Bool Arith.
From Verif Require Import EulerSystem.
Import ListNotations.
Local Open Scope R_scope.

(** A block of cells: the cells of one call of
    source/geometry_rectangular_domain.h:127-141 (and
    source/geometry_wall.h:49-53, source/geometry_step.h:47-54,
    source/geometry_tank.h:63-89). *)
Record block := { lower : nat -> R; upper : nat -> R; cells : nat -> Z }.

(** dealii::GridGenerator::subdivided_hyper_rectangle as called in
    source/geometry_rectangular_domain.h:126-142: the two points are opposite
    corners in any order, [None] if a number of subdivisions or an extent is
    zero (deal.II assertions). *)
Definition subdivided_hyper_rectangle (dim : nat) (repetitions : nat -> Z) (p1 p2 : nat -> R) : option block :=
  if forallb (fun d => (0 <? repetitions d)%Z && if Req_EM_T (p1 d) (p2 d) then false else true) (seq 0 dim)
  then Some {| lower := fun d => Rmin (p1 d) (p2 d); upper := fun d => Rmax (p1 d) (p2 d); cells := repetitions |}
  else None.

(** The i-th layer of vertices of a block in direction d; same call as above.
    source/geometry_rectangular_domain.h:126-142. *)
Definition node (b : block) (d : nat) (i : Z) : R :=
  lower b d + IZR i * ((upper b d - lower b d) / IZR (cells b d)).

(** A face of a block: the cell it belongs to, its direction, and whether it
    is the upper one; the loop over cells and faces of
    source/geometry_rectangular_domain.h:158-160. *)
Record face := { owner : nat -> Z; direction : nat; is_upper : bool }.

(** The range of the loops in source/geometry_rectangular_domain.h:158-159. *)
Definition is_face (dim : nat) (b : block) (f : face) : Prop :=
  (direction f < dim)%nat /\ forall e, (e < dim)%nat -> (0 <= owner f e < cells b e)%Z.

(** The interval covered by a face in every direction; vertices of
    [face->vertex(v)], see source/geometry_rectangular_domain.h:160-163. *)
Definition extent (b : block) (f : face) (e : nat) : R * R :=
  if Nat.eqb e (direction f)
  then (node b e (owner f e + if is_upper f then 1 else 0), node b e (owner f e + if is_upper f then 1 else 0))
  else (node b e (owner f e), node b e (owner f e + 1)).

(** [face->center()], source/geometry_rectangular_domain.h:163. *)
Definition center (b : block) (f : face) (e : nat) : R := (fst (extent b f e) + snd (extent b f e)) / 2.

(** [face->at_boundary()] within one block,
    source/geometry_rectangular_domain.h:161-162. *)
Definition at_edge (b : block) (f : face) : Prop :=
  if is_upper f then (owner f (direction f) + 1 = cells b (direction f))%Z else owner f (direction f) = 0%Z.

(** [face->at_boundary()] in a merged triangulation
    (source/geometry_wall.h:55-68, source/geometry_step.h:56-68,
    source/geometry_tank.h:92-104): a face at the edge of its block that is
    not a face of another block.  [c] is the center of the face. *)
Definition boundary_face (dim : nat) (mesh : list block) (c : nat -> R) : Prop :=
  exists j b f, nth_error mesh j = Some b /\ is_face dim b f /\ at_edge b f /\
    (forall e, (e < dim)%nat -> c e = center b f e) /\
    ~ (exists j' b' f', j' <> j /\ nth_error mesh j' = Some b' /\ is_face dim b' f' /\
         direction f' = direction f /\ at_edge b' f' /\ forall e, (e < dim)%nat -> extent b' f' e = extent b f e).

(** The parameters of source/geometry_rectangular_domain.h:42-109 and 241-257
    (without the grading, which does not enter the boundary ids). *)
Record rectangle := {
  point_left : nat -> R; point_right : nat -> R;
  subdivisions_x : Z; subdivisions_y : Z; subdivisions_z : Z;
  boundary_left : boundary; boundary_right : boundary;
  boundary_bottom : boundary; boundary_top : boundary;
  boundary_back : boundary; boundary_front : boundary }.

(** The comparison operator <, for example in source/geometry_rectangular_domain.h:165. *)
Definition lt (x y : R) : bool := if Rlt_dec x y then true else false.

(** source/geometry_rectangular_domain.h:163-182; a face that no branch
    touches keeps the id 0 of deal.II, which is Boundary::do_nothing
    (source/discretization.h:57). *)
Definition rectangle_id (dim : nat) (p : rectangle) (position : nat -> R) : boundary :=
  let id := do_nothing in
  let id := if lt (position 0%nat) (point_left p 0%nat + / 100000000) then boundary_left p else id in
  let id := if lt (point_right p 0%nat - / 100000000) (position 0%nat) then boundary_right p else id in
  let id := if (2 <=? dim)%nat && lt (position 1%nat) (point_left p 1%nat + / 100000000) then boundary_bottom p else id in
  let id := if (2 <=? dim)%nat && lt (point_right p 1%nat - / 100000000) (position 1%nat) then boundary_top p else id in
  let id := if (dim =? 3)%nat && lt (position 2%nat) (point_left p 2%nat + / 100000000) then boundary_back p else id in
  let id := if (dim =? 3)%nat && lt (point_right p 2%nat - / 100000000) (position 2%nat) then boundary_front p else id in
  id.

(** [x == Boundary::periodic], source/geometry_rectangular_domain.h:188. *)
Definition is_periodic (b : boundary) : bool := match b with periodic => true | _ => false end.

(** One of the three blocks source/geometry_rectangular_domain.h:188-216;
    [None] is the exception.  If one of two ids is periodic they are equal
    exactly if both are. *)
Definition periodic_direction (d : nat) (b1 b2 : boundary) : option (list nat) :=
  if is_periodic b1 || is_periodic b2
  then if is_periodic b1 && is_periodic b2 then Some [d] else None
  else Some [].

(** source/geometry_rectangular_domain.h:186-216: the directions in which
    periodic faces are identified (lines 218-235, deal.II 9.5 or later). *)
Definition rectangle_directions (dim : nat) (p : rectangle) : option (list nat) :=
  match periodic_direction 0 (boundary_left p) (boundary_right p),
        (if (2 <=? dim)%nat then periodic_direction 1 (boundary_bottom p) (boundary_top p) else Some []),
        (if (dim =? 3)%nat then periodic_direction 2 (boundary_back p) (boundary_front p) else Some []) with
  | Some x, Some y, Some z => Some (x ++ y ++ z)
  | _, _, _ => None
  end.

(** source/geometry_rectangular_domain.h:118-236: the mesh, the boundary id
    of a face as function of its center, the periodic directions. *)
Definition create_rectangle (dim : nat) (p : rectangle) : option (block * ((nat -> R) -> boundary) * list nat) :=
  match subdivided_hyper_rectangle dim
          (fun d => match d with O => subdivisions_x p | 1%nat => subdivisions_y p | _ => subdivisions_z p end)
          (point_left p) (point_right p),
        rectangle_directions dim p with
  | Some b, Some ds => Some (b, rectangle_id dim p, ds)
  | _, _ => None
  end.

(** Point<2>(x, y), for example source/geometry_wall.h:50. *)
Definition point (x y : R) (d : nat) : R := match d with O => x | _ => y end.

(** The initializer list {n, m}, source/geometry_wall.h:50. *)
Definition pair (n m : Z) (d : nat) : Z := match d with O => n | _ => m end.

(** The pieces handed to merge_triangulations, for example
    source/geometry_wall.h:55; [None] if one could not be created. *)
Fixpoint merge (l : list (option block)) : option (list block) :=
  match l with
  | [] => Some []
  | None :: _ => None
  | Some b :: l => match merge l with Some m => Some (b :: m) | None => None end
  end.

(** source/geometry_wall.h:49-57. *)
Definition wall_mesh (length height wall_position : R) : option (list block) :=
  merge [subdivided_hyper_rectangle 2 (pair 18 6) (point wall_position 0) (point length height);
         subdivided_hyper_rectangle 2 (pair 1 6) (point 0 0) (point wall_position height)].

(** source/geometry_wall.h:76-89. *)
Definition wall_id (length wall_position : R) (c : nat -> R) : boundary :=
  if lt wall_position (c 0%nat) && lt (c 1%nat) (/ 1000000) then slip
  else if lt (length - / 1000000) (c 0%nat) then do_nothing
  else dirichlet.

(** source/geometry_step.h:47-57. *)
Definition step_mesh (length height step_position step_height : R) : option (list block) :=
  merge [subdivided_hyper_rectangle 2 (pair 15 4) (point 0 step_height) (point length height);
         subdivided_hyper_rectangle 2 (pair 3 1) (point 0 0) (point step_position step_height)].

(** source/geometry_step.h:77-83; faces that no branch touches keep the id 0,
    Boundary::do_nothing. *)
Definition step_id (length : R) (c : nat -> R) : boundary :=
  let id := do_nothing in
  let id := if lt (0 + / 1000000) (c 0%nat) && lt (c 0%nat) (length - / 1000000) then slip else id in
  if lt (c 0%nat) (0 + / 1000000) then dirichlet else id.

(** The offset of the corner vertex, source/geometry_step.h:120 and 124. *)
Definition corner_offset : R := 125 / 10000 * (1 - sqrt (1 / 2)).

(** source/geometry_step.h:118-124: what happens to one vertex of a cell that
    touches the corner; the second test sees the new first coordinate. *)
Definition round_corner (step_position step_height : R) (v : R * R) : R * R :=
  let (x, y) := v in
  let x := if lt (Rabs (x - step_position)) (/ 1000000) && lt (step_height - / 1000000) y
           then step_position + corner_offset else x in
  let y := if lt (Rabs (y - step_height)) (/ 1000000) && lt x (step_position + 5 / 1000)
           then step_height - corner_offset else y in
  (x, y).

(** The center of the SphericalManifold, source/geometry_step.h:93-94. *)
Definition corner_circle (step_position step_height : R) : R * R :=
  (step_position + 125 / 10000, step_height - 125 / 10000).

(** std::round, source/geometry_tank.h:60: halfway cases away from zero. *)
Definition c_round (x : R) : Z :=
  if Rle_dec 0 x then Int_part (x + / 2) else (- Int_part (- x + / 2))%Z.

(** unsigned int n = int(std::round(x)), source/geometry_tank.h:60-61: [None]
    if the value does not fit into an int (undefined behaviour), modulo 2^32
    for negative values. *)
Definition subdivisions (x : R) : option Z :=
  let z := c_round x in
  if ((-2147483648 <=? z) && (z <=? 2147483647))%Z then Some (z mod 4294967296)%Z else None.

(** source/geometry_tank.h:59-94 (the assertion of lines 53-54 exists in
    debug builds only and is not part of the model). *)
Definition tank_mesh (reservoir_length reservoir_width flume_length flume_width : R) : option (list block) :=
  let diff := (reservoir_width - flume_width) / 2 in
  match subdivisions (reservoir_length * 100), subdivisions (diff * 100),
        subdivisions (flume_width * 100), subdivisions (flume_length * 100) with
  | Some nr, Some nd, Some nw, Some nf =>
    merge [subdivided_hyper_rectangle 2 (pair nr nd) (point (- reservoir_length) (- reservoir_width / 2)) (point 0 (- flume_width / 2));
           subdivided_hyper_rectangle 2 (pair nr nw) (point (- reservoir_length) (- flume_width / 2)) (point 0 (flume_width / 2));
           subdivided_hyper_rectangle 2 (pair nr nd) (point (- reservoir_length) (flume_width / 2)) (point 0 (reservoir_width / 2));
           subdivided_hyper_rectangle 2 (pair nf nw) (point 0 (- flume_width / 2)) (point flume_length (flume_width / 2))]
  | _, _, _, _ => None
  end.

(** source/geometry_tank.h:111-115. *)
Definition tank_id (flume_length : R) (c : nat -> R) : boundary :=
  if lt (flume_length - / 100000000) (c 0%nat) then dynamic else slip.

(** source/geometry_cylinder.h:102-107: the left boundary of the mesh around
    the cylinder is moved to its final position. *)
Definition cylinder_vertex (cylinder_position cylinder_diameter : R) (v : nat -> R) (d : nat) : R :=
  match d with
  | O => if Rle_dec (v 0%nat) (- cylinder_diameter + / 1000000) then - cylinder_position else v 0%nat
  | _ => v d
  end.

(** source/geometry_cylinder.h:127-140 (and 196-209 in three dimensions). *)
Definition cylinder_id (length cylinder_position : R) (c : nat -> R) : boundary :=
  if lt (length - cylinder_position - / 1000000) (c 0%nat) then do_nothing
  else if lt (c 0%nat) (- cylinder_position + / 1000000) then dirichlet
  else slip.
