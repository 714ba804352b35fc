(** * Property theorems: generated meshes (C137, C138) *)
From Coq Require Import Reals ZArith List.
From Verif Require Import EulerSystem Geometry GeometrySpec GeometryProofs GeometryFinal GeometryExamples.
Import ListNotations.
Local Open Scope R_scope.

(** ** The rectangular domain (C137) *)

(** With the first corner below the second and cells wider than 2e-8, every face on the boundary
    lies on a side of the domain and carries the condition configured for that side. *)
Theorem C137_sides :
  forall dim p b id ds c, (1 <= dim <= 3)%nat ->
  create_rectangle dim p = Some (b, id, ds) ->
  (forall d, (d < dim)%nat -> point_left p d < point_right p d) ->
  (forall d, (d < dim)%nat -> 2 / 100000000 <= (point_right p d - point_left p d) / IZR (requested p d)) ->
  boundary_face dim [b] c ->
  (exists d up, (d < dim)%nat /\ c d = wall_of p d up) /\
  (forall d up, (d < dim)%nat -> c d = wall_of p d up -> id c = configured p d up).
Proof. exact C137_sides_proof. Qed.
Print Assumptions C137_sides.

(** The mesh is refused unless periodic sides come in pairs; otherwise exactly the directions with
    a pair of periodic sides are identified, each once. *)
Theorem C137_periodic :
  forall dim p, (1 <= dim <= 3)%nat ->
  (forall d, (d < dim)%nat -> (0 < requested p d)%Z /\ point_left p d <> point_right p d) ->
  (create_rectangle dim p <> None <->
   forall d, (d < dim)%nat -> (configured p d false = periodic <-> configured p d true = periodic)) /\
  (forall b id ds, create_rectangle dim p = Some (b, id, ds) ->
     NoDup ds /\ forall d, In d ds <-> (d < dim)%nat /\ configured p d false = periodic /\ configured p d true = periodic).
Proof. exact C137_periodic_proof. Qed.
Print Assumptions C137_periodic.

(** A periodic duct. *)
Example C137_ex :
  exists b id, create_rectangle 2 duct = Some (b, id, [1%nat]) /\
  (forall d, (d < 2)%nat -> point_left duct d < point_right duct d) /\
  (forall d, (d < 2)%nat -> 2 / 100000000 <= (point_right duct d - point_left duct d) / IZR (requested duct d)) /\
  boundary_face 2 [b] (point 0 (1 / 4)) /\ id (point 0 (1 / 4)) = dirichlet.
Proof. exact duct_case. Qed.

(** With swapped corners a face on one side carries the condition of the other. *)
Theorem C137_corners_refuted :
  exists p b id ds c, create_rectangle 1 p = Some (b, id, ds) /\
  boundary_face 1 [b] c /\ c 0%nat = wall_of p 0 false /\ id c <> configured p 0 false.
Proof. exact C137_corners_refuted_proof. Qed.
Print Assumptions C137_corners_refuted.

(** In a film thinner than the tolerance a face on the left side carries another condition. *)
Theorem C137_film_refuted :
  exists p b id ds c, create_rectangle 2 p = Some (b, id, ds) /\
  (forall d, (d < 2)%nat -> point_left p d < point_right p d) /\
  boundary_face 2 [b] c /\ c 0%nat = wall_of p 0 false /\ id c <> configured p 0 false.
Proof. exact C137_film_refuted_proof. Qed.
Print Assumptions C137_film_refuted.

(** ** Wall, step, wave tank and cylinder (C138) *)

(** The mesh of the wall conforms; do-nothing on the right, slip on the wall, Dirichlet elsewhere. *)
Theorem C138_wall :
  forall length height wall, 0 < wall -> wall + 36 / 1000000 <= length -> 12 / 1000000 <= height ->
  exists mesh, wall_mesh length height wall = Some mesh /\ conforming 2 mesh /\
    forall c, boundary_face 2 mesh c ->
      (c 0%nat = length /\ 0 < c 1%nat < height /\ wall_id length wall c = do_nothing) \/
      (c 1%nat = 0 /\ wall < c 0%nat < length /\ wall_id length wall c = slip) \/
      ((c 0%nat = 0 \/ (c 1%nat = height /\ c 0%nat < length) \/ (c 1%nat = 0 /\ c 0%nat < wall)) /\ wall_id length wall c = dirichlet).
Proof. exact C138_wall_proof. Qed.
Print Assumptions C138_wall.

(** The default parameters. *)
Example C138_wall_ex :
  0 < 1 / 6 /\ 1 / 6 + 36 / 1000000 <= 16 / 5 /\ 12 / 1000000 <= (1 : R) /\
  exists mesh b, wall_mesh (16 / 5) 1 (1 / 6) = Some mesh /\ In b mesh /\ lower b 0%nat = 1 / 6 /\ upper b 0%nat = 16 / 5 /\ lower b 1%nat = 0.
Proof. exact wall_case. Qed.

(** The documentation promises do-nothing conditions on the bottom in front of the wall. *)
Theorem C138_wall_front_refuted :
  exists mesh c, wall_mesh (16 / 5) 1 (1 / 6) = Some mesh /\ boundary_face 2 mesh c /\
  c 1%nat = 0 /\ 0 < c 0%nat < 1 / 6 /\ wall_id (16 / 5) (1 / 6) c = dirichlet.
Proof. exact C138_wall_front_refuted_proof. Qed.
Print Assumptions C138_wall_front_refuted.

(** The mesh of the step conforms if and only if the step is at a fifth of the length. *)
Theorem C138_step_conforming :
  forall length height sp sh, 0 < sp < length -> 0 < sh < height ->
  exists mesh, step_mesh length height sp sh = Some mesh /\ (conforming 2 mesh <-> sp = length / 5).
Proof. exact C138_step_conforming_proof. Qed.
Print Assumptions C138_step_conforming.

(** For such a position: inflow on the left, do-nothing on the right, slip on all walls. *)
Theorem C138_step :
  forall length height sp sh, 0 < sp < length -> 0 < sh < height ->
  sp = length / 5 -> 30 / 1000000 < length -> exists mesh, step_mesh length height sp sh = Some mesh /\
    forall c, boundary_face 2 mesh c ->
      (c 0%nat = 0 /\ 0 < c 1%nat < height /\ step_id length c = dirichlet) \/
      (c 0%nat = length /\ sh < c 1%nat < height /\ step_id length c = do_nothing) \/
      (((c 1%nat = height /\ 0 < c 0%nat < length) \/ (c 1%nat = 0 /\ 0 < c 0%nat < sp) \/
        (c 0%nat = sp /\ 0 < c 1%nat < sh) \/ (c 1%nat = sh /\ sp < c 0%nat < length)) /\ step_id length c = slip).
Proof. exact C138_step_proof. Qed.
Print Assumptions C138_step.

(** The default parameters. *)
Example C138_step_ex :
  0 < 3 / 5 < 3 /\ 0 < 1 / 5 < 1 /\ 3 / 5 = 3 / 5 /\ 30 / 1000000 < 3 /\
  exists mesh b, step_mesh 3 1 (3 / 5) (1 / 5) = Some mesh /\ In b mesh /\ lower b 1%nat = 1 / 5 /\ upper b 1%nat = 1.
Proof. exact step_case. Qed.

(** For another position a slip wall runs across the channel. *)
Theorem C138_step_position_refuted :
  exists mesh c, step_mesh 3 1 1 (1 / 5) = Some mesh /\ boundary_face 2 mesh c /\
  c 1%nat = 1 / 5 /\ 0 < c 0%nat < 1 /\ step_id 3 c = slip.
Proof. exact C138_step_position_refuted_proof. Qed.
Print Assumptions C138_step_position_refuted.

(** The corner of the step is moved onto the circle and nothing else is; moving twice changes nothing. *)
Theorem C138_corner :
  forall sp sh,
  (let p := round_corner sp sh (sp, sh) in
   (fst p - fst (corner_circle sp sh)) * (fst p - fst (corner_circle sp sh)) +
   (snd p - snd (corner_circle sp sh)) * (snd p - snd (corner_circle sp sh)) = 125 / 10000 * (125 / 10000) /\
   sp < fst p /\ snd p < sh) /\
  (forall v, round_corner sp sh (round_corner sp sh v) = round_corner sp sh v) /\
  (forall y, y <= sh - / 1000000 -> round_corner sp sh (sp, y) = (sp, y)) /\
  (forall x, sp + 5 / 1000 <= x -> round_corner sp sh (x, sh) = (x, sh)).
Proof. exact C138_corner_proof. Qed.
Print Assumptions C138_corner.

(** The neighbours of the moved corner are on the circle only for length 3 and step height 1/5. *)
Theorem C138_arc :
  forall length sp sh,
  ((sp + length / 15 / 16 - fst (corner_circle sp sh)) * (sp + length / 15 / 16 - fst (corner_circle sp sh)) +
   (sh - snd (corner_circle sp sh)) * (sh - snd (corner_circle sp sh)) = 125 / 10000 * (125 / 10000) <-> length = 3) /\
  ((sp - fst (corner_circle sp sh)) * (sp - fst (corner_circle sp sh)) +
   (sh - sh / 1 / 16 - snd (corner_circle sp sh)) * (sh - sh / 1 / 16 - snd (corner_circle sp sh)) = 125 / 10000 * (125 / 10000) <-> sh = 1 / 5).
Proof. exact C138_arc_proof. Qed.
Print Assumptions C138_arc.

(** The mesh of the wave tank, if one is made for a flume narrower than the reservoir, conforms;
    its cells are between 5 and 15 millimetres wide; dynamic outflow at the end of the flume, slip elsewhere. *)
Theorem C138_tank :
  forall rl rw fl fw mesh, 0 < rl -> 0 < fl -> 0 < fw < rw -> tank_mesh rl rw fl fw = Some mesh ->
  conforming 2 mesh /\ (forall b d, In b mesh -> (d < 2)%nat -> 1 / 200 <= width b d <= 3 / 200) /\
  forall c, boundary_face 2 mesh c ->
    (c 0%nat = fl /\ - fw / 2 < c 1%nat < fw / 2 /\ tank_id fl c = dynamic) \/
    (((c 0%nat = - rl /\ - rw / 2 < c 1%nat < rw / 2) \/ ((c 1%nat = - rw / 2 \/ c 1%nat = rw / 2) /\ - rl < c 0%nat < 0) \/
      (c 0%nat = 0 /\ (- rw / 2 < c 1%nat < - fw / 2 \/ fw / 2 < c 1%nat < rw / 2)) \/
      ((c 1%nat = - fw / 2 \/ c 1%nat = fw / 2) /\ 0 < c 0%nat < fl)) /\ tank_id fl c = slip).
Proof. exact C138_tank_proof. Qed.
Print Assumptions C138_tank.

(** A reservoir of 81 cm width. *)
Example C138_tank_ex :
  exists mesh, tank_mesh (157 / 100) (81 / 100) (601 / 100) (24 / 100) = Some mesh.
Proof. exact tank_case. Qed.

(** The default parameters have a reservoir narrower than the flume: a block gets 2^32 - 8 subdivisions. *)
Theorem C138_tank_default_refuted :
  exists mesh b,
  tank_mesh (157 / 100) (8.1 / 100) (600.78 / 100) (24 / 100) = Some mesh /\ In b mesh /\
  cells b 1 = 4294967288%Z /\ 0 < width b 1 < / 10000000000.
Proof. exact C138_tank_default_refuted_proof. Qed.
Print Assumptions C138_tank_default_refuted.

(** Boundary conditions by the endpoints of an edge: outflow, inflow, cylinder, walls. *)
Theorem C138_cylinder :
  forall length position diameter v w c,
  0 < diameter -> diameter + 4 / 1000000 <= 2 * position -> diameter + 2 / 1000000 <= 2 * (length - position) -> 
  (forall d, c d = (cylinder_vertex position diameter v d + cylinder_vertex position diameter w d) / 2) ->
  (v 0%nat = length - position -> w 0%nat = length - position -> cylinder_id length position c = do_nothing) /\
  (v 0%nat = - diameter -> w 0%nat = - diameter -> cylinder_id length position c = dirichlet) /\
  (2 / 1000000 < diameter -> v 0%nat * v 0%nat + v 1%nat * v 1%nat = (diameter / 2) * (diameter / 2) ->
   w 0%nat * w 0%nat + w 1%nat * w 1%nat = (diameter / 2) * (diameter / 2) -> cylinder_id length position c = slip) /\
  (2 / 1000000 < diameter -> v 0%nat = - diameter -> - diameter / 2 <= w 0%nat <= length - position -> cylinder_id length position c = slip) /\
  (- diameter + / 1000000 < v 0%nat -> - position + / 1000000 <= v 0%nat -> v 0%nat + 2 / 1000000 <= w 0%nat <= length - position -> cylinder_id length position c = slip).
Proof. exact C138_cylinder_proof. Qed.
Print Assumptions C138_cylinder.

(** The default parameters. *)
Example C138_cylinder_ex :
  0 < 1 / 2 /\ 1 / 2 + 4 / 1000000 <= 2 * (3 / 5) /\ 1 / 2 + 2 / 1000000 <= 2 * (4 - 3 / 5) /\
  cylinder_id 4 (3 / 5) (fun d => (cylinder_vertex (3 / 5) (1 / 2) (point (1 / 4) 0) d + cylinder_vertex (3 / 5) (1 / 2) (point 0 (1 / 4)) d) / 2) = slip /\
  cylinder_id 4 (3 / 5) (fun d => (cylinder_vertex (3 / 5) (1 / 2) (point (- (1 / 2)) 0) d + cylinder_vertex (3 / 5) (1 / 2) (point (- (1 / 2)) (1 / 2)) d) / 2) = dirichlet.
Proof. exact cylinder_case. Qed.
