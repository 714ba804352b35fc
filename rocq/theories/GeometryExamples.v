(** * Refutations and concrete cases for the generated meshes *)
From Coq Require Import Reals ZArith List Bool Arith Lia Lra.
From Verif Require Import EulerSystem Geometry GeometrySpec GeometryProofs GeometryFinal.
Import ListNotations.
Local Open Scope R_scope.

Lemma c_round_is x z : IZR z - / 2 < x < IZR z + / 2 -> c_round x = z.
Proof.
  intros H. pose proof (abs_inv _ _ (c_round_spec x)) as [A B].
  assert (IZR (c_round x) < IZR z + 1) by lra. assert (IZR z < IZR (c_round x) + 1) by lra.
  rewrite <- plus_IZR in *. apply lt_IZR in H0. apply lt_IZR in H1. lia.
Qed.

Lemma subdivisions_is x z : IZR z - / 2 < x < IZR z + / 2 -> (-2147483648 <= z <= 2147483647)%Z ->
  subdivisions x = Some (z mod 4294967296)%Z.
Proof.
  intros H Hz. unfold subdivisions. rewrite (c_round_is x z H).
  rewrite (proj2 (Z.leb_le _ _) (proj1 Hz)), (proj2 (Z.leb_le _ _) (proj2 Hz)). reflexivity.
Qed.

(** The default parameters of the wave tank: the reservoir is narrower than the flume. *)
Lemma C138_tank_default_refuted_proof : exists mesh b,
  tank_mesh (157 / 100) (8.1 / 100) (600.78 / 100) (24 / 100) = Some mesh /\ In b mesh /\
  cells b 1 = 4294967288%Z /\ 0 < width b 1 < / 10000000000.
Proof.
  eexists _, {| lower := fun d => Rmin (point (- (157 / 100)) (- (8.1 / 100) / 2) d) (point 0 (- (24 / 100) / 2) d);
            upper := fun d => Rmax (point (- (157 / 100)) (- (8.1 / 100) / 2) d) (point 0 (- (24 / 100) / 2) d);
            cells := pair 157 4294967288 |}.
  unfold tank_mesh. cbv zeta.
  rewrite (subdivisions_is _ 157) by (lra || lia). rewrite (subdivisions_is _ (-8)) by (lra || lia).
  rewrite (subdivisions_is _ 24) by (lra || lia). rewrite (subdivisions_is _ 601) by (lra || lia).
  change (157 mod 4294967296)%Z with 157%Z. change (-8 mod 4294967296)%Z with 4294967288%Z.
  change (24 mod 4294967296)%Z with 24%Z. change (601 mod 4294967296)%Z with 601%Z.
  rewrite !subdivided_ok by (intros d Hd; assert (d = 0 \/ d = 1)%nat as [-> | ->] by lia; cbn [pair point]; split; (lia || lra)).
  cbn [merge]. split; [reflexivity|]. split; [left; reflexivity|]. split; [reflexivity|].
  unfold width. cbn [lower upper cells pair point]. rewrite Rmin_right, Rmax_left by lra. lra.
Qed.

Lemma tank_case : exists mesh, tank_mesh (157 / 100) (81 / 100) (601 / 100) (24 / 100) = Some mesh.
Proof.
  unfold tank_mesh. cbv zeta. eexists.
  rewrite (subdivisions_is _ 157) by (lra || lia).
  replace (subdivisions ((81 / 100 - 24 / 100) / 2 * 100)) with (Some 29%Z).
  2:{ unfold subdivisions. assert (E : c_round ((81 / 100 - 24 / 100) / 2 * 100) = 29%Z).
      { unfold c_round. destruct (Rle_dec 0 _) as [|H]; [|exfalso; apply H; lra].
        replace ((81 / 100 - 24 / 100) / 2 * 100 + / 2) with (IZR 29) by lra.
        unfold Int_part. replace (up (IZR 29)) with 30%Z; [reflexivity|]. apply tech_up; lra. }
      rewrite E. reflexivity. }
  rewrite (subdivisions_is _ 24) by (lra || lia). rewrite (subdivisions_is _ 601) by (lra || lia).
  rewrite !subdivided_ok by (intros d Hd; assert (d = 0 \/ d = 1)%nat as [-> | ->] by lia; cbn [pair point Z.modulo Z.div_eucl]; split; (cbv; reflexivity) || lra).
  reflexivity.
Qed.

(** The cylinder. *)
Lemma C138_cylinder_proof : forall length position diameter v w c,
  0 < diameter -> diameter + 4 / 1000000 <= 2 * position -> diameter + 2 / 1000000 <= 2 * (length - position) -> 
  (forall d, c d = (cylinder_vertex position diameter v d + cylinder_vertex position diameter w d) / 2) ->
  (v 0%nat = length - position -> w 0%nat = length - position -> cylinder_id length position c = do_nothing) /\
  (v 0%nat = - diameter -> w 0%nat = - diameter -> cylinder_id length position c = dirichlet) /\
  (2 / 1000000 < diameter -> v 0%nat * v 0%nat + v 1%nat * v 1%nat = (diameter / 2) * (diameter / 2) ->
   w 0%nat * w 0%nat + w 1%nat * w 1%nat = (diameter / 2) * (diameter / 2) -> cylinder_id length position c = slip) /\
  (2 / 1000000 < diameter -> v 0%nat = - diameter -> - diameter / 2 <= w 0%nat <= length - position -> cylinder_id length position c = slip) /\
  (- diameter + / 1000000 < v 0%nat -> - position + / 1000000 <= v 0%nat -> v 0%nat + 2 / 1000000 <= w 0%nat <= length - position -> cylinder_id length position c = slip).
Proof.
  intros L p D v w c HD Hp HL Hc. pose proof (Hc 0%nat) as C0. cbn [cylinder_vertex] in C0. clear Hc.
  assert (Sl : - p + / 1000000 <= c 0%nat <= L - p - / 1000000 -> cylinder_id L p c = slip).
  { intros H. unfold cylinder_id. rewrite !lt_false by lra. reflexivity. }
  repeat split.
  - intros Hv Hw. rewrite Hv, Hw in C0. destruct (Rle_dec (L - p) (- D + / 1000000)); [lra|].
    unfold cylinder_id. rewrite lt_true by lra. reflexivity.
  - intros Hv Hw. rewrite Hv, Hw in C0. destruct (Rle_dec (- D) (- D + / 1000000)); [|lra].
    unfold cylinder_id. rewrite lt_false, lt_true by lra. reflexivity.
  - intros Hd Hv Hw. assert (- (D / 2) <= v 0%nat <= D / 2) by nra. assert (- (D / 2) <= w 0%nat <= D / 2) by nra.
    destruct (Rle_dec (v 0%nat) (- D + / 1000000)); [lra|]. destruct (Rle_dec (w 0%nat) (- D + / 1000000)); [lra|]. apply Sl. lra.
  - intros Hd Hv Hw. rewrite Hv in C0. destruct (Rle_dec (- D) (- D + / 1000000)); [|lra].
    destruct (Rle_dec (w 0%nat) (- D + / 1000000)); [lra|]. apply Sl. lra.
  - intros Hv Hv2 Hw. destruct (Rle_dec (v 0%nat) (- D + / 1000000)); [lra|]. destruct (Rle_dec (w 0%nat) (- D + / 1000000)); [lra|]. apply Sl. lra.
Qed.

(** The rectangular domain: corners in the wrong order, and domains smaller than the tolerance. *)
Definition line_segment (a b : R) : rectangle :=
  {| point_left := fun _ => a; point_right := fun _ => b; subdivisions_x := 4; subdivisions_y := 1; subdivisions_z := 1;
     boundary_left := dirichlet; boundary_right := do_nothing; boundary_bottom := slip; boundary_top := slip;
     boundary_back := slip; boundary_front := slip |}.

Lemma C137_corners_refuted_proof : exists p b id ds c, create_rectangle 1 p = Some (b, id, ds) /\
  boundary_face 1 [b] c /\ c 0%nat = wall_of p 0 false /\ id c <> configured p 0 false.
Proof.
  exists (line_segment 1 0). eexists _, _, _.
  exists (fun _ => 1). split; [|split; [|split]].
  - unfold create_rectangle. rewrite subdivided_ok; [reflexivity|]. intros d Hd. assert (d = 0)%nat as -> by lia. cbn. split; [lia|lra].
  - exists 0%nat. eexists. exists {| owner := fun _ => 3%Z; direction := 0; is_upper := true |}. split; [reflexivity|].
    split; [|split; [|split]].
    + split; [cbn; lia|]. intros e He. assert (e = 0)%nat as -> by lia. cbn. lia.
    + reflexivity.
    + intros e He. assert (e = 0)%nat as -> by lia. unfold center, extent, node. cbn. rewrite Rmin_right, Rmax_left by lra. lra.
    + intros (j & b' & f' & Hj & Hb & _). destruct j as [|j]; [lia|destruct j; discriminate Hb].
  - reflexivity.
  - unfold rectangle_id. cbn. rewrite !lt_true by lra. discriminate.
Qed.

Definition film : rectangle :=
  {| point_left := fun _ => 0; point_right := point 1 (/ 100000000); subdivisions_x := 4; subdivisions_y := 1; subdivisions_z := 1;
     boundary_left := dirichlet; boundary_right := do_nothing; boundary_bottom := slip; boundary_top := slip;
     boundary_back := slip; boundary_front := slip |}.

Lemma C137_film_refuted_proof : exists p b id ds c, create_rectangle 2 p = Some (b, id, ds) /\
  (forall d, (d < 2)%nat -> point_left p d < point_right p d) /\
  boundary_face 2 [b] c /\ c 0%nat = wall_of p 0 false /\ id c <> configured p 0 false.
Proof.
  exists film. eexists _, _, _. exists (point 0 (/ 200000000)). split; [|split; [|split; [|split]]].
  - unfold create_rectangle. rewrite subdivided_ok; [reflexivity|].
    intros d Hd. assert (d = 0 \/ d = 1)%nat as [-> | ->] by lia; cbn; (split; [lia|lra]).
  - intros d Hd. assert (d = 0 \/ d = 1)%nat as [-> | ->] by lia; cbn; lra.
  - exists 0%nat. eexists. exists {| owner := fun _ => 0%Z; direction := 0; is_upper := false |}. split; [reflexivity|].
    split; [|split; [|split]].
    + split; [cbn; lia|]. intros e He. assert (e = 0 \/ e = 1)%nat as [-> | ->] by lia; cbn; lia.
    + reflexivity.
    + intros e He. assert (e = 0 \/ e = 1)%nat as [-> | ->] by lia; unfold center, extent, node; cbn; rewrite Rmin_left, ?Rmax_right by lra; lra.
    + intros (j & b' & f' & Hj & Hb & _). destruct j as [|j]; [lia|destruct j; discriminate Hb].
  - reflexivity.
  - unfold rectangle_id. cbn. rewrite (lt_true (/ 200000000)) by lra. rewrite lt_true by lra. discriminate.
Qed.

(** A channel with periodic top and bottom. *)
Definition duct : rectangle :=
  {| point_left := fun _ => 0; point_right := point 4 2; subdivisions_x := 8; subdivisions_y := 4; subdivisions_z := 1;
     boundary_left := dirichlet; boundary_right := dynamic; boundary_bottom := periodic; boundary_top := periodic;
     boundary_back := slip; boundary_front := slip |}.

Lemma duct_case : exists b id, create_rectangle 2 duct = Some (b, id, [1%nat]) /\
  (forall d, (d < 2)%nat -> point_left duct d < point_right duct d) /\
  (forall d, (d < 2)%nat -> 2 / 100000000 <= (point_right duct d - point_left duct d) / IZR (requested duct d)) /\
  boundary_face 2 [b] (point 0 (1 / 4)) /\ id (point 0 (1 / 4)) = dirichlet.
Proof.
  eexists _, _. split; [|split; [|split; [|split]]].
  - unfold create_rectangle. rewrite subdivided_ok; [reflexivity|].
    intros d Hd. assert (d = 0 \/ d = 1)%nat as [-> | ->] by lia; cbn; (split; [lia|lra]).
  - intros d Hd. assert (d = 0 \/ d = 1)%nat as [-> | ->] by lia; cbn; lra.
  - intros d Hd. assert (d = 0 \/ d = 1)%nat as [-> | ->] by lia; cbn; lra.
  - exists 0%nat. eexists. exists {| owner := fun _ => 0%Z; direction := 0; is_upper := false |}. split; [reflexivity|].
    split; [|split; [|split]].
    + split; [cbn; lia|]. intros e He. assert (e = 0 \/ e = 1)%nat as [-> | ->] by lia; cbn; lia.
    + reflexivity.
    + intros e He. assert (e = 0 \/ e = 1)%nat as [-> | ->] by lia; unfold center, extent, node; cbn; rewrite Rmin_left, ?Rmax_right by lra; lra.
    + intros (j & b' & f' & Hj & Hb & _). destruct j as [|j]; [lia|destruct j; discriminate Hb].
  - unfold rectangle_id. cbn. rewrite (lt_true 0), (lt_false (4 - _)), (lt_false (1 / 4)), lt_false by lra. reflexivity.
Qed.

(** The default wall: its mesh, and a face on the wall. *)
Lemma wall_case : 0 < 1 / 6 /\ 1 / 6 + 36 / 1000000 <= 16 / 5 /\ 12 / 1000000 <= (1 : R) /\
  exists mesh b, wall_mesh (16 / 5) 1 (1 / 6) = Some mesh /\ In b mesh /\ lower b 0%nat = 1 / 6 /\ upper b 0%nat = 16 / 5 /\ lower b 1%nat = 0.
Proof.
  split; [lra|]. split; [lra|]. split; [lra|].
  destruct (wall_mesh_eq (16 / 5) 1 (1 / 6)) as (b1 & b2 & E & B1 & B2); [lra|lra|lra|].
  destruct B1 as ((L10 & U10 & N10) & (L11 & U11 & N11)).
  exists [b1; b2], b1. split; [exact E|]. split; [left; reflexivity|]. auto.
Qed.

(** The default step. *)
Lemma step_case : 0 < 3 / 5 < 3 /\ 0 < 1 / 5 < 1 /\ 3 / 5 = 3 / 5 /\ 30 / 1000000 < 3 /\
  exists mesh b, step_mesh 3 1 (3 / 5) (1 / 5) = Some mesh /\ In b mesh /\ lower b 1%nat = 1 / 5 /\ upper b 1%nat = 1.
Proof.
  split; [lra|]. split; [lra|]. split; [lra|]. split; [lra|].
  destruct (step_mesh_eq 3 1 (3 / 5) (1 / 5)) as (b1 & b2 & E & B1 & B2); [lra|lra|].
  destruct B1 as ((L10 & U10 & N10) & (L11 & U11 & N11)). destruct B2 as ((L20 & U20 & N20) & (L21 & U21 & N21)).
  exists [b1; b2], b1. split; [exact E|]. split; [left; reflexivity|]. auto.
Qed.

(** The default cylinder: the middle of an edge of the cylinder is a slip face, of one on the inflow side a Dirichlet face. *)
Lemma cylinder_case : 0 < 1 / 2 /\ 1 / 2 + 4 / 1000000 <= 2 * (3 / 5) /\ 1 / 2 + 2 / 1000000 <= 2 * (4 - 3 / 5) /\
  cylinder_id 4 (3 / 5) (fun d => (cylinder_vertex (3 / 5) (1 / 2) (point (1 / 4) 0) d + cylinder_vertex (3 / 5) (1 / 2) (point 0 (1 / 4)) d) / 2) = slip /\
  cylinder_id 4 (3 / 5) (fun d => (cylinder_vertex (3 / 5) (1 / 2) (point (- (1 / 2)) 0) d + cylinder_vertex (3 / 5) (1 / 2) (point (- (1 / 2)) (1 / 2)) d) / 2) = dirichlet.
Proof.
  split; [lra|]. split; [lra|]. split; [lra|]. split.
  - destruct (C138_cylinder_proof 4 (3 / 5) (1 / 2) (point (1 / 4) 0) (point 0 (1 / 4)) _ ltac:(lra) ltac:(lra) ltac:(lra) (fun d => eq_refl)) as (_ & _ & H & _).
    apply H; cbn [point]; lra.
  - destruct (C138_cylinder_proof 4 (3 / 5) (1 / 2) (point (- (1 / 2)) 0) (point (- (1 / 2)) (1 / 2)) _ ltac:(lra) ltac:(lra) ltac:(lra) (fun d => eq_refl)) as (_ & H & _).
    apply H; cbn [point]; lra.
Qed.
