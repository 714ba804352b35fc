(** * Property theorems: piecewise and given initial states (C143 - C147) *)
From Coq Require Import Reals Arith List Bool String.
From Verif Require Import RVec EulerSystem AeosSystem Eos EulerInitialStates InitialPlacement InitialPlacementProofs SWSystem SWLimiter PhysSpec SWScheme SWSchemeSpec
  SchemeSpec SchemeExamples SWSchemeExamples TimeInt TimeIntSpec EulerRun EulerRunSpec EulerRunExamples SWRun SWRunSpec SWRunProofs SWRunExamples
  BalanceSpec InitialRegions InitialRegionsSpec InitialRegionsProofs InitialRegionsWater InitialRegionsSoliton InitialRegionsExamples.
From Verif Require Import Scheme RVec.
Import ListNotations.
Local Open Scope R_scope.

(** ** Piecewise initial states of gases (C143) *)

(** The uniform state has the density, velocity and pressure of the parameters, for both gas dynamics
    equations. *)
Theorem C143_uniform : forall w dim prim point t,
  attainable w (prim 0%nat) (prim 2%nat) ->
  row_is (law w) dim prim (gas_uniform (view_from w dim) prim point t).
Proof. exact C143_uniform_proof. Qed.
Print Assumptions C143_uniform.

(** The contrast has the left state up to the interface and the right state behind it. *)
Theorem C143_contrast : forall w dim left right point t,
  attainable w (left 0%nat) (left 2%nat) -> attainable w (right 0%nat) (right 2%nat) ->
  let U := gas_contrast (view_from w dim) left right point t in
  (point 0%nat <= 0 -> row_is (law w) dim left U) /\ (0 < point 0%nat -> row_is (law w) dim right U).
Proof. exact C143_contrast_proof. Qed.
Print Assumptions C143_contrast.

(** The three states lie in consecutive strips of the given widths. *)
Theorem C143_three : forall w dim left middle right l m point t,
  0 <= m ->
  attainable w (left 0%nat) (left 2%nat) -> attainable w (middle 0%nat) (middle 2%nat) -> attainable w (right 0%nat) (right 2%nat) ->
  let U := gas_three_state (view_from w dim) left middle right l m point t in
  (point 0%nat < l -> row_is (law w) dim left U) /\ (l <= point 0%nat < l + m -> row_is (law w) dim middle U) /\
  (l + m <= point 0%nat -> row_is (law w) dim right U).
Proof. exact C143_three_proof. Qed.
Print Assumptions C143_three.

(** The radial contrast has the inner state in the closed ball and the outer state outside of it. *)
Theorem C143_radial : forall w dim inner outer r point t,
  0 <= r ->
  attainable w (inner 0%nat) (inner 2%nat) -> attainable w (outer 0%nat) (outer 2%nat) ->
  let U := gas_radial dim (view_from w dim) inner outer r point t in
  (norm2 dim point <= r * r -> row_is (law w) dim inner U) /\ (r * r < norm2 dim point -> row_is (law w) dim outer U).
Proof. exact C143_radial_proof. Qed.
Print Assumptions C143_radial.

(** The four states lie in the four quadrants, in the order of their names. *)
Theorem C143_four : forall w dim bl br tl tr point t,
  (2 <= dim)%nat ->
  attainable w (bl 0%nat) (bl 3%nat) -> attainable w (br 0%nat) (br 3%nat) ->
  attainable w (tl 0%nat) (tl 3%nat) -> attainable w (tr 0%nat) (tr 3%nat) ->
  exists U, gas_four_state dim (view_from w dim) bl br tl tr point t = Some U /\
  (point 0%nat < 0 -> point 1%nat < 0 -> plane_is (law w) dim bl U) /\
  (0 <= point 0%nat -> point 1%nat < 0 -> plane_is (law w) dim br U) /\
  (point 0%nat < 0 -> 0 <= point 1%nat -> plane_is (law w) dim tl U) /\
  (0 <= point 0%nat -> 0 <= point 1%nat -> plane_is (law w) dim tr U).
Proof. exact C143_four_proof. Qed.
Print Assumptions C143_four.

(** The jet enters through the strip of the given width on the left; elsewhere there is the ambient state. *)
Theorem C143_jet : forall w dim jet ambient width point t,
  (2 <= dim)%nat ->
  attainable w (jet 0%nat) (jet 2%nat) -> attainable w (ambient 0%nat) (ambient 2%nat) ->
  exists U, gas_jet dim (view_from w dim) jet ambient width point t = Some U /\
  (point 0%nat <= 0 -> - width <= point 1%nat <= width -> row_is (law w) dim jet U) /\
  (1 / 10 ^ 12 <= point 0%nat \/ point 1%nat < - width \/ width < point 1%nat -> row_is (law w) dim ambient U).
Proof. exact C143_jet_proof. Qed.
Print Assumptions C143_jet.

(** Default parameters of the jet, and the middle of the three states. *)
Example C143_ex :
  (exists U, gas_jet 2 (view_from helium 2) (tensor [5; 30; 4127 / 10000]) (tensor [5; 0; 4127 / 10000]) (5 / 100) (fun _ => 0) 0 = Some U /\
     row_is (law helium) 2 (tensor [5; 30; 4127 / 10000]) U) /\
  row_is (law air) 3 (tensor [1; 0; 1 / 100])
    (gas_three_state (view_from air 3) (tensor [1; 0; 1000]) (tensor [1; 0; 1 / 100]) (tensor [1; 0; 100]) (1 / 10) (8 / 10) (fun _ => 1 / 2) 1).
Proof. exact C143_case. Qed.

(** The contrast with position and direction: the interface is the plane through the position normal to
    the direction, and the velocities of the parameters point in the direction - if the rotation takes the
    first axis there, as it always does in two dimensions (C54_aligned_2d). *)
Theorem C143_placed : forall s configurations dim direction position f left right,
  (1 <= dim <= 3)%nat -> gamma s <> 1 ->
  left 0%nat <> 0 -> right 0%nat <> 0 ->
  (forall c, In ("contrast"%string, c) configurations -> c = gas_contrast (view_from (euler_view s) dim) left right) ->
  initial_state configurations apply_galilei_transform dim "contrast" direction position = Some f ->
  exists n, (exists c, 0 < c /\ forall k, n k = c * direction k) /\ norm2 dim n = 1 /\
  (veq dim (affine_transform_vector dim n e1) n -> forall x t,
     let U := f x t in
     (dot dim (vsub x position) direction <= 0 ->
        gas_is (ideal (gamma s)) dim (left 0%nat) (fun i => left 1%nat * n i) (left 2%nat) U) /\
     (0 < dot dim (vsub x position) direction ->
        gas_is (ideal (gamma s)) dim (right 0%nat) (fun i => right 1%nat * n i) (right 2%nat) U)).
Proof. exact C143_placed_proof. Qed.
Print Assumptions C143_placed.

(** An interface across the y-axis at y = 1. *)
Example C143_placed_ex :
  exists f,
  initial_state two_sides apply_galilei_transform 2 "contrast" (fun k => if Nat.eqb k 0 then 0 else 2) (fun _ => 1) = Some f /\
  gas_is (law helium) 2 1 (fun i => if Nat.eqb i 0 then 0 else 1) 1 (f (fun k => if Nat.eqb k 0 then 5 else 1 / 2) 0) /\
  gas_is (law helium) 2 2 (fun _ => 0) 1 (f (fun k => if Nat.eqb k 0 then 5 else 3 / 2) 0).
Proof. exact C143_placed_case. Qed.

(** ** The initial state given by expressions (C144) *)

(** With the ideal gas the state has the density, velocity and pressure of the expressions. *)
Theorem C144_euler : forall s dim rho v p point t,
  gamma s <> 1 -> rho point t <> 0 ->
  gas_is (law (euler_view s)) dim (rho point t) (fun i => v i point t) (p point t)
    (gas_function dim (view_from_primitive (euler_view s) dim) rho v p point t).
Proof. exact C144_euler_proof. Qed.
Print Assumptions C144_euler.

(** Expressions depending on position and time. *)
Example C144_ex :
  gas_is (law helium) 1 (1 + 1 / 4) (fun _ => 3) (1 / 2)
    (gas_function 1 (view_from_primitive helium 1) (fun x t => 1 + x 0%nat * t) (fun _ _ _ => 3) (fun x _ => x 0%nat) (fun _ => 1 / 2) (1 / 2)).
Proof. exact C144_case. Qed.

(** With arbitrary equations of state the expression for the pressure is taken for the specific internal energy. *)
Theorem C144_aeos : forall e dim rho v p point t,
  rho point t <> 0 ->
  let U := gas_function dim (view_from_primitive (aeos_view e) dim) rho v p point t in
  gas_is (law (aeos_view e)) dim (rho point t) (fun i => v i point t) (eos_pressure e (rho point t) (p point t)) U /\
  gas_energy dim U = p point t.
Proof. exact C144_aeos_proof. Qed.
Print Assumptions C144_aeos.

(** So the default expressions for a polytropic gas give the pressure 0.56 in place of 1. *)
Theorem C144_aeos_refuted :
  let U := gas_function 2 (view_from_primitive air 2) (fun _ _ => 14 / 10) (fun i _ _ => if Nat.eqb i 0 then 3 else 0) (fun _ _ => 1) (fun _ => 0) 0 in
  gas_is (law air) 2 (14 / 10) (fun i => if Nat.eqb i 0 then 3 else 0) (56 / 100) U /\
  ~ gas_is (law air) 2 (14 / 10) (fun i => if Nat.eqb i 0 then 3 else 0) 1 U.
Proof. exact C144_aeos_refuted_proof. Qed.
Print Assumptions C144_aeos_refuted.

(** ** Initial states of shallow water (C145) *)

(** Contrast and uniform state have the depth and velocity of the parameters. *)
Theorem C145_regions : forall dim left right point t,
  let U := water_contrast dim left right point t in
  (point 0%nat <= 0 -> water_is dim (left 0%nat) (fun i => if Nat.eqb i 0 then left 1%nat else 0) U) /\
  (0 < point 0%nat -> water_is dim (right 0%nat) (fun i => if Nat.eqb i 0 then right 1%nat else 0) U) /\
  water_is dim (left 0%nat) (fun i => if Nat.eqb i 0 then left 1%nat else 0) (water_uniform dim left point t).
Proof. exact C145_regions_proof. Qed.
Print Assumptions C145_regions.

(** The state given by expressions has their depth and velocity. *)
Theorem C145_function : forall dim h v point t,
  (dim <= 2)%nat ->
  water_is dim (h point t) (fun i => v i point t) (water_function dim h v point t).
Proof. exact C145_function_proof. Qed.
Print Assumptions C145_function.

(** The three bumps dam break starts at rest, with the left level up to x = 16 and the right level behind;
    with well-balanced validation so it stays. *)
Theorem C145_rest : forall s dim wb left right cone point t,
  t <= 1 / 10 ^ 10 \/ wb = true ->
  let U := three_bumps s dim wb left right cone point t in
  let z := three_bumps_bathymetry dim cone point in
  (point 0%nat < 16 -> still_water dim left z U) /\ (16 <= point 0%nat -> still_water dim right z U).
Proof. exact C145_rest_proof. Qed.
Print Assumptions C145_rest.

(** Otherwise, later on, the prescribed state is that of critical flow of the left depth. *)
Theorem C145_inflow : forall s dim left right cone point t,
  1 / 10 ^ 10 < t -> 0 < gravity s -> 0 < left ->
  let U := three_bumps s dim false left right cone point t in
  exists v, 0 < v /\ v * v = gravity s * left /\ water_is dim left (fun i => if Nat.eqb i 0 then v else 0) U.
Proof. exact C145_inflow_proof. Qed.
Print Assumptions C145_inflow.

(** The three bumps are where they should be: above the bottom exactly in three open discs, all to the
    right of the dam. *)
Theorem C145_islands : forall dim cone point,
  (2 <= dim)%nat -> 0 < cone ->
  let x := point 0%nat in let y := point 1%nat in
  let z := three_bumps_bathymetry dim cone point in
  0 <= z <= 3 * cone /\
  (0 < z <-> in_disc 30 6 8 x y \/ in_disc 30 24 8 x y \/ in_disc (95 / 2) 15 10 x y) /\
  (x < 22 -> z = 0).
Proof. exact C145_islands_proof. Qed.
Print Assumptions C145_islands.

(** In one dimension there is one ridge of 20 meters width. *)
Theorem C145_ridge : forall cone point,
  0 < cone ->
  let x := point 0%nat in
  let z := three_bumps_bathymetry 1 cone point in
  0 <= z <= 3 * cone /\ (0 < z <-> 75 / 2 < x < 115 / 2) /\ (x = 95 / 2 -> z = 3 * cone).
Proof. exact C145_ridge_proof. Qed.
Print Assumptions C145_ridge.

(** With equal depths the dam break is a lake at rest in the sense of C132, *)
Theorem C145_lake : forall p dim M num_min level cone (pos : nat -> RVec.vec) entries order,
  (1 <= dim)%nat ->
  let Z := fun i => three_bumps_bathymetry dim cone (pos i) in
  let data := fun x t => three_bumps (wp_system p) dim true level level cone x t in
  lake_setting p dim Z M num_min level [] data order -> 0 < gravity (wp_system p) ->
  Forall (fun e => be_position e = pos (be_row e)) entries ->
  lake_setting p dim Z M num_min level entries data order /\
  ((forall i, (i < n_rows M)%nat -> wet_or_dry (wp_system p) (wp_eps p) (Rmax 0 (level - Z i))) ->
   forall U, (forall i k, (i < n_rows M)%nat -> U i k = data (pos i) 0 k) ->
   lake_at_rest (wp_system p) (wp_eps p) dim M Z level U).
Proof. exact C145_lake_proof. Qed.
Print Assumptions C145_lake.

(** so every run, with any entries of the boundary map at the positions of the rows, keeps it exactly. *)
Theorem C145_run : forall p dim M num_min level cone (pos : nat -> RVec.vec) entries order n tmp sch rec cfl_min cfl_max t_final s,
  (1 <= dim)%nat ->
  let Z := fun i => three_bumps_bathymetry dim cone (pos i) in
  let data := fun x t => three_bumps (wp_system p) dim true level level cone x t in
  lake_setting p dim Z M num_min level [] data order -> 0 < gravity (wp_system p) ->
  Forall (fun e => be_position e = pos (be_row e)) entries ->
  (forall i, (i < n_rows M)%nat -> wet_or_dry (wp_system p) (wp_eps p) (data (pos i) 0 0%nat)) ->
  explicit_scheme sch = true -> 0 < cfl_max <= 1 -> (rec = bang_bang_control \/ st_cfl _ s = cfl_max) -> 0 <= t_final ->
  (forall i k, (i < n_rows M)%nat -> fst (st_vector _ s) i k = data (pos i) 0 k) ->
  exists s',
    steps (fun t => sw_step p dim Z M num_min entries data order n tmp sch rec cfl_min cfl_max t t_final) (fun _ _ => True) 0 s t_final s' /\
    counters_eq s s' /\ forall i k, (i < n_rows M)%nat -> (k <= dim)%nat -> fst (st_vector _ s') i k = data (pos i) 0 k.
Proof. exact C145_run_proof. Qed.
Print Assumptions C145_run.

(** Two pools beside a dry island. *)
Example C145_run_ex : forall n sch cfl_min t_final (s : mstate sw_vector),
  explicit_scheme sch = true -> 0 <= t_final ->
  let data := fun x t => three_bumps (wp_system pondp) 1 true 1 1 1 x t in
  (forall i k, (i < 3)%nat -> fst (st_vector _ s) i k = data (isle i) 0 k) ->
  exists s',
    steps (fun t => sw_step pondp 1 (fun i => three_bumps_bathymetry 1 1 (isle i)) ring3 (1 / 10000) isle_boundary data [2; 0; 1]%nat n no_contents
      sch bang_bang_control cfl_min (9 / 10) t t_final) (fun _ _ => True) 0 s t_final s' /\
    counters_eq s s' /\ fst (st_vector _ s') 0%nat 0%nat = 1 /\ fst (st_vector _ s') 1%nat 0%nat = 0.
Proof. exact C145_run_case. Qed.

(** Hou's test starts with still water left of x = -100 and dry behind. *)
Theorem C145_hou : forall dim depth point t,
  (2 <= dim)%nat ->
  exists z U, hou_bathymetry dim point = Some z /\ hou_test dim depth point t = Some U /\ 0 <= z /\
    (point 0%nat < -100 -> still_water dim depth z U) /\
    (-100 <= point 0%nat -> U 0%nat = 0 /\ forall i, (i < dim)%nat -> U (S i) = 0).
Proof. exact C145_hou_proof. Qed.
Print Assumptions C145_hou.

(** Its landscape, given by the parts below each level: three elliptic valleys, a parabolic mountain, a cylinder of
    height 10 and a block of height 20. *)
Theorem C145_hou_ground : forall dim point c,
  (2 <= dim)%nat -> 0 <= c ->
  let x := point 0%nat in let y := point 1%nat in
  exists z, hou_bathymetry dim point = Some z /\
  (z <= c <->
    (in_ellipse (-250) 0 40 20 c x y \/ in_ellipse 0 50 15 15 c x y \/ in_ellipse 250 0 35 15 (c + 10) x y) /\
    (x + 250) * (x + 250) + y * y >= 50 * (80 - c) /\
    (c < 10 -> (x - 200) * (x - 200) + (y + 10) * (y + 10) > 1000) /\
    (c < 20 -> ~ (340 <= x <= 420 /\ 10 <= y <= 90))).
Proof. exact C145_hou_ground_proof. Qed.
Print Assumptions C145_hou_ground.

(** A point on the flank of the first mountain. *)
Example C145_hou_ex :
  exists z U, hou_bathymetry 2 (fun k => if Nat.eqb k 0 then -200 else 0) = Some z /\
  hou_test 2 35 (fun k => if Nat.eqb k 0 then -200 else 0) 0 = Some U /\ z = 30 /\ U 0%nat = 5.
Proof. exact C145_hou_case. Qed.

(** The tank experiments have the left and the right state beside the gate, *)
Theorem C145_tank_state : forall dim left right point t,
  (2 <= dim)%nat ->
  exists U, transient dim left right point t = Some U /\
    (point 0%nat <= 0 -> U 0%nat = left 0%nat /\ U 1%nat = left 1%nat) /\
    (1 / 10 ^ 8 < point 0%nat -> U 0%nat = right 0%nat /\ U 1%nat = right 1%nat) /\
    forall k, (2 <= k <= dim)%nat -> U k = 0.
Proof. exact C145_tank_state_proof. Qed.
Print Assumptions C145_tank_state.

(** and the documented slope and obstacles. *)
Theorem C145_tank : forall dim point,
  (2 <= dim)%nat ->
  let x := point 0%nat in let y := point 1%nat in
  (forall c, transient_accepts c = true <-> In c ["G1"; "G2"; "G3"; "none"]%string) /\
  transient_bathymetry dim "none" point = Some (tank_slope x) /\
  (exists o, transient_bathymetry dim "G1" point = Some (tank_slope x + o) /\
     (in_rectangle (21315 / 10000) (163 / 2000) (4 / 100) x y -> o = 7 / 100) /\
     (~ in_rectangle (21315 / 10000) (163 / 2000) (4 / 100) x y -> o = 0)) /\
  (exists o, transient_bathymetry dim "G2" point = Some (tank_slope x + o) /\
     (in_rectangle (24315 / 10000) (163 / 2000) (4 / 100) x y -> o = 7 / 100) /\
     (Rabs (x - 2) <= 155 / 1000 -> ellipse_height 2 x o) /\
     (~ in_rectangle (24315 / 10000) (163 / 2000) (4 / 100) x y -> 155 / 1000 <= Rabs (x - 2) -> o = 0)) /\
  (exists o, transient_bathymetry dim "G3" point = Some (tank_slope x + o) /\
     (in_rectangle (24315 / 10000) (163 / 2000) (4 / 100) x y -> o = 7 / 100) /\
     (Rabs (x - 2095 / 1000) <= 155 / 1000 -> exists e, ellipse_height (2095 / 1000) x e /\
        (12 / 100 - e < Rabs y -> o = 21 / 100) /\ (Rabs y <= 12 / 100 - e -> o = 0)) /\
     (~ in_rectangle (24315 / 10000) (163 / 2000) (4 / 100) x y -> 155 / 1000 < Rabs (x - 2095 / 1000) -> o = 0)).
Proof. exact C145_tank_proof. Qed.
Print Assumptions C145_tank.

(** ** Soliton (C146) *)

(** The soliton is a travelling wave above the resting depth that satisfies the mass equation. *)
Theorem C146_wave : forall g d A dim t x,
  0 < g -> 0 < d -> 0 < A -> (1 <= dim)%nat ->
  let W := fun t x => soliton g d A x t in
  exists speed, 0 < speed /\ speed * speed = g * (A + d) /\
  d < W t x 0%nat <= d + A /\ W t x 1%nat = speed * (W t x 0%nat - d) /\ (forall k, (2 <= k)%nat -> W t x k = 0) /\
  (x 0%nat = speed * t -> W t x 0%nat = d + A) /\
  (forall s y, y 0%nat - speed * s = x 0%nat - speed * t -> forall k, W s y k = W t x k) /\
  balance_at dim 1 (water_flux g dim) no_source W t x.
Proof. exact C146_wave_proof. Qed.
Print Assumptions C146_wave.

(** The default amplitude. *)
Example C146_ex :
  0 < 981 / 100 /\ 0 < 1 /\ 0 < 1 / 10 /\
  exists t x, 1 < soliton (981 / 100) 1 (1 / 10) x t 0%nat < 1 + 1 / 10.
Proof. exact C146_case. Qed.

(** It does not solve the shallow water equations: at all times the momentum equation fails somewhere. *)
Theorem C146_solution_refuted : forall g d A dim t,
  0 < g -> 0 < d -> 0 < A -> (1 <= dim)%nat ->
  exists x, ~ solves_shallow_water g dim (fun _ => 0) no_friction (fun t x => soliton g d A x t) t x.
Proof. exact C146_solution_refuted_proof. Qed.
Print Assumptions C146_solution_refuted.

(** ** One dimension (C147) *)

(** In two and three dimensions all of them have a value everywhere. *)
Theorem C147_plane : forall dim from a b c d width depth case point t,
  (2 <= dim)%nat -> transient_accepts case = true ->
  gas_four_state dim from a b c d point t <> None /\ gas_jet dim from a b width point t <> None /\
  hou_test dim depth point t <> None /\ hou_bathymetry dim point <> None /\
  transient dim a b point t <> None /\ transient_bathymetry dim case point <> None.
Proof. exact C147_plane_proof. Qed.
Print Assumptions C147_plane.

(** In one dimension the jet has no value at and left of the origin (a coordinate that does not exist is read),
    and the four states none at all. *)
Theorem C147_gas_refuted : forall from jet ambient width point t,
  (point 0%nat <= 0 -> gas_jet 1 from jet ambient width point t = None) /\
  (forall bl br tl tr, gas_four_state 1 from bl br tl tr point t = None).
Proof. exact C143_line_refuted_proof. Qed.
Print Assumptions C147_gas_refuted.

(** In one dimension neither has a state, and the bottom reads a coordinate that does not exist. *)
Theorem C147_water_refuted : forall point t,
  (forall depth, hou_test 1 depth point t = None) /\ hou_bathymetry 1 point = None /\
  (forall left right, transient 1 left right point t = None) /\ (forall c, transient_bathymetry 1 c point = None).
Proof. exact C145_line_proof. Qed.
Print Assumptions C147_water_refuted.
