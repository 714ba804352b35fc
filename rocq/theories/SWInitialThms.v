(** * Property theorems: initial states of the shallow water equations *)
From Coq Require Import Reals Arith Lia Lra List.
From Verif Require Import RVec EulerSystem EulerInitialStates BalanceSpec SWInitialStates SWInitialSpec
  SWInitialProofs SWInitialParaboloid SWInitialVortex SWInitialFlow.
Import ListNotations.
Local Open Scope R_scope.

(** C97: Ritter's dam break is the solution of the dam break problem: depth in [0, h_l],
    continuous, exact away from the two ends of the fan, with the dam at the origin at the
    time - t_initial. *)
Theorem C97_ritter : forall g t_initial left_depth dim,
  0 < g -> 0 < left_depth -> (1 <= dim)%nat ->
  let W := fun t x => ritter_dam_break g t_initial left_depth x t in
  (forall t x, 0 < t + t_initial ->
     let T := t + t_initial in
     let a := sqrt (g * left_depth) in
     (x 0%nat <> - (a * T) -> x 0%nat <> 2 * a * T ->
        solves_shallow_water g dim (fun _ => 0) no_friction W t x) /\
     no_jump (dim + 1) W e0 t x /\
     0 <= W t x 0%nat <= left_depth /\
     (0 < W t x 0%nat <-> x 0%nat < 2 * a * T)) /\
  (forall x, x 0%nat < 0 -> exists d, 0 < d /\ forall t, 0 < t + t_initial < d ->
     veq (dim + 1) (W t x) (fun k => if Nat.eqb k 0 then left_depth else 0)) /\
  (forall x, 0 < x 0%nat -> exists d, 0 < d /\ forall t, 0 < t + t_initial < d ->
     veq (dim + 1) (W t x) (fun _ => 0)).
Proof. exact C97_ritter_proof. Qed.
Print Assumptions C97_ritter.

Example C97_case : 0 < 981 / 100 /\ 0 < 5 / 1000 /\ (1 <= 1)%nat /\ 0 < 1 + 1 / 10 /\
  exists x : vec, - (sqrt (1 * 1) * (1 + 1)) < x 0%nat < 2 * sqrt (1 * 1) * (1 + 1) /\ x 0%nat <> 0.
Proof.
  repeat split; try lra; try lia. exists (fun _ => 1). rewrite Rmult_1_r, sqrt_1. lra.
Qed.

(** C98: the paraboloid in two dimensions is exact where the basin is wet and inside the dry
    part, and it is continuous across the shore line. *)
Theorem C98_paraboloid_2d : forall g radius height eta,
  0 < g -> 0 < radius -> 0 < height ->
  let W := fun t x => paraboloid_2d g radius height eta x t in
  let z := paraboloid_bathymetry 2 radius height 0 in
  forall t x,
    (0 < W t x 0%nat -> solves_shallow_water g 2 z no_friction W t x) /\
    ((exists d, 0 < d /\ (forall s, Rabs (s - t) < d -> W s x 0%nat = 0) /\
        forall j s, (j < 2)%nat -> Rabs s < d -> W t (along x j s) 0%nat = 0) ->
     solves_shallow_water g 2 z no_friction W t x) /\
    0 <= W t x 0%nat /\ (forall n, no_jump 3 W n t x).
Proof. exact C98_paraboloid_2d_proof. Qed.
Print Assumptions C98_paraboloid_2d.

Example C98_2d_case : 0 < paraboloid_2d (981 / 100) 1 (1 / 10) (1 / 2) (fun _ => 0) 0 0%nat.
Proof.
  unfold paraboloid_2d, paraboloid_bathymetry, tensor, norm2, dot. cbn [nth Nat.eqb rsum].
  eapply Rlt_le_trans; [|apply Rmax_l]. rewrite !Rmult_0_r. lra.
Qed.

(** C98: in one dimension the same holds for a friction that is linear in the discharge. *)
Theorem C98_paraboloid_1d : forall g k radius height len speed,
  0 < g -> 0 < radius -> 0 < height ->
  k * k * (radius * radius) <= 8 * g * height ->
  let W := fun t x => paraboloid_1d g k radius height len speed x t in
  let z := paraboloid_bathymetry 1 radius height len in
  forall t x,
    (0 < W t x 0%nat -> solves_shallow_water g 1 z (linear_friction k) W t x) /\
    ((exists d, 0 < d /\ (forall s, Rabs (s - t) < d -> W s x 0%nat = 0) /\
        forall s, Rabs s < d -> W t (along x 0 s) 0%nat = 0) ->
     solves_shallow_water g 1 z (linear_friction k) W t x) /\
    0 <= W t x 0%nat /\ no_jump 2 W e0 t x.
Proof. exact C98_paraboloid_1d_proof. Qed.
Print Assumptions C98_paraboloid_1d.

Example C98_1d_case : 0 < 981 / 100 /\ 0 < 3000 /\ 0 < 10 /\ 2 / 100000 * (2 / 100000) * (3000 * 3000) <= 8 * (981 / 100) * 10.
Proof. lra. Qed.

(** C98: with the friction law of the equation, Manning's, and its coefficient, the states
    are exact only at exceptional points, *)
Theorem C98_manning_iff : forall g k radius height len speed,
  0 < g -> 0 < radius -> 0 < height -> 0 <= k ->
  k * k * (radius * radius) <= 8 * g * height ->
  let W := fun t x => paraboloid_1d g k radius height len speed x t in
  let z := paraboloid_bathymetry 1 radius height len in
  forall t x, 0 < W t x 0%nat ->
    (solves_shallow_water g 1 z (manning_force g k 1) W t x <->
     k = 0 \/ W t x 1%nat = 0 \/ g * k * (Rabs (W t x 1%nat) / W t x 0%nat) = powr (W t x 0%nat) (4 / 3)).
Proof. exact C98_manning_iff_proof. Qed.
Print Assumptions C98_manning_iff.

(** so that the paraboloid with friction is not a solution of the equations in use. *)
Theorem C98_manning_refuted : exists g n radius height len speed t x,
  0 < g /\ 0 < n /\ 0 < radius /\ 0 < height /\ n * n * (radius * radius) < 8 * g * height /\
  let W := fun t x => paraboloid_1d g n radius height len speed x t in
  0 < W t x 0%nat /\
  ~ solves_shallow_water g 1 (paraboloid_bathymetry 1 radius height len) (manning_force g n 1) W t x.
Proof. exact C98_manning_refuted_proof. Qed.
Print Assumptions C98_manning_refuted.

(** C99: the smooth vortex is exact without bathymetry for every Mach number, and with
    bathymetry for the Mach number zero. *)
Theorem C99_vortex : forall g depth mach beta,
  0 < g ->
  let W := fun with_bathymetry mach t x => smooth_vortex g with_bathymetry depth mach beta x t in
  let z := fun with_bathymetry => vortex_bathymetry with_bathymetry depth beta in
  forall t x,
    (W false mach t x 0%nat <> 0 -> solves_shallow_water g 2 (z false) no_friction (W false mach) t x) /\
    (W true 0 t x 0%nat <> 0 -> solves_shallow_water g 2 (z true) no_friction (W true 0) t x) /\
    (forall y, z false y = 0).
Proof. exact C99_vortex_proof. Qed.
Print Assumptions C99_vortex.

Example C99_case : smooth_vortex (981 / 100) false 1 2 0 (fun _ => 0) 0 0%nat <> 0.
Proof.
  unfold smooth_vortex, vortex_factor, tensor. cbn [nth]. unfold Rdiv. rewrite !Rmult_0_l, !Rmult_0_r. lra.
Qed.

(** C99: with bathymetry and a nonzero Mach number it is exact only on a curve, *)
Theorem C99_bathymetry_iff : forall g depth mach beta,
  0 < g -> depth <> 0 -> beta <> 0 ->
  let W := fun t x => smooth_vortex g true depth mach beta x t in
  let f := fun t (x : vec) => beta / (2 * PI) * exp ((1 - (x 0%nat - mach * t) ^ 2 - x 1%nat ^ 2) / 2) in
  forall t x, W t x 0%nat <> 0 ->
    (solves_shallow_water g 2 (vortex_bathymetry true depth beta) no_friction W t x <->
     mach = 0 \/ x 0%nat = f t x * t * x 1%nat).
Proof. exact C99_bathymetry_iff_proof. Qed.
Print Assumptions C99_bathymetry_iff.

(** hence not with the default Mach number. *)
Theorem C99_bathymetry_refuted : exists g depth mach beta t x,
  let W := fun t x => smooth_vortex g true depth mach beta x t in
  0 < g /\ 0 < depth /\ 0 < mach /\ 0 < beta /\ 0 < W t x 0%nat /\
  ~ solves_shallow_water g 2 (vortex_bathymetry true depth beta) no_friction W t x.
Proof. exact C99_bathymetry_refuted_proof. Qed.
Print Assumptions C99_bathymetry_refuted.

(** C100: the uniform flow down a slope is a steady solution: the friction of Manning balances
    the slope. *)
Theorem C100_slope : forall g n slope q dim,
  0 < g -> 0 < n -> 0 < slope -> 0 < q -> (1 <= dim)%nat ->
  let W := fun t x => sloping_friction n slope q x t in
  forall t x, 0 < W t x 0%nat /\
    solves_shallow_water g dim (sloping_bathymetry slope) (manning_force g n dim) W t x /\
    W t x 0%nat * W t x 0%nat * powr (W t x 0%nat) (4 / 3) * slope = n * n * (q * q).
Proof. exact C100_slope_proof. Qed.
Print Assumptions C100_slope.

Example C100_case : 0 < 981 / 100 /\ 0 < 3 / 100 /\ 0 < 1 /\ 0 < 1 / 10 /\ (1 <= 2)%nat.
Proof. repeat split; lra || lia. Qed.

(** C101: the subsonic flow over the bump is a steady solution with constant discharge and head,
    subcritical everywhere, of depth 2 away from the bump. *)
Theorem C101_subsonic : forall g dim,
  8 <= g -> (1 <= dim)%nat ->
  let W := fun t x => flow_over_bump g true x t in
  let z := bump_bathymetry in
  let q := 442 / 100 in
  forall t x, 1 / 10 ^ 12 < t ->
    let h := W t x 0%nat in
    solves_shallow_water g dim z no_friction W t x /\
    W t x 1%nat = q /\ 0 < h /\
    h + z x + q * q / (2 * g * (h * h)) = 2 + q * q / (2 * g * (2 * 2)) /\
    q * q < g * h ^ 3 /\
    (x 0%nat <= 8 \/ 12 <= x 0%nat -> z x = 0 /\ h = 2).
Proof. exact C101_subsonic_proof. Qed.
Print Assumptions C101_subsonic.

Example C101_case : 8 <= 981 / 100 /\ (1 <= 2)%nat /\ 1 / 10 ^ 12 < 1.
Proof. split; [lra|]. split; [lia|]. lra. Qed.

(** C101: the transcritical flow is a steady solution upstream of the jump, critical exactly
    at the crest (see C101_crest), and beyond the bump. *)
Theorem C101_transcritical_partial : forall g dim,
  0 < g -> (1 <= dim)%nat ->
  let W := fun t x => flow_over_bump g false x t in
  let z := bump_bathymetry in
  let q := 18 / 100 in
  exists hc, 0 < hc /\ g * hc ^ 3 = q * q /\
  forall t x, 1 / 10 ^ 12 < t ->
    let h := W t x 0%nat in
    W t x 1%nat = q /\
    (x 0%nat < 10 \/ 10 < x 0%nat < 117 / 10 ->
       solves_shallow_water g dim z no_friction W t x /\ 0 < h /\
       h + z x + q * q / (2 * g * (h * h)) = hc + 2 / 10 + q * q / (2 * g * (hc * hc)) /\
       (x 0%nat < 10 -> q * q < g * h ^ 3) /\ (10 < x 0%nat -> g * h ^ 3 < q * q)) /\
    (12 < x 0%nat -> solves_shallow_water g dim z no_friction W t x).
Proof. exact C101_transcritical_proof. Qed.
Print Assumptions C101_transcritical_partial.

Example C101_transcritical_case : exists x y : vec, x 0%nat < 10 /\ 10 < y 0%nat < 117 / 10.
Proof. exists (fun _ => 9), (fun _ => 11). lra. Qed.

(** C101 fails between the jump and the end of the bump: the constant depth is no solution
    over the falling ground. *)
Theorem C101_downstream_refuted : forall g dim,
  0 < g -> (1 <= dim)%nat ->
  let W := fun t x => flow_over_bump g false x t in
  forall t x, 1 / 10 ^ 12 < t -> 117 / 10 < x 0%nat < 12 ->
    ~ solves_shallow_water g dim bump_bathymetry no_friction W t x.
Proof. exact C101_downstream_proof. Qed.
Print Assumptions C101_downstream_refuted.
