(** * Proofs about piecewise initial states: shallow water *)
From Coq Require Import Reals Arith List Bool String Lia Lra.
From Verif Require Import RVec Simd EulerSystem EulerInitialStates SWSystem SWLimiter PhysSpec SWScheme SWSchemeSpec SchemeSpec TimeInt TimeIntSpec
  EulerRun EulerRunSpec SWRun SWRunSpec SWRunProofs BalanceSpec InitialRegions InitialRegionsSpec.
From Verif Require Import Scheme.
Import ListNotations.
Local Open Scope R_scope.

Lemma from_initial_water dim prim : water_is dim (prim 0%nat) (fun i => if Nat.eqb i 0 then prim 1%nat else 0) (w_from_initial_state dim 1 prim).
Proof.
  split; [reflexivity|]. intros i Hi. unfold w_from_initial_state, w_from_primitive_state, w_expand_state. cbn [Nat.eqb Nat.leb].
  destruct (Nat.leb_spec i (dim - 1)); [|lia]. destruct dim as [|dim]; [lia|]. replace (S dim - 1)%nat with dim in H by lia.
  destruct (Nat.leb_spec i dim); [|lia]. destruct i as [|i]; cbn; ring.
Qed.

Lemma C145_regions_proof dim left right point t : let U := water_contrast dim left right point t in
  (point 0%nat <= 0 -> water_is dim (left 0%nat) (fun i => if Nat.eqb i 0 then left 1%nat else 0) U) /\
  (0 < point 0%nat -> water_is dim (right 0%nat) (fun i => if Nat.eqb i 0 then right 1%nat else 0) U) /\
  water_is dim (left 0%nat) (fun i => if Nat.eqb i 0 then left 1%nat else 0) (water_uniform dim left point t).
Proof.
  cbn zeta. unfold water_contrast. refine (conj _ (conj _ (from_initial_water dim left))); intros H;
  destruct (Rgt_dec (point 0%nat) 0); try lra; apply from_initial_water.
Qed.

Lemma C145_function_proof dim h v point t : (dim <= 2)%nat ->
  water_is dim (h point t) (fun i => v i point t) (water_function dim h v point t).
Proof.
  intros Hd. split; [reflexivity|]. intros i Hi. unfold water_function, w_from_primitive_state. cbn [Nat.eqb].
  destruct (Nat.leb_spec (S i) dim); [|lia]. destruct (Nat.leb_spec (S i) 2); [|lia]. cbn [andb]. rewrite Nat.sub_1_r. cbn [Nat.pred]. ring.
Qed.

(** ** Three bumps *)
Lemma tensor_rest h i : tensor [h; 0] (S i) = 0.
Proof. unfold tensor. destruct i as [|[|i]]; reflexivity. Qed.

Lemma bumps_rest s dim wb left right cone point t : t <= 1 / 10 ^ 10 \/ wb = true ->
  three_bumps s dim wb left right cone point t =
  tensor [Rmax ((if Rlt_dec (point 0%nat) 16 then left else right) - three_bumps_bathymetry dim cone point) 0; 0].
Proof.
  intros H. unfold three_bumps. destruct (Rle_dec t (1 / 10 ^ 10)) as [L|L]; [reflexivity|]. destruct H as [H| ->]; [contradiction|]. reflexivity.
Qed.

Lemma C145_rest_proof s dim wb left right cone point t : t <= 1 / 10 ^ 10 \/ wb = true ->
  let U := three_bumps s dim wb left right cone point t in
  let z := three_bumps_bathymetry dim cone point in
  (point 0%nat < 16 -> still_water dim left z U) /\ (16 <= point 0%nat -> still_water dim right z U).
Proof.
  intros H. cbn zeta. rewrite bumps_rest by exact H. set (z := three_bumps_bathymetry dim cone point).
  assert (G : forall l, still_water dim l z (tensor [Rmax (l - z) 0; 0])).
  { intros l. unfold still_water. change (tensor [Rmax (l - z) 0; 0] 0%nat) with (Rmax (l - z) 0). split; [apply Rmax_r|].
    split; [intros L; rewrite Rmax_left by lra; ring|]. split; [intros L; rewrite Rmax_right by lra; reflexivity|]. intros i _. apply tensor_rest. }
  destruct (Rlt_dec (point 0%nat) 16); (split; intros K; [try lra|try lra]); apply G.
Qed.

Lemma C145_inflow_proof s dim left right cone point t : 1 / 10 ^ 10 < t -> 0 < gravity s -> 0 < left ->
  let U := three_bumps s dim false left right cone point t in
  exists v, 0 < v /\ v * v = gravity s * left /\ water_is dim left (fun i => if Nat.eqb i 0 then v else 0) U.
Proof.
  intros Ht Hg Hl U. exists (sqrt (gravity s * left)). assert (P : 0 < gravity s * left) by (apply Rmult_lt_0_compat; assumption).
  split; [apply sqrt_lt_R0; exact P|]. split; [apply sqrt_sqrt; lra|]. unfold U, three_bumps.
  destruct (Rle_dec t (1 / 10 ^ 10)); [lra|]. cbn [orb]. split; [reflexivity|]. intros i Hi.
  unfold w_speed_of_sound, tensor. cbn [nth]. destruct i as [|[|i]]; cbn; ring.
Qed.

Lemma bumps_max dim cone point : (2 <= dim)%nat ->
  let z1 := 1 - 1 / 8 * sqrt ((point 0%nat - 30) * (point 0%nat - 30) + (point 1%nat - 6) * (point 1%nat - 6)) in
  let z2 := 1 - 1 / 8 * sqrt ((point 0%nat - 30) * (point 0%nat - 30) + (point 1%nat - 24) * (point 1%nat - 24)) in
  let z3 := 3 - 3 / 10 * sqrt ((point 0%nat - 95 / 2) * (point 0%nat - 95 / 2) + (point 1%nat - 15) * (point 1%nat - 15)) in
  three_bumps_bathymetry dim cone point = cone * Rmax (Rmax (Rmax z1 z2) z3) 0.
Proof. intros Hd. cbn zeta. unfold three_bumps_bathymetry. destruct (Nat.eqb_spec dim 1); [lia|]. reflexivity. Qed.

Lemma sqrt_lt_disc q r : 0 <= q -> 0 < r -> sqrt q < r <-> q < r * r.
Proof.
  intros Q Hr. split; intros H.
  - pose proof (sqrt_sqrt q Q) as E. pose proof (sqrt_pos q). set (v := sqrt q) in *. nra.
  - rewrite <- (sqrt_square r) by lra. apply sqrt_lt_1_alt. lra.
Qed.

Lemma left_of_disc a b r x y : 0 <= r -> x < a - r -> ~ in_disc a b r x y.
Proof.
  intros Hr Hx H. unfold in_disc in H. pose proof (Rle_0_sqr (y - b)) as Q. unfold Rsqr in Q.
  assert (r * r <= (a - x) * (a - x)) by (apply Rmult_le_compat; lra). replace ((x - a) * (x - a)) with ((a - x) * (a - x)) in H by ring. lra.
Qed.

Lemma C145_islands_proof dim cone point : (2 <= dim)%nat -> 0 < cone ->
  let x := point 0%nat in let y := point 1%nat in
  let z := three_bumps_bathymetry dim cone point in
  0 <= z <= 3 * cone /\
  (0 < z <-> in_disc 30 6 8 x y \/ in_disc 30 24 8 x y \/ in_disc (95 / 2) 15 10 x y) /\
  (x < 22 -> z = 0).
Proof.
  intros Hd Hc x y z.
  pose proof (bumps_max dim cone point Hd) as E. cbn zeta in E. fold x y z in E.
  set (q1 := (x - 30) * (x - 30) + (y - 6) * (y - 6)) in *. set (q2 := (x - 30) * (x - 30) + (y - 24) * (y - 24)) in *.
  set (q3 := (x - 95 / 2) * (x - 95 / 2) + (y - 15) * (y - 15)) in *.
  assert (SQ : forall a b : R, 0 <= a * a + b * b) by (intros a b; nra).
  assert (Q1 : 0 <= q1) by apply SQ. assert (Q2 : 0 <= q2) by apply SQ. assert (Q3 : 0 <= q3) by apply SQ.
  pose proof (sqrt_lt_disc q1 8 Q1 ltac:(lra)) as D1. pose proof (sqrt_lt_disc q2 8 Q2 ltac:(lra)) as D2. pose proof (sqrt_lt_disc q3 10 Q3 ltac:(lra)) as D3.
  pose proof (sqrt_pos q1) as P1. pose proof (sqrt_pos q2) as P2. pose proof (sqrt_pos q3) as P3.
  set (r1 := sqrt q1) in *. set (r2 := sqrt q2) in *. set (r3 := sqrt q3) in *.
  set (m := Rmax (Rmax (Rmax (1 - 1 / 8 * r1) (1 - 1 / 8 * r2)) (3 - 3 / 10 * r3)) 0) in *.
  assert (M0 : 0 <= m) by apply Rmax_r.
  assert (M1 : 1 - 1 / 8 * r1 <= m) by (unfold m; eapply Rle_trans; [|apply Rmax_l]; eapply Rle_trans; [|apply Rmax_l]; apply Rmax_l).
  assert (M2 : 1 - 1 / 8 * r2 <= m) by (unfold m; eapply Rle_trans; [|apply Rmax_l]; eapply Rle_trans; [|apply Rmax_l]; apply Rmax_r).
  assert (M3 : 3 - 3 / 10 * r3 <= m) by (unfold m; eapply Rle_trans; [|apply Rmax_l]; apply Rmax_r).
  assert (MU : m <= 3) by (unfold m; repeat apply Rmax_lub; lra).
  assert (POS : 0 < m <-> in_disc 30 6 8 x y \/ in_disc 30 24 8 x y \/ in_disc (95 / 2) 15 10 x y).
  { unfold in_disc. fold q1 q2 q3. rewrite <- D1, <- D2, <- D3. split.
    - intros H. destruct (Rlt_dec r1 8); [auto|]. destruct (Rlt_dec r2 8); [auto|]. destruct (Rlt_dec r3 10); [auto|].
      exfalso. assert (m <= 0) by (unfold m; repeat apply Rmax_lub; lra). lra.
    - intros [H|[H|H]]; [assert (0 < 1 - 1 / 8 * r1) by lra|assert (0 < 1 - 1 / 8 * r2) by lra|assert (0 < 3 - 3 / 10 * r3) by lra]; clear - H0 M1 M2 M3; lra. }
  split; [rewrite E; split; nra|]. split.
  - rewrite <- POS, E. split; intros H; [|nra]. destruct (Rle_lt_or_eq_dec 0 m M0) as [?|Z]; [assumption|]. rewrite <- Z in H. lra.
  - intros Hx. rewrite E. destruct (Rle_lt_or_eq_dec 0 m M0) as [L|Z]; [|rewrite <- Z; ring]. exfalso.
    apply POS in L. destruct L as [L|[L|L]]; revert L; apply left_of_disc; lra.
Qed.

Lemma C145_lake_proof p dim M num_min level cone (pos : nat -> RVec.vec) entries order : (1 <= dim)%nat ->
  let Z := fun i => three_bumps_bathymetry dim cone (pos i) in
  let data := fun x t => three_bumps (wp_system p) dim true level level cone x t in
  lake_setting p dim Z M num_min level [] data order -> 0 < gravity (wp_system p) ->
  Forall (fun e => be_position e = pos (be_row e)) entries ->
  lake_setting p dim Z M num_min level entries data order /\
  ((forall i, (i < n_rows M)%nat -> wet_or_dry (wp_system p) (wp_eps p) (Rmax 0 (level - Z i))) ->
   forall U, (forall i k, (i < n_rows M)%nat -> U i k = data (pos i) 0 k) ->
   lake_at_rest (wp_system p) (wp_eps p) dim M Z level U).
Proof.
  intros Hd Z data LS Hg Pos.
  assert (L : forall i t, data (pos i) t 0%nat = Rmax 0 (level - Z i) /\ forall k, (1 <= k <= dim)%nat -> data (pos i) t k = 0).
  { intros i t. unfold data. rewrite bumps_rest by (right; reflexivity). fold (Z i). split.
    - unfold tensor. cbn [nth]. rewrite Rmax_comm. destruct (Rlt_dec (pos i 0%nat) 16); reflexivity.
    - intros k Hk. destruct k as [|k]; [lia|]. apply tensor_rest. }
  split.
  - unfold lake_setting in *. decompose [and] LS. repeat (split; [first [assumption|split; assumption]|]).
    apply Forall_forall. intros e Hin. rewrite Forall_forall in Pos. pose proof (Pos e Hin) as He. unfold still_entry. rewrite He.
    destruct (be_id e); try exact Logic.I; try (intros t; apply L); try (split; [exact Hg|intros t; apply L]).
    all: intros t k Hk; apply (proj2 (L (be_row e) t)); exact Hk.
  - intros WD U HU i Hi. rewrite HU by exact Hi. destruct (L i 0) as [L0 LM]. rewrite L0. split; [reflexivity|]. split; [apply WD; exact Hi|].
    intros k Hk. rewrite HU by exact Hi. apply LM. exact Hk.
Qed.

(** ** Hou's test *)
Lemma C145_hou_proof dim depth point t : (2 <= dim)%nat ->
  exists z U, hou_bathymetry dim point = Some z /\ hou_test dim depth point t = Some U /\ 0 <= z /\
    (point 0%nat < -100 -> still_water dim depth z U) /\
    (-100 <= point 0%nat -> U 0%nat = 0 /\ forall i, (i < dim)%nat -> U (S i) = 0).
Proof.
  intros Hd. unfold hou_test. destruct (Nat.eqb_spec dim 1); [lia|].
  destruct (hou_bathymetry dim point) as [z|] eqn:E.
  2:{ unfold hou_bathymetry, coordinate in E. destruct (Nat.ltb_spec 0 dim); [|lia]. destruct (Nat.ltb_spec 1 dim); [|lia]. discriminate. }
  exists z. eexists. split; [reflexivity|]. split; [reflexivity|]. split.
  { unfold hou_bathymetry, coordinate in E. destruct (Nat.ltb_spec 0 dim); [|lia]. destruct (Nat.ltb_spec 1 dim); [|lia].
    injection E as <-. eapply Rle_trans; [|apply Rmax_r]. eapply Rle_trans; [|apply Rmax_l]. eapply Rle_trans; [|apply Rmax_r].
    destruct (Rle_dec _ 1000); lra. }
  split; intros H; destruct (Rlt_dec (point 0%nat) (-100)); try lra.
  - unfold still_water. change (tensor [Rmax (depth - z) 0; 0] 0%nat) with (Rmax (depth - z) 0). split; [apply Rmax_r|].
    split; [intros L; rewrite Rmax_left by lra; ring|]. split; [intros L; rewrite Rmax_right by lra; reflexivity|]. intros i _. apply tensor_rest.
  - split; [reflexivity|]. intros i _. apply tensor_rest.
Qed.

(** The parts of the landscape of Hou's test below the level c. *)
Lemma C145_hou_ground_proof dim point c : (2 <= dim)%nat -> 0 <= c ->
  let x := point 0%nat in let y := point 1%nat in
  exists z, hou_bathymetry dim point = Some z /\
  (z <= c <->
    (in_ellipse (-250) 0 40 20 c x y \/ in_ellipse 0 50 15 15 c x y \/ in_ellipse 250 0 35 15 (c + 10) x y) /\
    (x + 250) * (x + 250) + y * y >= 50 * (80 - c) /\
    (c < 10 -> (x - 200) * (x - 200) + (y + 10) * (y + 10) > 1000) /\
    (c < 20 -> ~ (340 <= x <= 420 /\ 10 <= y <= 90))).
Proof.
  intros Hd Hc x y. unfold hou_bathymetry, coordinate. destruct (Nat.ltb_spec 0 dim); [|lia]. destruct (Nat.ltb_spec 1 dim); [|lia].
  eexists. split; [reflexivity|]. fold x y. unfold in_ellipse.
  assert (MX : forall a b d, Rmax a b <= d <-> a <= d /\ b <= d)
    by (intros a b d; split; [intros M; split; eapply Rle_trans; [apply Rmax_l|exact M|apply Rmax_r|exact M]|intros [A B]; apply Rmax_lub; assumption]).
  assert (MN : forall a b d, Rmin a b <= d <-> a <= d \/ b <= d).
  { intros a b d. unfold Rmin. destruct (Rle_dec a b); lra. }
  rewrite !MX, !MN.
  replace ((x + 250) * (x + 250) / 1600 + y * y / 400) with (((x - -250) / 40) * ((x - -250) / 40) + ((y - 0) / 20) * ((y - 0) / 20)) by field.
  replace (x * x / 225 + (y - 50) * (y - 50) / 225) with (((x - 0) / 15) * ((x - 0) / 15) + ((y - 50) / 15) * ((y - 50) / 15)) by field.
  replace ((x - 250) * (x - 250) / 1225 + y * y / 225 - 10) with (((x - 250) / 35) * ((x - 250) / 35) + ((y - 0) / 15) * ((y - 0) / 15) - 10) by field.
  set (e1 := ((x - -250) / 40) * _ + _). set (e2 := ((x - 0) / 15) * _ + _). set (e3 := ((x - 250) / 35) * _ + _).
  set (q := (x + 250) * (x + 250)). set (w := y * y).
  assert (B2 : (if Rle_dec ((x - 200) * (x - 200) + (y + 10) * (y + 10)) 1000 then 10 else 0) <= c <->
               (c < 10 -> (x - 200) * (x - 200) + (y + 10) * (y + 10) > 1000)) by (destruct (Rle_dec _ 1000); split; intros; lra).
  assert (B3 : (if Rle_dec (Rabs (x - 380)) 40 then if Rle_dec (Rabs (y - 50)) 40 then 20 else 0 else 0) <= c <->
               (c < 20 -> ~ (340 <= x <= 420 /\ 10 <= y <= 90))).
  { assert (AB : forall a r, Rabs a <= r <-> - r <= a <= r).
    { intros a r. split; intros L; [|apply Rabs_le; exact L]. pose proof (Rle_abs a). pose proof (Rle_abs (- a)). rewrite Rabs_Ropp in *. lra. }
    destruct (Rle_dec (Rabs (x - 380)) 40) as [a|a]; rewrite AB in a; [destruct (Rle_dec (Rabs (y - 50)) 40) as [b|b]; rewrite AB in b|]; split; intros; lra. }
  rewrite B2, B3. split.
  - intros (L & (M & N) & O). split; [lra|]. split; [lra|]. split; assumption.
  - intros (L & M & N & O). split; [lra|]. split; [split; [lra|exact N]|exact O].
Qed.

(** The ridge of the three bumps in one dimension. *)
Lemma C145_ridge_proof cone point : 0 < cone ->
  let x := point 0%nat in
  let z := three_bumps_bathymetry 1 cone point in
  0 <= z <= 3 * cone /\ (0 < z <-> 75 / 2 < x < 115 / 2) /\ (x = 95 / 2 -> z = 3 * cone).
Proof.
  intros Hc x z. unfold z, three_bumps_bathymetry. cbn [Nat.eqb]. fold x.
  change ((x - 95 / 2) * (x - 95 / 2)) with (Rsqr (x - 95 / 2)). rewrite sqrt_Rsqr_abs.
  pose proof (Rabs_pos (x - 95 / 2)) as P. pose proof (Rle_abs (x - 95 / 2)) as Q. pose proof (Rle_abs (- (x - 95 / 2))) as Q'. rewrite Rabs_Ropp in Q'.
  assert (M : Rmax (3 - 3 / 10 * Rabs (x - 95 / 2)) 0 <= 3) by (apply Rmax_lub; lra).
  pose proof (Rmax_r (3 - 3 / 10 * Rabs (x - 95 / 2)) 0) as N.
  split; [split; nra|]. split.
  - split.
    + intros H. destruct (Rlt_dec (Rabs (x - 95 / 2)) 10) as [L|L]; [lra|]. rewrite Rmax_right in H by lra. lra.
    + intros H. assert (Rabs (x - 95 / 2) < 10) by (apply Rabs_def1; lra). rewrite Rmax_left by lra. apply Rmult_lt_0_compat; lra.
  - intros ->. replace (95 / 2 - 95 / 2) with 0 by ring. rewrite Rabs_R0, Rmax_left by lra. ring.
Qed.

Lemma C145_line_proof point t : (forall depth, hou_test 1 depth point t = None) /\ hou_bathymetry 1 point = None /\
  (forall left right, transient 1 left right point t = None) /\ (forall c, transient_bathymetry 1 c point = None).
Proof. repeat split. Qed.

(** ** Tank experiments *)
Lemma C145_tank_state_proof dim left right point t : (2 <= dim)%nat ->
  exists U, transient dim left right point t = Some U /\
    (point 0%nat <= 0 -> U 0%nat = left 0%nat /\ U 1%nat = left 1%nat) /\
    (1 / 10 ^ 8 < point 0%nat -> U 0%nat = right 0%nat /\ U 1%nat = right 1%nat) /\
    forall k, (2 <= k <= dim)%nat -> U k = 0.
Proof.
  intros Hd. unfold transient. destruct (Nat.eqb_spec dim 1); [lia|].
  assert (T : 0 < 1 / 10 ^ 8) by (apply Rdiv_lt_0_compat; [lra|apply pow_lt; lra]).
  eexists. split; [reflexivity|]. destruct (Rgt_dec (point 0%nat) (1 / 10 ^ 8)).
  - split; [lra|]. split; [intros _; split; reflexivity|]. intros k Hk. unfold w_expand_state. destruct (Nat.leb_spec k 1); [lia|reflexivity].
  - split; [intros _; split; reflexivity|]. split; [lra|]. intros k Hk. unfold w_expand_state. destruct (Nat.leb_spec k 1); [lia|reflexivity].
Qed.

Lemma rectangle_iff xc x y : transient_rectangle xc x y = true <-> in_rectangle xc (163 / 2000) (4 / 100) x y.
Proof.
  unfold transient_rectangle, in_rectangle.
  replace ((x - xc) / (163 / 10 / 100)) with (1000 / 163 * (x - xc)) by field. replace (y / (8 / 100)) with (100 / 8 * y) by field.
  set (a := 1000 / 163 * (x - xc)). set (b := 100 / 8 * y).
  assert (Q : Rabs (a + b) + Rabs (a - b) <= 1 <-> (- (1 / 2) <= a <= 1 / 2 /\ - (1 / 2) <= b <= 1 / 2)).
  { split.
    - intros H. unfold Rabs in H. destruct (Rcase_abs (a + b)), (Rcase_abs (a - b)); lra.
    - intros H. unfold Rabs. destruct (Rcase_abs (a + b)), (Rcase_abs (a - b)); lra. }
  destruct (Rle_dec (Rabs (a + b) + Rabs (a - b)) 1) as [L|L].
  - split; [intros _|reflexivity]. apply Q in L. unfold a, b in L. lra.
  - split; [discriminate|]. intros H. exfalso. apply L. apply Q. unfold a, b. lra.
Qed.

Lemma positive_part_of a : positive_part a = Rmax a 0.
Proof.
  unfold positive_part. destruct (Rle_dec 0 a).
  - rewrite Rabs_right, Rmax_left by lra. field.
  - rewrite Rabs_left, Rmax_right by lra. field.
Qed.

Lemma semi_ellipse c x : (Rabs (x - c) <= 155 / 1000 -> ellipse_height c x (transient_semi_circle c x)) /\
  (155 / 1000 <= Rabs (x - c) -> transient_semi_circle c x = 0) /\ 0 <= transient_semi_circle c x.
Proof.
  unfold transient_semi_circle, ellipse_height. rewrite positive_part_of.
  replace ((x - c) / (31 / 2 / 100)) with ((x - c) / (155 / 1000)) by field. set (q := (x - c) / (155 / 1000)).
  assert (QE : Rabs (x - c) = 155 / 1000 * Rabs q).
  { replace (x - c) with (155 / 1000 * q) by (unfold q; field). rewrite Rabs_mult. rewrite (Rabs_right (155 / 1000)) by lra. reflexivity. }
  assert (QS : q * q = Rabs q * Rabs q) by (rewrite <- Rabs_mult; rewrite Rabs_right; [reflexivity|nra]).
  pose proof (Rabs_pos q) as QP. rewrite QE.
  pose proof (sqrt_pos (Rmax (1 - q * q) 0)) as SP.
  split; [|split].
  - intros H. assert (L : Rabs q <= 1) by lra. rewrite Rmax_left in * by nra. split; [lra|].
    replace (73 / 10 / 100 * sqrt (1 - q * q) / (73 / 1000)) with (sqrt (1 - q * q)) by field. rewrite sqrt_sqrt by nra. ring.
  - intros H. assert (L : 1 <= Rabs q) by lra. rewrite Rmax_right by nra. rewrite sqrt_0. ring.
  - lra.
Qed.

Lemma tank_slope_of x : (if Rge_dec x 0 then if Rle_dec x (326 / 100) then - (92 / 100000) * x
    else - (404 / 10000) * (x - 326 / 100) - 92 / 100000 * 326 / 100 else 0) = tank_slope x.
Proof.
  unfold tank_slope. destruct (Rge_dec x 0).
  - rewrite (Rmax_left x 0) by lra. destruct (Rle_dec x (326 / 100)).
    + rewrite Rmin_left, Rmax_right by lra. lra.
    + rewrite Rmin_right, Rmax_left by lra. lra.
  - rewrite (Rmax_right x 0), Rmin_left, Rmax_right by lra. lra.
Qed.

Lemma C145_tank_proof dim point : (2 <= dim)%nat ->
  let x := point 0%nat in let y := point 1%nat in
  (forall c, transient_accepts c = true <-> In c ["G1"; "G2"; "G3"; "none"]%string) /\
  transient_bathymetry dim "none" point = Some (tank_slope x) /\
  (exists o, transient_bathymetry dim "G1" point = Some (tank_slope x + o) /\
     (in_rectangle (21315 / 10000) (163 / 2000) (4 / 100) x y -> o = 7 / 100) /\
     (~ in_rectangle (21315 / 10000) (163 / 2000) (4 / 100) x y -> o = 0)) /\
  (exists o, transient_bathymetry dim "G2" point = Some (tank_slope x + o) /\
     (in_rectangle (24315 / 10000) (163 / 2000) (4 / 100) x y -> o = 7 / 100) /\
     (Rabs (x - 2) <= 155 / 1000 -> ellipse_height 2 x o) /\
     (~ in_rectangle (24315 / 10000) (163 / 2000) (4 / 100) x y -> 155 / 1000 <= Rabs (x - 2) -> o = 0)) /\
  (exists o, transient_bathymetry dim "G3" point = Some (tank_slope x + o) /\
     (in_rectangle (24315 / 10000) (163 / 2000) (4 / 100) x y -> o = 7 / 100) /\
     (Rabs (x - 2095 / 1000) <= 155 / 1000 -> exists e, ellipse_height (2095 / 1000) x e /\
        (12 / 100 - e < Rabs y -> o = 21 / 100) /\ (Rabs y <= 12 / 100 - e -> o = 0)) /\
     (~ in_rectangle (24315 / 10000) (163 / 2000) (4 / 100) x y -> 155 / 1000 < Rabs (x - 2095 / 1000) -> o = 0)).
Proof.
  intros Hd x y. split.
  { intros c. unfold transient_accepts. rewrite !orb_true_iff, !String.eqb_eq. cbn [In]. split; intros H; decompose [or] H; subst; auto 8; try contradiction. }
  assert (C : forall c, transient_bathymetry dim c point =
    (if String.eqb c "none" then Some (tank_slope x) else
      Some (tank_slope x + (if String.eqb c "G1" then
            if transient_rectangle (205 / 100 + 163 / 10 / 2 / 100) x y then 7 / 100 else 0
          else if String.eqb c "G2" then
            if transient_rectangle (235 / 100 + 163 / 10 / 2 / 100) x y then 7 / 100
            else Rmax (transient_semi_circle (1845 / 10 / 100 + 31 / 2 / 100) x) 0
          else if String.eqb c "G3" then
            let xc := 194 / 100 + 31 / 2 / 100 in
            let semi_circle := transient_semi_circle xc x in
            if transient_rectangle (235 / 100 + 163 / 10 / 2 / 100) x y then 7 / 100
            else if Rle_dec (Rabs (x - xc)) (31 / 2 / 100) then
              if Rlt_dec y (semi_circle - 24 / 2 / 100) then 21 / 100
              else if Rgt_dec y (- semi_circle + 24 / 2 / 100) then 21 / 100 else 0
            else 0
          else 0)))).
  { intros c. unfold transient_bathymetry, coordinate. destruct (Nat.ltb_spec 0 dim); [|lia]. destruct (Nat.ltb_spec 1 dim); [|lia].
    fold x y. rewrite tank_slope_of. reflexivity. }
  replace (205 / 100 + 163 / 10 / 2 / 100) with (21315 / 10000) in C by field.
  replace (235 / 100 + 163 / 10 / 2 / 100) with (24315 / 10000) in C by field.
  replace (1845 / 10 / 100 + 31 / 2 / 100) with 2 in C by field. replace (194 / 100 + 31 / 2 / 100) with (2095 / 1000) in C by field.
  replace (31 / 2 / 100) with (155 / 1000) in C by field. replace (24 / 2 / 100) with (12 / 100) in C by field.
  cbn zeta in C.
  assert (DISJ : forall c, c <= 2095 / 1000 -> Rabs (x - c) <= 155 / 1000 -> transient_rectangle (24315 / 10000) x y = false).
  { intros c Hc Ha. destruct (transient_rectangle (24315 / 10000) x y) eqn:E; [|reflexivity]. apply rectangle_iff in E. unfold in_rectangle in E.
    assert (x - c <= 155 / 1000) by (pose proof (Rle_abs (x - c)); lra). lra. }
  split; [rewrite C; reflexivity|]. split; [|split].
  - rewrite C. eexists. split; [reflexivity|]. cbn [String.eqb Ascii.eqb Bool.eqb]. split; intros H.
    + apply rectangle_iff in H. rewrite H. reflexivity.
    + destruct (transient_rectangle (21315 / 10000) x y) eqn:E; [|reflexivity]. apply rectangle_iff in E. contradiction.
  - rewrite C. eexists. split; [reflexivity|]. cbn [String.eqb Ascii.eqb Bool.eqb]. destruct (semi_ellipse 2 x) as (S1 & S2 & S3). split; [|split]; intros H.
    + apply rectangle_iff in H. rewrite H. reflexivity.
    + rewrite (DISJ 2) by (try exact H; lra). rewrite Rmax_left by exact S3. apply S1. exact H.
    + intros Ha. destruct (transient_rectangle (24315 / 10000) x y) eqn:E; [apply rectangle_iff in E; contradiction|]. rewrite S2 by exact Ha. apply Rmax_left. lra.
  - rewrite C. eexists. split; [reflexivity|]. cbn [String.eqb Ascii.eqb Bool.eqb]. destruct (semi_ellipse (2095 / 1000) x) as (S1 & S2 & S3). split; [|split]; intros H.
    + apply rectangle_iff in H. rewrite H. reflexivity.
    + exists (transient_semi_circle (2095 / 1000) x). split; [apply S1; exact H|]. rewrite (DISJ (2095 / 1000)) by (try exact H; lra).
      destruct (Rle_dec (Rabs (x - 2095 / 1000)) (155 / 1000)); [|contradiction]. set (e := transient_semi_circle (2095 / 1000) x) in *.
      split; intros Hy; destruct (Rlt_dec y (e - 12 / 100)), (Rgt_dec y (- e + 12 / 100)); try reflexivity; exfalso; unfold Rabs in Hy; destruct (Rcase_abs y); lra.
    + intros Ha. destruct (transient_rectangle (24315 / 10000) x y) eqn:E; [apply rectangle_iff in E; contradiction|].
      destruct (Rle_dec (Rabs (x - 2095 / 1000)) (155 / 1000)); [lra|reflexivity].
Qed.

(** ** Values in the plane and in space *)
Lemma C147_plane_proof dim from a b c d width depth case point t : (2 <= dim)%nat -> transient_accepts case = true ->
  gas_four_state dim from a b c d point t <> None /\ gas_jet dim from a b width point t <> None /\
  hou_test dim depth point t <> None /\ hou_bathymetry dim point <> None /\
  transient dim a b point t <> None /\ transient_bathymetry dim case point <> None.
Proof.
  intros Hd Ca. destruct (C145_hou_proof dim depth point t Hd) as (z & U & Ez & EU & _).
  destruct (C145_tank_state_proof dim a b point t Hd) as (V & EV & _).
  destruct (C145_tank_proof dim point Hd) as (T & T0 & (o1 & T1 & _) & (o2 & T2 & _) & (o3 & T3 & _)). apply T in Ca.
  split. { unfold gas_four_state. destruct (Nat.eqb_spec dim 1); [lia|]. unfold coordinate. destruct (Nat.ltb_spec 0 dim); [|lia]. destruct (Nat.ltb_spec 1 dim); [|lia]. discriminate. }
  split. { unfold gas_jet, coordinate. destruct (Nat.ltb_spec 0 dim); [|lia]. destruct (Nat.ltb_spec 1 dim); [|lia]. cbn iota.
    destruct (Rlt_dec (point 0%nat) _); discriminate. }
  split; [rewrite EU; discriminate|]. split; [rewrite Ez; discriminate|]. split; [rewrite EV; discriminate|].
  destruct Ca as [<-|[<-|[<-|[<-|[]]]]]; [rewrite T1|rewrite T2|rewrite T3|rewrite T0]; discriminate.
Qed.
