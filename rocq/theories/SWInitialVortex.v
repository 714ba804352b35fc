(** * Lemmas: smooth vortex, sloping friction *)
From Coq Require Import Reals Arith Lia Lra Psatz List.
From Verif Require Import RVec EulerSystem EulerInitialStates BalanceSpec BalanceProofs EulerInitialProofs
  EulerInitialFans EulerInitialMore EulerInitialNoh WaterProofs SWInitialStates SWInitialSpec SWInitialProofs SWInitialParaboloid.
Import ListNotations.
Local Open Scope R_scope.

Section Vortex.
Variables g depth mach beta : R.
Variable b : bool.
Hypothesis Hg : 0 < g.

Definition vf (t : R) (x : vec) : R :=
  vortex_factor beta ((x 0%nat - mach * t) * (x 0%nat - mach * t) + x 1%nat * x 1%nat).
Definition vz (x : vec) : R := vortex_bathymetry b depth beta x.
Definition v_h (t : R) (x : vec) : R := depth - 1 / (2 * g) * vf t x * vf t x - vz x.
Definition v_u : field := fun t x i => if Nat.eqb i 0 then mach - vf t x * x 1%nat else vf t x * (x 0%nat - mach * t).

Lemma vortex_state x t : veq 3 (smooth_vortex g b depth mach beta x t) (water_state (v_h t x) (v_u t x)).
Proof.
  intros k Hk. unfold smooth_vortex, v_h, vz.
  replace (if b then _ else _) with (depth - 1 / (2 * g) * vf t x * vf t x - vortex_bathymetry b depth beta x).
  - destruct k as [|[|[|k]]]; [reflexivity|reflexivity|reflexivity|lia].
  - unfold vf. destruct b; [reflexivity|]. unfold vortex_bathymetry. ring.
Qed.

Lemma D_factor q x q' : derivable_pt_lim q x q' ->
  derivable_pt_lim (fun s => vortex_factor beta (q s)) x (vortex_factor beta (q x) * (- (1 / 2) * q')).
Proof.
  intros D. unfold vortex_factor. eapply D_eq; [apply D_scal, D_exp; apply D_minus; [apply D_const|apply D_scal; exact D]|].
  cbv beta. field. apply Rgt_not_eq, PI_RGT_0.
Qed.

Lemma D_vf_t t x : derivable_pt_lim (fun s => vf s x) t (vf t x * (mach * (x 0%nat - mach * t))).
Proof.
  assert (D : derivable_pt_lim (fun s => x 0%nat - mach * s) t (- mach)).
  { eapply D_eq; [apply D_minus; [apply D_const|apply D_scal, D_id]|]. ring. }
  unfold vf. eapply D_eq.
  { apply (D_factor (fun s => (x 0%nat - mach * s) * (x 0%nat - mach * s) + x 1%nat * x 1%nat)).
    apply D_plus; [exact (D_mult _ _ _ _ _ D D)|apply D_const]. }
  cbv beta. field.
Qed.

Definition rel (t : R) (x : vec) (j : nat) : R := if Nat.eqb j 0 then x 0%nat - mach * t else x 1%nat.
Lemma D_vf_x t x j : (j < 2)%nat -> derivable_pt_lim (fun s => vf t (along x j s)) 0 (- (vf t x * rel t x j)).
Proof.
  intros Hj. pose proof (D_along x 0 j) as D0. pose proof (D_along x 1 j) as D1.
  assert (D : derivable_pt_lim (fun s => along x j s 0%nat - mach * t) 0 (if Nat.eqb 0 j then 1 else 0)).
  { eapply D_eq; [apply D_minus; [exact D0|apply D_const]|]. ring. }
  unfold vf. eapply D_eq.
  { apply (D_factor (fun s => (along x j s 0%nat - mach * t) * (along x j s 0%nat - mach * t) + along x j s 1%nat * along x j s 1%nat)).
    apply D_plus; [exact (D_mult _ _ _ _ _ D D)|exact (D_mult _ _ _ _ _ D1 D1)]. }
  cbv beta. rewrite !along_0. unfold rel. destruct j as [|[|j]]; [| |lia]; cbn [Nat.eqb]; field.
Qed.

Lemma D_vz x j : (j < 2)%nat -> derivable_pt_lim (fun s => vz (along x j s)) 0 (- (vz x * x j)).
Proof.
  intros Hj. unfold vz, vortex_bathymetry. destruct b; [|eapply D_eq; [apply D_const|ring]].
  pose proof (D_along x 0 j) as D0. pose proof (D_along x 1 j) as D1.
  apply D_near with (d := 1) (f := fun s => depth / 4 * vortex_factor beta (along x j s 0%nat * along x j s 0%nat + along x j s 1%nat * along x j s 1%nat));
    [lra|intros; rewrite norm2_2; reflexivity|].
  eapply D_eq.
  { apply D_scal. apply (D_factor (fun s => along x j s 0%nat * along x j s 0%nat + along x j s 1%nat * along x j s 1%nat)).
    apply D_plus; [exact (D_mult _ _ _ _ _ D0 D0)|exact (D_mult _ _ _ _ _ D1 D1)]. }
  cbv beta. rewrite !along_0, norm2_2. destruct j as [|[|j]]; [| |lia]; cbn [Nat.eqb]; field.
Qed.

Definition v_ht (t : R) (x : vec) : R := - (1 / g) * vf t x * (vf t x * (mach * (x 0%nat - mach * t))).
Definition v_hx (t : R) (x : vec) (j : nat) : R := 1 / g * vf t x * (vf t x * rel t x j) + vz x * x j.

Lemma D_vh_t t x : derivable_pt_lim (fun s => v_h s x) t (v_ht t x).
Proof.
  unfold v_h. eapply D_eq.
  { apply D_minus; [|apply D_const]. apply D_minus; [apply D_const|]. apply D_mult; [apply D_scal|]; apply D_vf_t. }
  cbv beta. unfold v_ht. field. lra.
Qed.
Lemma D_vh_x t x j : (j < 2)%nat -> derivable_pt_lim (fun s => v_h t (along x j s)) 0 (v_hx t x j).
Proof.
  intros Hj. unfold v_h. eapply D_eq.
  { apply D_minus; [|apply D_vz; exact Hj]. apply D_minus; [apply D_const|]. apply D_mult; [apply D_scal|]; apply D_vf_x; exact Hj. }
  cbv beta. rewrite along_0. unfold v_hx. field. lra.
Qed.

Definition v_ut (t : R) (x : vec) (i : nat) : R :=
  if Nat.eqb i 0 then - (vf t x * (mach * (x 0%nat - mach * t))) * x 1%nat
  else vf t x * (mach * (x 0%nat - mach * t)) * (x 0%nat - mach * t) - vf t x * mach.
Definition v_ux (t : R) (x : vec) (i j : nat) : R :=
  if Nat.eqb i 0 then vf t x * rel t x j * x 1%nat - vf t x * (if Nat.eqb 1 j then 1 else 0)
  else - (vf t x * rel t x j) * (x 0%nat - mach * t) + vf t x * (if Nat.eqb 0 j then 1 else 0).

Lemma D_vu_t t x i : derivable_pt_lim (fun s => v_u s x i) t (v_ut t x i).
Proof.
  assert (D : derivable_pt_lim (fun s => x 0%nat - mach * s) t (- mach)).
  { eapply D_eq; [apply D_minus; [apply D_const|apply D_scal, D_id]|]. ring. }
  unfold v_u, v_ut. destruct (Nat.eqb i 0).
  - eapply D_eq; [apply D_minus; [apply D_const|apply D_mult; [apply D_vf_t|apply D_const]]|]. cbv beta. ring.
  - eapply D_eq; [apply D_mult; [apply D_vf_t|exact D]|]. cbv beta. ring.
Qed.
Lemma D_vu_x t x i j : (j < 2)%nat -> derivable_pt_lim (fun s => v_u t (along x j s) i) 0 (v_ux t x i j).
Proof.
  intros Hj. pose proof (D_along x 0 j) as D0. pose proof (D_along x 1 j) as D1.
  unfold v_u, v_ux. destruct (Nat.eqb i 0).
  - eapply D_eq; [apply D_minus; [apply D_const|apply D_mult; [apply D_vf_x; exact Hj|exact D1]]|]. cbv beta. rewrite along_0. ring.
  - eapply D_eq; [apply D_mult; [apply D_vf_x; exact Hj|apply D_minus; [exact D0|apply D_const]]|]. cbv beta. rewrite along_0. ring.
Qed.

(** What the mass equation lacks. *)
Definition v_res (t : R) (x : vec) : R := vz x * (mach * (x 0%nat - vf t x * t * x 1%nat)).

Lemma vortex_residual t x : v_h t x <> 0 ->
  let W := fun t x => smooth_vortex g b depth mach beta x t in
  balance_at 2 3 (water_flux g 2)
    (fun k => if Nat.eqb k 0 then v_res t x else v_res t x * v_u t x (k - 1)%nat - g * v_h t x * - (vz x * x (k - 1)%nat)) W t x.
Proof.
  intros N W.
  assert (NE : forall f x0 a, derivable_pt_lim f x0 a -> f x0 <> 0 -> near x0 (fun s => f s <> 0)).
  { intros f x0 a D Nz. destruct (Rlt_dec 0 (f x0)) as [Q|Q].
    - eapply near_mp; [eapply near_pos; [exact D|exact Q]|]. intros s Hs. simpl in Hs. lra.
    - eapply near_mp; [eapply (near_pos (fun s => - f s)); [apply D_opp; exact D|lra]|]. intros s Hs. simpl in Hs. lra. }
  assert (NX : forall j, (j < 2)%nat -> near 0 (fun s => v_h t (along x j s) <> 0)).
  { intros j Hj. eapply (NE (fun s => v_h t (along x j s))); [apply D_vh_x; exact Hj|]. rewrite along_0. exact N. }
  destruct (near_dirs 2 _ NX) as (d & Hd & HN).
  destruct (water_residual g 2 v_h v_u W t x d (v_ht t x) (v_ut t x) (v_hx t x) (v_ux t x) (v_res t x)
    (fun k => - g * v_h t x * - (vz x * x k))) as (dt & dx & H).
  - exact Hd.
  - intros s _. apply vortex_state.
  - intros j s Hj Hs. split; [apply HN; assumption|apply vortex_state].
  - apply D_vh_t.
  - intros i Hi. apply D_vu_t.
  - intros j Hj. apply D_vh_x; exact Hj.
  - intros i j Hi Hj. apply D_vu_x; exact Hj.
  - cbn [rsum]. unfold v_ht, v_hx, v_u, v_ux, rel, v_res. cbn [Nat.eqb]. field. lra.
  - intros k Hk. cbn [rsum]. unfold v_ut, v_hx, v_u, v_ux, rel.
    destruct k as [|[|k]]; [| |lia]; cbn [Nat.eqb]; field; lra.
  - exists dt, dx. intros k Hk. destruct (H k Hk) as (H1 & H2 & H3). split; [exact H1|]. split; [exact H2|].
    rewrite H3. destruct (Nat.eqb k 0); [reflexivity|]. ring.
Qed.
End Vortex.

Lemma vortex_iff g b depth mach beta t x : 0 < g ->
  let W := fun t x => smooth_vortex g b depth mach beta x t in
  W t x 0%nat <> 0 ->
  (solves_shallow_water g 2 (vortex_bathymetry b depth beta) no_friction W t x <-> v_res depth mach beta b t x = 0).
Proof.
  intros Hg W N.
  assert (W0 : W t x 0%nat = v_h g depth mach beta b t x) by (apply (vortex_state g depth mach beta b x t 0%nat); lia).
  rewrite W0 in N. pose proof (vortex_residual g depth mach beta b Hg t x N) as Bal. cbv zeta in Bal. fold W in Bal.
  split.
  - intros (dz & D & Bal2). assert (H3 : (0 < 2 + 1)%nat) by lia. exact (balance_unique _ _ _ _ _ _ _ _ 0%nat H3 Bal Bal2).
  - intros Z. exists (fun j => - (vz depth beta b x * x j)). split; [intros j Hj; apply D_vz; exact Hj|].
    destruct Bal as (dt & dx & H). exists dt, dx. intros k Hk. destruct (H k Hk) as (H1 & H2 & H3).
    split; [exact H1|]. split; [exact H2|]. rewrite H3, Z, W0. unfold no_friction. destruct (Nat.eqb k 0); [reflexivity|]. ring.
Qed.

Lemma C99_vortex_proof g depth mach beta : 0 < g ->
  let W := fun with_bathymetry mach t x => smooth_vortex g with_bathymetry depth mach beta x t in
  let z := fun with_bathymetry => vortex_bathymetry with_bathymetry depth beta in
  forall t x,
    (W false mach t x 0%nat <> 0 -> solves_shallow_water g 2 (z false) no_friction (W false mach) t x) /\
    (W true 0 t x 0%nat <> 0 -> solves_shallow_water g 2 (z true) no_friction (W true 0) t x) /\
    (forall y, z false y = 0).
Proof.
  intros Hg W z t x. split; [|split].
  - intros N. apply (vortex_iff g false depth mach beta t x Hg N). unfold v_res, vz, vortex_bathymetry. ring.
  - intros N. apply (vortex_iff g true depth 0 beta t x Hg N). unfold v_res. ring.
  - reflexivity.
Qed.

Lemma C99_bathymetry_iff_proof g depth mach beta : 0 < g -> depth <> 0 -> beta <> 0 ->
  let W := fun t x => smooth_vortex g true depth mach beta x t in
  let f := fun t (x : vec) => beta / (2 * PI) * exp ((1 - (x 0%nat - mach * t) ^ 2 - x 1%nat ^ 2) / 2) in
  forall t x, W t x 0%nat <> 0 ->
    (solves_shallow_water g 2 (vortex_bathymetry true depth beta) no_friction W t x <->
     mach = 0 \/ x 0%nat = f t x * t * x 1%nat).
Proof.
  intros Hg Hd Hb W f t x N. pose proof (vortex_iff g true depth mach beta t x Hg N) as VI. cbv zeta in VI. fold W in VI. rewrite VI. clear VI.
  assert (F : vf mach beta t x = f t x).
  { unfold vf, f, vortex_factor. f_equal. f_equal. field. }
  assert (Z : vz depth beta true x <> 0).
  { unfold vz, vortex_bathymetry, vortex_factor. pose proof PI_RGT_0 as P.
    apply Rmult_integral_contrapositive_currified; [lra|]. apply Rmult_integral_contrapositive_currified.
    - apply Rmult_integral_contrapositive_currified; [exact Hb|]. apply Rinv_neq_0_compat. lra.
    - apply Rgt_not_eq, exp_pos. }
  unfold v_res. rewrite F. split.
  - intros Q. apply Rmult_integral in Q. destruct Q as [Q|Q]; [contradiction|].
    apply Rmult_integral in Q. destruct Q as [Q|Q]; [left; exact Q|right; lra].
  - intros [->|Q]; [ring|]. rewrite Q at 1. ring.
Qed.

Lemma C99_bathymetry_refuted_proof : exists g depth mach beta t x,
  let W := fun t x => smooth_vortex g true depth mach beta x t in
  0 < g /\ 0 < depth /\ 0 < mach /\ 0 < beta /\ 0 < W t x 0%nat /\
  ~ solves_shallow_water g 2 (vortex_bathymetry true depth beta) no_friction W t x.
Proof.
  exists (981 / 100), 1, 2, (1 / 10), 0, (tensor [1; 0]). cbv zeta.
  assert (P : 0 < PI) by apply PI_RGT_0. assert (P3 : 3 < PI) by (pose proof PI_ineq 0; pose proof PI2_3_2; lra).
  set (W := fun t x => smooth_vortex (981 / 100) true 1 2 (1 / 10) x t).
  assert (W0 : 0 < W 0 (tensor [1; 0]) 0%nat).
  { unfold W. rewrite (vortex_state (981 / 100) 1 2 (1 / 10) true (tensor [1; 0]) 0 0%nat) by lia.
    unfold water_state. cbn [Nat.eqb]. unfold v_h, vz, vortex_bathymetry, vf. rewrite norm2_2.
    unfold tensor. cbn [nth]. replace ((1 - 2 * 0) * (1 - 2 * 0) + 0 * 0) with 1 by ring. replace (1 * 1 + 0 * 0) with 1 by ring.
    unfold vortex_factor. replace (1 / 2 - 1 / 2 * 1) with 0 by ring. rewrite exp_0.
    set (f := 1 / 10 / (2 * PI) * 1). assert (F : 0 < f < 1).
    { unfold f. rewrite Rmult_1_r. split; [apply Rdiv_lt_0_compat; lra|].
      apply (Rmult_lt_reg_r (2 * PI)); [lra|]. replace (1 / 10 / (2 * PI) * (2 * PI)) with (1 / 10) by (field; lra). lra. }
    nra. }
  do 4 (split; [lra|]). split; [exact W0|]. intros Q.
  pose proof (C99_bathymetry_iff_proof (981 / 100) 1 2 (1 / 10) ltac:(lra) ltac:(lra) ltac:(lra) 0 (tensor [1; 0])) as VI.
  cbv zeta in VI. fold W in VI. apply VI in Q; [|lra].
  unfold tensor in Q. cbn [nth] in Q. lra.
Qed.

(** ** Flow down a slope with friction *)
Lemma C100_slope_proof g n slope q dim : 0 < g -> 0 < n -> 0 < slope -> 0 < q -> (1 <= dim)%nat ->
  let W := fun t x => sloping_friction n slope q x t in
  forall t x, 0 < W t x 0%nat /\
    solves_shallow_water g dim (sloping_bathymetry slope) (manning_force g n dim) W t x /\
    W t x 0%nat * W t x 0%nat * powr (W t x 0%nat) (4 / 3) * slope = n * n * (q * q).
Proof.
  intros Hg Hn Hs Hq Hdim W t x.
  set (P := n * n * q * q / slope).
  assert (PP : 0 < P) by (unfold P; apply Rdiv_lt_0_compat; [repeat apply Rmult_lt_0_compat; assumption|lra]).
  set (h := powr P (1 / (2 + 4 / 3))).
  assert (Ph : 0 < h) by (apply powr_gt; exact PP).
  assert (HP : h * h * powr h (4 / 3) = P).
  { rewrite (powr_pos h) by exact Ph. unfold h. rewrite powr_pos by exact PP. rewrite Rpower_mult, <- !Rpower_plus.
    replace (1 / (2 + 4 / 3) + 1 / (2 + 4 / 3) + 1 / (2 + 4 / 3) * (4 / 3)) with 1 by field. apply Rpower_1; exact PP. }
  assert (S0 : forall s y, veq (dim + 1) (W s y) (water_state h (vel0 (q / h)))).
  { intros s y k Hk. unfold W, sloping_friction. fold P h. unfold tensor, water_state, vel0.
    destruct k as [|[|k]]; cbn [nth Nat.eqb Nat.sub]; [reflexivity|field; lra|]. rewrite Rmult_0_r. destruct k; reflexivity. }
  assert (W0 : W t x 0%nat = h) by reflexivity.
  rewrite W0. split; [exact Ph|]. split.
  - apply (water_line g dim _ _ (fun _ _ => h) (fun _ _ => q / h) (fun y => - slope * y) W t x 0 0 0 0 (- slope)).
    + exact Hdim.
    + reflexivity.
    + apply near_all. intros s. apply S0.
    + apply near_all. intros y. split; [lra|]. intros p _. apply S0.
    + apply D_const.
    + apply D_const.
    + apply D_const.
    + apply D_const.
    + eapply D_eq; [apply D_scal, D_id|]. ring.
    + ring.
    + unfold manning_force. rewrite W0. change (W t x 1%nat) with q.
      rewrite (rsum_ext dim _ (fun j => if Nat.eqb 0 j then q * q else 0)).
      2:{ intros j Hj. change (W t x (S j)) with (nth j [q] 0). destruct j as [|j]; cbn [nth Nat.eqb]; [ring|]. destruct j; ring. }
      rewrite (rsum_delta dim (fun _ => q * q) 0) by lia. rewrite sqrt_square by lra.
      assert (PW : 0 < powr h (4 / 3)) by (apply powr_gt; exact Ph).
      transitivity (- g * (h * slope)); [field; lra|].
      replace (h * slope) with (h * h * powr h (4 / 3) * slope / (h * powr h (4 / 3))) by (field; lra).
      rewrite HP. unfold P. field. lra.
    + intros k Hk. unfold manning_force. change (W t x (S k)) with (nth k [q] 0). destruct k as [|k]; [lia|]. cbn [nth].
      assert (PW : 0 < powr h (4 / 3)) by (apply powr_gt; exact Ph). rewrite W0. destruct k; field; lra.
  - rewrite HP. unfold P. field. lra.
Qed.
