(** * Proofs: bathymetries read from images *)
From Coq Require Import Reals ZArith Arith Bool Lia Lra Psatz.
From Verif Require Import RVec SWSystem Geotiff GeotiffSpec.
Local Open Scope R_scope.

Lemma floorz_spec x : IZR (floorz x) <= x < IZR (floorz x) + 1.
Proof. unfold floorz. pose proof (base_Int_part x). lra. Qed.

Lemma ceilz_spec x : IZR (ceilz x) - 1 < x <= IZR (ceilz x).
Proof. unfold ceilz. rewrite opp_IZR. pose proof (base_Int_part (- x)). lra. Qed.

Lemma floorz_IZR z : floorz (IZR z) = z.
Proof.
  pose proof (floorz_spec (IZR z)) as [A B].
  assert (floorz (IZR z) <= z)%Z by (apply le_IZR; exact A).
  assert (z < floorz (IZR z) + 1)%Z by (apply lt_IZR; rewrite plus_IZR; exact B). lia.
Qed.

Lemma floor_ceil x : ceilz x = floorz x /\ x = IZR (floorz x) \/ ceilz x = (floorz x + 1)%Z /\ IZR (floorz x) < x.
Proof.
  pose proof (floorz_spec x) as [A B]. pose proof (ceilz_spec x) as [C D].
  assert (E1 : (floorz x <= ceilz x)%Z) by (apply le_IZR; lra).
  assert (E2 : (ceilz x - 1 < floorz x + 1)%Z) by (apply lt_IZR; rewrite minus_IZR, plus_IZR; lra).
  destruct (Z.eq_dec (ceilz x) (floorz x)) as [E|E].
  - left. split; [exact E|]. rewrite E in *. lra.
  - right. assert (E' : ceilz x = (floorz x + 1)%Z) by lia. split; [exact E'|].
    rewrite E', plus_IZR in C. lra.
Qed.

Lemma tent_0 : tent 0 = 1.
Proof. unfold tent. rewrite Rabs_R0, Rmax_right; lra. Qed.

Lemma tent_out x : 1 <= Rabs x -> tent x = 0.
Proof. intros H. unfold tent. apply Rmax_left. lra. Qed.

Lemma tent_range x : 0 <= tent x <= 1.
Proof. unfold tent. pose proof (Rabs_pos x). split; [apply Rmax_l|]. apply Rmax_lub; lra. Qed.

Lemma tent_lipschitz x y : Rabs (tent x - tent y) <= Rabs (x - y).
Proof.
  unfold tent, Rmax. repeat destruct (Rle_dec _ _); unfold Rabs in *; repeat destruct (Rcase_abs _); lra.
Qed.

Lemma rsum_single n f k : (k < n)%nat -> (forall i, (i < n)%nat -> i <> k -> f i = 0) -> rsum n f = f k.
Proof.
  intros Hk H. induction n as [|n IH]; [lia|]. cbn [rsum]. destruct (Nat.eq_dec k n) as [->|E].
  - rewrite (rsum_ext n f (fun _ => 0)); [rewrite rsum_0; ring|]. intros i Hi. apply H; lia.
  - rewrite IH; [|lia|intros; apply H; lia]. rewrite (H n); [ring|lia|lia].
Qed.

Lemma rsum_pair n f k : (S k < n)%nat -> (forall i, (i < n)%nat -> i <> k -> i <> S k -> f i = 0) -> rsum n f = f k + f (S k).
Proof.
  intros Hk H. induction n as [|n IH]; [lia|]. cbn [rsum]. destruct (Nat.eq_dec (S k) n) as [E|E].
  - subst n. rewrite (rsum_single (S k) f k); [ring|lia|]. intros i Hi Hne. apply H; lia.
  - rewrite IH; [|lia|intros; apply H; lia]. rewrite (H n); [ring|lia|lia|lia].
Qed.

(** One direction. *)
Lemma line_interpolation n v d : 0 <= d <= INR n - 1 ->
  (Z.to_nat (floorz d) <= Z.to_nat (ceilz d))%nat /\ (Z.to_nat (ceilz d) < n)%nat /\ (0 <= floorz d)%Z /\ (ceilz d < Z.of_nat n)%Z /\ (0 <= ceilz d)%Z /\
  v (Z.to_nat (floorz d)) * (1 - fmod1 d) + v (Z.to_nat (ceilz d)) * fmod1 d = rsum n (fun i => v i * tent (d - INR i)).
Proof.
  intros [H0 H1]. pose proof (floorz_spec d) as [A B]. pose proof (ceilz_spec d) as [C D].
  assert (F0 : (0 <= floorz d)%Z) by (assert (-1 < floorz d)%Z by (apply lt_IZR; lra); lia).
  assert (G0 : (0 <= ceilz d)%Z) by (apply le_IZR; lra).
  assert (G1 : (ceilz d < Z.of_nat n)%Z).
  { assert (ceilz d - 1 < Z.of_nat n - 1)%Z; [|lia]. apply lt_IZR. rewrite !minus_IZR, <- INR_IZR_INZ. lra. }
  assert (FF : fmod1 d = d - IZR (floorz d)) by (unfold fmod1; destruct (Rle_dec 0 d); [reflexivity|lra]).
  rewrite FF. set (k := Z.to_nat (floorz d)).
  assert (Ek : IZR (floorz d) = INR k) by (unfold k; rewrite INR_IZR_INZ, Z2Nat.id by exact F0; reflexivity).
  rewrite Ek in *.
  destruct (floor_ceil d) as [[E1 E2]|[E1 E2]].
  - rewrite E1. fold k. assert (Hk : (k < n)%nat) by lia. repeat split; try lia.
    rewrite Ek in E2. rewrite (rsum_single n _ k Hk).
    + rewrite <- E2. replace (d - d) with 0 by ring. rewrite tent_0. ring.
    + intros i Hi Hne. rewrite tent_out; [ring|]. rewrite E2.
      destruct (Nat.lt_total i k) as [L|[L|L]]; [|lia|].
      * assert (INR i + 1 <= INR k) by (rewrite <- S_INR; apply le_INR; lia). rewrite Rabs_pos_eq; lra.
      * assert (INR k + 1 <= INR i) by (rewrite <- S_INR; apply le_INR; lia). rewrite Rabs_left1; lra.
  - assert (Ec : Z.to_nat (ceilz d) = S k) by (unfold k; rewrite E1; lia). rewrite Ec.
    assert (Hk : (S k < n)%nat) by lia. repeat split; try lia.
    rewrite Ek in E2. rewrite (rsum_pair n _ k Hk).
    + assert (T1 : tent (d - INR k) = 1 - (d - INR k)) by (unfold tent; rewrite Rabs_pos_eq by lra; apply Rmax_right; lra).
      assert (T2 : tent (d - INR (S k)) = d - INR k) by (rewrite S_INR; unfold tent; rewrite Rabs_left1 by lra; rewrite Rmax_right by lra; ring).
      rewrite T1, T2. ring.
    + intros i Hi N1 N2. rewrite tent_out; [ring|].
      destruct (Nat.lt_total i k) as [L|[L|L]]; [|lia|].
      * assert (INR i + 1 <= INR k) by (rewrite <- S_INR; apply le_INR; lia). rewrite Rabs_pos_eq; lra.
      * assert (INR k + 1 + 1 <= INR i) by (rewrite <- S_INR, <- S_INR; apply le_INR; lia). rewrite Rabs_left1; lra.
Qed.

Lemma to_unsigned_small n z : (0 <= z)%Z -> (z < Z.of_nat n)%Z -> (Z.of_nat n <= 2147483647)%Z -> to_unsigned z = Some (Z.to_nat z).
Proof. intros A B C. unfold to_unsigned. rewrite (proj2 (Z.leb_le 0 z) A), (proj2 (Z.leb_le z _)) by lia. reflexivity. Qed.

Lemma buffer_pixel img i j : (i < raster_nx img)%nat -> gt_buffer img (i + j * raster_nx img) = pixel img i j.
Proof.
  intros Hi. unfold gt_buffer. rewrite Nat.mod_add, Nat.mod_small, Nat.div_add, Nat.div_small by lia. reflexivity.
Qed.

Lemma sizes_small img : fits img -> (0 < raster_nx img)%nat -> (0 < raster_ny img)%nat ->
  (Z.of_nat (raster_nx img) <= 2147483647)%Z /\ (Z.of_nat (raster_ny img) <= 2147483647)%Z.
Proof. intros [_ H] A B. nia. Qed.

Lemma read_value c img at_ : fits img -> gt_orientation c img = Some at_ ->
  read_in_raster c img = Value {| gr_affine := gt_origin c img at_; gr_inverse := gt_inverse (gt_origin c img at_);
     gr_determinant := gt_origin c img at_ 1%nat * gt_origin c img at_ 5%nat - gt_origin c img at_ 2%nat * gt_origin c img at_ 4%nat;
     gr_nx := raster_nx img; gr_ny := raster_ny img; gr_raster := gt_buffer img |}.
Proof.
  intros [A B] E. unfold read_in_raster. rewrite A, E. cbn [Nat.eqb negb]. unfold int_max. rewrite (proj2 (Z.leb_le _ _) B). reflexivity.
Qed.

Lemma inverse_place t a b : invertible t ->
  let '(x, y) := place t a b in
  gt_inverse t 1%nat * (x - gt_inverse t 0%nat) + gt_inverse t 2%nat * (y - gt_inverse t 3%nat) = a /\
  gt_inverse t 4%nat * (x - gt_inverse t 0%nat) + gt_inverse t 5%nat * (y - gt_inverse t 3%nat) = b.
Proof. intros H. unfold place, gt_inverse, invertible in *. split; field; exact H. Qed.

(** The coefficients in use, in the orientation of the file. *)
Definition gt_map (c : gt_parameters) (img : gt_image) (t : nat -> R) : Prop :=
  exists at_, gt_orientation c img = Some at_ /\ t = gt_origin c img at_.

Lemma interpolation_value c img t dim point a b : fits img -> gt_map c img t -> invertible t ->
  within (raster_nx img) (raster_ny img) a b ->
  (point 0%nat, if Nat.leb 2 dim then point 1%nat else 0) = place t a b ->
  compute_bathymetry c img dim point = Value (bilinear (raster_nx img) (raster_ny img) (pixel img) a b).
Proof.
  intros HF (at_ & E & ->) HI [Ha Hb] HP. unfold compute_bathymetry. rewrite (read_value c img at_ HF E).
  unfold gt_interpolate. cbn [gr_determinant gr_nx gr_ny gr_raster].
  destruct (Req_EM_T _ 0) as [Z|_]; [contradiction|].
  pose proof (inverse_place _ a b HI) as P. unfold apply_inverse_transformation. cbn [gr_inverse].
  set (yy := if Nat.leb 2 dim then point 1%nat else 0) in *.
  destruct (place (gt_origin c img at_) a b) as [x y] eqn:EP. pose proof (f_equal fst HP) as H0. pose proof (f_equal snd HP) as H1. cbn [fst snd] in H0, H1. rewrite H0, H1. destruct P as [P1 P2]. rewrite P1, P2.
  assert (Nx : (0 < raster_nx img)%nat) by (destruct (raster_nx img); [cbn in Ha; lra|lia]).
  assert (Ny : (0 < raster_ny img)%nat) by (destruct (raster_ny img); [cbn in Hb; lra|lia]).
  destruct (sizes_small img HF Nx Ny) as [Sx Sy].
  destruct (line_interpolation (raster_nx img) (fun _ => 0) a Ha) as (X1 & X2 & X3 & X4 & X5 & _).
  destruct (line_interpolation (raster_ny img) (fun j => rsum (raster_nx img) (fun i => pixel img i j * tent (a - INR i))) b Hb) as (Y1 & Y2 & Y3 & Y4 & Y5 & Y6).
  assert (FC : forall d, (floorz d <= ceilz d)%Z) by (intros d; destruct (floor_ceil d) as [[-> _]|[-> _]]; lia).
  pose proof (FC a). pose proof (FC b).
  rewrite !(to_unsigned_small (raster_nx img)), !(to_unsigned_small (raster_ny img)) by lia.
  rewrite (proj2 (Nat.leb_le _ _) X1), (proj2 (Nat.ltb_lt _ _) X2), (proj2 (Nat.leb_le _ _) Y1), (proj2 (Nat.ltb_lt _ _) Y2). cbn [andb].
  f_equal. rewrite !buffer_pixel by lia.
  unfold bilinear. rewrite <- Y6.
  destruct (line_interpolation (raster_nx img) (fun i => pixel img i (Z.to_nat (floorz b))) a Ha) as (_ & _ & _ & _ & _ & L1).
  destruct (line_interpolation (raster_nx img) (fun i => pixel img i (Z.to_nat (ceilz b))) a Ha) as (_ & _ & _ & _ & _ & L2).
  cbn beta in L1, L2. rewrite L1, L2. reflexivity.
Qed.

(** Bilinear interpolation at a pixel, of constants, affine functions, range, continuity. *)
Lemma tent_node n v k : (k < n)%nat -> rsum n (fun i => v i * tent (INR k - INR i)) = v k.
Proof.
  intros Hk. rewrite (rsum_single n _ k Hk).
  - replace (INR k - INR k) with 0 by ring. rewrite tent_0. ring.
  - intros i Hi Hne. rewrite tent_out; [ring|].
    destruct (Nat.lt_total i k) as [L|[L|L]]; [|lia|].
    + assert (INR i + 1 <= INR k) by (rewrite <- S_INR; apply le_INR; lia). rewrite Rabs_pos_eq; lra.
    + assert (INR k + 1 <= INR i) by (rewrite <- S_INR; apply le_INR; lia). rewrite Rabs_left1; lra.
Qed.

Lemma bilinear_node nx ny v i j : (i < nx)%nat -> (j < ny)%nat -> bilinear nx ny v (INR i) (INR j) = v i j.
Proof.
  intros Hi Hj. unfold bilinear. rewrite (tent_node ny (fun j0 => rsum nx (fun i0 => v i0 j0 * tent (INR i - INR i0))) j Hj).
  apply (tent_node nx (fun i0 => v i0 j) i Hi).
Qed.

Lemma tent_affine n p q d : 0 <= d <= INR n - 1 -> rsum n (fun i => (p + q * INR i) * tent (d - INR i)) = p + q * d.
Proof.
  intros H. destruct (line_interpolation n (fun i => p + q * INR i) d H) as (_ & _ & X3 & X4 & X5 & <-).
  rewrite !INR_IZR_INZ, !Z2Nat.id by lia. unfold fmod1. destruct (Rle_dec 0 d); [|lra].
  destruct (floor_ceil d) as [[E1 E2]|[E1 E2]]; rewrite E1.
  - assert (K : p + q * d = p + q * IZR (floorz d)) by (rewrite <- E2; reflexivity). rewrite K. ring.
  - rewrite plus_IZR. ring.
Qed.

Lemma tent_constant n c d : 0 <= d <= INR n - 1 -> rsum n (fun i => c * tent (d - INR i)) = c.
Proof.
  intros H. pose proof (tent_affine n c 0 d H) as K. replace (c + 0 * d) with c in K by ring.
  etransitivity; [|exact K]. apply rsum_ext. intros; ring.
Qed.

Lemma bilinear_affine nx ny v p q r a b : within nx ny a b ->
  (forall i j, (i < nx)%nat -> (j < ny)%nat -> v i j = p + q * INR i + r * INR j) ->
  bilinear nx ny v a b = p + q * a + r * b.
Proof.
  intros [Ha Hb] H. unfold bilinear. rewrite <- (tent_affine ny (p + q * a) r b Hb). apply rsum_ext. intros j Hj. f_equal.
  replace (p + q * a + r * INR j) with ((p + r * INR j) + q * a) by ring. rewrite <- (tent_affine nx (p + r * INR j) q a Ha).
  apply rsum_ext. intros i Hi. rewrite H by assumption. ring.
Qed.

Lemma rsum_le n f g : (forall k, (k < n)%nat -> f k <= g k) -> rsum n f <= rsum n g.
Proof. intros H. induction n as [|n IH]; cbn [rsum]; [lra|]. pose proof (H n ltac:(lia)). assert (rsum n f <= rsum n g) by (apply IH; intros; apply H; lia). lra. Qed.

Lemma bilinear_range nx ny v a b lo hi : within nx ny a b ->
  (forall i j, (i < nx)%nat -> (j < ny)%nat -> lo <= v i j <= hi) -> lo <= bilinear nx ny v a b <= hi.
Proof.
  intros [Ha Hb] H.
  assert (W : forall j, (j < ny)%nat -> lo <= rsum nx (fun i => v i j * tent (a - INR i)) <= hi).
  { intros j Hj. assert (K : forall c, rsum nx (fun i => c * tent (a - INR i)) = c).
    { intros c. apply tent_constant. exact Ha. }
    split.
    - rewrite <- (K lo). apply rsum_le. intros i Hi. apply Rmult_le_compat_r; [apply tent_range|apply H; assumption].
    - rewrite <- (K hi). apply rsum_le. intros i Hi. apply Rmult_le_compat_r; [apply tent_range|apply H; assumption]. }
  assert (K : forall c, rsum ny (fun j => c * tent (b - INR j)) = c).
  { intros c. apply tent_constant. exact Hb. }
  unfold bilinear. split.
  - rewrite <- (K lo). apply rsum_le. intros j Hj. apply Rmult_le_compat_r; [apply tent_range|apply W; assumption].
  - rewrite <- (K hi). apply rsum_le. intros j Hj. apply Rmult_le_compat_r; [apply tent_range|apply W; assumption].
Qed.

Lemma rsum_abs n f : Rabs (rsum n f) <= rsum n (fun k => Rabs (f k)).
Proof.
  induction n as [|n IH]; cbn [rsum]; [rewrite Rabs_R0; lra|]. eapply Rle_trans; [apply Rabs_triang|]. lra.
Qed.

Lemma rsum_minus n f g : rsum n f - rsum n g = rsum n (fun k => f k - g k).
Proof. induction n as [|n IH]; cbn [rsum]; [ring|]. rewrite <- IH. ring. Qed.

Lemma bilinear_continuous nx ny v a b a' b' :
  Rabs (bilinear nx ny v a b - bilinear nx ny v a' b') <=
  rsum ny (fun j => rsum nx (fun i => Rabs (v i j))) * (Rabs (a - a') + Rabs (b - b')).
Proof.
  unfold bilinear. rewrite rsum_minus. eapply Rle_trans; [apply rsum_abs|].
  rewrite Rmult_comm, <- rsum_scal. apply rsum_le. intros j Hj.
  rewrite <- rsum_scal.
  replace (rsum nx (fun i => v i j * tent (a - INR i)) * tent (b - INR j) - rsum nx (fun i => v i j * tent (a' - INR i)) * tent (b' - INR j))
    with (rsum nx (fun i => v i j * (tent (a - INR i) * tent (b - INR j) - tent (a' - INR i) * tent (b' - INR j)))).
  2: { rewrite (Rmult_comm (rsum nx (fun i => v i j * tent (a - INR i)))), (Rmult_comm (rsum nx (fun i => v i j * tent (a' - INR i)))).
       rewrite <- !rsum_scal, rsum_minus. apply rsum_ext. intros; ring. }
  eapply Rle_trans; [apply rsum_abs|]. apply rsum_le. intros i Hi. rewrite Rabs_mult, Rmult_comm.
  apply Rmult_le_compat_r; [apply Rabs_pos|].
  replace (tent (a - INR i) * tent (b - INR j) - tent (a' - INR i) * tent (b' - INR j)) with
    ((tent (a - INR i) - tent (a' - INR i)) * tent (b - INR j) + tent (a' - INR i) * (tent (b - INR j) - tent (b' - INR j))) by ring.
  eapply Rle_trans; [apply Rabs_triang|]. rewrite !Rabs_mult.
  pose proof (tent_lipschitz (a - INR i) (a' - INR i)) as L1. pose proof (tent_lipschitz (b - INR j) (b' - INR j)) as L2.
  replace (a - INR i - (a' - INR i)) with (a - a') in L1 by ring. replace (b - INR j - (b' - INR j)) with (b - b') in L2 by ring.
  pose proof (tent_range (b - INR j)) as T1. pose proof (tent_range (a' - INR i)) as T2.
  rewrite (Rabs_pos_eq (tent (b - INR j))), (Rabs_pos_eq (tent (a' - INR i))) by lra.
  pose proof (Rabs_pos (tent (a - INR i) - tent (a' - INR i))). pose proof (Rabs_pos (tent (b - INR j) - tent (b' - INR j))). nra.
Qed.
