(** * Proofs: statements about bathymetries read from images *)
From Coq Require Import Reals ZArith Arith Bool Lia Lra Psatz FunctionalExtensionality.
From Verif Require Import RVec SWSystem Geotiff GeotiffSpec GeotiffProofs.
Local Open Scope R_scope.

Lemma rsum_first n f : rsum (S n) f = f 0%nat + rsum n (fun k => f (S k)).
Proof.
  induction n as [|n IH]; [cbn [rsum]; ring|]. change (rsum (S (S n)) f) with (rsum (S n) f + f (S n)). rewrite IH. cbn [rsum]. ring.
Qed.

Lemma rsum_reverse n f : rsum n (fun j => f (n - 1 - j)%nat) = rsum n f.
Proof.
  induction n as [|n IH]; [reflexivity|].
  rewrite rsum_first. cbn [rsum]. rewrite <- IH.
  replace (S n - 1 - 0)%nat with n by lia. rewrite Rplus_comm. f_equal. apply rsum_ext. intros j Hj. f_equal. lia.
Qed.

Lemma bilinear_flip nx ny v a b :
  bilinear nx ny v a (INR ny - 1 - b) = bilinear nx ny (fun i j => v i (ny - 1 - j)%nat) a b.
Proof.
  unfold bilinear. rewrite <- (rsum_reverse ny (fun j => rsum nx (fun i => v i j * tent (a - INR i)) * tent (INR ny - 1 - b - INR j))).
  apply rsum_ext. intros j Hj. f_equal. unfold tent. do 2 f_equal.
  rewrite !minus_INR by lia. cbn [INR]. replace (INR ny - 1 - b - (INR ny - 1 - INR j)) with (- (b - INR j)) by ring. apply Rabs_Ropp.
Qed.

(** The map in the orientation of the file. *)
Lemma ground_map c img m : ground c img = Some m ->
  exists t, gt_map c img t /\ (invertible m <-> invertible t) /\
            (forall a b, place m a b = place t a (INR (raster_ny img) - 1 - b)).
Proof.
  unfold ground, gt_map, gt_orientation. destruct (use_geotiff c) eqn:EU.
  - destruct (geo_transform img) as [g|] eqn:EG; [|discriminate]. intros E. injection E as <-.
    exists (gt_origin c img g). split; [exists g; split; reflexivity|].
    unfold gt_origin. rewrite EU. cbn [negb orb]. destruct (use_geotiff_origin c); cbn [negb].
    + split.
      * unfold invertible. split; intros H K; apply H; lra.
      * intros a b. unfold place. cbn [Nat.add]. f_equal; ring.
    + split.
      * unfold invertible. cbn [Nat.eqb]. split; intros H K; apply H; lra.
      * intros a b. unfold place. cbn [Nat.eqb]. f_equal; ring.
  - intros E. injection E as <-. eexists. split; [eexists; split; reflexivity|].
    unfold gt_origin. rewrite EU. cbn [negb orb]. split.
    + unfold invertible. cbn [Nat.eqb orb]. split; intros H K; apply H; lra.
    + intros a b. unfold place. cbn [Nat.eqb orb]. f_equal; ring.
Qed.

Lemma located_pair dim point xy : located dim point xy <-> (point 0%nat, if Nat.leb 2 dim then point 1%nat else 0) = xy.
Proof.
  unfold located. destruct xy as [x y]. cbn [fst snd].
  assert (E : (if Nat.ltb dim 2 then 0 else point 1%nat) = (if Nat.leb 2 dim then point 1%nat else 0)).
  { destruct (Nat.ltb_spec dim 2), (Nat.leb_spec 2 dim); try lia; reflexivity. }
  rewrite E. split; [intros [-> ->]; reflexivity|]. intros H. split; [exact (f_equal fst H)|exact (f_equal snd H)].
Qed.

Lemma C130_value_proof c img m dim point a b :
  fits img -> ground c img = Some m -> invertible m -> within (raster_nx img) (raster_ny img) a b ->
  located dim point (place m a b) ->
  compute_bathymetry c img dim point = Value (bilinear (raster_nx img) (raster_ny img) (upright img) a b) /\
  gt_initial_precomputations c img dim point = compute_bathymetry c img dim point.
Proof.
  intros HF HG HI [Ha Hb] HL. split; [|reflexivity]. destruct (ground_map c img m HG) as (t & HM & HV & HP).
  rewrite HP in HL. apply located_pair in HL.
  rewrite (interpolation_value c img t dim point a (INR (raster_ny img) - 1 - b) HF HM (proj1 HV HI)); [|split; lra|exact HL].
  f_equal. apply bilinear_flip.
Qed.

Lemma C130_pixel_proof c img m dim point i j :
  fits img -> ground c img = Some m -> invertible m -> (i < raster_nx img)%nat -> (j < raster_ny img)%nat ->
  located dim point (place m (INR i) (INR j)) ->
  compute_bathymetry c img dim point = Value (upright img i j).
Proof.
  intros HF HG HI Hi Hj HL.
  destruct (C130_value_proof c img m dim point (INR i) (INR j) HF HG HI) as [E _]; [|exact HL|].
  - assert (INR i + 1 <= INR (raster_nx img)) by (rewrite <- S_INR; apply le_INR; lia).
    assert (INR j + 1 <= INR (raster_ny img)) by (rewrite <- S_INR; apply le_INR; lia).
    pose proof (pos_INR i). pose proof (pos_INR j). split; lra.
  - rewrite E. f_equal. apply bilinear_node; assumption.
Qed.

Lemma upright_bounds img lo hi : (forall i k, (i < raster_nx img)%nat -> (k < raster_ny img)%nat -> lo <= pixel img i k <= hi) ->
  forall i j, (i < raster_nx img)%nat -> (j < raster_ny img)%nat -> lo <= upright img i j <= hi.
Proof. intros H i j Hi Hj. apply H; [exact Hi|lia]. Qed.

(** Every point on the ground is the image of one pair. *)
Lemma place_onto m x y : invertible m -> exists a b, (x, y) = place m a b.
Proof.
  intros H. unfold invertible in H.
  exists ((m 5%nat * (x - m 0%nat) - m 2%nat * (y - m 3%nat)) / (m 1%nat * m 5%nat - m 2%nat * m 4%nat)).
  exists ((m 1%nat * (y - m 3%nat) - m 4%nat * (x - m 0%nat)) / (m 1%nat * m 5%nat - m 2%nat * m 4%nat)).
  unfold place. f_equal; field; exact H.
Qed.

Lemma unsigned_none z : (z < 0)%Z \/ (4294967295 < z)%Z -> to_unsigned z = None.
Proof. intros H. unfold to_unsigned. destruct (Z.leb_spec 0 z), (Z.leb_spec z 4294967295); cbn; try reflexivity; lia. Qed.

Lemma unsigned_some z : (0 <= z)%Z -> (z <= 4294967295)%Z -> to_unsigned z = Some (Z.to_nat z).
Proof. intros A B. unfold to_unsigned. rewrite (proj2 (Z.leb_le _ _) A), (proj2 (Z.leb_le _ _) B). reflexivity. Qed.

Lemma floor_nonneg d : 0 <= d -> (0 <= floorz d)%Z.
Proof. intros H. pose proof (floorz_spec d) as [A B]. assert (-1 < floorz d)%Z by (apply lt_IZR; lra). lia. Qed.

Lemma floor_neg d : d < 0 -> (floorz d < 0)%Z.
Proof. intros H. pose proof (floorz_spec d). apply lt_IZR. lra. Qed.

Lemma ceil_le d z : d <= IZR z -> (ceilz d <= z)%Z.
Proof. intros H. pose proof (ceilz_spec d) as [A B]. assert (ceilz d - 1 < z)%Z by (apply lt_IZR; rewrite minus_IZR; lra). lia. Qed.

Lemma ceil_gt d z : IZR z < d -> (z < ceilz d)%Z.
Proof. intros H. pose proof (ceilz_spec d). apply lt_IZR. lra. Qed.

Lemma floor_le_ceil d : (floorz d <= ceilz d)%Z.
Proof. destruct (floor_ceil d) as [[-> _]|[-> _]]; lia. Qed.

(** What happens at all points, in the orientation of the file. *)
Lemma outcome_file c img t dim point a b : fits img -> gt_map c img t -> invertible t ->
  (point 0%nat, if Nat.leb 2 dim then point 1%nat else 0) = place t a b ->
  (0 <= a <= 4294967295 -> 0 <= b <= 4294967295 -> ~ within (raster_nx img) (raster_ny img) a b ->
     compute_bathymetry c img dim point = Exception) /\
  (a < 0 \/ b < 0 \/ 4294967295 < a \/ 4294967295 < b -> compute_bathymetry c img dim point = Undefined).
Proof.
  intros HF (at_ & E & ->) HI HP. unfold compute_bathymetry. rewrite (read_value c img at_ HF E).
  unfold gt_interpolate. cbn [gr_determinant gr_nx gr_ny gr_raster].
  destruct (Req_EM_T _ 0) as [Z|_]; [contradiction|].
  pose proof (inverse_place _ a b HI) as P. unfold apply_inverse_transformation. cbn [gr_inverse].
  set (yy := if Nat.leb 2 dim then point 1%nat else 0) in *.
  destruct (place (gt_origin c img at_) a b) as [x y] eqn:EP.
  pose proof (f_equal fst HP) as H0. pose proof (f_equal snd HP) as H1. cbn [fst snd] in H0, H1. rewrite H0, H1.
  destruct P as [P1 P2]. rewrite P1, P2. clear P1 P2 H0 H1 EP HP yy. split.
  - intros Ha Hb Hw.
    pose proof (floor_nonneg a ltac:(lra)). pose proof (floor_nonneg b ltac:(lra)). pose proof (floor_le_ceil a). pose proof (floor_le_ceil b).
    pose proof (ceil_le a 4294967295 ltac:(lra)). pose proof (ceil_le b 4294967295 ltac:(lra)).
    rewrite !unsigned_some by lia.
    destruct (_ && _ && _ && _)%bool eqn:EB; [|reflexivity]. exfalso. apply Hw.
    apply andb_true_iff in EB as [EB B4]. apply andb_true_iff in EB as [EB B3]. apply andb_true_iff in EB as [B1 B2].
    apply Nat.ltb_lt in B2, B4. pose proof (ceilz_spec a) as [_ C1]. pose proof (ceilz_spec b) as [_ C2].
    split; split; try lra.
    + assert (IZR (ceilz a) <= INR (raster_nx img) - 1); [|lra]. rewrite INR_IZR_INZ, <- minus_IZR. apply IZR_le. lia.
    + assert (IZR (ceilz b) <= INR (raster_ny img) - 1); [|lra]. rewrite INR_IZR_INZ, <- minus_IZR. apply IZR_le. lia.
  - intros [H|[H|[H|H]]].
    + rewrite (unsigned_none (floorz a)) by (left; apply floor_neg; exact H). reflexivity.
    + rewrite (unsigned_none (floorz b)) by (left; apply floor_neg; exact H). destruct (to_unsigned (floorz a)), (to_unsigned (ceilz a)); reflexivity.
    + rewrite (unsigned_none (ceilz a)) by (right; apply ceil_gt; exact H). destruct (to_unsigned (floorz a)); reflexivity.
    + rewrite (unsigned_none (ceilz b)) by (right; apply ceil_gt; exact H). destruct (to_unsigned (floorz a)), (to_unsigned (ceilz a)), (to_unsigned (floorz b)); reflexivity.
Qed.

(** A value is only returned inside of the image and lies between the pixels. *)
Lemma C130_range_proof c img m dim point z lo hi :
  fits img -> ground c img = Some m -> invertible m ->
  (forall i k, (i < raster_nx img)%nat -> (k < raster_ny img)%nat -> lo <= pixel img i k <= hi) ->
  compute_bathymetry c img dim point = Value z ->
  lo <= z <= hi /\ exists a b, within (raster_nx img) (raster_ny img) a b /\ located dim point (place m a b).
Proof.
  intros HF HG HI HB HV. destruct (place_onto m (point 0%nat) (if Nat.ltb dim 2 then 0 else point 1%nat) HI) as (a & b & E).
  assert (HL : located dim point (place m a b)) by (rewrite <- E; split; reflexivity).
  destruct (ground_map c img m HG) as (t & HM & HJ & HP).
  assert (HL' := HL). rewrite HP in HL'. apply located_pair in HL'.
  destruct (outcome_file c img t dim point a _ HF HM (proj1 HJ HI) HL') as [O1 O2].
  assert (HW : within (raster_nx img) (raster_ny img) a b).
  { destruct (Rlt_dec a 0) as [A1|A1]; [rewrite O2 in HV by (left; exact A1); discriminate|].
    destruct (Rlt_dec (INR (raster_ny img) - 1 - b) 0) as [A2|A2]; [rewrite O2 in HV by (right; left; exact A2); discriminate|].
    destruct (Rlt_dec 4294967295 a) as [A3|A3]; [rewrite O2 in HV by (right; right; left; exact A3); discriminate|].
    destruct (Rlt_dec 4294967295 (INR (raster_ny img) - 1 - b)) as [A4|A4]; [rewrite O2 in HV by (right; right; right; exact A4); discriminate|].
    assert (D : within (raster_nx img) (raster_ny img) a (INR (raster_ny img) - 1 - b) \/ ~ within (raster_nx img) (raster_ny img) a (INR (raster_ny img) - 1 - b)).
    { unfold within. destruct (Rle_dec 0 a), (Rle_dec a (INR (raster_nx img) - 1)), (Rle_dec 0 (INR (raster_ny img) - 1 - b)), (Rle_dec (INR (raster_ny img) - 1 - b) (INR (raster_ny img) - 1)); try (right; lra). left. lra. }
    destruct D as [D|D]; [destruct D; split; lra|]. rewrite O1 in HV by (try exact D; lra). discriminate. }
  destruct (C130_value_proof c img m dim point a b HF HG HI HW HL) as [EV _]. rewrite EV in HV. injection HV as <-.
  split; [|exists a, b; split; assumption].
  apply bilinear_range; [exact HW|]. apply upright_bounds, HB.
Qed.

(** Ground elevations that are affine functions are reproduced everywhere. *)
Lemma C130_affine_proof c img m dim point a b p q r :
  fits img -> ground c img = Some m -> invertible m -> within (raster_nx img) (raster_ny img) a b ->
  located dim point (place m a b) ->
  (forall i j, (i < raster_nx img)%nat -> (j < raster_ny img)%nat ->
     upright img i j = p + q * fst (place m (INR i) (INR j)) + r * snd (place m (INR i) (INR j))) ->
  compute_bathymetry c img dim point = Value (p + q * fst (place m a b) + r * snd (place m a b)).
Proof.
  intros HF HG HI HW HL HA. destruct (C130_value_proof c img m dim point a b HF HG HI HW HL) as [-> _]. f_equal.
  rewrite (bilinear_affine _ _ _ (p + q * m 0%nat + r * m 3%nat) (q * m 1%nat + r * m 4%nat) (q * m 2%nat + r * m 5%nat) a b HW).
  - unfold place. cbn [fst snd]. ring.
  - intros i j Hi Hj. rewrite HA by assumption. unfold place. cbn [fst snd]. ring.
Qed.

(** Lipschitz continuity on the ground. *)
Lemma C130_continuous_proof c img m : fits img -> ground c img = Some m -> invertible m ->
  exists L, 0 <= L /\ forall dim P Q z w,
    compute_bathymetry c img dim P = Value z -> compute_bathymetry c img dim Q = Value w ->
    Rabs (z - w) <= L * (Rabs (P 0%nat - Q 0%nat) + Rabs (P 1%nat - Q 1%nat)).
Proof.
  intros HF HG HI.
  set (V := rsum (raster_ny img) (fun j => rsum (raster_nx img) (fun i => Rabs (upright img i j)))).
  assert (HV : 0 <= V) by (apply rsum_nonneg; intros; apply rsum_nonneg; intros; apply Rabs_pos).
  set (D := m 1%nat * m 5%nat - m 2%nat * m 4%nat) in *. assert (HD : D <> 0) by exact HI.
  set (N := (Rabs (m 1%nat) + Rabs (m 2%nat) + Rabs (m 4%nat) + Rabs (m 5%nat)) / Rabs D).
  assert (AD : 0 < Rabs D) by (apply Rabs_pos_lt; exact HD).
  assert (HN : 0 <= N).
  { unfold N. apply Rmult_le_pos; [|left; apply Rinv_0_lt_compat; exact AD].
    pose proof (Rabs_pos (m 1%nat)). pose proof (Rabs_pos (m 2%nat)). pose proof (Rabs_pos (m 4%nat)). pose proof (Rabs_pos (m 5%nat)). lra. }
  exists (V * N). split; [apply Rmult_le_pos; assumption|].
  intros dim P Q z w HP HQ.
  assert (B : forall lo hi, (forall i k, (i < raster_nx img)%nat -> (k < raster_ny img)%nat -> lo <= pixel img i k <= hi) -> True) by auto.
  assert (EX : exists M, forall i k, (i < raster_nx img)%nat -> (k < raster_ny img)%nat -> - M <= pixel img i k <= M).
  { clear. assert (K : forall n (f : nat -> R), exists M, 0 <= M /\ forall i, (i < n)%nat -> Rabs (f i) <= M).
    { intros n f. exists (rsum n (fun i => Rabs (f i))). split; [apply rsum_nonneg; intros; apply Rabs_pos|].
      induction n as [|n IH]; intros i Hi; [lia|]. cbn [rsum]. pose proof (Rabs_pos (f n)).
      assert (0 <= rsum n (fun i0 => Rabs (f i0))) by (apply rsum_nonneg; intros; apply Rabs_pos).
      destruct (Nat.eq_dec i n) as [->|Ne]; [lra|]. pose proof (IH i ltac:(lia)). lra. }
    assert (K2 : forall ny nx (f : nat -> nat -> R), exists M, 0 <= M /\ forall i k, (i < nx)%nat -> (k < ny)%nat -> Rabs (f i k) <= M).
    { induction ny as [|ny IH]; intros nx f; [exists 0; split; [lra|intros; lia]|].
      destruct (IH nx f) as (M1 & N1 & H1). destruct (K nx (fun i => f i ny)) as (M2 & N2 & H2).
      exists (M1 + M2). split; [lra|]. intros i k Hi Hk. destruct (Nat.eq_dec k ny) as [->|Ne].
      - pose proof (H2 i Hi). cbn beta in *. lra.
      - pose proof (H1 i k Hi ltac:(lia)). lra. }
    destruct (K2 (raster_ny img) (raster_nx img) (pixel img)) as (M & _ & HM). exists M. intros i k Hi Hk.
    pose proof (HM i k Hi Hk) as A. unfold Rabs in A. destruct (Rcase_abs _); lra. }
  destruct EX as [M HM].
  destruct (C130_range_proof c img m dim P z (- M) M HF HG HI HM HP) as (_ & a & b & W1 & L1).
  destruct (C130_range_proof c img m dim Q w (- M) M HF HG HI HM HQ) as (_ & a' & b' & W2 & L2).
  destruct (C130_value_proof c img m dim P a b HF HG HI W1 L1) as [E1 _].
  destruct (C130_value_proof c img m dim Q a' b' HF HG HI W2 L2) as [E2 _].
  rewrite E1 in HP. rewrite E2 in HQ. injection HP as <-. injection HQ as <-. clear B M HM E1 E2 W1 W2.
  eapply Rle_trans; [apply bilinear_continuous|]. fold V. rewrite Rmult_assoc. apply Rmult_le_compat_l; [exact HV|].
  set (dx := P 0%nat - Q 0%nat) in *. set (dy := (if Nat.ltb dim 2 then 0 else P 1%nat) - (if Nat.ltb dim 2 then 0 else Q 1%nat)).
  assert (DY : Rabs dy <= Rabs (P 1%nat - Q 1%nat)).
  { unfold dy. destruct (Nat.ltb dim 2); [replace (0 - 0) with 0 by ring; rewrite Rabs_R0; apply Rabs_pos|lra]. }
  destruct L1 as [X1 Y1]. destruct L2 as [X2 Y2]. unfold place in *. cbn [fst snd] in *.
  assert (EX : dx = m 1%nat * (a - a') + m 2%nat * (b - b')) by (unfold dx; rewrite X1, X2; ring).
  assert (EY : dy = m 4%nat * (a - a') + m 5%nat * (b - b')) by (unfold dy; rewrite Y1, Y2; ring).
  clearbody dx dy. clear X1 X2 Y1 Y2.
  assert (EA : a - a' = (m 5%nat * dx - m 2%nat * dy) / D) by (rewrite EX, EY; unfold D; field; exact HD).
  assert (EB : b - b' = (m 1%nat * dy - m 4%nat * dx) / D) by (rewrite EX, EY; unfold D; field; exact HD).
  rewrite EA, EB. unfold Rdiv at 1 2. rewrite !Rabs_mult, Rabs_inv.
  assert (TA : Rabs (m 5%nat * dx - m 2%nat * dy) <= Rabs (m 5%nat) * Rabs dx + Rabs (m 2%nat) * Rabs dy).
  { eapply Rle_trans; [apply Rabs_triang|]. rewrite Rabs_Ropp, !Rabs_mult. lra. }
  assert (TB : Rabs (m 1%nat * dy - m 4%nat * dx) <= Rabs (m 1%nat) * Rabs dy + Rabs (m 4%nat) * Rabs dx).
  { eapply Rle_trans; [apply Rabs_triang|]. rewrite Rabs_Ropp, !Rabs_mult. lra. }
  rewrite <- Rmult_plus_distr_r. unfold N, Rdiv.
  rewrite (Rmult_assoc _ (/ Rabs D)), (Rmult_comm (/ Rabs D)), <- Rmult_assoc.
  apply Rmult_le_compat_r; [left; apply Rinv_0_lt_compat; exact AD|].
  pose proof (Rabs_pos (m 1%nat)). pose proof (Rabs_pos (m 2%nat)). pose proof (Rabs_pos (m 4%nat)). pose proof (Rabs_pos (m 5%nat)).
  pose proof (Rabs_pos dx). pose proof (Rabs_pos dy).
  set (m1 := Rabs (m 1%nat)) in *. set (m2 := Rabs (m 2%nat)) in *. set (m4 := Rabs (m 4%nat)) in *. set (m5 := Rabs (m 5%nat)) in *.
  apply Rle_trans with ((m1 + m2 + m4 + m5) * (Rabs dx + Rabs dy)).
  - nra.
  - apply Rmult_le_compat_l; lra.
Qed.

(** Beyond the right or the lower edge the exception is raised. *)
Lemma C130_outside_partial_proof c img m dim point a b :
  fits img -> ground c img = Some m -> invertible m -> located dim point (place m a b) ->
  0 <= a <= 4294967295 -> 0 <= INR (raster_ny img) - 1 - b <= 4294967295 ->
  ~ within (raster_nx img) (raster_ny img) a b ->
  compute_bathymetry c img dim point = Exception.
Proof.
  intros HF HG HI HL Ha Hb HW. destruct (ground_map c img m HG) as (t & HM & HJ & HP).
  rewrite HP in HL. apply located_pair in HL.
  destruct (outcome_file c img t dim point a _ HF HM (proj1 HJ HI) HL) as [O1 _]. apply O1; [lra|lra|].
  intros [W1 W2]. apply HW. split; lra.
Qed.

(** Left of the image or above it the conversion to unsigned int is undefined. *)
Lemma C130_undefined_proof c img m dim point a b :
  fits img -> ground c img = Some m -> invertible m -> located dim point (place m a b) ->
  a < 0 \/ INR (raster_ny img) - 1 < b ->
  compute_bathymetry c img dim point = Undefined.
Proof.
  intros HF HG HI HL H. destruct (ground_map c img m HG) as (t & HM & HJ & HP).
  rewrite HP in HL. apply located_pair in HL.
  destruct (outcome_file c img t dim point a _ HF HM (proj1 HJ HI) HL) as [_ O2]. apply O2. destruct H; [left|right; left]; lra.
Qed.

Lemma C130_file_proof c img dim point :
  (raster_count img <> 1%nat -> compute_bathymetry c img dim point = Exception) /\
  (fits img -> use_geotiff c = true -> geo_transform img = None -> compute_bathymetry c img dim point = Exception) /\
  (raster_count img = 1%nat -> (2147483647 < Z.of_nat (raster_nx img) * Z.of_nat (raster_ny img))%Z ->
     compute_bathymetry c img dim point = Undefined) /\
  (forall m, ground c img = Some m -> fits img -> ~ invertible m -> compute_bathymetry c img dim point = Undefined).
Proof.
  unfold compute_bathymetry. repeat split.
  - intros H. unfold read_in_raster. rewrite (proj2 (Nat.eqb_neq _ _) H). reflexivity.
  - intros [H1 H2] H3 H4. unfold read_in_raster. rewrite H1. cbn [Nat.eqb negb]. unfold int_max. rewrite (proj2 (Z.leb_le _ _) H2). cbn [negb].
    unfold gt_orientation. rewrite H3, H4. reflexivity.
  - intros H1 H2. unfold read_in_raster. rewrite H1. cbn [Nat.eqb negb].
    destruct (Z.leb_spec (Z.of_nat (raster_nx img) * Z.of_nat (raster_ny img)) int_max) as [L|L]; [unfold int_max in L; lia|reflexivity].
  - intros m HG HF HI. destruct (ground_map c img m HG) as (t & (at_ & E & ->) & HJ & _). rewrite (read_value c img at_ HF E).
    unfold gt_interpolate. cbn [gr_determinant]. destruct (Req_EM_T _ 0) as [Z|Z]; [reflexivity|].
    exfalso. apply HI, HJ. exact Z.
Qed.

Lemma C130_water_proof c img dim level velocity point t U : (1 <= dim)%nat ->
  gt_compute c img dim level velocity point t = Value U ->
  exists z, gt_initial_precomputations c img dim point = Value z /\
    0 <= U 0%nat /\ U 0%nat + z = Rmax (level point t) z /\
    U 1%nat = U 0%nat * velocity point t /\ forall k, (2 <= k)%nat -> U k = 0.
Proof.
  intros Hd. unfold gt_compute, gt_initial_precomputations. destruct (compute_bathymetry c img dim point) as [z| |]; try discriminate.
  intros E. injection E as <-. exists z. split; [reflexivity|]. unfold w_from_initial_state, w_from_primitive_state, w_expand_state.
  cbn [Nat.leb Nat.eqb]. split; [apply Rmax_l|]. split.
  - unfold Rmax. repeat destruct (Rle_dec _ _); lra.
  - split.
    + destruct dim; [lia|]. cbn [Nat.leb]. ring.
    + intros k Hk. destruct k as [|[|k]]; try lia. cbn [Nat.leb Nat.eqb]. destruct dim as [|[|d]]; cbn [Nat.leb]; try lra. destruct (Nat.leb k d); lra.
Qed.
