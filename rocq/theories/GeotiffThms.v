(** * Property theorems: bathymetry from a GeoTIFF image (C130) *)
From Coq Require Import Reals ZArith Arith Bool.
From Verif Require Import RVec SWSystem Geotiff GeotiffSpec GeotiffProofs GeotiffFinal GeotiffExamples.
Local Open Scope R_scope.

(** Within the image the bathymetry is the piecewise bilinear interpolation of the pixels, in
    all three modes of the transformation, columns counted from the left and rows from the
    bottom as documented; the scheme is handed the same value. *)
Theorem C130_value : forall c img m dim point a b,
  fits img -> ground c img = Some m -> invertible m -> within (raster_nx img) (raster_ny img) a b ->
  located dim point (place m a b) ->
  compute_bathymetry c img dim point = Value (bilinear (raster_nx img) (raster_ny img) (upright img) a b) /\
  gt_initial_precomputations c img dim point = compute_bathymetry c img dim point.
Proof. exact C130_value_proof. Qed.
Print Assumptions C130_value.

(** At the place of a pixel it is the value of the pixel. *)
Theorem C130_pixel : forall c img m dim point i j,
  fits img -> ground c img = Some m -> invertible m -> (i < raster_nx img)%nat -> (j < raster_ny img)%nat ->
  located dim point (place m (INR i) (INR j)) ->
  compute_bathymetry c img dim point = Value (upright img i j).
Proof. exact C130_pixel_proof. Qed.
Print Assumptions C130_pixel.

(** A value is only returned for points within the image and lies between the smallest and the
    largest pixel. *)
Theorem C130_range : forall c img m dim point z lo hi,
  fits img -> ground c img = Some m -> invertible m ->
  (forall i k, (i < raster_nx img)%nat -> (k < raster_ny img)%nat -> lo <= pixel img i k <= hi) ->
  compute_bathymetry c img dim point = Value z ->
  lo <= z <= hi /\ exists a b, within (raster_nx img) (raster_ny img) a b /\ located dim point (place m a b).
Proof. exact C130_range_proof. Qed.
Print Assumptions C130_range.

(** Planes are reproduced exactly. *)
Theorem C130_affine : forall c img m dim point a b p q r,
  fits img -> ground c img = Some m -> invertible m -> within (raster_nx img) (raster_ny img) a b ->
  located dim point (place m a b) ->
  (forall i j, (i < raster_nx img)%nat -> (j < raster_ny img)%nat ->
     upright img i j = p + q * fst (place m (INR i) (INR j)) + r * snd (place m (INR i) (INR j))) ->
  compute_bathymetry c img dim point = Value (p + q * fst (place m a b) + r * snd (place m a b)).
Proof. exact C130_affine_proof. Qed.
Print Assumptions C130_affine.

(** Three columns and two rows, bottom left pixel in (5, 7). *)
Example C130_ex :
  fits hill /\ ground hill_parameters hill = Some hill_map /\ invertible hill_map /\
  within 3 2 (1 / 2) (3 / 4) /\ located 2 (fun k => match k with 0%nat => 6 | _ => 7 + 3 / 4 end) (place hill_map (1 / 2) (3 / 4)) /\
  (forall i j, (i < 3)%nat -> (j < 2)%nat ->
     upright hill i j = 0 + 1 * fst (place hill_map (INR i) (INR j)) + 10 * snd (place hill_map (INR i) (INR j))).
Proof. exact hill_case. Qed.

(** The bathymetry is Lipschitz continuous where it is defined. *)
Theorem C130_continuous : forall c img m,
  fits img -> ground c img = Some m -> invertible m ->
  exists L, 0 <= L /\ forall dim P Q z w,
    compute_bathymetry c img dim P = Value z -> compute_bathymetry c img dim Q = Value w ->
    Rabs (z - w) <= L * (Rabs (P 0%nat - Q 0%nat) + Rabs (P 1%nat - Q 1%nat)).
Proof. exact C130_continuous_proof. Qed.
Print Assumptions C130_continuous.

(** Beyond the right or the bottom edge the exception is raised.  Missing: beyond the left or
    the top edge. *)
Theorem C130_outside_partial : forall c img m dim point a b,
  fits img -> ground c img = Some m -> invertible m -> located dim point (place m a b) ->
  0 <= a <= 4294967295 -> 0 <= INR (raster_ny img) - 1 - b <= 4294967295 ->
  ~ within (raster_nx img) (raster_ny img) a b ->
  compute_bathymetry c img dim point = Exception.
Proof. exact C130_outside_partial_proof. Qed.
Print Assumptions C130_outside_partial.

(** A value and an exception. *)
Example C130_outside_ex :
  compute_bathymetry hill_parameters hill 2 (fun k => match k with 0%nat => 6 | _ => 7 + 3 / 4 end) = Value (6 + 10 * (7 + 3 / 4)) /\
  compute_bathymetry hill_parameters hill 2 (fun k => match k with 0%nat => 10 | _ => 7 end) = Exception.
Proof. exact hill_outcomes. Qed.

(** There the conversion to an unsigned integer is undefined. *)
Theorem C130_undefined : forall c img m dim point a b,
  fits img -> ground c img = Some m -> invertible m -> located dim point (place m a b) ->
  a < 0 \/ INR (raster_ny img) - 1 < b ->
  compute_bathymetry c img dim point = Undefined.
Proof. exact C130_undefined_proof. Qed.
Print Assumptions C130_undefined.

(** Not every point outside of the image raises the exception. *)
Theorem C130_outside_refuted :
  exists c img m point,
  fits img /\ ground c img = Some m /\ invertible m /\
  (forall a b, located 2 point (place m a b) -> ~ within (raster_nx img) (raster_ny img) a b) /\
  compute_bathymetry c img 2 point <> Exception.
Proof. exact C130_outside_refuted_proof. Qed.
Print Assumptions C130_outside_refuted.

(** Files with more or less than one raster or without transformation raise an exception; a
    number of pixels that is not representable and a singular transformation are undefined
    behaviour. *)
Theorem C130_file : forall c img dim point,
  (raster_count img <> 1%nat -> compute_bathymetry c img dim point = Exception) /\
  (fits img -> use_geotiff c = true -> geo_transform img = None -> compute_bathymetry c img dim point = Exception) /\
  (raster_count img = 1%nat -> (2147483647 < Z.of_nat (raster_nx img) * Z.of_nat (raster_ny img))%Z ->
     compute_bathymetry c img dim point = Undefined) /\
  (forall m, ground c img = Some m -> fits img -> ~ invertible m -> compute_bathymetry c img dim point = Undefined).
Proof. exact C130_file_proof. Qed.
Print Assumptions C130_file.

(** An image of 65536 x 65536 pixels. *)
Theorem C130_size_refuted :
  exists c img point,
  raster_count img = 1%nat /\ geo_transform img <> None /\ use_geotiff c = true /\
  compute_bathymetry c img 2 point = Undefined.
Proof. exact C130_size_refuted_proof. Qed.
Print Assumptions C130_size_refuted.

(** With the origin of the file the values are half a pixel off the centres of the pixels. *)
Theorem C130_centre_refuted :
  exists c img g i k point,
  fits img /\ use_geotiff c = true /\ use_geotiff_origin c = true /\ geo_transform img = Some g /\ invertible g /\
  (S i < raster_nx img)%nat /\ (S k < raster_ny img)%nat /\
  located 2 point (place g (INR i + 1 / 2) (INR k + 1 / 2)) /\
  compute_bathymetry c img 2 point <> Value (pixel img i k).
Proof. exact C130_centre_refuted_proof. Qed.
Print Assumptions C130_centre_refuted.

(** The initial water depth is nonnegative, its surface is at the given level or on dry
    ground, the discharge is depth times velocity in the first direction; the depth uses the
    bathymetry handed to the scheme. *)
Theorem C130_water : forall c img dim level velocity point t U,
  (1 <= dim)%nat ->
  gt_compute c img dim level velocity point t = Value U ->
  exists z, gt_initial_precomputations c img dim point = Value z /\
    0 <= U 0%nat /\ U 0%nat + z = Rmax (level point t) z /\
    U 1%nat = U 0%nat * velocity point t /\ forall k, (2 <= k)%nat -> U k = 0.
Proof. exact C130_water_proof. Qed.
Print Assumptions C130_water.

(** Level 100 and velocity 3. *)
Example C130_water_ex :
  exists U, gt_compute hill_parameters hill 2 (fun _ _ => 100) (fun _ _ => 3) (fun k => match k with 0%nat => 6 | _ => 7 + 3 / 4 end) 0 = Value U /\
  U 0%nat = 33 / 2 /\ U 1%nat = 99 / 2.
Proof. exact hill_water. Qed.
