(** * Examples: bathymetries read from images *)
From Coq Require Import Reals ZArith Arith Bool Lia Lra.
From Verif Require Import RVec SWSystem Geotiff GeotiffSpec GeotiffProofs GeotiffFinal.
Local Open Scope R_scope.

(** An image of three columns and two rows; elevation x + 10 y for pixels of size 2 x 1 whose
    bottom left one is in (5, 7). *)
Definition hill : gt_image := {| raster_count := 1; raster_nx := 3; raster_ny := 2;
  pixel := fun i k => (5 + 2 * INR i) + 10 * (7 + (1 - INR k));
  geo_transform := Some (fun k => match k with 0%nat => 100 | 1%nat => 2 | 3%nat => 50 | 5%nat => -1 | _ => 0 end) |}.

Definition hill_parameters : gt_parameters :=
  {| transformation := fun k => match k with 0%nat => 5 | 1%nat => 2 | 3%nat => 7 | 5%nat => 1 | _ => 0 end;
     use_geotiff := false; use_geotiff_origin := false |}.

Definition hill_map : nat -> R := fun k => match k with 0%nat => 5 | 1%nat => 2 | 3%nat => 7 | 5%nat => 1 | _ => 0 end.

Lemma hill_fits : fits hill.
Proof. split; [reflexivity|]. cbn. lia. Qed.

Lemma hill_case : fits hill /\ ground hill_parameters hill = Some hill_map /\ invertible hill_map /\
  within 3 2 (1 / 2) (3 / 4) /\ located 2 (fun k => match k with 0%nat => 6 | _ => 7 + 3 / 4 end) (place hill_map (1 / 2) (3 / 4)) /\
  (forall i j, (i < 3)%nat -> (j < 2)%nat ->
     upright hill i j = 0 + 1 * fst (place hill_map (INR i) (INR j)) + 10 * snd (place hill_map (INR i) (INR j))).
Proof.
  split; [exact hill_fits|]. split; [reflexivity|]. split; [unfold invertible, hill_map; lra|]. split; [unfold within; cbn [INR]; lra|].
  split; [unfold located, place, hill_map; cbn [fst snd Nat.ltb Nat.leb]; lra|].
  intros i j Hi Hj. unfold upright, place, hill_map, hill. cbn [pixel raster_ny fst snd].
  replace (2 - 1 - j)%nat with (1 - j)%nat by lia. rewrite minus_INR by lia. cbn [INR]. ring.
Qed.

(** A point outside of the image for which no exception is raised. *)
Lemma C130_outside_refuted_proof : exists c img m point,
  fits img /\ ground c img = Some m /\ invertible m /\
  (forall a b, located 2 point (place m a b) -> ~ within (raster_nx img) (raster_ny img) a b) /\
  compute_bathymetry c img 2 point <> Exception.
Proof.
  exists hill_parameters, hill, hill_map, (fun k => match k with 0%nat => 4 | _ => 7 end).
  split; [exact hill_fits|]. split; [reflexivity|]. split; [unfold invertible, hill_map; lra|]. split.
  - intros a b [H _] [W _]. unfold place, hill_map in H. cbn [fst] in H. lra.
  - rewrite (C130_undefined_proof hill_parameters hill hill_map 2 _ (- (1 / 2)) 0).
    + discriminate.
    + exact hill_fits.
    + reflexivity.
    + unfold invertible, hill_map; lra.
    + unfold located, place, hill_map; cbn [fst snd Nat.ltb Nat.leb]; lra.
    + left. lra.
Qed.

(** A readable file for which neither a value is returned nor an exception raised. *)
Lemma C130_size_refuted_proof : exists c img point,
  raster_count img = 1%nat /\ geo_transform img <> None /\ use_geotiff c = true /\
  compute_bathymetry c img 2 point = Undefined.
Proof.
  exists {| transformation := hill_map; use_geotiff := true; use_geotiff_origin := true |},
         {| raster_count := 1; raster_nx := Z.to_nat 65536; raster_ny := Z.to_nat 65536; pixel := fun _ _ => 0; geo_transform := Some hill_map |}, (fun _ => 0).
  split; [reflexivity|]. split; [discriminate|]. split; [reflexivity|].
  apply C130_file_proof; [reflexivity|]. cbn [raster_nx raster_ny]. rewrite !Z2Nat.id by lia. lia.
Qed.

(** GDAL's affine transformation maps the area covered by pixel (i, k) to
    [i, i + 1] x [k, k + 1]; the value in the centre of a pixel is not that of the pixel. *)
Lemma C130_centre_refuted_proof : exists c img g i k point,
  fits img /\ use_geotiff c = true /\ use_geotiff_origin c = true /\ geo_transform img = Some g /\ invertible g /\
  (S i < raster_nx img)%nat /\ (S k < raster_ny img)%nat /\
  located 2 point (place g (INR i + 1 / 2) (INR k + 1 / 2)) /\
  compute_bathymetry c img 2 point <> Value (pixel img i k).
Proof.
  set (c := {| transformation := hill_map; use_geotiff := true; use_geotiff_origin := true |}).
  exists c, hill. eexists. exists 0%nat, 0%nat, (fun q => match q with 0%nat => 101 | _ => 50 - 1 / 2 end).
  split; [exact hill_fits|]. split; [reflexivity|]. split; [reflexivity|]. split; [reflexivity|].
  split; [unfold invertible; lra|]. split; [cbn; lia|]. split; [cbn; lia|].
  split; [unfold located, place; cbn [fst snd Nat.ltb Nat.leb INR]; lra|].
  set (m := fun q => match q with 0%nat => 100 | 1%nat => 2 | 2%nat => - 0 | 3%nat => 49 | 4%nat => 0 | 5%nat => - (-1) | _ => 0 end).
  assert (G : ground c hill = Some (fun q => match q with 0%nat => 100 + (2 - 1) * 0 | 2%nat => - 0 | 3%nat => 50 + (2 - 1) * -1 | 5%nat => - (-1) | _ => (fun k => match k with 0%nat => 100 | 1%nat => 2 | 3%nat => 50 | 5%nat => -1 | _ => 0 end) q end)).
  { unfold ground, c, hill. cbn [use_geotiff geo_transform use_geotiff_origin raster_ny Nat.add INR]. reflexivity. }
  rewrite (C130_affine_proof c hill _ 2 _ (1 / 2) (1 / 2) (5 - 100 + 10 * 7 - 10 * 49) 1 10 hill_fits G).
  - unfold place. cbn [fst snd]. intros E. injection E as E. revert E. unfold hill. cbn [pixel INR]. lra.
  - unfold invertible. lra.
  - unfold within. cbn [hill raster_nx raster_ny INR]. lra.
  - unfold located, place. cbn [fst snd Nat.ltb Nat.leb]. lra.
  - intros i j Hi Hj. cbn [hill raster_nx raster_ny] in Hi, Hj. unfold upright, place, hill. cbn [pixel raster_ny fst snd].
    replace (2 - 1 - j)%nat with (1 - j)%nat by lia. rewrite minus_INR by lia. cbn [INR]. ring.
Qed.

Lemma hill_outcomes : compute_bathymetry hill_parameters hill 2 (fun k => match k with 0%nat => 6 | _ => 7 + 3 / 4 end) = Value (6 + 10 * (7 + 3 / 4)) /\
  compute_bathymetry hill_parameters hill 2 (fun k => match k with 0%nat => 10 | _ => 7 end) = Exception.
Proof.
  destruct hill_case as (HF & HG & HI & HW & HL & HA). split.
  - rewrite (C130_affine_proof hill_parameters hill hill_map 2 _ (1 / 2) (3 / 4) 0 1 10 HF HG HI HW HL HA). f_equal.
    unfold place, hill_map. cbn [fst snd]. field.
  - apply (C130_outside_partial_proof hill_parameters hill hill_map 2 _ (5 / 2) 0 HF HG HI).
    + unfold located, place, hill_map; cbn [fst snd Nat.ltb Nat.leb]; lra.
    + lra.
    + cbn [hill raster_ny INR]. lra.
    + unfold within. cbn [hill raster_nx INR]. lra.
Qed.

Lemma hill_water : exists U, gt_compute hill_parameters hill 2 (fun _ _ => 100) (fun _ _ => 3) (fun k => match k with 0%nat => 6 | _ => 7 + 3 / 4 end) 0 = Value U /\
  U 0%nat = 33 / 2 /\ U 1%nat = 99 / 2.
Proof.
  destruct hill_outcomes as [E _]. unfold gt_compute. rewrite E. eexists. split; [reflexivity|].
  unfold w_from_initial_state, w_from_primitive_state, w_expand_state. cbn [Nat.leb Nat.eqb].
  rewrite Rmax_right by lra. split; field.
Qed.
