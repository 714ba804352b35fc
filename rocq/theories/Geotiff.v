(** * ShallowWaterInitialStates::GeoTIFF

    source/shallow_water/initial_state_geotiff.h for real numbers.  The image as returned by
    GDAL is data; the expressions for level and velocity are arbitrary functions of point and
    time; Lazy (initialization on first use) only decides when the raster is read and is left
    out. *)
From Coq Require Import Reals ZArith Arith Bool.
From Verif Require Import RVec SWSystem.
Local Open Scope R_scope.

(** A value, an exception (AssertThrow) or undefined behaviour.
    source/shallow_water/initial_state_geotiff.h:149-219, 289-290, 344. *)
Inductive gt_outcome (A : Type) : Type :=
| Value (a : A)
| Exception
| Undefined.
Arguments Value {A}. Arguments Exception {A}. Arguments Undefined {A}.

(** Run time parameters, source/shallow_water/initial_state_geotiff.h:367-372. *)
Record gt_parameters := {
  transformation : nat -> R;
  use_geotiff : bool;
  use_geotiff_origin : bool
}.

(** What GDAL reports about the file: number of rasters, size, pixels by column (from the left)
    and row (from the top), affine transformation if present;
    source/shallow_water/initial_state_geotiff.h:147-221. *)
Record gt_image := {
  raster_count : nat;
  raster_nx : nat;
  raster_ny : nat;
  pixel : nat -> nat -> R;
  geo_transform : option (nat -> R)
}.

(** The signed multiplication raster_size[0] * raster_size[1] must not overflow,
    source/shallow_water/initial_state_geotiff.h:188. *)
Definition int_max : Z := 2147483647.

(** The members written by read_in_raster, source/shallow_water/initial_state_geotiff.h:385-389:
    the affine transformation, its inverse, the size and the raster, row by row.  The raster is
    stored in single precision; its entries are real numbers here. *)
Record gt_raster := {
  gr_affine : nat -> R;
  gr_inverse : nat -> R;
  gr_determinant : R;
  gr_nx : nat;
  gr_ny : nat;
  gr_raster : nat -> R
}.

(** RasterIO fills the buffer row by row from the top,
    source/shallow_water/initial_state_geotiff.h:188-200. *)
Definition gt_buffer (img : gt_image) : nat -> R :=
  fun k => pixel img (Nat.modulo k (raster_nx img)) (Nat.div k (raster_nx img)).

(** source/shallow_water/initial_state_geotiff.h:216-227: from the file or from the parameters
    with the sign of the j index flipped.  None: no transformation in the file. *)
Definition gt_orientation (c : gt_parameters) (img : gt_image) : option (nat -> R) :=
  if use_geotiff c then geo_transform img
  else Some (fun k => if Nat.eqb k 2 || Nat.eqb k 5 then transformation c k * -1 else transformation c k).

(** source/shallow_water/initial_state_geotiff.h:229-240 *)
Definition gt_origin (c : gt_parameters) (img : gt_image) (at_ : nat -> R) : nat -> R :=
  if negb (use_geotiff c) || negb (use_geotiff_origin c) then
    let j_max := INR (raster_ny img) - 1 in
    fun k => if Nat.eqb k 0 then transformation c 0 - j_max * at_ 2%nat
             else if Nat.eqb k 3 then transformation c 3 - j_max * at_ 5%nat
             else at_ k
  else at_.

(** source/shallow_water/initial_state_geotiff.h:252-262 *)
Definition gt_inverse (at_ : nat -> R) : nat -> R :=
  let determinant := at_ 1%nat * at_ 5%nat - at_ 2%nat * at_ 4%nat in
  let inv := 1 / determinant in
  fun k => match k with
           | 0%nat => at_ 0%nat
           | 1%nat => inv * at_ 5%nat
           | 2%nat => inv * - at_ 2%nat
           | 3%nat => at_ 3%nat
           | 4%nat => inv * - at_ 4%nat
           | _ => inv * at_ 1%nat
           end.

(** read_in_raster, source/shallow_water/initial_state_geotiff.h:145-291 with GDAL; a file that
    cannot be opened or read is not an image here. *)
Definition read_in_raster (c : gt_parameters) (img : gt_image) : gt_outcome gt_raster :=
  if negb (Nat.eqb (raster_count img) 1) then Exception
  else if negb (Z.leb (Z.of_nat (raster_nx img) * Z.of_nat (raster_ny img)) int_max) then Undefined
  else match gt_orientation c img with
       | None => Exception
       | Some at_ =>
           let at_ := gt_origin c img at_ in
           Value {| gr_affine := at_; gr_inverse := gt_inverse at_;
                    gr_determinant := at_ 1%nat * at_ 5%nat - at_ 2%nat * at_ 4%nat;
                    gr_nx := raster_nx img; gr_ny := raster_ny img; gr_raster := gt_buffer img |}
       end.

(** source/shallow_water/initial_state_geotiff.h:295-302 *)
Definition apply_transformation (r : gt_raster) (i j : R) : R * R :=
  let at_ := gr_affine r in
  (at_ 0%nat + at_ 1%nat * i + at_ 2%nat * j, at_ 3%nat + at_ 4%nat * i + at_ 5%nat * j).

(** source/shallow_water/initial_state_geotiff.h:305-312 *)
Definition apply_inverse_transformation (r : gt_raster) (x y : R) : R * R :=
  let iat := gr_inverse r in
  (iat 1%nat * (x - iat 0%nat) + iat 2%nat * (y - iat 3%nat),
   iat 4%nat * (x - iat 0%nat) + iat 5%nat * (y - iat 3%nat)).

(** std::floor and std::ceil as used in source/shallow_water/initial_state_geotiff.h:333-336. *)
Definition floorz (x : R) : Z := Int_part x.
(** See the comment above, source/shallow_water/initial_state_geotiff.h:333-336. *)
Definition ceilz (x : R) : Z := (- Int_part (- x))%Z.

(** static_cast<unsigned int> of an integral double in
    source/shallow_water/initial_state_geotiff.h:333-336: undefined outside of the range. *)
Definition to_unsigned (z : Z) : option nat :=
  if Z.leb 0 z && Z.leb z 4294967295 then Some (Z.to_nat z) else None.

(** std::fmod(x, 1.), source/shallow_water/initial_state_geotiff.h:349-350. *)
Definition fmod1 (x : R) : R := if Rle_dec 0 x then x - IZR (floorz x) else x - IZR (ceilz x).

(** compute_bathymetry for given raster, source/shallow_water/initial_state_geotiff.h:324-361.
    A vanishing determinant leads to infinities or NaN that are cast to unsigned int. *)
Definition gt_interpolate (r : gt_raster) (x y : R) : gt_outcome R :=
  if Req_EM_T (gr_determinant r) 0 then Undefined
  else
    let (di, dj) := apply_inverse_transformation r x y in
    match to_unsigned (floorz di), to_unsigned (ceilz di), to_unsigned (floorz dj), to_unsigned (ceilz dj) with
    | Some i_left, Some i_right, Some j_left, Some j_right =>
        if Nat.leb i_left i_right && Nat.ltb i_right (gr_nx r) && Nat.leb j_left j_right && Nat.ltb j_right (gr_ny r) then
          let i_ratio := fmod1 di in
          let j_ratio := fmod1 dj in
          let raster i j := gr_raster r (i + j * gr_nx r)%nat in
          let v_jl := raster i_left j_left * (1 - i_ratio) + raster i_right j_left * i_ratio in
          let v_jr := raster i_left j_right * (1 - i_ratio) + raster i_right j_right * i_ratio in
          Value (v_jl * (1 - j_ratio) + v_jr * j_ratio)
        else Exception
    | _, _, _, _ => Undefined
    end.

(** compute_bathymetry, source/shallow_water/initial_state_geotiff.h:315-362; y = 0 in one space
    dimension. *)
Definition compute_bathymetry (c : gt_parameters) (img : gt_image) (dim : nat) (point : vec) : gt_outcome R :=
  match read_in_raster c img with
  | Value r => gt_interpolate r (point 0%nat) (if Nat.leb 2 dim then point 1%nat else 0)
  | Exception => Exception
  | Undefined => Undefined
  end.

(** compute, source/shallow_water/initial_state_geotiff.h:117-131. *)
Definition gt_compute (c : gt_parameters) (img : gt_image) (dim : nat) (height velocity : vec -> R -> R)
    (point : vec) (t : R) : gt_outcome vec :=
  match compute_bathymetry c img dim point with
  | Value z =>
      let primitive : vec := fun k => match k with 0%nat => Rmax 0 (height point t - z) | 1%nat => velocity point t | _ => 0 end in
      Value (w_from_initial_state dim 1 primitive)
  | Exception => Exception
  | Undefined => Undefined
  end.

(** initial_precomputations, source/shallow_water/initial_state_geotiff.h:133-139: the
    bathymetry handed to the scheme. *)
Definition gt_initial_precomputations (c : gt_parameters) (img : gt_image) (dim : nat) (point : vec) : gt_outcome R :=
  compute_bathymetry c img dim point.
