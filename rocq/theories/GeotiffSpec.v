(** * Notions for bathymetries read from images *)
From Coq Require Import Reals ZArith Arith.
From Verif Require Import RVec Geotiff.
Local Open Scope R_scope.

(** The tent function with the value 1 in 0 and 0 outside of (-1, 1). *)
Definition tent (x : R) : R := Rmax 0 (1 - Rabs x).

(** Piecewise bilinear interpolation of the values [v i j], i < nx, j < ny, in (a, b). *)
Definition bilinear (nx ny : nat) (v : nat -> nat -> R) (a b : R) : R :=
  rsum ny (fun j => rsum nx (fun i => v i j * tent (a - INR i)) * tent (b - INR j)).

(** (a, b) is within the image. *)
Definition within (nx ny : nat) (a b : R) : Prop := 0 <= a <= INR nx - 1 /\ 0 <= b <= INR ny - 1.

(** The image of (i, j) under the affine map with coefficients t. *)
Definition place (t : nat -> R) (i j : R) : R * R :=
  (t 0%nat + t 1%nat * i + t 2%nat * j, t 3%nat + t 4%nat * i + t 5%nat * j).

(** The affine map is invertible. *)
Definition invertible (t : nat -> R) : Prop := t 1%nat * t 5%nat - t 2%nat * t 4%nat <> 0.

(** One raster whose number of pixels is representable. *)
Definition fits (img : gt_image) : Prop :=
  raster_count img = 1%nat /\ (Z.of_nat (raster_nx img) * Z.of_nat (raster_ny img) <= 2147483647)%Z.

(** The pixel in column i from the left and row j from the bottom. *)
Definition upright (img : gt_image) (i j : nat) : R := pixel img i (raster_ny img - 1 - j)%nat.

(** The coefficients of the map from (column from the left, row from the bottom) to the ground:
    those of the parameters; or those of the file, whose second index counts rows from the top,
    either with the bottom left pixel at the origin given by the parameters or unchanged. *)
Definition ground (c : gt_parameters) (img : gt_image) : option (nat -> R) :=
  if use_geotiff c then
    match geo_transform img with
    | None => None
    | Some g =>
        let shift k := if use_geotiff_origin c then g k + (INR (raster_ny img) - 1) * g (k + 2)%nat else transformation c k in
        Some (fun k => match k with
                       | 0%nat => shift 0%nat
                       | 2%nat => - g 2%nat
                       | 3%nat => shift 3%nat
                       | 5%nat => - g 5%nat
                       | _ => g k
                       end)
    end
  else Some (transformation c).

(** The point has the coordinates xy; in one space dimension the second one is zero. *)
Definition located (dim : nat) (point : vec) (xy : R * R) : Prop :=
  point 0%nat = fst xy /\ (if Nat.ltb dim 2 then 0 else point 1%nat) = snd xy.
