(** * Notions for the shallow water scheme: lake at rest, dry and wet rows *)
From Coq Require Import Reals List.
From Verif Require Import RVec SWSystem SWLimiter PhysSpec SWScheme SchemeSpec.
From Verif Require Import Scheme.
Local Open Scope R_scope.

(** A depth is zero or above the cut off depths of the regularisation. *)
Definition wet_or_dry (s : shallow) (eps h : R) : Prop :=
  h = 0 \/ (0 < h /\ cutoff_small s eps <= h /\ cutoff_large s eps <= h).

(** Water at rest with surface [level] over the bathymetry [Z]: dry rows have
    Z >= level. *)
Definition lake_at_rest (s : shallow) (eps : R) (dim : nat) (M : mesh) (Z : nat -> R) (level : R)
    (U : nat -> state nat) : Prop :=
  forall i, (i < n_rows M)%nat ->
    U i 0%nat = Rmax 0 (level - Z i) /\ wet_or_dry s eps (U i 0%nat) /\
    forall k, (1 <= k <= dim)%nat -> U i k = 0.

(** Two states agree in the components of the problem. *)
Definition same_state (dim : nat) (u v : state nat) : Prop :=
  forall k, (k <= dim)%nat -> u k = v k.

(** The depth reconstructed at row i for the pair (i, j): what remains of the
    water column above the higher of the two bottoms. *)
Definition reconstructed (Z : nat -> R) (U : nat -> state nat) (i j : nat) : R :=
  Rmax 0 (U i 0%nat + Z i - Rmax (Z i) (Z j)).

(** Neither the depths nor the reconstructed depths lie in the range of the
    regularisation. *)
Definition resolved (s : shallow) (eps : R) (M : mesh) (Z : nat -> R) (U : nat -> state nat) : Prop :=
  forall i, (i < n_rows M)%nat -> wet_or_dry s eps (U i 0%nat) /\
    forall j, In j (columns M i) ->
      reconstructed Z U i j = 0 \/ cutoff_small s eps <= reconstructed Z U i j.

(** Every pair of a row with a wet row has a viscosity of at least hundred times
    the smallest positive number (the cut off of scaled_c_ij and d_ij in the
    scheme; about 1e-306). *)
Definition fast (p : wparameters) (dim : nat) (Z : nat -> R) (M : mesh) (nm : R)
    (old : (nat -> state nat) * PC nat (sw_scheme p dim Z)) (d0 : nat -> nat -> R) (i : nat) : Prop :=
  forall j, In j (neighbours M i) ->
    100 * nm <= dij_matrix (sw_scheme p dim Z) M nm old d0 i j
    \/ (fst old i 0%nat = 0 /\ fst old j 0%nat = 0).

(** The same in terms of the data: gravity waves in the smallest resolved depth. *)
Definition celerity (p : wparameters) (M : mesh) (nm : R) : Prop :=
  forall i j, (i < n_rows M)%nat -> In j (neighbours M i) ->
    100 * nm <= cnorm (c_ij M i j)
                * sqrt (cutoff_small (wp_system p) (wp_eps p) * gravity (wp_system p)).

(** The depth of [u] is within the bounds, which are themselves not negative. *)
Definition depth_inside (b : wbounds) (u : state nat) : Prop :=
  0 <= h_min b /\ h_min b <= u 0%nat <= h_max b.

(** Options of the limiter: for discontinuous elements the bounds on the squared
    velocity are in use (the default), or no quadratic bounds at all. *)
Definition at_rest_options (p : wparameters) (M : mesh) : Prop :=
  (wp_on_kin p = false /\ wp_on_v2 p = false) \/ discontinuous M = false \/ wp_on_v2 p = true.
