(** * What the parameters of piecewise initial states promise

    Nothing in this file refers to the initial states of the code; only the configured
    equations ([view]) are used. *)
From Coq Require Import Reals Arith.
From Verif Require Import RVec BalanceSpec EulerSystem AeosSystem InitialRegions.
Local Open Scope R_scope.

(** The conserved state [U] has the density [rho], the velocity [v] and, by the law
    [P rho e] of the gas, the pressure [p]. *)
Definition gas_is (P : R -> R -> R) (dim : nat) (rho : R) (v : vec) (p : R) (U : vec) : Prop :=
  U 0%nat = rho /\ (forall i, (i < dim)%nat -> U (S i) = rho * v i) /\ P (U 0%nat) (gas_energy dim U) = p.

(** The pressure law of the ideal gas. *)
Definition ideal (gamma : R) (rho e : R) : R := (gamma - 1) * (rho * e).

(** The pressure law of the configured equations. *)
Definition law (w : view) : R -> R -> R :=
  match w with euler_view s => ideal (gamma s) | aeos_view e => eos_pressure e end.

(** The density does not vanish, and the pressure [p] can be attained: the ideal gas has
    gamma <> 1; the energy that the equation of state gives for [p] belongs to [p]. *)
Definition attainable (w : view) (rho p : R) : Prop :=
  rho <> 0 /\
  match w with
  | euler_view s => gamma s <> 1
  | aeos_view e => eos_pressure e rho (eos_specific_internal_energy e rho p) = p
  end.

(** The primitive state [rho, u, p] in x-direction, and [rho, u, v, p] in the plane. *)
Definition row_is (P : R -> R -> R) (dim : nat) (prim U : vec) : Prop :=
  gas_is P dim (prim 0%nat) (fun i => if Nat.eqb i 0 then prim 1%nat else 0) (prim 2%nat) U.
Definition plane_is (P : R -> R -> R) (dim : nat) (prim U : vec) : Prop :=
  gas_is P dim (prim 0%nat) (fun i => if Nat.eqb i 0 then prim 1%nat else if Nat.eqb i 1 then prim 2%nat else 0)
    (prim 3%nat) U.

(** Water of depth [h] and velocity [v]. *)
Definition water_is (dim : nat) (h : R) (v : vec) (U : vec) : Prop :=
  U 0%nat = h /\ forall i, (i < dim)%nat -> U (S i) = h * v i.

(** Water at rest below the surface [level] over the bottom [z]; dry where the bottom is
    higher. *)
Definition still_water (dim : nat) (level z : R) (U : vec) : Prop :=
  0 <= U 0%nat /\ (z <= level -> U 0%nat + z = level) /\ (level <= z -> U 0%nat = 0) /\
  forall i, (i < dim)%nat -> U (S i) = 0.

(** Open discs in the plane. *)
Definition in_disc (a b r x y : R) : Prop := (x - a) * (x - a) + (y - b) * (y - b) < r * r.

(** The closed ellipse around ([a], [b]) whose half axes are [u] and [v] times the root of [c]. *)
Definition in_ellipse (a b u v c x y : R) : Prop :=
  ((x - a) / u) * ((x - a) / u) + ((y - b) / v) * ((y - b) / v) <= c.

(** The rectangle with sides 2 [a] and 2 [b] around ([c], 0). *)
Definition in_rectangle (c a b x y : R) : Prop := c - a <= x <= c + a /\ - b <= y <= b.

(** The slope of the tank: level for x <= 0, then falling with 0.92 mm/m up to x = 3.26 m
    and with 40.4 mm/m behind. *)
Definition tank_slope (x : R) : R :=
  - (92 / 100000) * Rmin (Rmax x 0) (326 / 100) - (404 / 10000) * Rmax (x - 326 / 100) 0.

(** The height [h] of the half ellipse with half axes 15.5 cm and 7.3 cm above ([c], 0). *)
Definition ellipse_height (c x h : R) : Prop :=
  0 <= h /\ (h / (73 / 1000)) * (h / (73 / 1000)) + ((x - c) / (155 / 1000)) * ((x - c) / (155 / 1000)) = 1.
