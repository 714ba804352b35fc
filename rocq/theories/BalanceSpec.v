(** * Balance laws and their solutions

    The equations that ryujin's documentation states for the compressible Euler
    and the shallow water equations, and what it means that a function of time
    and position solves them.  Nothing in this file refers to the code. *)
From Coq Require Import Reals Arith.
From Verif Require Import RVec.
Local Open Scope R_scope.

(** A function of time and position with values in the conserved states. *)
Definition field := R -> vec -> vec.

(** The point [x + s e_j]. *)
Definition along (x : vec) (j : nat) (s : R) : vec :=
  fun i => x i + s * (if Nat.eqb i j then 1 else 0).

(** [W] has at time [t] and position [x] all the derivatives in question, and
    d/dt W + sum_j d/dx_j f(W)_j = source.  [f U k j] is the flux of component
    [k] in direction [j]. *)
Definition balance_at (dim m : nat) (f : vec -> nat -> vec) (source : vec)
    (W : field) (t : R) (x : vec) : Prop :=
  exists (dt : vec) (dx : nat -> vec), forall k, (k < m)%nat ->
    derivable_pt_lim (fun s => W s x k) t (dt k) /\
    (forall j, (j < dim)%nat ->
       derivable_pt_lim (fun s => f (W t (along x j s)) k j) 0 (dx k j)) /\
    dt k + rsum dim (dx k) = source k.

Definition no_source : vec := fun _ => 0.

(** Compressible Euler equations for an ideal gas. *)
Definition gas_pressure (gamma : R) (dim : nat) (U : vec) : R :=
  (gamma - 1) * (U (S dim) - rsum dim (fun i => U (S i) * U (S i)) / (2 * U 0%nat)).

Definition gas_flux (gamma : R) (dim : nat) (U : vec) (k j : nat) : R :=
  if Nat.eqb k 0 then U (S j)
  else if Nat.eqb k (S dim) then U (S j) / U 0%nat * (U (S dim) + gas_pressure gamma dim U)
  else U (S j) * U k / U 0%nat + (if Nat.eqb k (S j) then gas_pressure gamma dim U else 0).

Definition solves_euler (gamma : R) (dim : nat) : field -> R -> vec -> Prop :=
  balance_at dim (dim + 2) (gas_flux gamma dim) no_source.

(** Compressible Euler equations for a gas whose pressure is [P rho e] with the
    specific internal energy [e]. *)
Definition eos_flux (P : R -> R -> R) (dim : nat) (U : vec) (k j : nat) : R :=
  let e := (U (S dim) - rsum dim (fun i => U (S i) * U (S i)) / (2 * U 0%nat)) / U 0%nat in
  let p := P (U 0%nat) e in
  if Nat.eqb k 0 then U (S j)
  else if Nat.eqb k (S dim) then U (S j) / U 0%nat * (U (S dim) + p)
  else U (S j) * U k / U 0%nat + (if Nat.eqb k (S j) then p else 0).

(** Compressible Navier-Stokes equations for an ideal gas, a Newtonian fluid with
    shear viscosity [mu], bulk viscosity [lambda] and a heat flux
    -[kappa] grad e.  [g i j] stands for d u_i / d x_j, [q j] for d e / d x_j. *)
Definition gas_energy (dim : nat) (U : vec) : R :=
  (U (S dim) - rsum dim (fun i => U (S i) * U (S i)) / (2 * U 0%nat)) / U 0%nat.

Definition viscous_stress (mu lambda : R) (dim : nat) (g : nat -> vec) (i j : nat) : R :=
  mu * (g i j + g j i) + (if Nat.eqb i j then (lambda - 2 / 3 * mu) * rsum dim (fun l => g l l) else 0).

Definition viscous_flux (gamma mu lambda kappa : R) (dim : nat) (U : vec) (g : nat -> vec) (q : vec) (k j : nat) : R :=
  gas_flux gamma dim U k j -
  (if Nat.eqb k 0 then 0
   else if Nat.eqb k (S dim) then
     rsum dim (fun i => U (S i) / U 0%nat * viscous_stress mu lambda dim g i j) + kappa * q j
   else viscous_stress mu lambda dim g (k - 1) j).

Definition solves_navier_stokes (gamma mu lambda kappa : R) (dim : nat) (W : field) (t : R) (x : vec) : Prop :=
  exists (g : vec -> nat -> vec) (q : vec -> vec),
    (forall y i j, (i < dim)%nat -> (j < dim)%nat ->
       derivable_pt_lim (fun s => W t (along y j s) (S i) / W t (along y j s) 0%nat) 0 (g y i j)) /\
    (forall y j, (j < dim)%nat -> derivable_pt_lim (fun s => gas_energy dim (W t (along y j s))) 0 (q y j)) /\
    exists (dt : vec) (dx : nat -> vec), forall k, (k < dim + 2)%nat ->
      derivable_pt_lim (fun s => W s x k) t (dt k) /\
      (forall j, (j < dim)%nat ->
         derivable_pt_lim (fun s => viscous_flux gamma mu lambda kappa dim (W t (along x j s)) (g (along x j s)) (q (along x j s)) k j)
           0 (dx k j)) /\
      dt k + rsum dim (dx k) = 0.

(** Shallow water equations with bathymetry [z] and a friction force [F]
    (component [k] of the momentum equation). *)
Definition water_flux (g : R) (dim : nat) (U : vec) (k j : nat) : R :=
  if Nat.eqb k 0 then U (S j)
  else U (S j) * U k / U 0%nat + (if Nat.eqb k (S j) then g / 2 * (U 0%nat * U 0%nat) else 0).

Definition solves_shallow_water (g : R) (dim : nat) (z : vec -> R) (F : vec -> vec)
    (W : field) (t : R) (x : vec) : Prop :=
  exists dz : vec,
    (forall j, (j < dim)%nat -> derivable_pt_lim (fun s => z (along x j s)) 0 (dz j)) /\
    balance_at dim (dim + 1) (water_flux g dim)
      (fun k => if Nat.eqb k 0 then 0 else - g * W t x 0%nat * dz (k - 1)%nat + F (W t x) (k - 1)%nat)
      W t x.

Definition no_friction (U : vec) : vec := fun _ => 0.

(** Rankine-Hugoniot conditions of a discontinuity with unit normal [n] that
    moves with speed [sigma] in direction [n]. *)
Definition jump_condition (dim m : nat) (f : vec -> nat -> vec) (n : vec) (sigma : R) (Ul Ur : vec) : Prop :=
  forall k, (k < m)%nat -> dot dim (f Ur k) n - dot dim (f Ul k) n = sigma * (Ur k - Ul k).

(** The same up to an absolute tolerance. *)
Definition jump_within (tol : R) (dim m : nat) (f : vec -> nat -> vec) (n : vec) (sigma : R) (Ul Ur : vec) : Prop :=
  forall k, (k < m)%nat -> Rabs (dot dim (f Ur k) n - dot dim (f Ul k) n - sigma * (Ur k - Ul k)) <= tol.

Definition e0 : vec := fun i => if Nat.eqb i 0 then 1 else 0.

(** [U] is the limit of [W] at time [t] and position [x] along the points
    [x + s n], [s < 0] or [s > 0]. *)
Definition limit_below (m : nat) (W : field) (n : vec) (t : R) (x : vec) (U : vec) : Prop :=
  forall eps, 0 < eps -> exists delta, 0 < delta /\
    forall s, - delta < s < 0 -> forall k, (k < m)%nat -> Rabs (W t (vadd x (vscal s n)) k - U k) < eps.
Definition limit_above (m : nat) (W : field) (n : vec) (t : R) (x : vec) (U : vec) : Prop :=
  forall eps, 0 < eps -> exists delta, 0 < delta /\
    forall s, 0 < s < delta -> forall k, (k < m)%nat -> Rabs (W t (vadd x (vscal s n)) k - U k) < eps.

(** [W] is continuous across a surface with normal [n]. *)
Definition no_jump (m : nat) (W : field) (n : vec) (t : R) (x : vec) : Prop :=
  limit_below m W n t x (W t x) /\ limit_above m W n t x (W t x).
