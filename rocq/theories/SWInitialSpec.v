(** * Friction laws, independent of the model *)
From Coq Require Import Reals Arith.
From Verif Require Import RVec EulerSystem.
Local Open Scope R_scope.

(** Manning's friction with roughness [n]: - g n^2 |v| q / h^(4/3). *)
Definition manning_force (g n : R) (dim : nat) (U : vec) : vec :=
  fun i => - g * (n * n) * (sqrt (rsum dim (fun j => U (S j) * U (S j))) / U 0%nat) * U (S i) / powr (U 0%nat) (4 / 3).

(** Linear friction with coefficient [k]: - k q. *)
Definition linear_friction (k : R) (U : vec) : vec := fun i => - k * U (S i).
