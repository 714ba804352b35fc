(** * Notions for the vtu output *)
From Coq Require Import Reals List Arith.
From Verif Require Import RVec.
Import ListNotations.
Local Open Scope R_scope.

(** Weighted sum of points, per coordinate. *)
Fixpoint combination (ws : list R) (vs : list vec) (k : nat) : R :=
  match ws, vs with
  | w :: ws, v :: vs => w * v k + combination ws vs k
  | _, _ => 0
  end.
Definition sum_of (ws : list R) : R := fold_right Rplus 0 ws.

(** The convex hull of the points in dimension [dim]. *)
Definition hull (dim : nat) (vs : list vec) (x : vec) : Prop :=
  exists ws, length ws = length vs /\ Forall (fun w => 0 <= w) ws /\ sum_of ws = 1 /\
    forall k, (k < dim)%nat -> x k = combination ws vs k.

(** Planes: c + a . x *)
Definition plane (dim : nat) (c : R) (a : vec) (x : vec) : R := c + dot dim a x.

(** Two points can be joined in K by a path along which [f] is continuous. *)
Definition joined (K : vec -> Prop) (f : vec -> R) (x y : vec) : Prop :=
  exists g : R -> vec, g 0 = x /\ g 1 = y /\ (forall t, 0 <= t <= 1 -> K (g t)) /\ continuity (fun t => f (g t)).
