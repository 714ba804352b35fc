(** * Specification: curves and profiles of the airfoil geometry *)
From Coq Require Import Reals List.
From Verif Require Import Airfoil.
Local Open Scope R_scope.

(** The curve bounding the airfoil on the side of the manifold: behind the center the graph of the
    upper or lower function, in front of it the curve in polar coordinates. *)
Definition on_curve (a : airfoil) (p : R * R) : Prop :=
  let x := fst p - fst (airfoil_center a) in
  let y := snd p - snd (airfoil_center a) in
  (0 < x /\ y = (if upper_side a then psi_upper a x else psi_lower a x)) \/
  (exists phi, PI / 2 <= phi <= 3 * PI / 2 /\ x = psi_front a phi * cos phi /\ y = psi_front a phi * sin phi).

(** Nonnegative weights of sum one. *)
Definition average (points : list ((R * R) * R)) : Prop :=
  (forall p w, In (p, w) points -> 0 <= w) /\ fold_right (fun pw s => snd pw + s) 0 points = 1.

(** A spline passes through its support points. *)
Definition interpolates (S : list R -> list R -> R -> R) : Prop :=
  forall xs ys x y, increasing xs = true -> In (x, y) (combine xs ys) -> S xs ys x = y.

(** NACA report 460: half of the thickness at x, relative to the maximal thickness t. *)
Definition half_thickness (t x : R) : R :=
  t / 0.2 * (0.2969 * sqrt x - 0.126 * x - 0.3516 * x ^ 2 + 0.2843 * x ^ 3 - 0.1036 * x ^ 4).

(** NACA report 460: the mean line with maximal ordinate m at p. *)
Definition mean_line (m p x : R) : R :=
  if Rlt_dec x p then m * (2 * p * x - x ^ 2) / p ^ 2 else m * ((1 - 2 * p) + 2 * p * x - x ^ 2) / (1 - p) ^ 2.

(** One side: the samples in front of the center and three points of the spline. *)
Definition front_side (S : list R -> list R -> R -> R) (xs ys : list R) (x_center : R) (l : list (R * R)) : Prop :=
  increasing (map fst l) = true /\
  forall x y, In (x, y) l <-> (In (x, y) (combine xs ys) /\ x < x_center) \/
    ((x = x_center \/ x = x_center + 0.01 \/ x = x_center + 0.02) /\ cubic_spline S xs ys x = Some y).
