(** * Placement of the initial values

    source/initial_values.template.h.  Directions, points and momenta are vectors of
    real numbers.  A quotient by a vanishing norm, which is a NaN in the code, is only
    computed where its value is not used (83-86, 98-101, 124-127, 138-141). *)
From Coq Require Import Reals Arith List Bool String.
From Verif Require Import RVec.
Import ListNotations.
Local Open Scope R_scope.

(** The constant 1.0e-14 (86, 101, 127, 141).
    source/initial_values.template.h:86, 101, 127, 141. *)
Definition roll_tolerance : R := 1 / 100000000000000.

(** The rotation of the components 0 and [b] by the direction, the form used in
    affine_transform: source/initial_values.template.h:80-90 (b = 2), 95-105 (b = 1). *)
Definition roll_onto (b : nat) (n v : vec) : vec :=
  let norm := sqrt (n 0%nat * n 0%nat + n b * n b) in
  let n_x := n 0%nat / norm in
  let n_b := n b / norm in
  if Rgt_dec norm roll_tolerance then
    fun k => if Nat.eqb k 0 then n_x * v 0%nat + n_b * v b
             else if Nat.eqb k b then - n_b * v 0%nat + n_x * v b else v k
  else v.

(** The form used in affine_transform_vector: source/initial_values.template.h:121-131
    (b = 1), 135-145 (b = 2). *)
Definition roll_back (b : nat) (n v : vec) : vec :=
  let norm := sqrt (n 0%nat * n 0%nat + n b * n b) in
  let n_x := n 0%nat / norm in
  let n_b := n b / norm in
  if Rgt_dec norm roll_tolerance then
    fun k => if Nat.eqb k 0 then n_x * v 0%nat - n_b * v b
             else if Nat.eqb k b then n_b * v 0%nat + n_x * v b else v k
  else v.

(** affine_transform, source/initial_values.template.h:70-109 *)
Definition affine_transform (dim : nat) (initial_direction initial_position x : vec) : vec :=
  let direction := vsub x initial_position in
  let direction := if Nat.eqb dim 3 then roll_onto 2 initial_direction direction else direction in
  if Nat.leb 2 dim then roll_onto 1 initial_direction direction else direction.

(** affine_transform_vector, source/initial_values.template.h:115-149 *)
Definition affine_transform_vector (dim : nat) (initial_direction direction : vec) : vec :=
  let direction := if Nat.leb 2 dim then roll_back 1 initial_direction direction else direction in
  if Nat.eqb dim 3 then roll_back 2 initial_direction direction else direction.

(** The normalization of the direction, source/initial_values.template.h:158-160;
    [None]: an exception (AssertThrow). *)
Definition normalize (dim : nat) (initial_direction : vec) : option vec :=
  if Req_EM_T (sqrt (norm2 dim initial_direction)) 0 then None
  else Some (vscal (/ sqrt (norm2 dim initial_direction)) initial_direction).

Section InitialState.
(** The library of configurations (names and compute functions) and
    View::apply_galilei_transform of the equations. *)
Variable configurations : list (string * (vec -> R -> vec)).
Variable galilei : nat -> vec -> (vec -> vec) -> vec.

(** The function object initial_state_, source/initial_values.template.h:158-196, without
    perturbation; [direction] is the parameter as given by the user. *)
Definition initial_state (dim : nat) (configuration : string) (direction position : vec) : option (vec -> R -> vec) :=
  match normalize dim direction with
  | None => None
  | Some n =>
      match find (fun it => String.eqb (fst it) configuration) configurations with
      | None => None
      | Some it => Some (fun point t =>
          galilei dim (snd it (affine_transform dim n position point) t) (affine_transform_vector dim n))
      end
  end.

(** The random perturbation, source/initial_values.template.h:200-218; [draw i] is the
    random number in [-1, 1) drawn for component i. *)
Definition perturb (problem_dimension : nat) (perturbation : R) (draw : nat -> R) (t : R) (state : vec) : vec :=
  if Req_EM_T perturbation 0 then state
  else if Rgt_dec t 0 then state
  else fun i => if Nat.ltb i problem_dimension then state i * (1 + perturbation * draw i) else state i.
End InitialState.
