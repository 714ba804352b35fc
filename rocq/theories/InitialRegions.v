(** * Initial states made of regions, of expressions and of obstacles

    The remaining initial states of the compressible Euler equations
    (source/euler/initial_state_{uniform,contrast,three_state_contrast,radial_contrast,
    four_state_contrast,astro_jet,function}.h), also used for arbitrary equations of
    state, and of the shallow water equations
    (source/shallow_water/initial_state_{uniform,contrast,function,three_bumps_dam_break,
    hou_test,transient,soliton}.h), over the real numbers.  The parameters are
    arguments; the time is an argument also where the code ignores it. *)
From Coq Require Import Reals Arith List Bool String.
From Verif Require Import RVec Simd EulerSystem AeosSystem EulerInitialStates SWSystem.
Import ListNotations.
Local Open Scope R_scope.

(** Point<dim>::operator[] (deal.II): reading a coordinate that does not exist is
    undefined behaviour, [None].
    As used by the initial states cited below, e.g. source/euler/initial_state_radial_contrast.h. *)
Definition coordinate (dim : nat) (point : vec) (k : nat) : option R :=
  if Nat.ltb k dim then Some (point k) else None.

(** ** Euler equations

    [from dim2] is the function from_initial_state of the view for a primitive state of
    space dimension [dim2].  The conversion in the call back convert_states is done
    where the states are used; the parameters do not change in between. *)

(** The two views the initial states are instantiated with,
    source/euler/initial_state_library.template.h:8-38 and
    source/euler_aeos/initial_state_library.template.h:8-38 (the compressible
    Navier-Stokes equations use the first view). *)
Inductive view := euler_view (s : euler) | aeos_view (e : eos).

(** from_initial_state of the view, source/euler/hyperbolic_system.h:1242-1250,
    source/euler_aeos/hyperbolic_system.h:1455-1470 *)
Definition view_from (w : view) (dim : nat) : nat -> vec -> vec :=
  match w with euler_view s => from_initial_state s dim | aeos_view e => a_from_initial_state e dim end.

(** from_primitive_state of the view, source/euler/hyperbolic_system.h:1253-1272,
    source/euler_aeos/hyperbolic_system.h:1473-1493 *)
Definition view_from_primitive (w : view) (dim : nat) : vec -> vec :=
  match w with euler_view s => from_primitive_state s dim | aeos_view e => a_from_primitive_state dim end.

(** source/euler/initial_state_uniform.h:44-56 *)
Definition gas_uniform (from : nat -> vec -> vec) (primitive_ : vec) (point : vec) (t : R) : vec :=
  from 1%nat primitive_.

(** source/euler/initial_state_contrast.h:54-66 *)
Definition gas_contrast (from : nat -> vec -> vec) (primitive_left_ primitive_right_ : vec) (point : vec) (t : R) : vec :=
  let state_left_ := from 1%nat primitive_left_ in
  let state_right_ := from 1%nat primitive_right_ in
  if Rgt_dec (point 0%nat) 0 then state_right_ else state_left_.

(** source/euler/initial_state_three_state_contrast.h:77-92 *)
Definition gas_three_state (from : nat -> vec -> vec) (primitive_left_ primitive_middle_ primitive_right_ : vec)
    (left_length_ middle_length_ : R) (point : vec) (t : R) : vec :=
  let state_left_ := from 1%nat primitive_left_ in
  let state_middle_ := from 1%nat primitive_middle_ in
  let state_right_ := from 1%nat primitive_right_ in
  if Rge_dec (point 0%nat) (left_length_ + middle_length_) then state_right_
  else if Rge_dec (point 0%nat) left_length_ then state_middle_ else state_left_.

(** source/euler/initial_state_radial_contrast.h:62-75 *)
Definition gas_radial (dim : nat) (from : nat -> vec -> vec) (primitive_inner_ primitive_outer_ : vec) (radius_ : R)
    (point : vec) (t : R) : vec :=
  let state_inner_ := from 1%nat primitive_inner_ in
  let state_outer_ := from 1%nat primitive_outer_ in
  if Rgt_dec (sqrt (norm2 dim point)) radius_ then state_outer_ else state_inner_.

(** source/euler/initial_state_four_state_contrast.h:79-107; [None]: the exception
    ExcNotImplemented for dim equal to 1. *)
Definition gas_four_state (dim : nat) (from : nat -> vec -> vec)
    (primitive_bottom_left_ primitive_bottom_right_ primitive_top_left_ primitive_top_right_ : vec)
    (point : vec) (t : R) : option vec :=
  if Nat.eqb dim 1 then None
  else
    let state_bottom_left_ := from 2%nat primitive_bottom_left_ in
    let state_bottom_right_ := from 2%nat primitive_bottom_right_ in
    let state_top_left_ := from 2%nat primitive_top_left_ in
    let state_top_right_ := from 2%nat primitive_top_right_ in
    let top := if Rge_dec (point 0%nat) 0 then state_top_right_ else state_top_left_ in
    let bottom := if Rge_dec (point 0%nat) 0 then state_bottom_right_ else state_bottom_left_ in
    Some (if Rge_dec (point 1%nat) 0 then top else bottom).

(** source/euler/initial_state_astro_jet.h:66-80; the second operand of && is only
    evaluated when the first is true. *)
Definition gas_jet (dim : nat) (from : nat -> vec -> vec) (jet_state_ ambient_state_ : vec) (jet_width_ : R)
    (point : vec) (t : R) : option vec :=
  let state_left_ := from 1%nat jet_state_ in
  let state_right_ := from 1%nat ambient_state_ in
  if Rlt_dec (point 0%nat) (1 / 10 ^ 12) then
    match coordinate dim point 1 with
    | None => None
    | Some y => Some (if Rle_dec (Rabs y) jet_width_ then state_left_ else state_right_)
    end
  else Some state_right_.

(** source/euler/initial_state_function.h:92-116.  The expressions are arbitrary
    functions of the point and the time ([velocity i] is the expression of component
    [i]); [from_primitive] is the function from_primitive_state of the view. *)
Definition gas_function (dim : nat) (from_primitive : vec -> vec)
    (density_ : vec -> R -> R) (velocity_ : nat -> vec -> R -> R) (pressure_ : vec -> R -> R)
    (point : vec) (t : R) : vec :=
  from_primitive
    (fun k => if Nat.eqb k 0 then density_ point t
              else if Nat.eqb k (S dim) then pressure_ point t
              else if Nat.leb k dim then velocity_ (k - 1)%nat point t else 0).

(** ** Shallow water equations *)

(** source/shallow_water/initial_state_uniform.h:45-50 *)
Definition water_uniform (dim : nat) (primitive_ : vec) (point : vec) (t : R) : vec :=
  w_from_initial_state dim 1 primitive_.

(** source/shallow_water/initial_state_contrast.h:49-54 *)
Definition water_contrast (dim : nat) (primitive_left_ primitive_right_ : vec) (point : vec) (t : R) : vec :=
  let temp := if Rgt_dec (point 0%nat) 0 then primitive_right_ else primitive_left_ in
  w_from_initial_state dim 1 temp.

(** source/shallow_water/initial_state_function.h:80-97; the components of the velocity
    are those of x and y, lines 88-94, a further component would be zero. *)
Definition water_function (dim : nat) (depth_ : vec -> R -> R) (velocity_ : nat -> vec -> R -> R)
    (point : vec) (t : R) : vec :=
  w_from_primitive_state dim
    (fun k => if Nat.eqb k 0 then depth_ point t
              else if Nat.leb k dim && Nat.leb k 2 then velocity_ (k - 1)%nat point t else 0).

(** source/shallow_water/initial_state_three_bumps_dam_break.h:95-122; pow(., 2) is
    written as a product. *)
Definition three_bumps_bathymetry (dim : nat) (cone_magnitude : R) (point : vec) : R :=
  let x := point 0%nat in
  if Nat.eqb dim 1 then
    let z3 := 3 - 3 / 10 * sqrt ((x - 95 / 2) * (x - 95 / 2)) in
    cone_magnitude * Rmax z3 0
  else
    let y := point 1%nat in
    let z1 := 1 - 1 / 8 * sqrt ((x - 30) * (x - 30) + (y - 6) * (y - 6)) in
    let z2 := 1 - 1 / 8 * sqrt ((x - 30) * (x - 30) + (y - 24) * (y - 24)) in
    let z3 := 3 - 3 / 10 * sqrt ((x - 95 / 2) * (x - 95 / 2) + (y - 15) * (y - 15)) in
    cone_magnitude * Rmax (Rmax (Rmax z1 z2) z3) 0.

(** source/shallow_water/initial_state_three_bumps_dam_break.h:63-82 *)
Definition three_bumps (s : shallow) (dim : nat) (well_balancing_validation : bool)
    (left_depth right_depth cone_magnitude : R) (point : vec) (t : R) : vec :=
  let x := point 0%nat in
  if (if Rle_dec t (1 / 10 ^ 10) then true else false) || well_balancing_validation then
    let h := if Rlt_dec x 16 then left_depth else right_depth in
    let h := Rmax (h - three_bumps_bathymetry dim cone_magnitude point) 0 in
    tensor [h; 0]
  else
    let h := left_depth in
    let a := w_speed_of_sound s (tensor [h; 0]) in
    tensor [h; h * a].

(** source/shallow_water/initial_state_hou_test.h:74-107; [None]: the coordinate
    point[1] does not exist. *)
Definition hou_bathymetry (dim : nat) (point : vec) : option R :=
  match coordinate dim point 0, coordinate dim point 1 with
  | Some x, Some y =>
      let base1 := (x + 250) * (x + 250) / 1600 + y * y / 400 in
      let base2 := x * x / 225 + (y - 50) * (y - 50) / 225 in
      let base3 := (x - 250) * (x - 250) / 1225 + y * y / 225 - 10 in
      let base := Rmin (Rmin base1 base2) base3 in
      let bump1 := 80 - (x + 250) * (x + 250) / 50 - y * y / 50 in
      let bump2 := if Rle_dec ((x - 200) * (x - 200) + (y + 10) * (y + 10)) 1000 then 10 else 0 in
      let bump3 := if Rle_dec (Rabs (x - 380)) 40 then if Rle_dec (Rabs (y - 50)) 40 then 20 else 0 else 0 in
      let bumps := Rmax (Rmax bump1 bump2) bump3 in
      Some (Rmax base bumps)
  | _, _ => None
  end.

(** source/shallow_water/initial_state_hou_test.h:42-60; [None]: the exception
    ExcNotImplemented for dim equal to 1. *)
Definition hou_test (dim : nat) (depth_ : R) (point : vec) (t : R) : option vec :=
  if Nat.eqb dim 1 then None
  else
    match hou_bathymetry dim point with
    | None => None
    | Some bath =>
        let h := if Rlt_dec (point 0%nat) (-100) then Rmax (depth_ - bath) 0 else 0 in
        Some (tensor [h; 0])
    end.

(** parse_parameters_callback, source/shallow_water/initial_state_transient.h:58-64:
    [false] is an exception. *)
Definition transient_accepts (which_case_ : string) : bool :=
  String.eqb which_case_ "G1" || String.eqb which_case_ "G2" || String.eqb which_case_ "G3" || String.eqb which_case_ "none".

(** The test for the rectangular obstacle with centre [xc],
    source/shallow_water/initial_state_transient.h:112-120, 133-141, 159-167. *)
Definition transient_rectangle (xc x y : R) : bool :=
  let obstacle_length := 163 / 10 / 100 in
  let obstacle_width := 8 / 100 in
  if Rle_dec (Rabs ((x - xc) / obstacle_length + y / obstacle_width) +
              Rabs ((x - xc) / obstacle_length - y / obstacle_width)) 1
  then true else false.

(** The half circle of the configurations G2 and G3 with centre [xc],
    source/shallow_water/initial_state_transient.h:124-128, 145-148. *)
Definition transient_semi_circle (xc x : R) : R :=
  let q := (x - xc) / (31 / 2 / 100) in
  let radicand := positive_part (1 - q * q) in
  73 / 10 / 100 * sqrt radicand.

(** source/shallow_water/initial_state_transient.h:90-171; [None]: the reference to the
    coordinate point[1], which does not exist. *)
Definition transient_bathymetry (dim : nat) (which_case_ : string) (point : vec) : option R :=
  match coordinate dim point 0, coordinate dim point 1 with
  | Some x, Some y =>
      let bath :=
        if Rge_dec x 0 then
          if Rle_dec x (326 / 100) then - (92 / 100000) * x
          else - (404 / 10000) * (x - 326 / 100) - 92 / 100000 * 326 / 100
        else 0 in
      if String.eqb which_case_ "none" then Some bath
      else
        let obstacle :=
          if String.eqb which_case_ "G1" then
            if transient_rectangle (205 / 100 + 163 / 10 / 2 / 100) x y then 7 / 100 else 0
          else if String.eqb which_case_ "G2" then
            if transient_rectangle (235 / 100 + 163 / 10 / 2 / 100) x y then 7 / 100
            else Rmax (transient_semi_circle (1845 / 10 / 100 + 31 / 2 / 100) x) 0
          else if String.eqb which_case_ "G3" then
            let xc := 194 / 100 + 31 / 2 / 100 in
            let semi_circle := transient_semi_circle xc x in
            if transient_rectangle (235 / 100 + 163 / 10 / 2 / 100) x y then 7 / 100
            else if Rle_dec (Rabs (x - xc)) (31 / 2 / 100) then
              if Rlt_dec y (semi_circle - 24 / 2 / 100) then 21 / 100
              else if Rgt_dec y (- semi_circle + 24 / 2 / 100) then 21 / 100 else 0
            else 0
          else 0 in
        Some (bath + obstacle)
  | _, _ => None
  end.

(** source/shallow_water/initial_state_transient.h:66-77; [None]: the exception
    ExcNotImplemented for dim equal to 1. *)
Definition transient (dim : nat) (state_left_ state_right_ : vec) (point : vec) (t : R) : option vec :=
  if Nat.eqb dim 1 then None
  else
    let temp := if Rgt_dec (point 0%nat) (1 / 10 ^ 8) then state_right_ else state_left_ in
    Some (w_expand_state dim 1 temp).

(** source/shallow_water/initial_state_soliton.h:43-63; [g] is the gravity. *)
Definition soliton (g depth_ amplitude_ : R) (point : vec) (t : R) : vec :=
  let x := point 0%nat in
  let celerity := sqrt (g * (amplitude_ + depth_)) in
  let width := sqrt (3 * amplitude_ / (4 * depth_ * depth_ * (amplitude_ + depth_))) in
  let sech := cosh (width * (x - celerity * t)) in
  let sechSqd := 1 / (sech * sech) in
  let profile := depth_ + amplitude_ * sechSqd in
  let h := Rmax profile 0 in
  let v := celerity * (profile - depth_) / profile in
  tensor [h; h * v].
