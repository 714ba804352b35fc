(** * Model: initial states given by expressions, with the time stored in the parsers

    source/scalar_conservation/initial_state_function.h:59-65,
    source/euler/initial_state_function.h:92-116,
    source/shallow_water/initial_state_function.h:80-97 and
    source/shallow_water/initial_state_geotiff.h:117-131.  A dealii::FunctionParser keeps
    the time as a member that set_time() changes and value() reads; the expressions
    themselves are arbitrary functions of point and time.  Threads are interleaved at the
    calls of set_time() and value(). *)
From Coq Require Import Reals List Bool Arith.
From Verif Require Import RVec SWSystem Geotiff.
Import ListNotations.
Local Open Scope R_scope.

(** The expressions of the parsers, by number: density_function_ etc.,
    source/euler/initial_state_function.h:127-131. *)
Definition expressions := nat -> vec -> R -> R.
(** The member time of every parser (dealii::FunctionTime), changed in
    source/euler/initial_state_function.h:97-112. *)
Definition clocks := nat -> R.

(** A call of set_time(t) or value(point) of a parser,
    source/euler/initial_state_function.h:97-113. *)
Inductive op := SetTime (k : nat) (t : R) | Value (k : nat) (x : vec).

(** dealii::FunctionTime::set_time, called in source/euler/initial_state_function.h:97. *)
Definition set_time (k : nat) (t : R) (c : clocks) : clocks := fun j => if Nat.eqb j k then t else c j.

(** The effect of a call on the parsers and the number returned,
    source/euler/initial_state_function.h:97-98. *)
Definition perform (f : expressions) (o : op) (c : clocks) : clocks * list R :=
  match o with
  | SetTime k t => (set_time k t c, [])
  | Value k x => (c, [f k x (c k)])
  end.

(** Calls one after the other on one thread, e.g.
    source/euler/initial_state_function.h:97-113. *)
Fixpoint perform_all (f : expressions) (l : list op) (c : clocks) : clocks * list R :=
  match l with
  | [] => (c, [])
  | o :: rest =>
      let (c1, r1) := perform f o c in
      let (c2, r2) := perform_all f rest c1 in (c2, r1 ++ r2)
  end.

(** The calls in compute(point, t) for the given parsers,
    source/euler/initial_state_function.h:97-113. *)
Fixpoint compute_calls (parsers : list nat) (x : vec) (t : R) : list op :=
  match parsers with
  | [] => []
  | k :: rest => SetTime k t :: Value k x :: compute_calls rest x t
  end.

(** compute(point, t) called several times,
    source/hyperbolic_module.template.h:123-144. *)
Fixpoint program (parsers : list nat) (calls : list (vec * R)) : list op :=
  match calls with
  | [] => []
  | (x, t) :: rest => compute_calls parsers x t ++ program parsers rest
  end.

(** A dealii::Tensor<1, n> filled from its first component on; other components are zero,
    source/euler/initial_state_function.h:95. *)
Definition tensor (l : list R) : vec := fun k => nth k l 0.

(** source/scalar_conservation/initial_state_function.h:59-65 *)
Definition scalar_compute (f : expressions) (x : vec) (t : R) (c : clocks) : clocks * vec :=
  let (c', r) := perform_all f (compute_calls [0%nat] x t) c in (c', tensor r).

(** source/euler/initial_state_function.h:92-116: density, the components of the velocity,
    pressure.  Parser k fills component k. *)
Definition gas_compute (dim : nat) (from_primitive : vec -> vec) (f : expressions) (x : vec) (t : R) (c : clocks)
  : clocks * vec :=
  let (c', r) := perform_all f (compute_calls (seq 0 (dim + 2)) x t) c in (c', from_primitive (tensor r)).

(** source/shallow_water/initial_state_function.h:80-97: depth, x- and, in two (and more)
    space dimensions, y-component of the velocity. *)
Definition water_compute (dim : nat) (f : expressions) (x : vec) (t : R) (c : clocks) : clocks * vec :=
  let (c', r) := perform_all f (compute_calls (seq 0 (1 + Nat.min dim 2)) x t) c in
  (c', w_from_primitive_state dim (tensor r)).

(** source/shallow_water/initial_state_geotiff.h:117-131: parser 0 is height_function_,
    parser 1 velocity_function_. *)
Definition geotiff_compute (p : gt_parameters) (img : gt_image) (dim : nat) (f : expressions) (x : vec) (t : R)
    (c : clocks) : clocks * gt_outcome vec :=
  match compute_bathymetry p img dim x with
  | Geotiff.Value z =>
      let (c1, h) := perform_all f [SetTime 0 t; Value 0 x] c in
      let primitive_0 := Rmax 0 (tensor h 0%nat - z) in
      let (c2, v) := perform_all f [SetTime 1 t; Value 1 x] c1 in
      (c2, Geotiff.Value (w_from_initial_state dim 1 (tensor (primitive_0 :: v))))
  | Exception => (c, Exception)
  | Undefined => (c, Undefined)
  end.

(** A thread: the calls it has still to make and the values it got,
    source/euler/initial_state_function.h:92-116. *)
Record thread := { todo : list op; got : list R }.

(** One call by one of the threads; the parsers are shared, they are members of the initial
    state, source/euler/initial_state_function.h:127-131. *)
Inductive step (f : expressions) : clocks * list thread -> clocks * list thread -> Prop :=
| Step : forall c before o rest r after,
    step f (c, before ++ {| todo := o :: rest; got := r |} :: after)
           (fst (perform f o c), before ++ {| todo := rest; got := r ++ snd (perform f o c) |} :: after).

(** Any number of calls, see above, source/euler/initial_state_function.h:97-113. *)
Inductive steps (f : expressions) : clocks * list thread -> clocks * list thread -> Prop :=
| steps_refl : forall s, steps f s s
| steps_next : forall s s1 s2, step f s s1 -> steps f s1 s2 -> steps f s s2.

(** Threads that are about to call compute() several times each,
    source/euler/initial_state_function.h:92-116. *)
Definition begin (parsers : list nat) (calls : list (vec * R)) : thread :=
  {| todo := program parsers calls; got := [] |}.
