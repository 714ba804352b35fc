(** * ScalarConservation: the notions used in the theorems *)
From Coq Require Import Reals List Bool Arith.
From Verif Require Import RVec Newton EulerSystem EulerLimiter Scalar.
Import ListNotations.
Local Open Scope R_scope.

(** The arguments of one call of accumulate(), source/scalar_conservation/limiter.h:231-236. *)
Record scontrib := { sc_u : R; sc_f : vec; sc_c : vec; sc_shift : R }.

Definition sc_step (dim : nat) (l : slimiter) (x : scontrib) : slimiter :=
  sc_accumulate dim l (sc_u x) (sc_f x) (sc_c x) (sc_shift x).
(** reset() followed by accumulate() for all stencil entries,
    source/hyperbolic_module.template.h:689,794. *)
Definition sc_stencil (dim : nat) (big u_i : R) (f_i : vec) (cs : list scontrib) : slimiter :=
  fold_left (sc_step dim) cs (sc_reset big u_i f_i).
Definition sc_bar_of (dim : nat) (u_i : R) (f_i : vec) (x : scontrib) : R :=
  sc_bar_state dim u_i (sc_u x) f_i (sc_f x) (sc_c x) (sc_shift x).


(** The value of U + t P. *)
Definition value_at (L : slane) (t : R) : R := sl_U L + t * sl_P L.
Definition value_within (L : slane) (slack t : R) : Prop :=
  u_min (sl_b L) - slack <= value_at L t <= u_max (sl_b L) + slack.
(** A call of limit(): the low-order state and U + t_min P are within the bounds. *)
Definition scalar_call (L : slane) : Prop :=
  0 <= sl_tmax L /\ sl_tmin L <= sl_tmax L /\ value_within L 0 0 /\ value_within L 0 (sl_tmin L).


(** The flux in direction n. *)
Definition flux_n (F : flux) (dim : nat) (n : vec) (u : R) : R := rsum dim (fun k => fl_value F u k * n k).
Definition dflux_n (F : flux) (dim : nat) (n : vec) (u : R) : R := rsum dim (fun k => fl_gradient F u k * n k).


(** Convex or concave projected flux: the derivative is monotone between the states. *)
Definition convex_between (F : flux) (dim : nat) (n : vec) (u_i u_j : R) : Prop :=
  (forall u, Rmin u_i u_j <= u <= Rmax u_i u_j ->
     derivable_pt_lim (flux_n F dim n) u (dflux_n F dim n u)) /\
  ((forall u v, Rmin u_i u_j <= u <= v -> v <= Rmax u_i u_j -> dflux_n F dim n u <= dflux_n F dim n v) \/
   (forall u v, Rmin u_i u_j <= u <= v -> v <= Rmax u_i u_j -> dflux_n F dim n v <= dflux_n F dim n u)).


(** The constants k for which the entropy inequality is enforced. *)
Definition enforced (averaged : bool) (draws : list R) (u_i u_j k : R) : Prop :=
  (averaged = true /\ k = 1 / 2 * (u_i + u_j)) \/ (exists x, In x draws /\ k = x * u_i + (1 - x) * u_j).

(** The Kruzkov entropy flux sgn(u - k) (f(u) - f(k)) in direction n. *)
Definition entropy_flux (F : flux) (dim : nat) (n : vec) (k u : R) : R :=
  (if Rge_dec u k then 1 else -1) * (flux_n F dim n u - flux_n F dim n k).

