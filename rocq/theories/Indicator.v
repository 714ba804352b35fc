(** * The smoothness indicators of the four equations

    An entry of a stencil is the state U_j, its precomputed entropy and c_ij. A quotient
    with a vanishing denominator is an undefined value (NaN in the code), here [None]. *)
From Coq Require Import Reals List Bool Arith.
From Verif Require Import RVec Newton EulerSystem EulerLimiter AeosSystem SWSystem Scalar.
Import ListNotations.
Local Open Scope R_scope.

(** A floating point division; [None] for a zero denominator.
    The quotient of source/euler/indicator.h:254-255 and its counterparts. *)
Definition quotient (x y : R) : option R := if Req_EM_T y 0 then None else Some (x / y).

(** std::min(Number(1.), parameters.evc_factor() * quotient), the last line of alpha() in
    source/euler/indicator.h:257, source/euler_aeos/indicator.h:264,
    source/shallow_water/indicator.h:221 and source/scalar_conservation/indicator.h:207. *)
Definition scaled_min (evc_factor : R) (q : option R) : option R :=
  match q with None => None | Some q => Some (Rmin 1 (evc_factor * q)) end.

(** One call of accumulate(): the state U_j, the entropy of j read from the precomputed
    values, c_ij; source/hyperbolic_module.template.h:384-392 (the diagonal entry is
    accumulated, too). *)
Record ientry := { ie_U : vec; ie_eta : R; ie_c : vec }.

(** ** Euler *)

(** The fields, source/euler/indicator.h:168-174. *)
Record eindicator := {
  ei_rho_inverse : R; ei_eta : R; ei_f : nat -> vec; ei_d_eta : vec; ei_left : R; ei_right : vec
}.

(** d_eta_i, source/euler/indicator.h:201-202 *)
Definition shift0 (d : vec) (x : R) : vec := fun k => if Nat.eqb k 0 then d k - x else d k.

(** reset, source/euler/indicator.h:187-208; [eta_i] is the precomputed entropy. *)
Definition e_reset (s : euler) (dim : nat) (U_i : vec) (eta_i : R) : eindicator :=
  let rho_i_inverse := 1 / density U_i in
  {| ei_rho_inverse := rho_i_inverse; ei_eta := eta_i; ei_f := EulerSystem.flux s dim U_i;
     ei_d_eta := shift0 (harten_entropy_derivative s dim U_i) (eta_i * rho_i_inverse);
     ei_left := 0; ei_right := fun _ => 0 |}.

(** The common part of accumulate() in source/euler/indicator.h:229-237 and
    source/euler_aeos/indicator.h:236-244. *)
Definition e_add (dim : nat) (l : eindicator) (U_j : vec) (eta_j : R) (f_j : nat -> vec) (c_ij : vec) : eindicator :=
  let rho_j_inverse := 1 / U_j 0%nat in
  let entropy_flux := (eta_j * rho_j_inverse - ei_eta l * ei_rho_inverse l) * dot dim (fun i => U_j (S i)) c_ij in
  {| ei_rho_inverse := ei_rho_inverse l; ei_eta := ei_eta l; ei_f := ei_f l; ei_d_eta := ei_d_eta l;
     ei_left := ei_left l + entropy_flux;
     ei_right := fun k => ei_right l k + dot dim (vsub (f_j k) (ei_f l k)) c_ij |}.

(** accumulate, source/euler/indicator.h:211-238 *)
Definition e_accumulate (s : euler) (dim : nat) (l : eindicator) (x : ientry) : eindicator :=
  e_add dim l (ie_U x) (ie_eta x) (EulerSystem.flux s dim (ie_U x)) (ie_c x).

(** alpha, source/euler/indicator.h:241-258 and (identically)
    source/euler_aeos/indicator.h:248-265; problem_dimension = dim + 2. *)
Definition e_alpha (evc_factor : R) (dim : nat) (l : eindicator) (hd_i : R) : option R :=
  let numerator := ei_left l - rsum (dim + 2) (fun k => ei_d_eta l k * ei_right l k) in
  let denominator := Rabs (ei_left l) + rsum (dim + 2) (fun k => Rabs (ei_d_eta l k * ei_right l k)) in
  scaled_min evc_factor (quotient (Rabs numerator) (denominator + hd_i * Rabs (ei_eta l))).

(** The use in source/hyperbolic_module.template.h:382-413: the value alpha_i of a node. *)
Definition euler_indicator (s : euler) (evc_factor : R) (dim : nat) (U_i : vec) (eta_i : R)
    (stencil : list ientry) (hd_i : R) : option R :=
  e_alpha evc_factor dim (fold_left (e_accumulate s dim) stencil (e_reset s dim U_i eta_i)) hd_i.

(** ** EulerAEOS *)

(** reset, source/euler_aeos/indicator.h:189-214; [gamma_min] and [eta_i] are precomputed. *)
Definition a_reset_indicator (e : eos) (dim : nat) (gamma_min : R) (U_i : vec) (eta_i : R) : eindicator :=
  let rho_i_inverse := 1 / a_density U_i in
  {| ei_rho_inverse := rho_i_inverse; ei_eta := eta_i;
     ei_f := a_flux dim U_i (surrogate_pressure e dim U_i gamma_min);
     ei_d_eta := shift0 (surrogate_harten_entropy_derivative e dim U_i eta_i gamma_min) (eta_i * rho_i_inverse);
     ei_left := 0; ei_right := fun _ => 0 |}.

(** accumulate, source/euler_aeos/indicator.h:217-245; eta_j is computed with the gamma_min
    of node i. *)
Definition a_accumulate_indicator (e : eos) (dim : nat) (gamma_min : R) (l : eindicator) (x : ientry) : eindicator :=
  let eta_j := surrogate_harten_entropy e dim (ie_U x) gamma_min in
  e_add dim l (ie_U x) eta_j (a_flux dim (ie_U x) (surrogate_pressure e dim (ie_U x) gamma_min)) (ie_c x).

(** source/hyperbolic_module.template.h:382-413 *)
Definition aeos_indicator (e : eos) (evc_factor : R) (dim : nat) (gamma_min : R) (U_i : vec) (eta_i : R)
    (stencil : list ientry) (hd_i : R) : option R :=
  e_alpha evc_factor dim
    (fold_left (a_accumulate_indicator e dim gamma_min) stencil (a_reset_indicator e dim gamma_min U_i eta_i)) hd_i.

(** ** ShallowWater *)

(** The fields used by alpha(), source/shallow_water/indicator.h:133-144. *)
Record windicator := { wi_eta : R; wi_f : nat -> vec; wi_d_eta : vec; wi_left : R; wi_right : vec }.

(** reset, source/shallow_water/indicator.h:155-174 *)
Definition w_reset_indicator (s : shallow) (eps : R) (dim : nat) (U_i : vec) (eta_i : R) : windicator :=
  {| wi_eta := eta_i; wi_f := w_f s eps U_i; wi_d_eta := w_mathematical_entropy_derivative s eps dim U_i;
     wi_left := 0; wi_right := fun _ => 0 |}.

(** accumulate, source/shallow_water/indicator.h:177-199 *)
Definition w_accumulate_indicator (s : shallow) (eps : R) (dim : nat) (l : windicator) (x : ientry) : windicator :=
  let U_j := ie_U x in
  let velocity_j := vscal (inverse_water_depth_sharp s eps U_j) (w_momentum U_j) in
  {| wi_eta := wi_eta l; wi_f := wi_f l; wi_d_eta := wi_d_eta l;
     wi_left := wi_left l + (ie_eta x + w_pressure s U_j) * dot dim velocity_j (ie_c x);
     wi_right := fun k => wi_right l k + dot dim (vsub (w_f s eps U_j k) (wi_f l k)) (ie_c x) |}.

(** alpha, source/shallow_water/indicator.h:202-222; problem_dimension = dim + 1, [tiny] is
    std::numeric_limits<ScalarNumber>::min(). *)
Definition w_alpha (tiny evc_factor : R) (dim : nat) (l : windicator) (hd_i : R) : option R :=
  let my_sum := rsum (dim + 1) (fun k => wi_d_eta l k * wi_right l k) in
  let numerator := Rabs (wi_left l - my_sum) in
  let denominator := Rabs (wi_left l) + Rabs my_sum in
  let regularization := 100 * tiny in
  scaled_min evc_factor (quotient (Rabs numerator) (denominator + Rmax (hd_i * Rabs (wi_eta l)) regularization)).

(** source/hyperbolic_module.template.h:382-413 *)
Definition sw_indicator (s : shallow) (eps tiny evc_factor : R) (dim : nat) (U_i : vec) (eta_i : R)
    (stencil : list ientry) (hd_i : R) : option R :=
  w_alpha tiny evc_factor dim
    (fold_left (w_accumulate_indicator s eps dim) stencil (w_reset_indicator s eps dim U_i eta_i)) hd_i.

(** ** ScalarConservation *)

(** The fields, source/scalar_conservation/indicator.h:135-139. *)
Record sindicator := { si_u : R; si_abs_max : R; si_f : vec; si_left : R; si_right : R }.

(** One call of accumulate(): u_j, the precomputed values of j, c_ij.
    source/scalar_conservation/indicator.h:171-190. *)
Record sientry := { sie_u : R; sie_prec : vec; sie_c : vec }.

(** reset, source/scalar_conservation/indicator.h:151-167 *)
Definition sc_reset_indicator (dim : nat) (u_i : R) (prec_i : vec) : sindicator :=
  {| si_u := u_i; si_abs_max := Rabs u_i; si_f := construct_flux_tensor dim prec_i; si_left := 0; si_right := 0 |}.

(** accumulate, source/scalar_conservation/indicator.h:170-190 *)
Definition sc_accumulate_indicator (dim : nat) (l : sindicator) (x : sientry) : sindicator :=
  let d_eta_j := kruzkov_entropy_derivative (si_u l) (sie_u x) in
  let f_j := construct_flux_tensor dim (sie_prec x) in
  {| si_u := si_u l; si_abs_max := Rmax (si_abs_max l) (Rabs (sie_u x)); si_f := si_f l;
     si_left := si_left l + d_eta_j * dot dim f_j (sie_c x);
     si_right := si_right l + d_eta_j * dot dim (si_f l) (sie_c x) |}.

(** alpha, source/scalar_conservation/indicator.h:193-208 *)
Definition sc_alpha (tiny evc_factor : R) (l : sindicator) (hd_i : R) : option R :=
  let numerator := si_left l - si_right l in
  let denominator := Rabs (si_left l) + Rabs (si_right l) in
  let regularization := 100 * tiny in
  scaled_min evc_factor (quotient (Rabs numerator)
    (denominator + Rmax (hd_i * Rabs (si_abs_max l)) regularization)).

(** source/hyperbolic_module.template.h:382-413 *)
Definition scalar_indicator (tiny evc_factor : R) (dim : nat) (u_i : R) (prec_i : vec)
    (stencil : list sientry) (hd_i : R) : option R :=
  sc_alpha tiny evc_factor (fold_left (sc_accumulate_indicator dim) stencil (sc_reset_indicator dim u_i prec_i)) hd_i.
