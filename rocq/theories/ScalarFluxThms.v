(** * Property theorems: flux functions of scalar conservation laws (C128) *)
From Coq Require Import Reals List Arith Bool Lia Lra.
From Verif Require Import Scalar ScalarFlux ScalarFluxProofs.
Import ListNotations.
Local Open Scope R_scope.

(** The gradient of the Burgers flux is its derivative. *)
Theorem C128_burgers :
  forall delta u k,
  derivable_pt_lim (fun x => fl_value (burgers delta) x k) u (fl_gradient (burgers delta) u k).
Proof. exact C128_burgers_proof. Qed.
Print Assumptions C128_burgers.

(** The gradient of the KPP flux is its derivative. *)
Theorem C128_kpp :
  forall delta u k, (k < 2)%nat ->
  derivable_pt_lim (fun x => fl_value (kpp delta) x k) u (fl_gradient (kpp delta) u k).
Proof. exact C128_kpp_proof. Qed.
Print Assumptions C128_kpp.

(** The fluxes are the ones of the printed formulas. *)
Theorem C128_formulas :
  forall delta delta' u, fl_value (burgers delta) u 0%nat = 1 / 2 * u * u /\
  fl_value (kpp delta') u 0%nat = sin u /\ fl_value (kpp delta') u 1%nat = cos u.
Proof. exact C128_direction_proof. Qed.
Print Assumptions C128_formulas.

(** The gradient of a flux given by expressions is the derivative at some state that differs
    by less than the step size. *)
Theorem C128_between :
  forall delta expressions k u f',
  0 < delta -> 
  (forall x, u - delta <= x <= u + delta -> derivable_pt_lim (nth k expressions (fun _ => 0)) x (f' x)) ->
  exists c, u - delta < c < u + delta /\ fl_gradient (function_flux delta expressions) u k = f' c.
Proof. exact C128_between_proof. Qed.
Print Assumptions C128_between.

(** The second component of the expressions "0.5*u*u; sin(u)". *)
Example C128_between_ex :
  forall x, 1 - 1 / 10 <= x <= 1 + 1 / 10 ->
  derivable_pt_lim (nth 1 [fun u => 1 / 2 * u * u; fun u => sin u] (fun _ => 0)) x (cos x).
Proof. exact C128_between_setting. Qed.

(** It is exact for quadratic expressions, for any step size. *)
Theorem C128_quadratic :
  forall delta expressions k a b c,
  delta <> 0 -> (forall u, nth k expressions (fun _ => 0) u = a + b * u + c * (u * u)) ->
  forall u, fl_gradient (function_flux delta expressions) u k = b + 2 * c * u.
Proof. exact C128_quadratic_proof. Qed.
Print Assumptions C128_quadratic.

(** The second component of the expressions "sin(u); u*(1-u)". *)
Example C128_quadratic_ex :
  forall u,
  nth 1 [fun u => sin u; fun u => u * (1 - u)] (fun _ => 0) u = 0 + 1 * u + -1 * (u * u).
Proof. exact C128_quadratic_setting. Qed.

(** The default expression "0.5*u*u" is the Burgers flux. *)
Theorem C128_default :
  forall delta delta' u, delta <> 0 ->
  let F := function_flux delta [fun u => 1 / 2 * u * u] in
  fl_value F u 0%nat = fl_value (burgers delta') u 0%nat /\
  fl_gradient F u 0%nat = fl_gradient (burgers delta') u 0%nat.
Proof. exact C128_default_proof. Qed.
Print Assumptions C128_default.
