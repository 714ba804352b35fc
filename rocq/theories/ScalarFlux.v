(** * FluxLibrary::Function: a flux given by expressions

    source/scalar_conservation/flux_function.h.  An expression is an arbitrary
    real function of the state (muparser itself is not modelled). *)
From Coq Require Import Reals List.
From Verif Require Import Scalar.
Import ListNotations.
Local Open Scope R_scope.

(** The gradient of deal.II's FunctionParser with the step size h, for which
    flux_function.h:55-57 asks: (f(u + h) - f(u - h)) / (2 h), see the parameter
    description in source/scalar_conservation/flux_function.h:41-45 (deal.II itself is
    not part of the repository). *)
Definition central_difference (h : R) (f : R -> R) (u : R) : R := (f (u + h) - f (u - h)) / (2 * h).

(** FluxLibrary::Function, value() and gradient(),
    source/scalar_conservation/flux_function.h:68-79; [expressions] are the components
    separated by semicolons, lines 49-58, and [delta] the parameter "derivative
    approximation delta", lines 41-45.  Simplified: a direction without an expression is
    zero here (in the code an assertion of deal.II fails). *)
Definition function_flux (delta : R) (expressions : list (R -> R)) : flux :=
  {| fl_value := fun u k => nth k expressions (fun _ => 0) u;
     fl_gradient := fun u k => central_difference delta (nth k expressions (fun _ => 0)) u;
     fl_delta := delta |}.
