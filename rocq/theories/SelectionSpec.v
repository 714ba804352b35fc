(** * Specification for the choice by name: what the files say last

    Independent of the loops of Selection.v; the assignments are those of
    source/scalar_conservation/hyperbolic_system.h:516-519 and
    source/scalar_conservation/flux_function.h:33-38. *)
From Coq Require Import String List.
From Verif Require Import Selection.
Import ListNotations.
Local Open Scope string_scope.

(** The last of the values that are given, or the default;
    source/scalar_conservation/hyperbolic_system.h:515-519. *)
Fixpoint last_given (d : string) (l : list (option string)) : string :=
  match l with
  | [] => d
  | Some v :: rest => last_given v rest
  | None :: rest => last_given d rest
  end.
(** The flux that the files ask for, source/scalar_conservation/hyperbolic_system.h:515-519. *)
Definition chosen (files : list assignment) : string := last_given "burgers" (map a_choice files).
(** The expression that the files give to an object,
    source/scalar_conservation/flux_function.h:32-38. *)
Definition expression (files : list assignment) (o : entry) : string :=
  last_given (e_raw o) (map (fun a => a_raw a (e_name o)) files).
(** The formula of an object with its expression, source/scalar_conservation/flux_function.h:64
    and e.g. source/scalar_conservation/flux_kpp.h:25. *)
Definition formula (files : list assignment) (o : entry) : string :=
  if e_parsed o then "f(u)={" ++ expression files o ++ "}" else e_formula o.

(** The libraries with the defaults of the parameters:
    source/scalar_conservation/hyperbolic_system.h:515,
    source/euler_aeos/hyperbolic_system.h:775, source/initial_values.template.h:33,
    source/discretization.template.h:57. *)
Inductive shipped : list string -> string -> Prop :=
| sh_flux : shipped fluxes "burgers"
| sh_eos : forall eospac, shipped (equations_of_state eospac) "polytropic gas"
| sh_euler : shipped euler_states "uniform"
| sh_shallow : shipped shallow_water_states "uniform"
| sh_scalar : shipped scalar_states "uniform"
| sh_skeleton : shipped skeleton_states "uniform"
| sh_geometry : shipped geometries "cylinder".

(** The documented classes of initial states of the shallow water equations: those of the
    list and the one in source/shallow_water/initial_state_circular_dam_break.h:19-33. *)
Definition shallow_water_classes : list string := "circular dam break" :: shallow_water_states.
