(** * Model: fluxes, equations of state, initial states and geometries chosen by name

    source/scalar_conservation/hyperbolic_system.h:512-549,
    source/euler_aeos/hyperbolic_system.h:771-837,
    source/initial_values.template.h:57-62 and 153-196,
    source/discretization.template.h:77 and 91-104.  The lists are std::set's of
    pointers: they are traversed in the order of the addresses, which are arbitrary here.
    An object is known by its position in the calls of add(), that is, by its class.
    Left out: what the objects compute (modelled elsewhere) and all their parameters but
    one, which stands for the "expression" of source/scalar_conservation/flux_function.h. *)
From Coq Require Import String List Bool Arith.
Import ListNotations.
Local Open Scope string_scope.

(** An object of a list: its address, its class, name() and, for fluxes, the parameter
    expression_, flux_formula() and whether its class computes the formula from the
    expression; source/scalar_conservation/flux.h:30-91,
    source/scalar_conservation/flux_function.h:29-69,
    source/initial_state_library.h:32-85. *)
Record entry := { e_addr : nat; e_class : nat; e_name : string;
                  e_raw : string; e_formula : string; e_parsed : bool }.

(** std::set::emplace() for pointers, as used in
    source/scalar_conservation/flux_library.cc:26: ordered by address, no duplicates. *)
Fixpoint emplace (o : entry) (s : list entry) : list entry :=
  match s with
  | [] => [o]
  | a :: rest =>
    if Nat.ltb (e_addr o) (e_addr a) then o :: s
    else if Nat.eqb (e_addr o) (e_addr a) then s
    else a :: emplace o rest
  end.

(** The calls of add() one after the other, e.g. source/geometry_library.h:41-49. *)
Definition populate (objects : list entry) : list entry :=
  fold_left (fun s o => emplace o s) objects [].

(** The loops source/scalar_conservation/hyperbolic_system.h:529-539,
    source/euler_aeos/hyperbolic_system.h:817-826, source/initial_values.template.h:166-189
    and source/discretization.template.h:93-98: the first object with the name.  None is
    the exception thrown after the loop. *)
Fixpoint pick (s : list entry) (choice : string) : option entry :=
  match s with
  | [] => None
  | a :: rest => if String.eqb (e_name a) choice then Some a else pick rest choice
  end.

(** The callback of a flux, source/scalar_conservation/flux_function.h:50-68 (for the
    other fluxes there is none). *)
Definition callback (o : entry) : entry :=
  if e_parsed o
  then {| e_addr := e_addr o; e_class := e_class o; e_name := e_name o; e_raw := e_raw o;
          e_formula := "f(u)={" ++ e_raw o ++ "}"; e_parsed := true |}
  else o.

(** HyperbolicSystem of the scalar conservation equations: flux_, flux_list_,
    selected_flux_ (as an address) and problem_name;
    source/scalar_conservation/hyperbolic_system.h:43 and 67-71. *)
Record system := { s_choice : string; s_list : list entry;
                   s_selected : option nat; s_title : string }.

(** An object of the list is changed in place; it->parse_parameters_call_back() in
    source/scalar_conservation/hyperbolic_system.h:534. *)
Definition touch (addr : nat) (s : list entry) : list entry :=
  map (fun o => if Nat.eqb (e_addr o) addr then callback o else o) s.

(** populate_functions, source/scalar_conservation/hyperbolic_system.h:527-545. *)
Definition populate_functions (s : system) : option system :=
  match pick (s_list s) (s_choice s) with
  | None => None
  | Some o =>
    Some {| s_choice := s_choice s; s_list := touch (e_addr o) (s_list s);
            s_selected := Some (e_addr o);
            s_title := "Scalar conservation equation (" ++ e_name o ++ ": "
                         ++ e_formula (callback o) ++ ")" |}
  end.

(** The constructor, source/scalar_conservation/hyperbolic_system.h:512-549; the objects
    have run their own callbacks when they were constructed
    (source/scalar_conservation/flux_function.h:67). *)
Definition construct (objects : list entry) : option system :=
  populate_functions {| s_choice := "burgers"; s_list := map callback (populate objects);
                        s_selected := None; s_title := "Scalar conservation equation" |}.

(** What a parameter file assigns: the flux and the expressions.  As with the
    parameters added by add_parameter(), those of all objects are set before the first
    callback (source/scalar_conservation/hyperbolic_system.h:516-519,
    source/scalar_conservation/flux_function.h:33-38). *)
Record assignment := { a_choice : option string; a_raw : string -> option string }.

(** The assignment to one object, source/scalar_conservation/flux_function.h:33-38. *)
Definition set_raw (a : assignment) (o : entry) : entry :=
  {| e_addr := e_addr o; e_class := e_class o; e_name := e_name o;
     e_raw := match a_raw a (e_name o) with Some r => r | None => e_raw o end;
     e_formula := e_formula o; e_parsed := e_parsed o |}.

(** ParameterAcceptor::initialize(), called in source/equation_dispatch.h:273, for this
    object and its list: the values are set, then the callbacks are run in the order of
    construction, that of the system (line 547) first. *)
Definition parse (a : assignment) (s : system) : option system :=
  let s1 := {| s_choice := match a_choice a with Some c => c | None => s_choice s end;
               s_list := map (set_raw a) (s_list s);
               s_selected := s_selected s; s_title := s_title s |} in
  match populate_functions s1 with
  | None => None
  | Some s2 =>
    Some {| s_choice := s_choice s2; s_list := map callback (s_list s2);
            s_selected := s_selected s2; s_title := s_title s2 |}
  end.

(** Parameter files are read one after the other; source/equation_dispatch.h:273. *)
Fixpoint parse_all (l : list assignment) (s : system) : option system :=
  match l with
  | [] => Some s
  | a :: rest => match parse a s with Some s' => parse_all rest s' | None => None end
  end.

(** Objects with given names at given addresses; only the name matters for most lists
    (source/initial_state_library.h:48-52). *)
Fixpoint objects_from (k : nat) (names : list string) (addrs : list nat) : list entry :=
  match names, addrs with
  | n :: names', a :: addrs' =>
    {| e_addr := a; e_class := k; e_name := n; e_raw := ""; e_formula := ""; e_parsed := false |}
      :: objects_from (S k) names' addrs'
  | _, _ => []
  end.
(** As in source/initial_state_library.h:48-52. *)
Definition objects (names : list string) (addrs : list nat) : list entry := objects_from 0 names addrs.

(** The fluxes, source/scalar_conservation/flux_library.cc:28-30 with flux_burgers.h:23,
    flux_function.h:30 and flux_kpp.h:23. *)
Definition fluxes : list string := ["burgers"; "function"; "kpp"].
(** The equations of state, source/euler_aeos/equation_of_state_library.cc:34-39; the
    name of the fifth one depends on the configuration
    (source/euler_aeos/equation_of_state_sesame.h:227-229 and 474-478). *)
Definition equations_of_state (eospac : bool) : list string :=
  ["function"; "jones wilkins lee"; "noble abel stiffened gas"; "polytropic gas";
   if eospac then "sesame" else "Sesame"; "van der waals"].
(** Euler and Navier-Stokes: source/euler/initial_state_library_euler.h:42-57. *)
Definition euler_states : list string :=
  ["astro jet"; "becker solution"; "contrast"; "four state contrast"; "function"; "icf like";
   "isentropic vortex"; "leblanc"; "noh"; "radial contrast"; "ramp up"; "rarefaction";
   "shock front"; "smooth wave"; "three state contrast"; "uniform"].
(** source/shallow_water/initial_state_library_shallow_water.h:42-54. *)
Definition shallow_water_states : list string :=
  ["contrast"; "flow over bump"; "function"; "geotiff"; "hou test"; "paraboloid";
   "ritter dam break"; "sloping friction"; "smooth vortex"; "three bumps dam break";
   "uniform"; "transient experiments"; "soliton"].
(** source/scalar_conservation/initial_state_library.template.h:36-37. *)
Definition scalar_states : list string := ["function"; "uniform"].
(** source/skeleton/initial_state_library.template.h:35. *)
Definition skeleton_states : list string := ["uniform"].
(** source/geometry_library.h:41-49. *)
Definition geometries : list string :=
  ["airfoil"; "annulus"; "cylinder"; "disk"; "reader"; "rectangular domain"; "step";
   "wall"; "wave tank"].
