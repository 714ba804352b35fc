(** * The equation dispatcher

    source/equation_dispatch.h.  The registered equations are a list of names in the
    order of registration; boost::signals2 calls the slots in that order and an
    exception ends the call.  [run_ok name dim]: TimeLoop<...>::run() of the driver
    returns (otherwise it ends with an exception).  Parsing the parameter file and
    the output on the screen are not modelled. *)
From Coq Require Import String List Bool ZArith.
Import ListNotations.
Local Open Scope Z_scope.

(** What a call leaves behind: the time loops that were started, the member
    time_loop_executed_, and whether it returned without an exception.
    source/equation_dispatch.h:77-103, 158, 250-287. *)
Record outcome := Outcome { started : list (string * Z); executed : bool; returned : bool }.

Section Dispatch.
Variable run_ok : string -> Z -> bool.

(** The slot registered by Dispatch<...>(name), source/equation_dispatch.h:250-287. *)
Definition slot (name : string) (dimension : Z) (equation : string) (o : outcome) : outcome :=
  if negb (String.eqb equation name) then o
  else if executed o then Outcome (started o) (executed o) false
  else if (dimension =? 1) || (dimension =? 2) || (dimension =? 3) then
    if run_ok name dimension then Outcome (started o ++ [(name, dimension)]) true true
    else Outcome (started o ++ [(name, dimension)]) (executed o) false
  else o.

(** signals->dispatch(...), source/equation_dispatch.h:95-96. *)
Fixpoint call_slots (registered : list string) (dimension : Z) (equation : string) (o : outcome) : outcome :=
  match registered with
  | [] => o
  | name :: rest =>
      let o' := slot name dimension equation o in
      if returned o' then call_slots rest dimension equation o' else o'
  end.

(** EquationDispatch::dispatch, source/equation_dispatch.h:77-103.  The pointer signals
    is null iff nothing has been registered (109-116). *)
Definition dispatch (registered : list string) (dimension : Z) (equation : string) (before : bool) : outcome :=
  if negb ((1 <=? dimension) && (dimension <=? 3)) then Outcome [] before false
  else match registered with
       | [] => Outcome [] before false
       | _ => let o := call_slots registered dimension equation (Outcome [] before true) in
              if returned o then Outcome (started o) (executed o) (executed o) else o
       end.
End Dispatch.

(** The registrations in the code: source/*/equation_dispatch.cc:15 in the directories
    euler, euler_aeos, navier_stokes, scalar_conservation, shallow_water, skeleton.  The
    order is that of the initialisation of static objects, which is not specified. *)
Definition shipped_equations : list string :=
  ["euler"; "euler aeos"; "navier stokes"; "scalar conservation"; "shallow water"; "skeleton"]%string.
