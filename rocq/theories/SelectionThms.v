(** * Property theorems: the choice by name (C160) *)
From Coq Require Import String List Bool Arith.
From Verif Require Import Selection SelectionSpec SelectionProofs.
Import ListNotations.
Local Open Scope string_scope.

(** ** The choice by name (C160) *)

(** Whatever the addresses of the objects, the object with the configured name is used and no other. *)
Theorem C160_selects : forall names addrs choice i,
  length addrs = length names -> NoDup addrs -> NoDup names ->
  (exists o, pick (populate (objects names addrs)) choice = Some o /\ e_class o = i)
  <-> nth_error names i = Some choice.
Proof. exact pick_selects. Qed.
Print Assumptions C160_selects.

(** The fluxes; the set is traversed in another order than they were added. *)
Example C160_selects_ex :
  length addrs3 = length fluxes /\ NoDup addrs3 /\ NoDup fluxes /\
  exists o, pick (populate (objects fluxes addrs3)) "kpp" = Some o /\ e_class o = 2 /\
    map e_name (populate (objects fluxes addrs3)) = ["function"; "kpp"; "burgers"].
Proof. exact selects_case. Qed.

(** Whatever the addresses, the program stops exactly if no object has the configured name. *)
Theorem C160_unknown : forall names addrs choice,
  length addrs = length names -> NoDup addrs ->
  pick (populate (objects names addrs)) choice = None <-> ~ In choice names.
Proof. exact pick_unknown. Qed.
Print Assumptions C160_unknown.

(** Why names have to differ: the addresses would decide otherwise. *)
Example C160_unknown_ex :
  exists names a1 a2 c1 c2 o1 o2, length a1 = length names /\ length a2 = length names /\
  NoDup a1 /\ NoDup a2 /\ pick (populate (objects names a1)) "x" = Some o1 /\ e_class o1 = c1 /\
  pick (populate (objects names a2)) "x" = Some o2 /\ e_class o2 = c2 /\ c1 <> c2.
Proof. exact duplicate_case. Qed.

(** In all shipped libraries every name selects its own class, and the default is found. *)
Theorem C160_libraries : forall names default addrs,
  shipped names default ->
  length addrs = length names -> NoDup addrs ->
  (forall i n, nth_error names i = Some n ->
     exists o, pick (populate (objects names addrs)) n = Some o /\ e_class o = i)
  /\ (exists o, pick (populate (objects names addrs)) default = Some o).
Proof. exact libraries. Qed.
Print Assumptions C160_libraries.

(** The geometries. *)
Example C160_libraries_ex :
  exists addrs : list nat, shipped geometries "cylinder" /\ length addrs = length geometries /\ NoDup addrs.
Proof. exact libraries_case. Qed.

(** After any parameter files the flux in use is the one asked for last, and the title that is printed shows the formula with the expression given last. *)
Theorem C160_parse : forall objs files s0 s,
  NoDup (map e_addr objs) -> construct objs = Some s0 -> parse_all files s0 = Some s ->
  exists o, In o objs /\ e_name o = chosen files /\ s_selected s = Some (e_addr o) /\
    s_title s = "Scalar conservation equation (" ++ chosen files ++ ": " ++ formula files o ++ ")".
Proof. exact parse_selects. Qed.
Print Assumptions C160_parse.

(** The flux given by an expression. *)
Example C160_parse_ex :
  exists s0 s, NoDup (map e_addr flux_objects) /\ construct flux_objects = Some s0 /\
  parse_all [flux_file] s0 = Some s /\ s_selected s = Some 10 /\
  s_title s = "Scalar conservation equation (function: f(u)={u*u*u})" /\
  s_title s0 = "Scalar conservation equation (burgers: f(u)={0.5u^2})".
Proof. exact parse_case. Qed.

(** Reading a file fails exactly if the flux then asked for does not exist. *)
Theorem C160_parse_unknown : forall objs files s0 s a,
  NoDup (map e_addr objs) -> construct objs = Some s0 -> parse_all files s0 = Some s ->
  parse a s = None <-> (forall o, In o objs -> e_name o <> chosen (files ++ [a])).
Proof. exact parse_fails. Qed.
Print Assumptions C160_parse_unknown.

(** Names are case-sensitive. *)
Example C160_parse_unknown_ex :
  exists s0, construct flux_objects = Some s0 /\
  parse {| a_choice := Some "Burgers"; a_raw := fun _ => None |} s0 = None.
Proof. exact fails_case. Qed.

(** Not every documented initial state can be chosen: the circular dam break is in no list. *)
Theorem C160_unlisted_refuted :
  exists name, In name shallow_water_classes /\
  forall addrs, length addrs = length shallow_water_states -> NoDup addrs ->
    pick (populate (objects shallow_water_states addrs)) name = None.
Proof. exact unlisted. Qed.
Print Assumptions C160_unlisted_refuted.

(** A parameter file need not carry over from one configuration of the program to another: the name of an equation of state depends on it. *)
Theorem C160_eospac_refuted :
  exists name, In name (equations_of_state true) /\
  forall addrs, length addrs = length (equations_of_state false) -> NoDup addrs ->
    pick (populate (objects (equations_of_state false) addrs)) name = None.
Proof. exact eospac_name. Qed.
Print Assumptions C160_eospac_refuted.
