(** * Notions used in the statement of C127 *)
From Coq Require Import Reals List.
From Verif Require Import RVec PhysSpec Indicator.
Import ListNotations.
Local Open Scope R_scope.

(** The value of an indicator; 0 if it is undefined. *)
Definition value (a : option R) : R := match a with Some x => x | None => 0 end.

(** The stencil of a node with state U whose neighbours have the states
    U + t V_j: a list of pairs of V_j and c_ij. *)
Definition nearby (eta : vec -> R) (U : vec) (l : list (vec * vec)) (t : R) : list ientry :=
  map (fun x => {| ie_U := line U (fst x) t; ie_eta := eta (line U (fst x) t); ie_c := snd x |}) l.
