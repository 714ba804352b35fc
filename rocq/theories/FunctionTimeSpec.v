(** * Specification: user given initial states are evaluated at the time asked for *)
From Coq Require Import Reals List.
From Verif Require Import RVec.
Import ListNotations.
Local Open Scope R_scope.

(** The values of the expressions number [parsers] at the points and times of the calls,
    one call after the other. *)
Fixpoint values_at (f : nat -> vec -> R -> R) (parsers : list nat) (calls : list (vec * R)) : list R :=
  match calls with
  | [] => []
  | (x, t) :: rest => map (fun k => f k x t) parsers ++ values_at f parsers rest
  end.
