(** * Notions used in the statement of C126 *)
From Coq Require Import Reals.
From Verif Require Import SWSystem.
Local Open Scope R_scope.

(** Water of less than this depth is a thin film on a mesh of size h: the reference depth
    times the parameter "dry state relaxation factor" times the mesh size. *)
Definition film (s : shallow) (h : R) : R := reference_water_depth s * dry_state_relaxation_factor s * h.
