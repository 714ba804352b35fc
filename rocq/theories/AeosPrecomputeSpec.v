(** * Specification for the precomputed values *)
From Coq Require Import Reals List.
From Verif Require Import RVec EulerSystem AeosSystem AeosPrecompute EosSpec.
Import ListNotations.
Local Open Scope R_scope.

(** The surrogate gamma of a state. *)
Definition state_gamma (e : eos) (dim : nat) (U : vec) : R := surrogate_gamma e dim U (state_pressure e dim U).

(** The values after the first cycle. *)
Definition first_values (e : eos) (dim : nat) (U : vec) : prec :=
  {| prec_p := state_pressure e dim U; prec_gamma := state_gamma e dim U; prec_s := 0; prec_eta := 0 |}.

(** With one thread the exchange starts (asynchronously) with the first successful check, or runs
    after the last event (source/openmp.h:150-173): the vectors it may read from. *)
Definition observable (ev : list event) (P Q : nat -> prec) : Prop :=
  exists ev1 ev2, ev = ev1 ++ ev2 /\ Q = apply_events ev1 P /\ (In (Check true) ev1 \/ ev2 = []).

(** [m] is the minimum of [f] over the list. *)
Definition is_minimum (f : nat -> R) (l : list nat) (m : R) : Prop :=
  (exists j, In j l /\ m = f j) /\ forall j, In j l -> m <= f j.

(** The row lengths of the rows of one SIMD group agree. *)
Definition grouped (row_length : nat -> nat) (width groups : nat) : Prop :=
  forall q l, (q < groups)%nat -> (l < width)%nat -> row_length (q * width + l)%nat = row_length (q * width)%nat.
