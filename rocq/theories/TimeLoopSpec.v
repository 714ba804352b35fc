(** * Observations on a run of the time loop *)
From Coq Require Import Reals List Bool Arith.
From Verif Require Import Quantities TimeLoop.
Import ListNotations.
Local Open Scope R_scope.

Section Spec.
Context {St B : Type}.

(** Time levels at which the loop body was executed, in order. *)
Fixpoint levels (evs : list (event St B)) : list R :=
  match evs with
  | [] => []
  | Level _ _ t :: l => t :: levels l
  | _ :: l => levels l
  end.

(** Time steps performed: (t, tau). *)
Fixpoint steps (evs : list (event St B)) : list (R * R) :=
  match evs with
  | [] => []
  | Step _ _ t tau :: l => (t, tau) :: steps l
  | _ :: l => steps l
  end.

(** Times of the mesh adaptations. *)
Fixpoint adaptations (evs : list (event St B)) : list R :=
  match evs with
  | [] => []
  | Adapt _ _ t :: l => t :: adaptations l
  | _ :: l => adaptations l
  end.

(** The three kinds of numbered files of the solution. *)
Inductive kind := Full | Levelsets | Check.

Definition enabled (C : config) (k : kind) : bool :=
  match k with
  | Full => enable_output_full C
  | Levelsets => enable_output_levelsets C
  | Check => enable_checkpointing C
  end.

Definition multiplier (C : config) (k : kind) : nat :=
  match k with
  | Full => output_full_multiplier C
  | Levelsets => output_levelsets_multiplier C
  | Check => checkpoint_multiplier C
  end.

(** Number and time of the files of a kind, in the order of writing. *)
Fixpoint records (k : kind) (evs : list (event St B)) : list (nat * R) :=
  match evs with
  | [] => []
  | Output _ _ Solution n t full lev _ _ :: l =>
      match k with
      | Full => if full then (n, t) :: records k l else records k l
      | Levelsets => if lev then (n, t) :: records k l else records k l
      | Check => records k l
      end
  | Checkpoint _ _ n t _ :: l =>
      match k with
      | Check => (n, t) :: records k l
      | _ => records k l
      end
  | _ :: l => records k l
  end.

End Spec.

(** [t] is the first element of [l] not below [x]. *)
Definition first_reaching (l : list R) (x t : R) : Prop :=
  exists l1 l2, l = l1 ++ t :: l2 /\ x <= t /\ forall s, In s l1 -> s < x.

(** All multipliers are positive. *)
Definition valid_multipliers (C : config) : Prop :=
  (0 < checkpoint_multiplier C)%nat /\ (0 < output_full_multiplier C)%nat /\
  (0 < output_levelsets_multiplier C)%nat /\ (0 < quantities_multiplier C)%nat.

(** The integrator proposes positive steps; none passes the end point handed to
    it (C13). *)
Definition sound_integrator {St} (integ : St -> R -> R -> St * R) : Prop :=
  forall s t t_end, t < t_end -> 0 < snd (integ s t t_end) /\ t + snd (integ s t t_end) <= t_end.

(** End point handed to the integrator. *)
Definition end_point (C : config) : R := if enforce_t_final C then t_final C else big C.

(** Neither errors nor quantities are computed; the schlieren bounds are determined
    anew for every output (or there is no output). *)
Definition no_history (C : config) : Prop :=
  enable_compute_error C = false /\ enable_compute_quantities C = false /\
  (recompute_bounds C = true \/ (enable_output_full C = false /\ enable_output_levelsets C = false)).
