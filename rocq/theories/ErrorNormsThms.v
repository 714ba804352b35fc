(** * Property theorems: reported errors (C121) *)
From Coq Require Import Reals String List Bool Arith Lia Lra.
From Verif Require Import Extractor ErrorNorms ErrorNormsSpec ErrorNormsProofs.
Import ListNotations.
Local Open Scope R_scope.

(** ** C121 *)

(** A state that agrees with the analytic solution on the unconstrained degrees of freedom
    has errors zero if the analytic solution obeys the constraints and, with
    normalization, no selected component of it vanishes. *)
Theorem C121_exact : forall normalize M names U A entries,
  closed M -> (forall e, In e entries -> In e names) ->
  (forall k, obeys M (A k) /\ same_free M (U k) (A k)) ->
  (normalize = true -> forall e k, In e entries -> find_index e names = Some k -> nonzero_norms M (A k)) ->
  compute_error false normalize M names U A entries = Some (0, 0, 0).
Proof. exact C121_exact_proof. Qed.
Print Assumptions C121_exact.

(** A uniform flow on a periodic interval. *)
Example C121_exact_ex :
  closed interval /\ (forall k, obeys interval (flow k) /\ same_free interval (flow k) (flow k)).
Proof. exact interval_exact. Qed.

(** Conversely, a maximum error of zero without normalization means equality at every
    degree of freedom. *)
Theorem C121_only_exact : forall debug M names U A entries l1 l2,
  compute_error debug false M names U A entries = Some (0, l1, l2) ->
  forall e k i, In e entries -> find_index e names = Some k -> In i (concat (e_rows M)) ->
  match e_constraint M i with
  | None => U k i = A k i
  | Some l => fold_right (fun jw s => snd jw * U k (fst jw) + s) 0 l = A k i
  end.
Proof. exact C121_only_exact_proof. Qed.
Print Assumptions C121_only_exact.

(** A density off by one. *)
Example C121_error_ex :
  compute_error false false interval ["rho"; "m"]%string
  (fun k _ => match k with 0%nat => 2 | _ => 3 end) (fun k _ => match k with 0%nat => 1 | _ => 3 end) ["rho"]%string = Some (1, 2, sqrt 2).
Proof. exact interval_error. Qed.

(** Errors are added up over the selected components. *)
Theorem C121_sum : forall debug normalize M names U A l m,
  compute_error debug normalize M names U A (l ++ m) =
  match compute_error debug normalize M names U A l, compute_error debug normalize M names U A m with
  | Some a, Some b => Some (add3 a b)
  | _, _ => None
  end.
Proof. exact C121_sum_proof. Qed.
Print Assumptions C121_sum.

(** Normalized errors do not depend on the units of the components. *)
Theorem C121_units : forall debug M names U A c entries,
  (forall k, 0 < c k) ->
  compute_error debug true M names (fun k i => c k * U k i) (fun k i => c k * A k i) entries =
  compute_error debug true M names U A entries.
Proof. exact C121_units_proof. Qed.
Print Assumptions C121_units.

(** The distribution of rows and cells over the ranks does not matter. *)
Theorem C121_ranks : forall debug normalize M N names U A entries,
  same_mesh M N -> compute_error debug normalize M names U A entries = compute_error debug normalize N names U A entries.
Proof. exact C121_ranks_proof. Qed.
Print Assumptions C121_ranks.

(** The interval on two ranks and on one. *)
Example C121_ranks_ex :
  same_mesh interval interval_one.
Proof. exact interval_same. Qed.

(** No normalized error can be reported if a selected component of the analytic solution
    vanishes. *)
Theorem C121_vanishing : forall debug M names U A entries e k,
  In e entries -> find_index e names = Some k -> (forall i, A k i = 0) ->
  compute_error debug true M names U A entries = None.
Proof. exact C121_vanishing_proof. Qed.
Print Assumptions C121_vanishing.

(** This is so in the default setting for a uniform flow along the first axis, although
    the state is exact. *)
Theorem C121_normalized_refuted :
  exists (M : emesh) (U : nat -> nat -> R),
    closed M /\ (forall k, obeys M (U k)) /\
    compute_error false true M (component_names (euler_tables 2)) U U (component_names (euler_tables 2)) = None /\
    compute_error false false M (component_names (euler_tables 2)) U U (component_names (euler_tables 2)) = Some (0, 0, 0).
Proof. exact C121_normalized_refuted_proof. Qed.
Print Assumptions C121_normalized_refuted.

(** In a debug build no error can be reported if there is a constrained degree of freedom. *)
Theorem C121_debug_none : forall normalize M names U A entries i l,
  In i (concat (e_rows M)) -> e_constraint M i = Some l -> entries <> [] ->
  compute_error true normalize M names U A entries = None.
Proof. exact C121_debug_none_proof. Qed.
Print Assumptions C121_debug_none.

(** The same with an exact state. *)
Theorem C121_debug_refuted :
  exists (M : emesh) (U : nat -> nat -> R),
    closed M /\ (forall k, obeys M (U k)) /\
    compute_error false false M (component_names (euler_tables 2)) U U (component_names (euler_tables 2)) = Some (0, 0, 0) /\
    compute_error true false M (component_names (euler_tables 2)) U U (component_names (euler_tables 2)) = None.
Proof. exact C121_debug_refuted_proof. Qed.
Print Assumptions C121_debug_refuted.
