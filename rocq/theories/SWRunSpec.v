(** * Notions for complete runs of the shallow water equations *)
From Coq Require Import Reals List Arith.
From Verif Require Import RVec EulerSystem SWSystem SWLimiter PhysSpec SWScheme SWSchemeSpec SchemeSpec TimeInt EulerRun EulerRunSpec.
From Verif Require Import Scheme.
Import ListNotations.
Local Open Scope R_scope.

(** Boundary entries of a lake at rest: walls, nothing prescribed, zero momentum prescribed, or
    the lake itself as Dirichlet or characteristic data. *)
Definition still_entry (s : shallow) (dim : nat) (Z : nat -> R) (level : R)
    (data : RVec.vec -> R -> state nat) (e : bentry) : Prop :=
  let u := data (be_position e) in
  let lake t := u t 0%nat = Rmax 0 (level - Z (be_row e)) /\ forall k, (1 <= k <= dim)%nat -> u t k = 0 in
  match be_id e with
  | dirichlet => forall t, lake t
  | dynamic => 0 < gravity s /\ forall t, lake t
  | dirichlet_momentum => forall t k, (1 <= k <= dim)%nat -> u t k = 0
  | _ => True
  end.

(** Parameters, mesh (without constrained rows) and boundary of a lake. *)
Definition lake_setting (p : wparameters) (dim : nat) (Z : nat -> R) (M : mesh) (num_min level : R)
    (entries : list bentry) (data : RVec.vec -> R -> state nat) (order : list nat) : Prop :=
  let s := wp_system p in
  proper_mesh M dim /\ (forall i, (i < n_rows M)%nat -> active M i) /\ (forall i, active M i -> mass M i <= measure_of_omega M) /\
  (forall i, In i order -> (i < n_rows M)%nat) /\
  0 < num_min /\ 0 < wp_eps p /\ 0 <= wp_big p /\ 0 < wp_tiny p /\ 0 <= wp_relaxation p <= 1 /\
  0 <= dry_state_relaxation_small s /\ 0 <= dry_state_relaxation_large s /\
  0 < cutoff_small s (wp_eps p) /\ 0 <= gravity s /\ celerity p M num_min /\ at_rest_options p M /\
  Forall (still_entry s dim Z level data) entries.

(** Boundary entries that leave the water depth alone. *)
Definition depth_kept (e : bentry) : Prop :=
  match be_id e with dirichlet | dynamic => False | _ => True end.

(** A row without outflow through itself: c_ii is zero, or the last boundary entry of the row is
    a wall, with unit normal parallel to c_ii if it is a slip wall. *)
Definition closed_row (dim : nat) (M : mesh) (entries : list bentry) (i : nat) : Prop :=
  (forall k, (k < dim)%nat -> nth k (c_ij M i i) 0 = 0) \/
  exists before e after, entries = before ++ e :: after /\ be_row e = i /\
    Forall (fun e' => be_row e' <> i) after /\
    (be_id e = no_slip \/
     (be_id e = slip /\ norm2 dim (be_normal e) = 1 /\
      exists a, forall k, (k < dim)%nat -> nth k (c_ij M i i) 0 = a * be_normal e k)).
