(** * Notions for complete runs of the Navier-Stokes equations *)
From Coq Require Import Reals List Arith.
From Verif Require Import RVec BoundaryMap EulerSystem EulerScheme EulerSchemeSpec SchemeSpec TimeInt EulerRun EulerRunSpec.
From Verif Require Import Scheme.
From Verif Require Import Assembly AssemblySpec Parabolic ParabolicSpec NSRun.
Import ListNotations.
Local Open Scope R_scope.

(** The schemes for systems with a parabolic part whose substeps are all implemented. *)
Definition viscous_scheme (sch : scheme) : Prop :=
  sch = imex_11 \/ sch = strang_ssprk_33_cn \/ sch = strang_erk_33_cn \/ sch = strang_erk_43_cn.

(** A finite element space as assumed in C106; rows without neighbors are constrained ones. *)
Definition discretized (p : eparameters) (G : geometry) : Prop :=
  complete_ansatz G /\ valid_numbering (ns_mesh p G) /\ (forall I, free G I -> active (ns_mesh p G) I).

(** All rows are owned by the same rank. *)
Definition one_rank (G : geometry) : Prop :=
  forall I J, (I < g_n_dofs G)%nat -> (J < g_n_dofs G)%nat -> g_row_rank G I = g_row_rank G J.

(** Nonnegative weights and shape functions; the stiffness matrix has no positive entry off the
    diagonal. *)
Definition monotone_elements (G : geometry) : Prop :=
  positive_weights G /\ positive_basis G /\
  (forall I J, free G I -> free G J -> I <> J -> laplace G I J <= 0).

(** Density and internal energy are positive in all rows that are not constrained. *)
Definition all_gas (G : geometry) (U : nat -> RVec.vec) : Prop := forall I, free G I -> positive_gas (g_dim G) (U I).

(** In the vector with boundary values for time t all viscosities exceed hundred times the smallest
    positive number. *)
Definition fast_waves (p : eparameters) (G : geometry) (num_min : R) bm data (tmp : euler_vector -> temporaries)
    (t : R) (v : euler_vector) : Prop :=
  let o := ns_prepare p G bm data t v in
  forall i, free G i -> e_fast p (g_dim G) (ns_mesh p G) num_min o (tmp_d (tmp o)) i.

(** The same for the first and for a second attempt of a step. *)
Definition fast_start (p : eparameters) (G : geometry) (num_min : R) bm data tmp (t : R) (s : TimeInt.mstate euler_vector) : Prop :=
  let v := st_vector _ s in
  fast_waves p G num_min bm data tmp t v /\ fast_waves p G num_min bm data tmp t (ns_prepare p G bm data t v).
