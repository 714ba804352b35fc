(** * Notions for complete runs with an arbitrary equation of state *)
From Coq Require Import Reals List Arith.
From Verif Require Import RVec EulerSystem AeosSystem AeosScheme AeosSchemeSpec SchemeSpec TimeInt EulerRun EulerRunSpec AeosRun.
From Verif Require Import Scheme.
Import ListNotations.
Local Open Scope R_scope.

(** All rows are gases below the maximal density with a positive pressure. *)
Definition all_gas (e : eos) (dim : nat) (M : mesh) (U : nat -> state nat) : Prop :=
  forall i, active M i -> aeos_gas e dim (U i).

(** Boundary entries: walls with a unit normal, Dirichlet data that are gases, or nothing
    prescribed; dynamic conditions do not exist. *)
Definition gas_entry (e : eos) (dim : nat) (data : RVec.vec -> R -> state nat) (b : bentry) : Prop :=
  match be_id b with
  | dynamic => False
  | slip => norm2 dim (be_normal b) = 1
  | dirichlet => forall t, aeos_gas e dim (data (be_position b) t)
  | _ => True
  end.

(** Parameters, mesh and boundary for which the theorems are stated: a continuous ansatz, exact
    arithmetic, an interpolation with pinf = 0 and a pressure that is positive where the excess
    energy is; bounds are not relaxed or there is no covolume. *)
Definition aeos_setting (p : aparameters) (dim : nat) (M : mesh) (num_min : R)
    (entries : list bentry) (data : RVec.vec -> R -> state nat) (order : list nat) (n : nat) : Prop :=
  symmetric_pattern M /\ positive_masses M /\ valid_numbering M /\ pairs_listed M /\ mesh_dimension M dim /\
  (forall i, active M i -> zero_row_sum M i) /\ (exists i, active M i) /\ discontinuous M = false /\
  (forall i, In i order -> (i < n_rows M)%nat) /\ (n <= 2)%nat /\
  0 < num_min /\ ap_eps p = 0 /\ 0 < ap_big p /\ 0 <= ap_relaxation p /\ a_moderate p dim M /\
  interp_pinf (a_eos (ap_system p)) = 0 /\ 0 <= interp_b (a_eos (ap_system p)) /\
  (ap_relaxation p = 0 \/ interp_b (a_eos (ap_system p)) = 0) /\
  compatible_eos (a_eos (ap_system p)) /\
  Forall (gas_entry (a_eos (ap_system p)) dim data) entries.

(** The vector [o] is suitable for a substep of size [tau]: viscosities are above the cut off,
    and [tau] is at most the proposals of the rows for the CFL number 1. *)
Definition aeos_suitable (p : aparameters) (dim : nat) (M : mesh) (num_min : R) (tmp : aeos_vector -> aeos_temporaries)
    (tau : R) (o : aeos_vector) : Prop :=
  (forall i, active M i -> a_fast p dim M num_min o (at_d (tmp o)) i) /\
  (forall x, In x (aeos_rows p dim M num_min tmp 1 o) -> tau <= x).

(** The step size of a step that is not interrupted. *)
Definition aeos_step_size (p : aparameters) (dim : nat) (M : mesh) (num_min : R) entries data tmp
    (sch : scheme) (cfl t t_final : R) (v : aeos_vector) : R :=
  efficiency sch * fold_right Rmin ((t_final - t) / efficiency sch)
                     (aeos_rows p dim M num_min tmp cfl (aeos_prepare p dim M entries data t v)).

(** All substeps of a step of size [h] are suitable. *)
Definition aeos_cautious (p : aparameters) (dim : nat) (M : mesh) (num_min : R) entries data order n tmp
    (sch : scheme) (t : R) (v : aeos_vector) (h : R) : Prop :=
  let tau := h / efficiency sch in
  forall o st,
    In (o, st) (fst (trace (aeos_prepare p dim M entries data)
                       (fun o st => fst (aeos_update p dim M num_min order n tmp o st tau)) aeos_sadd sch t tau v)) ->
    aeos_suitable p dim M num_min tmp tau o.
