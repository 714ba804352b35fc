(** * Notions for complete runs of the Euler equations *)
From Coq Require Import Reals List Arith.
From Verif Require Import RVec EulerSystem EulerScheme EulerSchemeSpec EulerMinEntropySpec SchemeSpec TimeInt EulerRun.
From Verif Require Import Scheme.
Import ListNotations.
Local Open Scope R_scope.

(** The vectors an explicit scheme hands to its substeps of size [tau] together with the
    stages, and the vector it ends with, if every substep is accepted: [prep t] sets boundary
    values for time t, [new old stages] is a substep, [sadd v a b w] is a v + b w. *)
Section Trace.
Context {SV : Type}.
Variable prep : R -> SV -> SV.
Variable new : SV -> list (SV * R) -> SV.
Variable sadd : SV -> R -> R -> SV -> SV.

Definition trace (sch : scheme) (t tau : R) (v : SV) : list (SV * list (SV * R)) * SV :=
  let U := prep t v in
  let V := new U [] in
  let U1 := prep (t + 1 * tau) V in
  match sch with
  | ssprk_22 => ([(U, []); (U1, [])], sadd (new U1 []) (1 / 2) (1 / 2) U)
  | ssprk_33 =>
      let U2 := prep (t + / 2 * tau) (sadd (new U1 []) (1 / 4) (3 / 4) U) in
      ([(U, []); (U1, []); (U2, [])], sadd (new U2 []) (2 / 3) (1 / 3) U)
  | erk_22 => let s1 := [(U, -1)] in ([(U, []); (U1, s1)], new U1 s1)
  | erk_33 =>
      let s1 := [(U, -1)] in let U2 := prep (t + 2 * tau) (new U1 s1) in
      let s2 := [(U, 3 / 4); (U1, -2)] in
      ([(U, []); (U1, s1); (U2, s2)], new U2 s2)
  | erk_43 =>
      let s1 := [(U, -1)] in let U2 := prep (t + 2 * tau) (new U1 s1) in
      let s2 := [(U1, -1)] in let U3 := prep (t + 3 * tau) (new U2 s2) in
      let s3 := [(U1, 5 / 3); (U2, -10 / 3)] in
      ([(U, []); (U1, s1); (U2, s2); (U3, s3)], new U3 s3)
  | erk_54 =>
      let s1 := [(U, (a_31 - a_21) / c54)] in let U2 := prep (t + 2 * tau) (new U1 s1) in
      let s2 := [(U, (a_41 - a_31) / c54); (U1, (a_42 - a_32) / c54)] in
      let U3 := prep (t + 3 * tau) (new U2 s2) in
      let s3 := [(U, (a_51 - a_41) / c54); (U1, (a_52 - a_42) / c54); (U2, (a_53 - a_43) / c54)] in
      let U4 := prep (t + 4 * tau) (new U3 s3) in
      let s4 := [(U, (a_61 - a_51) / c54); (U1, (a_62 - a_52) / c54); (U2, (a_63 - a_53) / c54); (U3, (a_64 - a_54) / c54)] in
      ([(U, []); (U1, s1); (U2, s2); (U3, s3); (U4, s4)], new U4 s4)
  | _ => ([(U, [])], V)
  end.
End Trace.

(** A mesh as the scheme expects it; it may have constrained rows. *)
Definition proper_mesh (M : mesh) (dim : nat) : Prop :=
  symmetric_pattern M /\ positive_masses M /\ valid_numbering M /\ pairs_listed M /\ mesh_dimension M dim /\
  (forall i, active M i -> zero_row_sum M i) /\ exists i, active M i.

(** All rows that are not constrained are gases with at least the specific entropy [s0]. *)
Definition gas_above (s : euler) (dim : nat) (M : mesh) (s0 : R) (U : nat -> state nat) : Prop :=
  forall i, active M i -> positive_gas dim (U i) /\ s0 <= entropy_of_gas s dim (U i).

(** Boundary entries: walls with a unit normal, Dirichlet data of sufficient entropy, or
    nothing prescribed; no dynamic conditions. *)
Definition calm_entry (s : euler) (dim : nat) (s0 : R) (data : RVec.vec -> R -> state nat) (e : bentry) : Prop :=
  match be_id e with
  | dynamic => False
  | slip => norm2 dim (be_normal e) = 1
  | dirichlet => forall t, positive_gas dim (data (be_position e) t) /\ s0 <= entropy_of_gas s dim (data (be_position e) t)
  | _ => True
  end.

(** A sequence of completed steps from time [t] to time [t']; [P t s] holds at the beginning of
    each step. *)
Inductive steps {SV : Type} (step : R -> TimeInt.mstate SV -> outcome R * TimeInt.mstate SV)
    (P : R -> TimeInt.mstate SV -> Prop) : R -> TimeInt.mstate SV -> R -> TimeInt.mstate SV -> Prop :=
| steps_none t s : steps step P t s t s
| steps_more t s h s1 t' s' : P t s -> step t s = (Ok h, s1) -> steps step P (t + h) s1 t' s' -> steps step P t s t' s'.

(** The vector [o] is suitable for a substep of size [tau]: the viscosity of all pairs exceeds
    hundred times the smallest positive number and [tau] is at most the proposals of the rows
    for the CFL number 1. *)
Definition suitable (p : eparameters) (dim : nat) (M : mesh) (num_min : R) (tmp : euler_vector -> temporaries)
    (tau : R) (o : euler_vector) : Prop :=
  (forall i, active M i -> e_fast p dim M num_min o (tmp_d (tmp o)) i) /\
  (forall x, In x (euler_rows p dim M num_min tmp 1 o) -> tau <= x).

(** The step size of a step that is not interrupted: the smallest proposal of the prepared
    vector for the CFL number [cfl], at most the remaining time; times the number of substeps
    (for the SSP schemes 1). *)
Definition step_size (p : eparameters) (dim : nat) (M : mesh) (num_min : R) entries data tmp
    (sch : scheme) (cfl t t_final : R) (v : euler_vector) : R :=
  efficiency sch * fold_right Rmin ((t_final - t) / efficiency sch)
                     (euler_rows p dim M num_min tmp cfl (euler_prepare p dim M entries data t v)).

(** All substeps of a step of size [h] are suitable. *)
Definition cautious (p : eparameters) (dim : nat) (M : mesh) (num_min : R) entries data order n tmp
    (sch : scheme) (t : R) (v : euler_vector) (h : R) : Prop :=
  let tau := h / efficiency sch in
  forall o st,
    In (o, st) (fst (trace (euler_prepare p dim M entries data)
                       (fun o st => fst (euler_update p dim M num_min order n tmp o st tau)) euler_sadd sch t tau v)) ->
    suitable p dim M num_min tmp tau o.

(** Parameters, mesh and boundary for which the theorems are stated; machine epsilon is zero. *)
Definition regular_run (p : eparameters) (dim : nat) (M : mesh) (num_min s0 : R)
    (entries : list bentry) (data : RVec.vec -> R -> state nat) (order : list nat) (n : nat) : Prop :=
  proper_mesh M dim /\ 0 < num_min /\ ep_eps p = 0 /\ 0 < ep_big p /\
  0 <= ep_relaxation p /\ moderate_relaxation p dim M /\ 1 < gamma (ep_system p) <= 5 / 3 /\
  (s0 = 0 \/ (ep_relaxation p = 0 /\ 0 <= s0 <= ep_big p)) /\
  (forall i, In i order -> (i < n_rows M)%nat) /\ (n <= 2)%nat /\
  Forall (calm_entry (ep_system p) dim s0 data) entries.
