(** * Notions for complete runs of scalar conservation equations *)
From Coq Require Import Reals List Arith.
From Verif Require Import RVec EulerSystem Scalar ScalarSpec ScalarScheme ScalarSchemeSpec SWScheme SchemeSpec TimeInt EulerRun EulerRunSpec ScalarRun.
From Verif Require Import Scheme.
Import ListNotations.
Local Open Scope R_scope.

(** Linear transport: the flux is affine in the state with the velocity [w], and the
    gradient function returns [w]. *)
Definition transport (F : Scalar.flux) (dim : nat) (w : RVec.vec) : Prop :=
  0 < fl_delta F /\
  forall u k, (k < dim)%nat -> fl_value F u k = fl_value F 0 k + u * w k /\ fl_gradient F u k = w k.

(** The velocity along c_ij and c_ji vanishes, or is at least hundred times the smallest
    positive number in one of the two. *)
Definition moving (dim : nat) (M : mesh) (num_min : R) (w : RVec.vec) : Prop :=
  forall i j, active M i -> In j (neighbours M i) ->
    let a := RVec.dot dim w (vec_of (c_ij M i j)) in
    let b := RVec.dot dim w (vec_of (c_ij M j i)) in
    (a = 0 /\ b = 0) \/ 100 * num_min <= Rabs a \/ 100 * num_min <= Rabs b.

(** Boundary entries: Dirichlet data in [a, b] or nothing prescribed; walls and dynamic
    conditions do not exist. *)
Definition entry_in (a b : R) (data : RVec.vec -> R -> R) (e : bentry) : Prop :=
  match be_id e with
  | slip | no_slip | dynamic => False
  | dirichlet => forall t, a <= data (be_position e) t <= b
  | _ => True
  end.

(** Parameters, mesh and boundary for the interval [a, b]: no relaxation of bounds, the rounding
    allowance of the limiter is zero or the values nonnegative. *)
Definition interval_setting (p : sparameters) (M : mesh) (num_min a b : R)
    (entries : list bentry) (data : RVec.vec -> R -> R) (order : list nat) (n : nat) : Prop :=
  symmetric_pattern M /\ positive_masses M /\ valid_numbering M /\ pairs_listed M /\
  (forall i, active M i -> zero_row_sum M i) /\ (exists i, active M i) /\
  (forall i, In i order -> (i < n_rows M)%nat) /\ (n <= 2)%nat /\
  0 < num_min /\ 0 <= sp_eps p /\ 0 < sp_tiny p /\ sp_relaxation p = 0 /\
  - sp_big p <= b /\ a <= sp_big p /\ (sp_eps p = 0 \/ 0 <= a) /\
  Forall (entry_in a b data) entries.

(** The vector [o] is suitable for a substep of size [tau]: the speed estimate is known to be
    large enough, viscosities are zero or above the cut off, and [tau] is at most the proposals
    of the rows for the CFL number 1. *)
Definition sc_suitable (p : sparameters) (dim : nat) (M : mesh) (num_min : R) (tmp : sc_vector -> sc_temporaries)
    (tau : R) (o : sc_vector) : Prop :=
  let q := with_draws p (sct_draws (tmp o)) in
  well_estimated q dim M (fst o) /\ zero_or_fast q dim M num_min o (sct_d (tmp o)) /\
  (forall x, In x (sc_rows p dim M num_min tmp 1 o) -> tau <= x).

(** The step size of a step that is not interrupted. *)
Definition sc_step_size (p : sparameters) (dim : nat) (M : mesh) (num_min : R) entries data tmp
    (sch : scheme) (cfl t t_final : R) (v : sc_vector) : R :=
  efficiency sch * fold_right Rmin ((t_final - t) / efficiency sch)
                     (sc_rows p dim M num_min tmp cfl (sc_prepare p dim M entries data t v)).

(** All substeps of a step of size [h] are suitable. *)
Definition sc_cautious (p : sparameters) (dim : nat) (M : mesh) (num_min : R) entries data order n tmp
    (sch : scheme) (t : R) (v : sc_vector) (h : R) : Prop :=
  let tau := h / efficiency sch in
  forall o st,
    In (o, st) (fst (trace (sc_prepare p dim M entries data)
                       (fun o st => fst (sc_update p dim M num_min order n tmp o st tau)) sc_sadd sch t tau v)) ->
    sc_suitable p dim M num_min tmp tau o.
