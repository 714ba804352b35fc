(** * Property theorems: mesh adaptation keeps the solution (C150) *)
From Coq Require Import Reals List Arith Lia Lra.
From Verif Require Import EulerSystem EulerSchemeSpec.
From Verif Require Import SchemeSpec.
From Verif Require Import RVec.
From Verif Require Import Discretization MeshTransfer MeshTransferSpec MeshTransferFinal.
Import ListNotations.
Local Open Scope R_scope.

(** Any number of refinements leaves every component of the state the same function of space, for every
    ansatz. *)
Theorem C150_same :
  forall a dim restrict ms t x v,
  (1 <= dim)%nat -> (forall m, In m ms -> only_refines m) ->
  value_at a dim (adaptations a dim restrict ms t) x v = value_at a dim t x v.
Proof. exact C150_same_proof. Qed.
Print Assumptions C150_same.

(** The totals of all components are unchanged if cells are only refined, and also when cells are
    coarsened by projection (the discontinuous elements). *)
Theorem C150_total :
  forall a dim restrict ms t h v,
  (1 <= dim)%nat -> (forall m, In m ms -> only_refines m) \/ projects a dim restrict ->
  total_of a dim h (adaptations a dim restrict ms t) v = total_of a dim h t v.
Proof. exact C150_total_proof. Qed.
Print Assumptions C150_total.

(** Global refinement, then refinement of one son, in two dimensions. *)
Example C150_total_ex :
  (1 <= 2)%nat /\ forall m, In m [mark None; partly; mark (Some partly)] -> only_refines m.
Proof. exact partly_refines. Qed.

(** The mean is the projection of piecewise constants. *)
Example C150_project_ex :
  projects dg_q0 2 average.
Proof. exact average_projects. Qed.

(** Coarsening with continuous elements can lose the whole mass. *)
Theorem C150_coarse_refuted :
  exists t m, all_states cg_q1 2 (fun u => 0 <= u 0%nat) t /\
  0 < total_of cg_q1 2 (fun _ => 1) t 0 /\ total_of cg_q1 2 (fun _ => 1) (adapt cg_q1 2 (inject cg_q1 2) m t) 0 = 0.
Proof. exact C150_coarse_refuted_proof. Qed.
Print Assumptions C150_coarse_refuted.

(** Global refinement n times: 2^(n dim) times as many cells. *)
Theorem C150_global :
  forall a dim restrict n t,
  (1 <= dim)%nat ->
  n_active dim (adaptations a dim restrict (repeat (mark None) n) t) = (2 ^ (n * dim) * n_active dim t)%nat.
Proof. exact C150_global_proof. Qed.
Print Assumptions C150_global.

(** A new nodal value is the old function at the node of the son. *)
Theorem C150_nodes :
  forall a dim restrict U m c i v, m [] = refine -> (i < n_values a dim)%nat -> (c < 2 ^ dim)%nat ->
  exists s, adapt a dim restrict m (leaf U) = sons s /\ exists V, s c = leaf V /\
    V i v = rsum (n_values a dim) (fun j => U j v * rprod dim (fun k =>
      peval (lagrange (degree a) (digit (S (degree a)) j k)) ((INR (digit 2 c k) + lobatto_point (S (degree a)) (digit (S (degree a)) i k)) / 2))).
Proof. exact C150_nodes_proof. Qed.
Print Assumptions C150_nodes.

(** Every active cell obeys its own mark: it stays as it is, gets sons, or is removed together with its
    brothers if all of them are marked for coarsening. *)
Theorem C150_marks :
  forall a dim restrict m t way U, way_in dim way -> at_way t way = Some (leaf U) ->
  let t' := adapt a dim restrict m t in
  (m way = keep -> at_way t' way = Some (leaf U)) /\
  (m way = refine -> exists s, at_way t' way = Some (sons s) /\ forall c, (c < 2 ^ dim)%nat -> exists V, s c = leaf V) /\
  (m way = coarsen -> at_way t' way = Some (leaf U) \/
     exists up c, way = (up ++ [c])%list /\ all_coarsen dim m t up).
Proof. exact C150_marks_proof. Qed.
Print Assumptions C150_marks.

(** Then the parent becomes active and carries what the restriction makes of the values of its sons. *)
Theorem C150_merge :
  forall a dim restrict m t way, way_in dim way -> all_coarsen dim m t way ->
  exists U, (forall c, (c < 2 ^ dim)%nat -> at_way t (way ++ [c]) = Some (leaf (U c))) /\
    exists V, V = restrict U /\ at_way (adapt a dim restrict m t) way = Some (leaf V).
Proof. exact C150_merge_proof. Qed.
Print Assumptions C150_merge.

(** A square with five cells of which one is refined and four others are coarsened. *)
Example C150_marks_ex :
  let t := sons (fun c => if Nat.eqb c 1 then sons (fun _ => leaf (fun _ _ => 1)) else leaf (fun _ _ => 2)) in
  let m := fun way => match way with [0%nat] => refine | [1%nat; _] => coarsen | _ => keep end in
  way_in 2 [0%nat] /\ at_way t [0%nat] = Some (leaf (fun _ _ => 2)) /\ m [0%nat] = refine /\ way_in 2 [1%nat] /\ all_coarsen 2 m t [1%nat].
Proof. exact marks_case. Qed.

(** Linear continuous elements: any sequence of refinements and coarsenings keeps all nodal states
    in every convex set of states.  Constant and linear discontinuous elements: any refinements do. *)
Theorem C150_states :
  forall a dim ms t X,
  (1 <= dim)%nat -> convex_set X ->
  a = cg_q1 \/ a = dg_q0 /\ (forall m, In m ms -> only_refines m) \/ a = dg_q1 /\ (forall m, In m ms -> only_refines m) ->
  all_states a dim X t -> all_states a dim X (adaptations a dim (inject a dim) ms t).
Proof. exact C150_states_proof. Qed.
Print Assumptions C150_states.

(** Gas on linear elements: density and internal energy stay positive and the specific entropy does
    not fall below its minimum. *)
Theorem C150_gas :
  forall g dim ms t s0,
  (1 <= dim)%nat -> 1 < gamma g -> 0 <= s0 ->
  all_states cg_q1 dim (fun u => positive_gas dim u /\ s0 * powr (u 0%nat) (gamma g) <= internal_energy dim u) t ->
  all_states cg_q1 dim (fun u => positive_gas dim u /\ s0 * powr (u 0%nat) (gamma g) <= internal_energy dim u)
    (adaptations cg_q1 dim (inject cg_q1 dim) ms t).
Proof. exact C150_gas_proof. Qed.
Print Assumptions C150_gas.

(** A gas with two densities. *)
Example C150_states_ex :
  convex_set (fun u : nat -> R => 0 < u 0%nat) /\ all_states cg_q1 2 (fun u => 0 < u 0%nat) two_densities /\
  all_states cg_q1 2 (fun u => positive_gas 2 u /\ 0 * powr (u 0%nat) (7 / 5) <= internal_energy 2 u) two_densities.
Proof. exact two_densities_states. Qed.

(** Quadratic elements: one global refinement can make a positive density negative. *)
Theorem C150_quadratic_refuted :
  exists U, all_states cg_q2 2 (fun u => 0 < u 0%nat) (leaf U) /\
  ~ all_states cg_q2 2 (fun u => 0 < u 0%nat) (adapt cg_q2 2 (inject cg_q2 2) (mark None) (leaf U)).
Proof. exact C150_quadratic_refuted_proof. Qed.
Print Assumptions C150_quadratic_refuted.
