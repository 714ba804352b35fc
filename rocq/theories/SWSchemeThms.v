(** * Property theorems: shallow water scheme (C44, C77, C78, C79) *)
From Coq Require Import Reals List Lra.
From Verif Require Import RVec SWSystem PhysSpec SWScheme SWSchemeSpec SchemeSpec SchemeExamples
  SWSchemeProofs SWSchemeFinal SWSchemeRest SWSchemeExamples.
From Verif Require Import Scheme.
Import ListNotations.
Local Open Scope R_scope.

(** ** C44 *)

(** The states reconstructed at the two ends of a pair coincide in a lake at
    rest: the smaller of the two depths, no momentum. *)
Theorem C44_star_states :
  forall p dim Z M level U i j,
    lake_at_rest (wp_system p) (wp_eps p) dim M Z level U ->
    (i < n_rows M)%nat -> (j < n_rows M)%nat ->
    star_state (wp_system p) (wp_eps p) (U i) (Z i) (Z j) 0%nat = Rmin (U i 0%nat) (U j 0%nat) /\
    forall k, (1 <= k <= dim)%nat ->
      star_state (wp_system p) (wp_eps p) (U i) (Z i) (Z j) k = 0.
Proof. exact lake_star. Qed.
Print Assumptions C44_star_states.

(** A pond of depths 1, 1/2 and 0 with an island (dry row). *)
Example C44_lake : lake_at_rest pond (1 / 100) 1 ring3 pond_Z 1 pond_U.
Proof. exact pond_at_rest. Qed.

(** Complete update (low-order part and any number of limiter passes, high-order
    stages with arbitrary states, any step size): a lake at rest, with or without
    dry rows, is unchanged. *)
Theorem C44_step :
  forall p dim Z M num_min level (old : (nat -> state nat) * PC nat (sw_scheme p dim Z)) stages
         order n a0 d0 l0 ln0 new0 tau,
    symmetric_pattern M -> (forall i, active M i -> zero_row_sum M i) -> 0 <= wp_eps p ->
    lake_at_rest (wp_system p) (wp_eps p) dim M Z level (fst old) ->
    at_rest_options p M -> (forall i, In i order -> (i < n_rows M)%nat) ->
    forall i, active M i ->
    same_state dim
      (fst (hyperbolic_update (sw_scheme p dim Z) M num_min order n a0 d0 l0 ln0 new0 old stages tau) i)
      (fst old i).
Proof. exact rest_update. Qed.
Print Assumptions C44_step.

Example C44_step_ex :
  symmetric_pattern ring3 /\ (forall i, (i < n_rows ring3)%nat -> zero_row_sum ring3 i) /\
  0 <= wp_eps pondp /\ at_rest_options pondp ring3 /\
  (forall i, In i [0; 1; 2]%nat -> (i < n_rows ring3)%nat) /\
  (forall i, (i < 3)%nat -> active ring3 i).
Proof.
  split; [exact ring3_pattern|]. split; [exact ring3_sum|]. split; [cbn; lra|].
  split; [right; left; reflexivity|]. split; [|exact ring3_active].
  intros i [<-|[<-|[<-|[]]]]; cbn; auto.
Qed.

(** Without dry rows, if the stages are lakes of the same level: for every
    choice of the options of the limiter. *)
Theorem C44_wet_step :
  forall p dim Z M num_min level order n a0 d0 l0 ln0 new0
         (old : (nat -> state nat) * PC nat (sw_scheme p dim Z)) stages tau,
    symmetric_pattern M -> (forall i, active M i -> zero_row_sum M i) ->
    lake_at_rest (wp_system p) (wp_eps p) dim M Z level (fst old) ->
    (forall i, (i < n_rows M)%nat -> Z i <= level) ->
    (forall st, In st stages -> lake_at_rest (wp_system p) (wp_eps p) dim M Z level (fst (fst st))) ->
    forall i, active M i ->
    same_state dim
      (fst (hyperbolic_update (sw_scheme p dim Z) M num_min order n a0 d0 l0 ln0 new0 old stages tau) i)
      (fst old i).
Proof. exact C44_wet_step_proof. Qed.
Print Assumptions C44_wet_step.

(** The step is not flagged for a restart. *)
Theorem C44_verdict :
  forall p dim Z M num_min cfl level order n a0 d0 new0
         (old : (nat -> state nat) * PC nat (sw_scheme p dim Z)) stages tau,
    symmetric_pattern M -> positive_masses M -> valid_numbering M -> pairs_listed M ->
    (forall i, active M i -> zero_row_sum M i) ->
    (forall i, active M i -> mass M i <= measure_of_omega M) ->
    (forall i, In i order -> (i < n_rows M)%nat) ->
    0 < num_min -> 0 < wp_eps p -> 0 <= wp_big p -> 0 < wp_tiny p -> 0 <= wp_relaxation p <= 1 ->
    0 <= dry_state_relaxation_small (wp_system p) -> 0 <= dry_state_relaxation_large (wp_system p) ->
    0 < cutoff_small (wp_system p) (wp_eps p) -> 0 <= gravity (wp_system p) -> celerity p M num_min ->
    0 < cfl <= 1 -> 0 <= tau ->
    (forall t, In t (row_tau (sw_scheme p dim Z) M num_min cfl old d0) -> tau <= t) ->
    lake_at_rest (wp_system p) (wp_eps p) dim M Z level (fst old) ->
    ~ violation (sw_scheme p dim Z) M num_min order n (compute_alpha (sw_scheme p dim Z) M old a0)
        (dij_matrix (sw_scheme p dim Z) M num_min old d0) new0 old stages tau.
Proof. exact C44_verdict_proof. Qed.
Print Assumptions C44_verdict.

Example C44_verdict_ex :
  positive_masses ring3 /\ valid_numbering ring3 /\ pairs_listed ring3 /\
  (forall i, (i < n_rows ring3)%nat -> mass ring3 i <= measure_of_omega ring3) /\
  0 < cutoff_small (wp_system pondp) (wp_eps pondp) /\ celerity pondp ring3 (1 / 10000) /\
  exists tau, 0 < tau /\
    forall t, In t (row_tau (sw_scheme pondp 1 pond_Z) ring3 (1 / 10000) 1 pond_old (fun _ _ => 0)) -> tau <= t.
Proof.
  split; [exact ring3_masses|]. split; [exact ring3_numbering|]. split; [exact ring3_pairs|].
  split; [exact ring3_measure|]. split; [cbn [wp_system wp_eps pondp]; rewrite (proj1 pond_cutoff); lra|].
  split; [exact pond_celerity|]. apply step_exists; [exact ring3_pattern|exact ring3_masses|lra|lra].
Qed.

(** A layer of water thinner than the cut off depth of the regularisation is not
    balanced: the two reconstructed depths differ. *)
Theorem C44_thin_layer_refuted :
  exists s eps (Z_i Z_j level : R),
    0 < eps /\ 0 < cutoff_large s eps /\ Z_i < level /\ Z_j < level /\
    star_state s eps (water0 (level - Z_i)) Z_i Z_j 0%nat
    <> star_state s eps (water0 (level - Z_j)) Z_j Z_i 0%nat.
Proof. exact C44_thin_layer_proof. Qed.
Print Assumptions C44_thin_layer_refuted.

(** ** C77 *)

(** The low-order update keeps the water depth nonnegative, for all states (any
    bottom, dry rows, depths in the range of the regularisation, momentum in dry
    rows), if the step size obeys a CFL number of at most 8/9. *)
Theorem C77_depth_nonneg :
  forall p dim Z M num_min cfl order a0 d0 l0 ln0 new0
         (old : (nat -> state nat) * PC nat (sw_scheme p dim Z)) stages tau,
    symmetric_pattern M -> positive_masses M -> valid_numbering M -> pairs_listed M ->
    (forall i, active M i -> zero_row_sum M i) ->
    0 < num_min -> 0 < cutoff_small (wp_system p) (wp_eps p) ->
    0 < cfl <= 8 / 9 -> 0 <= tau ->
    (forall t, In t (row_tau (sw_scheme p dim Z) M num_min cfl old d0) -> tau <= t) ->
    (forall i, (i < n_rows M)%nat -> 0 <= fst old i 0%nat) ->
    forall i, active M i ->
    0 <= fst (hyperbolic_update (sw_scheme p dim Z) M num_min order 0 a0 d0 l0 ln0 new0 old stages tau) i 0%nat.
Proof. exact C77_depth_nonneg_proof. Qed.
Print Assumptions C77_depth_nonneg.

(** Water moving over an uneven bottom. *)
Example C77_ex :
  (forall i, (i < n_rows ring3)%nat -> 0 <= fst flow_old i 0%nat) /\ fst flow_old 2%nat 1%nat = 2 /\
  exists tau, 0 < tau /\
    forall t, In t (row_tau (sw_scheme pondp 1 pond_Z) ring3 (1 / 10000) (8 / 9) flow_old (fun _ _ => 0)) -> tau <= t.
Proof.
  split; [intros i Hi; cbn; pose proof (pos_INR i); lra|]. split; [cbn; lra|].
  apply step_exists; [exact ring3_pattern|exact ring3_masses|lra|lra].
Qed.

(** ** C78 *)

(** The complete update with up to two limiter passes: the depth of each row is
    within the bounds computed for the row, and these are not negative.  (Depths
    and reconstructed depths are zero or not smaller than the cut off depths.) *)
Theorem C78_depth_bounds :
  forall p dim Z M num_min cfl (old : (nat -> state nat) * PC nat (sw_scheme p dim Z)) d0 tau,
    symmetric_pattern M -> positive_masses M -> valid_numbering M -> pairs_listed M ->
    0 < num_min -> 0 < wp_eps p -> 0 <= wp_big p -> 0 <= wp_relaxation p <= 1 ->
    (forall i, active M i -> mass M i <= measure_of_omega M) ->
    0 < cutoff_small (wp_system p) (wp_eps p) -> 0 <= tau ->
    resolved (wp_system p) (wp_eps p) M Z (fst old) -> 0 < cfl <= 1 ->
    (forall t, In t (row_tau (sw_scheme p dim Z) M num_min cfl old d0) -> tau <= t) ->
    forall order n a0 l0 ln0 new0 stages,
    0 < wp_tiny p -> (n <= 2)%nat -> (forall i, In i order -> (i < n_rows M)%nat) ->
    (forall i, active M i -> zero_row_sum M i) ->
    (forall i, active M i -> fast p dim Z M num_min old d0 i) ->
    forall i, active M i ->
    depth_inside
      (limiter_bounds_i (sw_scheme p dim Z) M num_min old
         (dij_matrix (sw_scheme p dim Z) M num_min old d0) tau order i)
      (fst (hyperbolic_update (sw_scheme p dim Z) M num_min order n a0 d0 l0 ln0 new0 old stages tau) i).
Proof. exact final_inside. Qed.
Print Assumptions C78_depth_bounds.

(** A dam break over a flat bottom: depths 1, 1/2, 0. *)
Example C78_ex :
  resolved (wp_system pondp) (wp_eps pondp) ring3 (fun _ => 0) (fst pond_old) /\
  (forall i, active ring3 i -> fast pondp 1 (fun _ => 0) ring3 (1 / 10000) pond_old (fun _ _ => 0) i) /\
  exists tau, 0 < tau /\
    forall t, In t (row_tau (sw_scheme pondp 1 (fun _ => 0)) ring3 (1 / 10000) 1 pond_old (fun _ _ => 0)) -> tau <= t.
Proof.
  split; [exact dam_resolved|]. split.
  - apply still_fast; [exact ring3_pattern|exact ring3_numbering|exact ring3_pairs| | |exact pond_celerity|].
    + cbn [wp_system wp_eps pondp]. rewrite (proj1 pond_cutoff). lra.
    + cbn. lra.
    + intros i Hi. apply (pond_at_rest i Hi).
  - apply step_exists; [exact ring3_pattern|exact ring3_masses|lra|lra].
Qed.

(** ** C79 *)

(** The volume of the water is the same before and after the complete update:
    any states, bottom, limiter, number of passes, stages and step size, if no
    water flows through the boundary (m_i . c_ii = 0) and c_ij = - c_ji. *)
Theorem C79_volume :
  forall p dim Z M num_min order n a0 d0 l0 ln0 new0
         (old : (nat -> state nat) * PC nat (sw_scheme p dim Z)) stages tau,
    let S := sw_scheme p dim Z in
    symmetric_pattern M -> positive_masses M -> valid_numbering M -> symmetric_matrices M ->
    (forall i j, active M i -> In j (columns M i) -> i <> j -> skew_at M i j) ->
    (forall i, active M i -> dot dim (w_momentum (fst old i)) (vec_of (c_ij M i i)) = 0) ->
    let rows := active_rows M in
    total M rows (fst (hyperbolic_update S M num_min order n a0 d0 l0 ln0 new0 old stages tau)) 0%nat
    = total M rows (fst old) 0%nat.
Proof. exact sw_volume. Qed.
Print Assumptions C79_volume.

Example C79_ex :
  symmetric_matrices ring3 /\
  (forall i j, (i < n_rows ring3)%nat -> In j (columns ring3 i) -> i <> j -> skew_at ring3 i j) /\
  (forall i, active ring3 i -> dot 1 (w_momentum (fst flow_old i)) (vec_of (c_ij ring3 i i)) = 0) /\
  total ring3 (active_rows ring3) (fst flow_old) 0%nat = 6.
Proof. exact flow_volume. Qed.
