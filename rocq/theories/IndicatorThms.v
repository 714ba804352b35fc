(** * C36: the smoothness indicators *)
From Coq Require Import Reals List Permutation Lra.
From Verif Require Import RVec EulerSystem EulerLimiter AeosSystem SWSystem Scalar Indicator IndicatorProofs.
Import ListNotations.
Local Open Scope R_scope.

(** C36 (Euler): a defined indicator lies in [0, min(1, evc_factor)], for all states. *)
Theorem C36_euler_range : forall s evc dim U eta stencil hd_i a,
  0 <= evc -> 0 <= hd_i ->
  euler_indicator s evc dim U eta stencil hd_i = Some a -> 0 <= a <= Rmin 1 evc.
Proof. exact euler_indicator_range. Qed.
Print Assumptions C36_euler_range.

(** C36 (Euler): it is defined whenever the entropy of the node is not zero. *)
Theorem C36_euler_defined : forall s evc dim U eta stencil hd_i,
  0 < hd_i -> eta <> 0 -> exists a, euler_indicator s evc dim U eta stencil hd_i = Some a.
Proof. exact euler_indicator_defined. Qed.
Print Assumptions C36_euler_defined.

Example C36_euler_range_ex : exists a,
  euler_indicator {| gamma := 7 / 5; reference_density := 1; vacuum_state_relaxation_large := 10000;
                     vacuum_state_relaxation_small := 100 |} 1 1
    (mkstate 1 1 (fun _ => 1) 3) 1 [{| ie_U := mkstate 1 2 (fun _ => 1) 4; ie_eta := 2; ie_c := fun _ => 1 |}] (1 / 10) = Some a.
Proof. apply euler_indicator_defined; lra. Qed.

(** C36 (Euler): it vanishes if all states of the stencil agree. *)
Theorem C36_euler_uniform : forall s evc dim U stencil hd_i,
  0 < hd_i -> harten_entropy s dim U <> 0 ->
  (forall x, In x stencil -> ie_U x = U /\ ie_eta x = harten_entropy s dim (ie_U x)) ->
  euler_indicator s evc dim U (harten_entropy s dim U) stencil hd_i = Some 0.
Proof. exact euler_indicator_uniform. Qed.
Print Assumptions C36_euler_uniform.

Example C36_euler_uniform_ex :
  let s := {| gamma := 7 / 5; reference_density := 1; vacuum_state_relaxation_large := 10000;
              vacuum_state_relaxation_small := 100 |} in
  harten_entropy s 1 (mkstate 1 1 (fun _ => 1) 3) <> 0.
Proof.
  cbv zeta. apply Rgt_not_eq. apply powr_gt0.
  unfold density, total_energy, norm2, dot, rsum, momentum, mkstate; simpl. lra.
Qed.

(** C36 (Euler): the order of the stencil does not matter. *)
Theorem C36_euler_order : forall s evc dim U eta stencil stencil' hd_i,
  Permutation stencil stencil' ->
  euler_indicator s evc dim U eta stencil hd_i = euler_indicator s evc dim U eta stencil' hd_i.
Proof. exact euler_indicator_order. Qed.
Print Assumptions C36_euler_order.

Example C36_euler_order_ex :
  let a := {| ie_U := fun _ => 1; ie_eta := 1; ie_c := fun _ => 1 |} in
  let b := {| ie_U := fun _ => 2; ie_eta := 2; ie_c := fun _ => -1 |} in Permutation [a; b] [b; a].
Proof. constructor. Qed.

(** C36 (EulerAEOS), for an arbitrary equation of state and precomputed gamma_min. *)
Theorem C36_aeos_range : forall e evc dim gamma_min U eta stencil hd_i a,
  0 <= evc -> 0 <= hd_i ->
  aeos_indicator e evc dim gamma_min U eta stencil hd_i = Some a -> 0 <= a <= Rmin 1 evc.
Proof. exact aeos_indicator_range. Qed.
Print Assumptions C36_aeos_range.

Theorem C36_aeos_defined : forall e evc dim gamma_min U eta stencil hd_i,
  0 < hd_i -> eta <> 0 -> exists a, aeos_indicator e evc dim gamma_min U eta stencil hd_i = Some a.
Proof. exact aeos_indicator_defined. Qed.
Print Assumptions C36_aeos_defined.

Theorem C36_aeos_uniform : forall e evc dim gamma_min U stencil hd_i,
  0 < hd_i -> surrogate_harten_entropy e dim U gamma_min <> 0 ->
  (forall x, In x stencil -> ie_U x = U) ->
  aeos_indicator e evc dim gamma_min U (surrogate_harten_entropy e dim U gamma_min) stencil hd_i = Some 0.
Proof. exact aeos_indicator_uniform. Qed.
Print Assumptions C36_aeos_uniform.

Theorem C36_aeos_order : forall e evc dim gamma_min U eta stencil stencil' hd_i,
  Permutation stencil stencil' ->
  aeos_indicator e evc dim gamma_min U eta stencil hd_i = aeos_indicator e evc dim gamma_min U eta stencil' hd_i.
Proof. exact aeos_indicator_order. Qed.
Print Assumptions C36_aeos_order.

Example C36_aeos_ex : forall p sie ss,
  let e := {| interp_b := 1 / 10; interp_pinf := 0; interp_q := 0; eos_pressure := p;
            eos_specific_internal_energy := sie; eos_speed_of_sound := ss |} in
  surrogate_harten_entropy e 1 (mkstate 1 1 (fun _ => 1) 3) (7 / 5) <> 0.
Proof.
  intros. apply Rgt_not_eq. apply powr_gt0. apply Rmult_lt_0_compat.
  - unfold a_density, a_total_energy, norm2, dot, rsum, a_momentum, mkstate; simpl. lra.
  - apply powr_gt0. unfold a_density, mkstate; simpl. lra.
Qed.

(** C36 (ShallowWater): always defined and in [0, min(1, evc_factor)]. *)
Theorem C36_sw_range : forall s eps tiny evc dim U eta stencil hd_i,
  0 < tiny -> 0 <= evc ->
  exists a, sw_indicator s eps tiny evc dim U eta stencil hd_i = Some a /\ 0 <= a <= Rmin 1 evc.
Proof. exact sw_indicator_range. Qed.
Print Assumptions C36_sw_range.

(** C36 (ShallowWater): zero for a uniform stencil, since the c_ij of a row sum to zero. *)
Theorem C36_sw_uniform : forall s eps tiny evc dim U eta stencil hd_i,
  0 < tiny ->
  (forall x, In x stencil -> ie_U x = U /\ ie_eta x = eta) ->
  (forall k, (k < dim)%nat -> fold_right Rplus 0 (map (fun x => ie_c x k) stencil) = 0) ->
  sw_indicator s eps tiny evc dim U eta stencil hd_i = Some 0.
Proof. exact sw_indicator_uniform. Qed.
Print Assumptions C36_sw_uniform.

Example C36_sw_uniform_ex :
  let x c := {| ie_U := mkwater 1 2 (fun _ => 3); ie_eta := 5; ie_c := fun _ => c |} in
  forall k, (k < 1)%nat -> fold_right Rplus 0 (map (fun x => ie_c x k) [x 0; x 1; x (-1)]) = 0.
Proof. intros x k _. simpl. lra. Qed.

Theorem C36_sw_order : forall s eps tiny evc dim U eta stencil stencil' hd_i,
  Permutation stencil stencil' ->
  sw_indicator s eps tiny evc dim U eta stencil hd_i = sw_indicator s eps tiny evc dim U eta stencil' hd_i.
Proof. exact sw_indicator_order. Qed.
Print Assumptions C36_sw_order.

(** C36 (ScalarConservation): always defined and in [0, min(1, evc_factor)], zero for a
    uniform stencil, independent of the order. *)
Theorem C36_scalar_range : forall tiny evc dim u prec stencil hd_i,
  0 < tiny -> 0 <= evc ->
  exists a, scalar_indicator tiny evc dim u prec stencil hd_i = Some a /\ 0 <= a <= Rmin 1 evc.
Proof. exact scalar_indicator_range. Qed.
Print Assumptions C36_scalar_range.

Theorem C36_scalar_uniform : forall tiny evc dim u prec stencil hd_i,
  0 < tiny -> (forall x, In x stencil -> sie_u x = u /\ sie_prec x = prec) ->
  scalar_indicator tiny evc dim u prec stencil hd_i = Some 0.
Proof. exact scalar_indicator_uniform. Qed.
Print Assumptions C36_scalar_uniform.

Theorem C36_scalar_order : forall tiny evc dim u prec stencil stencil' hd_i,
  Permutation stencil stencil' ->
  scalar_indicator tiny evc dim u prec stencil hd_i = scalar_indicator tiny evc dim u prec stencil' hd_i.
Proof. exact scalar_indicator_order. Qed.
Print Assumptions C36_scalar_order.

Example C36_scalar_ex :
  let x := {| sie_u := 2; sie_prec := sc_precomputed (burgers (1 / 1000)) 1 2; sie_c := fun _ => 1 |} in
  forall y, In y [x; x] -> sie_u y = 2 /\ sie_prec y = sc_precomputed (burgers (1 / 1000)) 1 2.
Proof. intros x y [<-|[<-|[]]]; split; reflexivity. Qed.
