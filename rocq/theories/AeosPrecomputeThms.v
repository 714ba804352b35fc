(** * C43: precomputed values for an arbitrary equation of state *)
From Coq Require Import Reals List Arith Bool Lia Lra.
From Verif Require Import RVec EulerSystem AeosSystem AeosPrecompute AeosPrecomputeSpec AeosPrecomputeProofs EosSpec Eos EosProofs.
Import ListNotations.
Local Open Scope R_scope.

(** The surrogate gamma of a state and a pressure reproduces the pressure. *)
Theorem C43_surrogate : forall e dim U p,
  interp_b e * a_density U <> 1 ->
  a_internal_energy dim U - a_density U * interp_q e - (1 - interp_b e * a_density U) * interp_pinf e <> 0 ->
  surrogate_pressure e dim U (surrogate_gamma e dim U p) = p.
Proof. exact C43_surrogate_proof. Qed.
Print Assumptions C43_surrogate.

(** A van der Waals gas: a = 1, b = 1/2, rho = 1, e = 3. *)
Example C43_surrogate_ex : forall p, let e := vw_eos (vw_parse (7 / 5) 1 (1 / 2) (4 / 10) vw_construct) in
  surrogate_pressure e 1 (ex_vw 1 3) (surrogate_gamma e 1 (ex_vw 1 3) p) = p.
Proof.
  intros p e. destruct (ex_vw_values 1 3 ltac:(lra)) as [V1 V2].
  apply C43_surrogate; rewrite ?V1, ?V2; unfold e; simpl; try destruct (Rgt_dec (1 / 2) 0); lra.
Qed.

(** First cycle, one call into the equation of state per row: all coupled rows of the rank get
    pressure and surrogate gamma of their state, all other rows are left alone. *)
Theorem C43_cycle0 : forall n_export groups width n_owned columns e dim U,
  let n_internal := (groups * width)%nat in
  (0 < width)%nat -> grouped (fun i => length (columns i)) width groups -> (n_internal <= n_owned)%nat -> forall P k,
  let result := apply_events (prepare_scalar n_export n_internal n_owned columns e dim U width) P in
  (length (columns k) <> 1%nat -> (k < n_owned)%nat -> result k = first_values e dim (U k)) /\
  (length (columns k) = 1%nat \/ (n_owned <= k)%nat -> result k = P k).
Proof. exact C43_cycle0_proof. Qed.
Print Assumptions C43_cycle0.

(** The halo exchange after the first cycle reads the final values of all exported rows. *)
Theorem C43_exchange : forall n_export groups width n_owned columns e dim U,
  let n_internal := (groups * width)%nat in
  (0 < width)%nat -> grouped (fun i => length (columns i)) width groups -> (n_internal <= n_owned)%nat -> forall P Q k,
  observable (prepare_scalar n_export n_internal n_owned columns e dim U width) P Q ->
  length (columns k) <> 1%nat -> (k < n_owned)%nat -> (k < n_export \/ n_internal <= k)%nat ->
  Q k = first_values e dim (U k).
Proof. exact C43_exchange_proof. Qed.
Print Assumptions C43_exchange.

(** After both cycles: pressure, minimum of the surrogate gamma over the stencil, and the entropies
    for this minimum, whatever the order of the rows. *)
Theorem C43_two_cycles : forall n_export groups width n_owned columns e dim U P ghosts order i,
  let n_internal := (groups * width)%nat in
  (0 < width)%nat -> (n_internal <= n_owned)%nat -> grouped (fun i => length (columns i)) width groups ->
  (forall i, (i < n_owned)%nat -> hd_error (columns i) = Some i) ->
  (forall i j, (i < n_owned)%nat -> length (columns i) <> 1%nat -> In j (columns i) -> (j < n_owned)%nat ->
     length (columns j) <> 1%nat) ->
  (forall k, (n_owned <= k)%nat -> prec_p (ghosts k) = state_pressure e dim (U k)) ->
  NoDup order -> In i order -> (i < n_owned)%nat -> length (columns i) <> 1%nat ->
  let first := apply_events (prepare_scalar n_export n_internal n_owned columns e dim U width) P in
  let exchanged := fun k => if Nat.ltb k n_owned then first k else ghosts k in
  let r := cycle1 columns e dim U order exchanged i in
  prec_p r = state_pressure e dim (U i) /\
  is_minimum (fun j => state_gamma e dim (U j)) (columns i) (prec_gamma r) /\
  prec_s r = surrogate_specific_entropy e dim (U i) (prec_gamma r) /\
  prec_eta r = surrogate_harten_entropy e dim (U i) (prec_gamma r).
Proof. exact C43_two_cycles_proof. Qed.
Print Assumptions C43_two_cycles.

(** Two constrained rows in one group of two, two coupled rows. *)
Example C43_two_cycles_ex :
  grouped (fun i => length (ex_hanging i)) 2 1 /\
  (forall i, (i < 4)%nat -> hd_error (ex_hanging i) = Some i) /\
  (forall i j, (i < 4)%nat -> length (ex_hanging i) <> 1%nat -> In j (ex_hanging i) -> (j < 4)%nat -> length (ex_hanging j) <> 1%nat) /\
  length (ex_hanging 2) <> 1%nat /\ state_gamma ex_gas 1 ex_still = 7 / 5.
Proof.
  split; [intros [|q] [|[|l]] Hq Hl; try lia; reflexivity|].
  split; [intros [|[|[|[|i]]]] H; try lia; reflexivity|].
  split; [intros [|[|[|[|i]]]] j H C Hj L; simpl in *; try lia; destruct Hj as [<-|[<-|[]]]; simpl; lia|].
  split; [simpl; lia|]. unfold state_gamma. rewrite ex_still_pressure.
  unfold surrogate_gamma, ex_gas, a_internal_energy, a_total_energy, a_density, a_momentum, norm2, dot, rsum, ex_still. simpl. field.
Qed.

(** The interface with arrays, if the rows it looks at by mistake happen to be constrained exactly
    if the right ones are, and (for the exchange) if there are not more rows behind the
    vectorized part than exported rows. *)
Theorem C43_vector_values_partial : forall n_export groups width n_owned columns e dim U,
  let n_internal := (groups * width)%nat in
  (0 < width)%nat -> grouped (fun i => length (columns i)) width groups -> (n_internal <= n_owned)%nat ->
  forall array_pressure,
  (forall rho en, length rho = length en -> exists p, array_pressure rho en = Some p /\ length p = length rho /\
    forall k d, (k < length rho)%nat -> nth k p d = eos_pressure e (nth k rho d) (nth k en d)) ->
  (forall i, (n_internal + i < n_owned)%nat -> (length (columns i) = 1%nat <-> length (columns (n_internal + i)%nat) = 1%nat)) ->
  forall P k, exists ev,
  prepare_vector n_export n_internal n_owned columns e array_pressure dim U width = Some ev /\
  (length (columns k) <> 1%nat -> (k < n_owned)%nat -> apply_events ev P k = first_values e dim (U k)) /\
  (length (columns k) = 1%nat \/ (n_owned <= k)%nat -> apply_events ev P k = P k).
Proof. exact C43_vector_values_proof. Qed.
Print Assumptions C43_vector_values_partial.

Theorem C43_vector_exchange_partial : forall n_export groups width n_owned columns e dim U,
  let n_internal := (groups * width)%nat in
  (0 < width)%nat -> grouped (fun i => length (columns i)) width groups -> (n_internal <= n_owned)%nat ->
  forall array_pressure,
  (forall rho en, length rho = length en -> exists p, array_pressure rho en = Some p /\ length p = length rho /\
    forall k d, (k < length rho)%nat -> nth k p d = eos_pressure e (nth k rho d) (nth k en d)) ->
  (forall i, (n_internal + i < n_owned)%nat -> (length (columns i) = 1%nat <-> length (columns (n_internal + i)%nat) = 1%nat)) ->
  forall ev P Q k, (n_owned <= n_internal + n_export)%nat ->
  prepare_vector n_export n_internal n_owned columns e array_pressure dim U width = Some ev ->
  observable ev P Q ->
  length (columns k) <> 1%nat -> (k < n_owned)%nat -> (k < n_export \/ n_internal <= k)%nat ->
  Q k = first_values e dim (U k).
Proof. exact C43_vector_exchange_proof. Qed.
Print Assumptions C43_vector_exchange_partial.

Example C43_vector_ex :
  forall rho en, length rho = length en -> exists p, base_pressure ex_gas rho en = Some p /\ length p = length rho /\
    forall k d, (k < length rho)%nat -> nth k p d = eos_pressure ex_gas (nth k rho d) (nth k en d).
Proof. exact ex_elementwise. Qed.

(** In general the interface with arrays leaves coupled rows without values, ... *)
Theorem C43_vector_rows_refuted : exists n_export groups width n_owned columns e array_pressure dim U ev P k,
  let n_internal := (groups * width)%nat in
  (0 < width)%nat /\ (n_internal <= n_owned)%nat /\ grouped (fun i => length (columns i)) width groups /\
  (forall rho en, length rho = length en -> exists p, array_pressure rho en = Some p /\ length p = length rho /\
    forall k d, (k < length rho)%nat -> nth k p d = eos_pressure e (nth k rho d) (nth k en d)) /\
  prepare_vector n_export n_internal n_owned columns e array_pressure dim U width = Some ev /\
  length (columns k) <> 1%nat /\ (k < n_owned)%nat /\ apply_events ev P k = P k /\ P k <> first_values e dim (U k).
Proof. exact C43_vector_rows_refuted_proof. Qed.
Print Assumptions C43_vector_rows_refuted.

(** ... and sends exported rows before they are computed. *)
Theorem C43_vector_exchange_refuted : exists n_export groups width n_owned columns e array_pressure dim U ev P Q k,
  let n_internal := (groups * width)%nat in
  (0 < width)%nat /\ (n_internal <= n_owned)%nat /\ grouped (fun i => length (columns i)) width groups /\
  (forall rho en, length rho = length en -> exists p, array_pressure rho en = Some p /\ length p = length rho /\
    forall k d, (k < length rho)%nat -> nth k p d = eos_pressure e (nth k rho d) (nth k en d)) /\
  (forall i, length (columns i) <> 1%nat) /\
  prepare_vector n_export n_internal n_owned columns e array_pressure dim U width = Some ev /\
  observable ev P Q /\ (k < n_export)%nat /\ Q k = P k /\ P k <> first_values e dim (U k).
Proof. exact C43_vector_exchange_refuted_proof. Qed.
Print Assumptions C43_vector_exchange_refuted.
