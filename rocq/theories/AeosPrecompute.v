(** * EulerAEOS::HyperbolicSystemView::precomputation_loop

    The two cycles of source/euler_aeos/hyperbolic_system.h:840-976 on one rank, and the calls
    and halo exchanges of HyperbolicModule::prepare_state_vector.  Simplified: one thread (the
    dispatch with several threads is in Conc.v); all lanes of a SIMD row are computed one after
    the other (no lane reads what another lane writes, except for the pressure, which is
    written back unchanged). *)
From Coq Require Import Reals List Arith Bool.
From Verif Require Import RVec EulerSystem AeosSystem.
Import ListNotations.
Local Open Scope R_scope.

(** precomputed_type {p, surrogate_gamma_min, surrogate_specific_entropy, surrogate_harten_entropy},
    source/euler_aeos/hyperbolic_system.h:364-380. *)
Record prec := { prec_p : R; prec_gamma : R; prec_s : R; prec_eta : R }.

(** What a loop does in order: calls of dispatch_check with the given condition and
    write_tensor.  source/euler_aeos/hyperbolic_system.h:907-914, 929-939. *)
Inductive event :=
| Check (condition : bool)
| Write (i : nat) (v : prec).

(** The indices of for (i = left; i < right; i += stride).
    source/euler_aeos/hyperbolic_system.h:881, 901, 923, 946. *)
Definition indices (left right stride : nat) : list nat :=
  map (fun k => left + k * stride)%nat (seq 0 ((right - left + stride - 1) / stride)).

Section Rank.
(** Offline data of the rank: n_export_indices, n_locally_internal, n_locally_owned, row lengths
    and columns of the sparsity pattern (the first column of a row is the row itself). *)
Variables n_export n_internal n_owned : nat.
Variable columns : nat -> list nat.
(** sparsity_simd.row_length(i), source/euler_aeos/hyperbolic_system.h:903, 925, 950. *)
Definition row_length (i : nat) : nat := length (columns i).
(** The equation of state, its variant for arrays, and the states. *)
Variable e : eos.
Variable array_pressure : list R -> list R -> option (list R).
Variable dim : nat.
Variable U : nat -> vec.

(** The condition of dispatch_check, source/hyperbolic_module.template.h:174-177. *)
Definition condition (i : nat) : bool := Nat.leb n_export i && Nat.ltb i n_internal.

(** source/euler_aeos/hyperbolic_system.h:909-913, 936-938 *)
Definition prec_of (U_i : vec) (p_i : R) : prec :=
  {| prec_p := p_i; prec_gamma := surrogate_gamma e dim U_i p_i; prec_s := 0; prec_eta := 0 |}.

(** Cycle 0, one call into the equation of state per row,
    source/euler_aeos/hyperbolic_system.h:916-940. *)
Definition cycle0_scalar (left right stride_size : nat) : list event :=
  flat_map (fun i =>
      if Nat.eqb (row_length i) 1 then []
      else Check (condition i) ::
           map (fun r =>
              let U_i := U r in
              let rho_i := a_density U_i in
              let e_i := a_internal_energy dim U_i / rho_i in
              let p_i := eos_pressure e rho_i e_i in
              Write r (prec_of U_i p_i)) (seq i stride_size))
    (indices left right stride_size).

(** Cycle 0, one call into the equation of state for all rows,
    source/euler_aeos/hyperbolic_system.h:862-915.  [None]: an access out of bounds of the
    temporary arrays, or a failure of the equation of state. *)
Definition cycle0_vector (left right stride_size : nat) : option (list event) :=
  let offset := left in
  let size := (right - left)%nat in
  if negb (Nat.eqb (size mod stride_size) 0) then None else
  let rho := map (fun i => a_density (U (offset + i)%nat)) (seq 0 size) in
  let en := map (fun i => a_internal_energy dim (U (offset + i)%nat) / a_density (U (offset + i)%nat)) (seq 0 size) in
  match array_pressure rho en with
  | None => None
  | Some p =>
      Some (flat_map (fun i =>
          if Nat.eqb (row_length i) 1 then []
          else Check (condition i) ::
               map (fun r => Write (offset + r)%nat (prec_of (U (offset + r)%nat) (nth r p 0))) (seq i stride_size))
        (indices 0 size stride_size))
  end.

(** The two calls of the loop, source/hyperbolic_module.template.h:184-187: first the rows
    [n_internal, n_owned) one by one, then the rows [0, n_internal) in groups of [width]. *)
Definition prepare_scalar (width : nat) : list event :=
  cycle0_scalar n_internal n_owned 1 ++ cycle0_scalar 0 n_internal width.
(** See the comment above, source/hyperbolic_module.template.h:184-187. *)
Definition prepare_vector (width : nat) : option (list event) :=
  match cycle0_vector n_internal n_owned 1, cycle0_vector 0 n_internal width with
  | Some a, Some b => Some (a ++ b)
  | _, _ => None
  end.

(** Cycle 1 for one row, source/euler_aeos/hyperbolic_system.h:956-973; [P] is the vector of
    precomputed values at that moment. *)
Definition cycle1_row (P : nat -> prec) (i : nat) : prec :=
  let gamma_min := fold_left (fun g j => Rmin g (surrogate_gamma e dim (U j) (prec_p (P j)))) (tl (columns i)) (prec_gamma (P i)) in
  {| prec_p := prec_p (P i); prec_gamma := gamma_min;
     prec_s := surrogate_specific_entropy e dim (U i) gamma_min;
     prec_eta := surrogate_harten_entropy e dim (U i) gamma_min |}.

(** The loop of cycle 1, source/euler_aeos/hyperbolic_system.h:944-975, in place; [order] is the
    order in which the threads process the rows. *)
Definition cycle1 (order : list nat) (P : nat -> prec) : nat -> prec :=
  fold_left (fun P i => if Nat.eqb (row_length i) 1 then P
                        else fun k => if Nat.eqb k i then cycle1_row P i else P k) order P.
End Rank.

(** The effect of a sequence of events on the vector of precomputed values.
    The writes of source/euler_aeos/hyperbolic_system.h:914, 939, 973. *)
Definition apply_events (ev : list event) (P : nat -> prec) : nat -> prec :=
  fold_left (fun P x => match x with Write i v => fun k => if Nat.eqb k i then v else P k | Check _ => P end) ev P.
