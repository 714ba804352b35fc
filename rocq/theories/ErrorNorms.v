(** * The reported errors

    TimeLoop::compute_error, source/time_loop.template.h:692-833.  [None]: an
    exception, a NaN or an infinity. *)
From Coq Require Import Reals String List Bool Arith.
From Verif Require Import Extractor.
Import ListNotations.
Local Open Scope R_scope.

(** A cell as used by VectorTools::integrate_difference with QGauss<dim>(3),
    source/time_loop.template.h:743-749: for each quadrature point its weight and the
    values of the shape functions by global degree of freedom. *)
Definition ecell := list (R * list (nat * R)).

(** Owned rows and owned cells of the ranks, and the affine constraints.
    As used in source/time_loop.template.h:743-792. *)
Record emesh := {
  e_rows : list (list nat);
  e_cells : list (list ecell);
  e_constraint : nat -> option (list (nat * R)) }.

(** The value of the finite element function at a quadrature point (deal.II,
    FEValues::get_function_values).
    Used by integrate_difference in source/time_loop.template.h:777-792. *)
Definition e_value (f : nat -> R) (shape : list (nat * R)) : R :=
  fold_right (fun kp s => snd kp * f (fst kp) + s) 0 shape.

(** integrate_difference against the zero function on one cell, L1 and L2 norm (deal.II),
    called in source/time_loop.template.h:777-792. *)
Definition e_cell_l1 (f : nat -> R) (K : ecell) : R :=
  fold_right (fun wq s => fst wq * Rabs (e_value f (snd wq)) + s) 0 K.
(** See the comment above, source/time_loop.template.h:777-792. *)
Definition e_cell_l2 (f : nat -> R) (K : ecell) : R :=
  sqrt (fold_right (fun wq s => fst wq * (e_value f (snd wq) * e_value f (snd wq)) + s) 0 K).

(** The maximum over the ranks of linfty_norm(), source/time_loop.template.h:740-741,774-775. *)
Definition e_linf (M : emesh) (f : nat -> R) : R :=
  fold_right Rmax 0 (map (fun rows => fold_right (fun i m => Rmax (Rabs (f i)) m) 0 rows) (e_rows M)).

(** The sum over the ranks of difference_per_cell.l1_norm(),
    source/time_loop.template.h:743-752,777-785 (cells of other ranks contribute zero). *)
Definition e_l1 (M : emesh) (f : nat -> R) : R :=
  fold_right Rplus 0 (map (fun cells => fold_right (fun K s => Rabs (e_cell_l1 f K) + s) 0 cells) (e_cells M)).

(** The root of the sum over the ranks of the squares of difference_per_cell.l2_norm(),
    source/time_loop.template.h:754-763,787-795. *)
Definition e_l2 (M : emesh) (f : nat -> R) : R :=
  sqrt (fold_right Rplus 0
    (map (fun cells => let n := sqrt (fold_right (fun K s => e_cell_l2 f K * e_cell_l2 f K + s) 0 cells) in n * n) (e_cells M))).

(** affine_constraints().distribute, source/time_loop.template.h:769-771. *)
Definition e_distribute (M : emesh) (f : nat -> R) : nat -> R :=
  fun i => match e_constraint M i with
           | Some l => e_value f l
           | None => f i
           end.

(** Whether the analytic solution contains a NaN: in a debug build
    interpolate_hyperbolic_vector poisons constrained degrees of freedom,
    source/initial_values.template.h:251-264. *)
Definition e_poisoned (debug : bool) (M : emesh) : bool :=
  debug && existsb (existsb (fun i => match e_constraint M i with Some _ => true | None => false end)) (e_rows M).

(** A division; 0 / 0 and x / 0 are a NaN and an infinity.
    The quotients of compute_error, source/time_loop.template.h:694-834. *)
Definition e_div (a b : R) : option R := if Req_EM_T b 0 then None else Some (a / b).

(** The three norms of one component, source/time_loop.template.h:731-805. *)
Definition e_component (debug normalize : bool) (M : emesh) (u a : nat -> R) : option (R * R * R) :=
  if e_poisoned debug M then None else
  let e := fun i => e_distribute M u i - a i in
  if normalize then
    match e_div (e_linf M e) (e_linf M a), e_div (e_l1 M e) (e_l1 M a), e_div (e_l2 M e) (e_l2 M a) with
    | Some x, Some y, Some z => Some (x, y, z)
    | _, _, _ => None
    end
  else Some (e_linf M e, e_l1 M e, e_l2 M e).

(** The loop over the selected components, source/time_loop.template.h:706-708,719-806. *)
Fixpoint e_loop (debug normalize : bool) (M : emesh) (names : list string) (U A : nat -> nat -> R)
    (entries : list string) (acc : R * R * R) : option (R * R * R) :=
  match entries with
  | [] => Some acc
  | entry :: rest =>
      match find_index entry names with
      | None => None
      | Some k =>
          match e_component debug normalize M (U k) (A k) with
          | None => None
          | Some (x, y, z) =>
              let '(linf, l1, l2) := acc in
              e_loop debug normalize M names U A rest (linf + x, l1 + y, l2 + z)
          end
      end
  end.

(** compute_error, source/time_loop.template.h:692-806: Linf, L1 and L2; [U k i] is component k
    of the (prepared) state at degree of freedom i, [A k i] of the interpolated analytic
    solution. *)
Definition compute_error (debug normalize : bool) (M : emesh) (names : list string) (U A : nat -> nat -> R)
    (entries : list string) : option (R * R * R) :=
  e_loop debug normalize M names U A entries (0, 0, 0).
