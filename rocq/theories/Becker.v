(** * The viscous shock of Becker, source/euler/initial_state_becker_solution.h

    Real numbers instead of double. *)
From Coq Require Import Reals Arith List.
From Verif Require Import RVec EulerSystem EulerInitialStates.
Import ListNotations.
Local Open Scope R_scope.

(** The parameters of the class, source/euler/initial_state_becker_solution.h:59-84. *)
Record becker := {
  k_gamma : R;      (* gamma_, lines 59-62, 90-92 *)
  k_velocity : R;   (* velocity_ *)
  k_left : R;       (* velocity_left_ *)
  k_right : R;      (* velocity_right_ *)
  k_density : R;    (* density_left_ *)
  k_mu : R          (* mu_ *)
}.

(** source/euler/initial_state_becker_solution.h:107-108 *)
Definition velocity_origin (b : becker) : R := sqrt (k_left b * k_right b).

(** source/euler/initial_state_becker_solution.h:112-114 *)
Definition becker_factor (b : becker) : R :=
  let Pr := 75 / 100 in
  2 * k_gamma b / (k_gamma b + 1) * k_mu b / (k_density b * k_left b * Pr).

(** source/euler/initial_state_becker_solution.h:116-132.  None where a logarithm
    is not a finite number (std::log of a nonpositive number) or the derivative
    divides by zero. *)
Definition psi (b : becker) (x v : R) : option (R * R) :=
  let c_l := k_left b / (k_left b - k_right b) in
  let c_r := k_right b / (k_left b - k_right b) in
  if Rlt_dec v (k_left b) then
    if Rlt_dec (k_right b) v then
      let log_l := ln (k_left b - v) - ln (k_left b - velocity_origin b) in
      let log_r := ln (v - k_right b) - ln (velocity_origin b - k_right b) in
      let value := becker_factor b * (c_l * log_l - c_r * log_r) - x in
      let derivative := becker_factor b * (- c_l / (k_left b - v) - c_r / (v - k_right b)) in
      Some (value, derivative)
    else None
  else None.

(** source/euler/initial_state_becker_solution.h:136-144 *)
Definition becker_tol : R := 1 / 10 ^ 12.
(** See the comment above, source/euler/initial_state_becker_solution.h:136-144. *)
Definition becker_cut (b : becker) : option (R * R * R) :=
  match psi b 0 ((1 - becker_tol) * k_left b + becker_tol * k_right b),
        psi b 0 (becker_tol * k_left b + (1 - becker_tol) * k_right b) with
  | Some (x_left, _), Some (x_right, _) => Some (x_left, x_right, (x_right - x_left) * becker_tol)
  | _, _ => None
  end.

(** The loop, source/euler/initial_state_becker_solution.h:162-186.  None: a value
    is not a finite number, or more than [fuel] iterations are needed. *)
Fixpoint becker_loop (b : becker) (norm x : R) (fuel : nat) (v : R) (fdf : R * R) : option R :=
  let '(f, df) := fdf in
  if Rlt_dec norm (Rabs f) then
    match fuel with
    | O => None
    | S fuel' =>
        if Req_EM_T df 0 then None
        else
          let v_next := v - f / df in
          if Rlt_dec (Rabs (v_next - v)) (becker_tol * (1 / 2) * (k_right b + k_left b)) then Some v_next
          else
            let v' := if Rlt_dec v_next (k_right b) then 1 / 2 * (k_right b + v)
                      else if Rlt_dec (k_left b) v_next then 1 / 2 * (k_left b + v)
                      else v_next in
            match psi b x v' with
            | None => None
            | Some fdf' => becker_loop b norm x fuel' v' fdf'
            end
    end
  else Some v.

(** find_velocity, source/euler/initial_state_becker_solution.h:148-187; the
    initial guess of lines 156-160. *)
Definition becker_guess (b : becker) (x_left x_right x : R) : R :=
  let nu := 1 / 2 * tanh (10 * (x - 1 / 2 * (x_right + x_left)) / (x_right - x_left)) in
  k_left b * (1 / 2 - nu) + k_right b * (nu + 1 / 2).
(** See the comment above, source/euler/initial_state_becker_solution.h:148-187. *)
Definition find_velocity (b : becker) (fuel : nat) (x : R) : option R :=
  match becker_cut b with
  | None => None
  | Some (x_left, x_right, norm) =>
      if Rle_dec x x_left then Some (k_left b)
      else if Rle_dec x_right x then Some (k_right b)
      else
        let v := becker_guess b x_left x_right x in
        match psi b x v with
        | None => None
        | Some fdf => becker_loop b norm x fuel v fdf
        end
  end.

(** The state of lines 196-216 of source/euler/initial_state_becker_solution.h for
    the velocity [v] that find_velocity returns. *)
Definition becker_state (b : becker) (dim : nat) (v : R) : vec :=
  let R_infty := (k_gamma b + 1) / (k_gamma b - 1) in
  let rho := k_density b * k_left b / v in
  let e := 1 / (2 * k_gamma b) * (R_infty * k_left b * k_right b - v * v) in
  expand_state dim 1 (tensor [rho; rho * (k_velocity b + v);
                              rho * (e + 1 / 2 * (k_velocity b + v) * (k_velocity b + v))]).

(** The argument of find_velocity, source/euler/initial_state_becker_solution.h:199. *)
Definition becker_position (b : becker) (point : vec) (t : R) : R := point 0%nat - k_velocity b * t.
