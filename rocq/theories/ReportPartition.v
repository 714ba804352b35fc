(** * Model: the report on the partition, and the skew and shares of the timers

    source/time_loop.template.h:917-991 and 1022-1096.  Simplifications: exact
    arithmetic; numbers are not rounded for printing. *)
From Coq Require Import Reals ZArith String List Bool Arith.
From Verif Require Import Report.
Import ListNotations.
Local Open Scope R_scope.

(** The first rank, counted from i, with the smallest value; m and k are the smallest
    so far and its rank.  dealii::Utilities::MPI::min_max_avg() as used in
    source/time_loop.template.h:941: of several ranks the lowest is reported. *)
Fixpoint arg_min (i : nat) (m : R) (k : nat) (l : list R) : R * nat :=
  match l with
  | [] => (m, k)
  | x :: r => if Rlt_dec x m then arg_min (S i) x i r else arg_min (S i) m k r
  end.
(** Likewise the largest, source/time_loop.template.h:941. *)
Fixpoint arg_max (i : nat) (m : R) (k : nat) (l : list R) : R * nat :=
  match l with
  | [] => (m, k)
  | x :: r => if Rlt_dec m x then arg_max (S i) x i r else arg_max (S i) m k r
  end.

(** The result of min_max_avg() as used in source/time_loop.template.h:941-972. *)
Record stats := { v_min : R; v_min_index : nat; v_avg : R; v_max : R; v_max_index : nat }.
(** source/time_loop.template.h:941; there is at least one rank. *)
Definition min_max_avg (l : list R) : stats :=
  let x := hd 0 l in
  let lo := arg_min 1 x 0 (tl l) in
  let hi := arg_max 1 x 0 (tl l) in
  {| v_min := fst lo; v_min_index := snd lo; v_avg := lsum l / INR (length l);
     v_max := fst hi; v_max_index := snd hi |}.

(** The numbers of a rank, source/time_loop.template.h:929-932. *)
Record counts := { n_exp : nat; n_int : nat; n_own : nat; n_rel : nat }.

(** The conversion (unsigned int) in source/time_loop.template.h:954-957.  None: the
    value does not fit, undefined behavior. *)
Definition to_unsigned (x : R) : option Z :=
  let z := Int_part x in
  if (Z.leb 0 z && Z.ltb z 4294967296)%bool then Some z else None.

(** print_snippet, source/time_loop.template.h:950-960. *)
Record snippet := { p_min : Z; p_min_index : nat; p_avg : Z; p_max : Z; p_max_index : nat }.
(** source/time_loop.template.h:950-960. *)
Definition print_snippet (s : stats) : option snippet :=
  match to_unsigned (v_min s), to_unsigned (v_avg s), to_unsigned (v_max s) with
  | Some a, Some b, Some c =>
    Some {| p_min := a; p_min_index := v_min_index s; p_avg := b; p_max := c; p_max_index := v_max_index s |}
  | _, _, _ => None
  end.

(** A quotient of source/time_loop.template.h:933-938.  None: 0/0 is not a number (the
    numerators are at most n_rel). *)
Definition share (a b : nat) : option R := if Nat.eqb b 0 then None else Some (INR a / INR b).

(** print_percentages, source/time_loop.template.h:962-973.  If the value of some rank is
    not a number the whole line has no meaning: None. *)
Fixpoint all_some (l : list (option R)) : option (list R) :=
  match l with
  | [] => Some []
  | Some x :: r => match all_some r with Some r' => Some (x :: r') | None => None end
  | None :: _ => None
  end.
(** source/time_loop.template.h:962-973: minimum, average and maximum times 100. *)
Definition print_percentages (l : list (option R)) : option stats :=
  match all_some l with
  | Some v =>
    let s := min_max_avg v in
    Some {| v_min := v_min s * 100; v_min_index := v_min_index s; v_avg := v_avg s * 100;
            v_max := v_max s * 100; v_max_index := v_max_index s |}
  | None => None
  end.

(** A line of the report: "exp", "int", "own", source/time_loop.template.h:975-985. *)
Definition line (sel : counts -> nat) (ranks : list counts) : option snippet * option stats :=
  (print_snippet (min_max_avg (map (fun c => INR (sel c)) ranks)),
   print_percentages (map (fun c => share (sel c) (n_rel c)) ranks)).

(** print_wall_time, source/time_loop.template.h:1039-1056: average and skews of the wall
    times of one timer.  None: division by zero. *)
Definition wall_skew (eps : R) (walls : list R) : option (R * R * R) :=
  let s := min_max_avg walls in
  if Req_EM_T (v_avg s) 0 then None else
  Some (v_avg s,
        Rmax (100 * (v_min s - v_avg s) / v_avg s - eps) (-999 / 10),
        Rmin (100 * (v_max s - v_avg s) / v_avg s + eps) (999 / 10)).

(** One name starts with another, find(...) == 0 in source/time_loop.template.h:1093. *)
Definition starts_with (p s : string) : bool := String.prefix p s.

(** The loop of source/time_loop.template.h:1089-1095 over the timers, in the order of
    their names: the CPU time of all ranks and, once the timer "time loop" has been
    passed, the share of it.  [flag] is compute_percentages. *)
Fixpoint cpu_column (total : R) (flag : bool) (timers : list (string * list R)) : list (R * option R) :=
  match timers with
  | [] => []
  | (n, c) :: rest =>
    (lsum c, if flag then Some (100 * lsum c / total) else None)
      :: cpu_column total (flag || starts_with "time loop" n) rest
  end.
