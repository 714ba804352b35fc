(** * Trapezoidal averages and sequences of calls *)
From Coq Require Import Reals String List Bool Arith.
From Verif Require Import Quantities.
Import ListNotations.
Local Open Scope R_scope.

(** Trapezoidal integral of a history of (time, value). *)
Fixpoint trapezoid (h : list (R * R)) : R :=
  match h with
  | (t0, v0) :: (((t1, v1) :: _) as l) => (t1 - t0) * (v0 + v1) / 2 + trapezoid l
  | _ => 0
  end.

Fixpoint increasing (h : list R) : Prop :=
  match h with
  | t0 :: ((t1 :: _) as l) => t0 < t1 /\ increasing l
  | _ => True
  end.

(** The public calls: accumulate(state, t) and write_out(state, t, cycle). *)
Inductive call :=
| Acc (t : R) (sample : manifold -> list R)
| Out (t : R) (cycle : nat) (sample : manifold -> list R).

(** Files per call of write_out. *)
Fixpoint perform (clear : bool) (ms : list manifold) (cs : list call) (q : qstate) : option (list qfile * qstate) :=
  match cs with
  | [] => Some ([], q)
  | Acc t sample :: cs' => perform clear ms cs' (q_accumulate ms sample t q)
  | Out t cycle sample :: cs' =>
      match q_write_out clear ms sample t cycle q with
      | None => None
      | Some (f, q1) =>
          match perform clear ms cs' q1 with
          | None => None
          | Some (f', q2) => Some (f ++ f', q2)
          end
      end
  end.

(** What has been accumulated on a manifold: since the last write-out if statistics
    are cleared, since the first call otherwise. *)
Fixpoint recorded (clear : bool) (m : manifold) (cs : list call) (h : list (R * list R)) : list (R * list R) :=
  match cs with
  | [] => h
  | Acc t sample :: cs' => recorded clear m cs' (h ++ [(t, sample m)])
  | Out _ _ _ :: cs' => recorded clear m cs' (if clear then [] else h)
  end.

(** Every call of accumulate that is followed by a write-out. *)
Fixpoint all_recorded (m : manifold) (cs : list call) : list (R * list R) :=
  match cs with
  | [] => []
  | Acc t sample :: cs' => (t, sample m) :: all_recorded m cs'
  | Out _ _ _ :: cs' => all_recorded m cs'
  end.

(** The rows of the time series files of a manifold, in the order of writing. *)
Fixpoint rows (name : string) (fs : list qfile) : list (R * option value) :=
  match fs with
  | [] => []
  | QSeries n _ _ l :: fs' => if String.eqb n name then l ++ rows name fs' else rows name fs'
  | _ :: fs' => rows name fs'
  end.

Definition total (l : list R) : R := fold_right Rplus 0 l.

(** Mean value of [v] weighted with [mass]. *)
Definition weighted_mean (mass v : list R) : R := total (map (fun x => fst x * snd x) (combine mass v)) / total mass.

(** Number in the name and append flag of the time series files, in the order of
    writing. *)
Fixpoint series_files (fs : list qfile) : list (nat * bool) :=
  match fs with
  | [] => []
  | QSeries _ n a _ :: fs' => (n, a) :: series_files fs'
  | _ :: fs' => series_files fs'
  end.

(** Cycle of the first write-out. *)
Fixpoint first_out (cs : list call) : option nat :=
  match cs with
  | [] => None
  | Acc _ _ :: cs' => first_out cs'
  | Out _ c _ :: _ => Some c
  end.
