(** * Notions for the reports on the progress of a run *)
From Coq Require Import Reals List Bool.
From Verif Require Import Report.
Import ListNotations.
Local Open Scope R_scope.

(** The time after n of the steps taus, from the time t0 on. *)
Definition elapsed (t0 : R) (taus : list R) (n : nat) : R := t0 + fold_right Rplus 0 (firstn n taus).

(** A run that proceeds by at least lo and at most hi units of time per second of
    the slowest rank, between all calls. *)
Fixpoint progress (lo hi : R) (n0 : nat) (t0 w0 : R) (calls : list (nat * R * list clock)) : Prop :=
  match calls with
  | [] => True
  | (n, t, c) :: rest =>
      let w := lmax (map wall c) in
      (n0 < n)%nat /\ w0 < w /\ lo * (w - w0) <= t - t0 <= hi * (w - w0) /\ progress lo hi n t w rest
  end.

(** Rank 0 reports in step j. *)
Definition shown (run : list (list (list collective * bool))) (j : nat) : bool :=
  match nth_error run j with Some ((_, b) :: _) => b | _ => false end.

(** The clock of rank 0 in step j. *)
Definition root_clock (ks : list moment) (j : nat) : R :=
  match nth_error ks j with Some k => hd 0 (m_walls k) | None => 0 end.

Definition logged (ks : list moment) (j : nat) : bool :=
  match nth_error ks j with Some k => m_log k | None => false end.

(** m is the largest, the smallest of the numbers l. *)
Definition largest (l : list R) (m : R) : Prop := In m l /\ forall x, In x l -> x <= m.
Definition smallest (l : list R) (m : R) : Prop := In m l /\ forall x, In x l -> m <= x.
