(** * Specification: how long a piece of code takes, and how long it is in a section

    Independent of timers and their state; for source/scope.h:15-22. *)
From Coq Require Import Reals String List Bool.
From Verif Require Import ReportTimers.
Local Open Scope R_scope.

(** Whether an exception leaves the code, for source/scope.h:43-49. *)
Fixpoint throws (c : code) : bool :=
  match c with
  | Work _ => false | Throw => true | Scoped _ a => throws a
  | Seq a b => (throws a || throws b)%bool
  end.
(** The time from the beginning to the end or to the exception, for source/scope.h:15-22. *)
Fixpoint duration (c : code) : R :=
  match c with
  | Work d => d | Throw => 0 | Scoped _ a => duration a
  | Seq a b => if throws a then duration a else duration a + duration b
  end.
(** The time spent in section n, for source/scope.h:15-22. *)
Fixpoint spent (n : string) (c : code) : R :=
  match c with
  | Work _ | Throw => 0
  | Scoped m a => if String.eqb m n then duration a else spent n a
  | Seq a b => if throws a then spent n a else spent n a + spent n b
  end.
(** The code has a section with this name, for source/scope.h:29-30. *)
Fixpoint has (n : string) (c : code) : Prop :=
  match c with
  | Work _ | Throw => False
  | Scoped m a => m = n \/ has n a
  | Seq a b => has n a \/ has n b
  end.
(** No section contains itself, for source/scope.h:29-30. *)
Fixpoint not_reentrant (c : code) : Prop :=
  match c with
  | Work _ | Throw => True
  | Scoped n a => ~ has n a /\ not_reentrant a
  | Seq a b => not_reentrant a /\ not_reentrant b
  end.
(** None of the sections l contains another one of them, for source/scope.h:29-30. *)
Fixpoint separate (l : list string) (c : code) : Prop :=
  match c with
  | Work _ | Throw => True
  | Scoped n a => (List.In n l -> forall m, List.In m l -> ~ has m a) /\ separate l a
  | Seq a b => separate l a /\ separate l b
  end.
(** Time does not run backwards, for source/scope.h:15-22. *)
Fixpoint forward (c : code) : Prop :=
  match c with
  | Work d => 0 <= d | Throw => True | Scoped _ a => forward a
  | Seq a b => forward a /\ forward b
  end.
