(** * The equation dispatcher: property theorems *)
From Coq Require Import String List Bool ZArith Permutation Lia.
From Verif Require Import Dispatch DispatchProofs.
Import ListNotations.
Local Open Scope Z_scope.

(** C53: with the drivers of the code, registered in any order, exactly the selected
    time loop is run, and an unknown equation is an error before anything is run. *)
Theorem C53_shipped : forall run_ok regs dim eq, Permutation shipped_equations regs -> 1 <= dim <= 3 ->
  (In eq shipped_equations -> run_ok eq dim = true -> dispatch run_ok regs dim eq false = Outcome [(eq, dim)] true true) /\
  (~ In eq shipped_equations -> dispatch run_ok regs dim eq false = Outcome [] false false).
Proof. exact C53_shipped_proof. Qed.
Print Assumptions C53_shipped.

Example C53_shipped_case :
  Permutation shipped_equations (rev shipped_equations) /\ In "euler aeos"%string shipped_equations /\
  ~ In "Euler"%string shipped_equations /\
  dispatch (fun _ _ => true) (rev shipped_equations) 3 "euler"%string false = Outcome [("euler"%string, 3)] true true.
Proof.
  split; [apply Permutation_rev|]. split; [cbn; tauto|]. split; [cbn; intuition discriminate|reflexivity].
Qed.

(** C53: for any registrations a call succeeds iff the dimension is supported, the
    name is registered exactly once, and its time loop returns. *)
Theorem C53_success : forall run_ok regs dim eq,
  returned (dispatch run_ok regs dim eq false) = true <->
  1 <= dim <= 3 /\ count_occ string_dec regs eq = 1%nat /\ run_ok eq dim = true.
Proof. exact C53_success_proof. Qed.
Print Assumptions C53_success.

(** C53: no other time loop is ever started, and the selected one at most once. *)
Theorem C53_only_selected : forall run_ok regs dim eq,
  started (dispatch run_ok regs dim eq false) =
  if dim_dec dim then if in_dec string_dec eq regs then [(eq, dim)] else [] else [].
Proof. exact C53_only_selected_proof. Qed.
Print Assumptions C53_only_selected.

(** C53: the order of registration has no influence. *)
Theorem C53_order : forall run_ok regs regs' dim eq, Permutation regs regs' ->
  dispatch run_ok regs dim eq false = dispatch run_ok regs' dim eq false.
Proof. exact C53_order_proof. Qed.
Print Assumptions C53_order.

Example C53_order_case : Permutation ["a"; "b"; "a"]%string ["b"; "a"; "a"]%string.
Proof. constructor. Qed.

(** C53: two registrations of the selected name are an error, which is raised only
    after the first time loop has been run to its end. *)
Theorem C53_twice : forall run_ok regs dim eq, 1 <= dim <= 3 -> (2 <= count_occ string_dec regs eq)%nat -> run_ok eq dim = true ->
  started (dispatch run_ok regs dim eq false) = [(eq, dim)] /\ returned (dispatch run_ok regs dim eq false) = false.
Proof. exact C53_twice_proof. Qed.
Print Assumptions C53_twice.

Example C53_twice_case : (2 <= count_occ string_dec ["a"; "b"; "a"]%string "a"%string)%nat.
Proof. cbn. lia. Qed.

(** C53: a second call on the same object runs nothing.  It reports an error for a
    registered name, but not for an unknown one. *)
Theorem C53_second_call : forall run_ok regs dim eq, started (dispatch run_ok regs dim eq true) = [] /\
  (returned (dispatch run_ok regs dim eq true) = true <-> 1 <= dim <= 3 /\ regs <> [] /\ ~ In eq regs).
Proof. exact C53_second_call_proof. Qed.
Print Assumptions C53_second_call.
