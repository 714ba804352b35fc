(** * The equation dispatcher: proofs *)
From Coq Require Import String List Bool ZArith Lia Permutation.
From Verif Require Import Dispatch.
Import ListNotations.
Local Open Scope Z_scope.

Section Proofs.
Variable run_ok : string -> Z -> bool.

(** How often a name has been registered. *)
Notation times eq regs := (count_occ string_dec regs eq).

Lemma slot_other name dim eq o : name <> eq -> slot run_ok name dim eq o = o.
Proof using Type. intros H. unfold slot. destruct (String.eqb_spec eq name); [congruence|reflexivity]. Qed.

Lemma supported dim : 1 <= dim <= 3 -> (dim =? 1) || (dim =? 2) || (dim =? 3) = true.
Proof using Type. intros H. destruct (Z.eqb_spec dim 1), (Z.eqb_spec dim 2), (Z.eqb_spec dim 3); cbn; (reflexivity || lia). Qed.

Lemma calls_after regs dim eq log :
  call_slots run_ok regs dim eq (Outcome log true true) =
  if (times eq regs =? 0)%nat then Outcome log true true else Outcome log true false.
Proof using Type.
  induction regs as [|n regs IH]; cbn [call_slots count_occ]; [reflexivity|].
  destruct (string_dec n eq) as [->|H].
  - unfold slot at 1. rewrite String.eqb_refl. cbn. unfold slot. rewrite String.eqb_refl. reflexivity.
  - rewrite slot_other by exact H. cbn. exact IH.
Qed.

Lemma calls_fresh regs dim eq : 1 <= dim <= 3 ->
  call_slots run_ok regs dim eq (Outcome [] false true) =
  if (times eq regs =? 0)%nat then Outcome [] false true
  else if run_ok eq dim then
         if (times eq regs =? 1)%nat then Outcome [(eq, dim)] true true else Outcome [(eq, dim)] true false
       else Outcome [(eq, dim)] false false.
Proof using Type.
  intros Hd. induction regs as [|n regs IH]; cbn [call_slots count_occ]; [reflexivity|].
  destruct (string_dec n eq) as [->|H].
  - assert (S : slot run_ok eq dim eq (Outcome [] false true) = if run_ok eq dim then Outcome [(eq, dim)] true true else Outcome [(eq, dim)] false false).
    { unfold slot. rewrite String.eqb_refl. cbn [negb executed]. rewrite supported by exact Hd. cbn. destruct (run_ok eq dim); reflexivity. }
    rewrite S. destruct (run_ok eq dim); cbn [returned]; [|reflexivity]. rewrite calls_after. destruct (times eq regs); reflexivity.
  - rewrite slot_other by exact H. cbn [returned]. exact IH.
Qed.

Lemma dispatch_fresh regs dim eq : 1 <= dim <= 3 ->
  dispatch run_ok regs dim eq false =
  if (times eq regs =? 0)%nat then Outcome [] false false
  else if run_ok eq dim then Outcome [(eq, dim)] true (times eq regs =? 1)%nat else Outcome [(eq, dim)] false false.
Proof using Type.
  intros Hd. unfold dispatch. replace ((1 <=? dim) && (dim <=? 3)) with true by (symmetry; apply andb_true_iff; split; apply Z.leb_le; lia).
  cbn [negb]. destruct regs as [|n regs]; [reflexivity|]. rewrite calls_fresh by exact Hd.
  remember (times eq (n :: regs)) as c. destruct (c =? 0)%nat; [reflexivity|]. destruct (run_ok eq dim); [|reflexivity]. destruct (c =? 1)%nat; reflexivity.
Qed.

Lemma dispatch_dim regs dim eq before : ~ 1 <= dim <= 3 -> dispatch run_ok regs dim eq before = Outcome [] before false.
Proof using Type.
  intros H. unfold dispatch. destruct (Z.leb_spec 1 dim), (Z.leb_spec dim 3); cbn; (reflexivity || lia).
Qed.

Lemma dim_dec dim : {1 <= dim <= 3} + {~ 1 <= dim <= 3}.
Proof using Type. destruct (Z_le_dec 1 dim), (Z_le_dec dim 3); [left; lia|right; lia|right; lia|right; lia]. Qed.

Lemma C53_success_proof regs dim eq :
  returned (dispatch run_ok regs dim eq false) = true <->
  1 <= dim <= 3 /\ times eq regs = 1%nat /\ run_ok eq dim = true.
Proof using Type.
  destruct (dim_dec dim) as [H|H].
  - rewrite dispatch_fresh by exact H. destruct (Nat.eqb_spec (times eq regs) 0) as [E|E]; cbn.
    + split; [discriminate|]. rewrite E. intros (_ & A & _). discriminate.
    + destruct (run_ok eq dim); cbn; [rewrite Nat.eqb_eq; tauto|]. split; [discriminate|]. intros (_ & _ & A). discriminate.
  - rewrite dispatch_dim by exact H. cbn. split; [discriminate|]. tauto.
Qed.

Lemma C53_only_selected_proof regs dim eq :
  started (dispatch run_ok regs dim eq false) = if dim_dec dim then if in_dec string_dec eq regs then [(eq, dim)] else [] else [].
Proof using Type.
  destruct (dim_dec dim) as [H|H]; [|rewrite dispatch_dim by exact H; reflexivity]. rewrite dispatch_fresh by exact H.
  destruct (in_dec string_dec eq regs) as [I|I].
  - apply (count_occ_In string_dec) in I. destruct (Nat.eqb_spec (times eq regs) 0); [lia|]. destruct (run_ok eq dim); reflexivity.
  - apply (count_occ_not_In string_dec) in I. rewrite I. reflexivity.
Qed.

Lemma C53_order_proof regs regs' dim eq : Permutation regs regs' ->
  dispatch run_ok regs dim eq false = dispatch run_ok regs' dim eq false.
Proof using Type.
  intros P. destruct (dim_dec dim) as [H|H]; [|rewrite !dispatch_dim by exact H; reflexivity].
  rewrite !dispatch_fresh by exact H. rewrite (proj1 (Permutation_count_occ string_dec regs regs') P eq). reflexivity.
Qed.

Lemma C53_twice_proof regs dim eq : 1 <= dim <= 3 -> (2 <= times eq regs)%nat -> run_ok eq dim = true ->
  started (dispatch run_ok regs dim eq false) = [(eq, dim)] /\ returned (dispatch run_ok regs dim eq false) = false.
Proof using Type.
  intros H T K. rewrite dispatch_fresh by exact H. rewrite K. destruct (Nat.eqb_spec (times eq regs) 0); [lia|]. cbn. split; [reflexivity|].
  apply Nat.eqb_neq. lia.
Qed.

Lemma C53_second_call_proof regs dim eq : started (dispatch run_ok regs dim eq true) = [] /\
  (returned (dispatch run_ok regs dim eq true) = true <-> 1 <= dim <= 3 /\ regs <> [] /\ ~ In eq regs).
Proof using Type.
  destruct (dim_dec dim) as [H|H].
  - unfold dispatch. replace ((1 <=? dim) && (dim <=? 3)) with true by (symmetry; apply andb_true_iff; split; apply Z.leb_le; lia).
    cbn [negb]. destruct regs as [|n regs]; [cbn; split; [reflexivity|]; split; [discriminate|tauto]|]. rewrite calls_after.
    destruct (Nat.eqb_spec (times eq (n :: regs)) 0) as [E|E]; cbn [returned started executed]; (split; [reflexivity|]).
    + split; [|reflexivity]. intros _. split; [exact H|split; [discriminate|]]. apply (count_occ_not_In string_dec). exact E.
    + split; [discriminate|]. intros (_ & _ & A). apply (count_occ_not_In string_dec) in A. contradiction.
  - rewrite dispatch_dim by exact H. cbn. split; [reflexivity|]. split; [discriminate|tauto].
Qed.

Lemma shipped_once eq regs : Permutation shipped_equations regs -> In eq shipped_equations -> times eq regs = 1%nat.
Proof using Type.
  intros P H. rewrite <- (proj1 (Permutation_count_occ string_dec _ _) P eq).
  repeat (destruct H as [<-|H]; [reflexivity|]). destruct H.
Qed.

Lemma C53_shipped_proof regs dim eq : Permutation shipped_equations regs -> 1 <= dim <= 3 ->
  (In eq shipped_equations -> run_ok eq dim = true -> dispatch run_ok regs dim eq false = Outcome [(eq, dim)] true true) /\
  (~ In eq shipped_equations -> dispatch run_ok regs dim eq false = Outcome [] false false).
Proof using Type.
  intros P H. split.
  - intros I K. rewrite dispatch_fresh by exact H. rewrite (shipped_once eq regs P I), K. reflexivity.
  - intros I. rewrite dispatch_fresh by exact H.
    assert (A : times eq regs = 0%nat). { apply (count_occ_not_In string_dec). intros B. apply I. apply Permutation_in with regs; [apply Permutation_sym; exact P|exact B]. }
    rewrite A. reflexivity.
Qed.
End Proofs.
