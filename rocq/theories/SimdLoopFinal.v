(** * Vectorized loops: consequences and cases *)
From Coq Require Import List Arith Bool Lia.
From Verif Require Import SimdLoop SimdLoopSpec SimdLoopProofs.
Import ListNotations.

Lemma C158_completes_proof {A B : Type} (body : A -> list B -> A) (input : list B) (default : B) (columns : nat -> list nat) (w ni no : nat) (v : list A) :
  0 < w -> ni mod w = 0 -> ni <= no -> no <= length v ->
  (forall r, r < ni -> length (columns r) = length (columns (r / w * w))) ->
  (forall r j, r < no -> In j (columns r) -> j < length input) ->
  exists n s, steps body input columns default (tasks w ni no) n (start (tasks w ni no) v) s /\ Forall (eq Written) (phases s).
Proof.
  intros Hw Hd Hn Hv U IN.
  assert (Q : forall fuel n s, 2 * length (tasks w ni no) - n <= fuel ->
    steps body input columns default (tasks w ni no) n (start (tasks w ni no) v) s ->
    exists n s, steps body input columns default (tasks w ni no) n (start (tasks w ni no) v) s /\ Forall (eq Written) (phases s)).
  { induction fuel as [|fuel IH]; intros n s L ST;
      destruct (C158_loop_proof body input default columns w ni no n v s Hw Hd Hn Hv U IN ST) as (B1 & [F|(s' & N)] & _);
      try (exists n, s; auto; fail).
    - pose proof (steps_next _ _ _ _ _ _ _ _ _ ST N) as ST2.
      destruct (C158_loop_proof body input default columns w ni no (S n) v s' Hw Hd Hn Hv U IN ST2) as (B2 & _). lia.
    - apply (IH (S n) s'); [lia|]. eapply steps_next; eassumption. }
  apply (Q (2 * length (tasks w ni no)) 0 (start (tasks w ni no) v)); [lia|]. constructor.
Qed.

(** Neither the width nor the schedule matters. *)
Lemma C158_width_proof {A B : Type} (body : A -> list B -> A) (input : list B) (default : B) (columns : nat -> list nat) (w1 w2 ni1 ni2 no n1 n2 : nat) (v : list A) s1 s2 :
  0 < w1 -> 0 < w2 -> ni1 mod w1 = 0 -> ni2 mod w2 = 0 -> ni1 <= no -> ni2 <= no -> no <= length v ->
  (forall r, r < ni1 -> length (columns r) = length (columns (r / w1 * w1))) ->
  (forall r, r < ni2 -> length (columns r) = length (columns (r / w2 * w2))) ->
  (forall r j, r < no -> In j (columns r) -> j < length input) ->
  steps body input columns default (tasks w1 ni1 no) n1 (start (tasks w1 ni1 no) v) s1 -> Forall (eq Written) (phases s1) ->
  steps body input columns default (tasks w2 ni2 no) n2 (start (tasks w2 ni2 no) v) s2 -> Forall (eq Written) (phases s2) ->
  memory s1 = memory s2.
Proof.
  intros W1 W2 D1 D2 N1 N2 V U1 U2 IN S1 F1 S2 F2.
  destruct (C158_loop_proof body input default columns w1 ni1 no n1 v s1 W1 D1 N1 V U1 IN S1) as (_ & _ & R1).
  destruct (C158_loop_proof body input default columns w2 ni2 no n2 v s2 W2 D2 N2 V U2 IN S2) as (_ & _ & R2).
  destruct (R1 F1) as [L1 E1]. destruct (R2 F2) as [L2 E2]. apply list_ext. intros r. destruct (nth_error v r) as [a|] eqn:E.
  - rewrite (E1 r a E), (E2 r a E). reflexivity.
  - apply nth_error_None in E. rewrite !(proj2 (nth_error_None _ _)) by lia. reflexivity.
Qed.

Lemma C158_regular_proof w no : 0 < w -> n_regular w no mod w = 0 /\ n_regular w no <= no /\ no < n_regular w no + w.
Proof.
  intros H. destruct (nregular_ok w no H) as [A B]. split; [exact A|]. split; [exact B|]. unfold n_regular.
  pose proof (Nat.mul_succ_div_gt no w). lia.
Qed.

(** ** Cases *)

(** Five rows with two neighbours each on a ring, width two; the rows 4 is serial. *)
Definition ring (r : nat) : list nat := [r; S r mod 5; (r + 4) mod 5].
Lemma ring_case : 0 < 2 /\ 4 mod 2 = 0 /\ 4 <= 5 /\ 5 <= length [1; 2; 3; 4; 5; 6] /\
  (forall r, r < 4 -> length (ring r) = length (ring (r / 2 * 2))) /\
  (forall r j, r < 5 -> In j (ring r) -> j < length [10; 20; 30; 40; 50]) /\
  tasks 2 4 5 = [(4, 1); (0, 2); (2, 2)] /\
  serial_row (fun a l => a + list_sum l) [10; 20; 30; 40; 50] 0 ring 0 1 = 81.
Proof.
  repeat split; try (cbn; lia).
  intros r j H I. assert (r = 0 \/ r = 1 \/ r = 2 \/ r = 3 \/ r = 4) as [-> | [-> | [-> | [-> | ->]]]] by lia; cbn in I; cbn; lia.
Qed.

(** If the range of the vectorized loop were not a multiple of the width a row could be
    updated twice. *)
Lemma ragged_case : exists n s,
  steps (fun a (_ : list nat) => S a) [0] (fun _ => []) 0 (tasks 2 3 4) n (start (tasks 2 3 4) [0; 0; 0; 0]) s /\
  Forall (eq Written) (phases s) /\ 3 mod 2 <> 0 /\ memory s = [1; 1; 1; 2].
Proof.
  eexists. eexists. split.
  - eapply steps_next; [eapply steps_next; [eapply steps_next; [eapply steps_next; [eapply steps_next; [eapply steps_next; [apply steps_refl|]|]|]|]|]|].
    + apply (step_task _ _ _ _ _ 0 3 1 Waiting); [reflexivity|reflexivity|auto].
    + eapply (step_task _ _ _ _ _ 0 3 1); [reflexivity|reflexivity|right; eexists; reflexivity].
    + apply (step_task _ _ _ _ _ 1 0 2 Waiting); [reflexivity|reflexivity|auto].
    + eapply (step_task _ _ _ _ _ 1 0 2); [reflexivity|reflexivity|right; eexists; reflexivity].
    + apply (step_task _ _ _ _ _ 2 2 2 Waiting); [reflexivity|reflexivity|auto].
    + eapply (step_task _ _ _ _ _ 2 2 2); [reflexivity|reflexivity|right; eexists; reflexivity].
  - split; [repeat constructor|]. split; [discriminate|reflexivity].
Qed.

Lemma access_case : get_entry 2 [10; 20; 30; 40] 1 = Some [20; 30] /\ get_entry 2 [10; 20; 30; 40] 3 = None /\
  gather [10; 20; 30; 40] [3; 0] = Some [40; 10] /\ write_entry [10; 20; 30; 40] [7; 8] 1 = Some [10; 7; 8; 40].
Proof. repeat split. Qed.

(** A matrix with two lanes. *)
Lemma tensor_case : let t := [[[1; 2]; [3; 4]]; [[5; 6]; [7; 8]]] in
  shaped 2 2 (t : tensor (list nat) 2) /\ conforms 2 (t : tensor (list nat) 2) ([[10; 11]; [12; 13]] : tensor nat 2) /\ 1 < 2 /\
  serialize 2 (t : tensor (list nat) 2) 1 = Some [[2; 4]; [6; 8]] /\
  assign_serial 2 (t : tensor (list nat) 2) ([[10; 11]; [12; 13]] : tensor nat 2) 1 = Some [[[1; 10]; [3; 11]]; [[5; 12]; [7; 13]]].
Proof. cbn zeta. split; [repeat constructor|]. split; [repeat constructor|]. split; [lia|]. split; reflexivity. Qed.
