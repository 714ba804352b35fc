(** * Property theorems: vectorized access and loops (C158) *)
From Coq Require Import List Arith Bool.
From Verif Require Import SimdLoop SimdLoopSpec SimdLoopProofs SimdLoopFinal.
Import ListNotations.

(** ** Vectorized loops (C158) *)

(** Reading with lanes. *)
Theorem C158_read : forall (A : Type) (w : nat) (v : list A) (i : nat),
  (i + w <= length v -> exists l, get_entry w v i = Some l /\ length l = w /\ forall k, k < w -> nth_error l k = nth_error v (i + k)) /\
  (length v < i + w -> get_entry w v i = None).
Proof. exact @C158_read_proof. Qed.
Print Assumptions C158_read.

(** Gathering. *)
Theorem C158_gather : forall (A : Type) (v : list A) (js : list nat),
  (exists l, gather v js = Some l /\ length l = length js /\ forall k j, nth_error js k = Some j -> nth_error l k = nth_error v j /\ j < length v) \/
  (gather v js = None /\ exists j, In j js /\ length v <= j).
Proof. exact @C158_gather_proof. Qed.
Print Assumptions C158_gather.

(** Writing changes the rows of the lanes and nothing else. *)
Theorem C158_write : forall (A : Type) (v values : list A) (i : nat),
  (i + length values <= length v -> exists v', write_entry v values i = Some v' /\ length v' = length v /\
     forall r, nth_error v' r = if (Nat.leb i r && Nat.ltb r (i + length values))%bool then nth_error values (r - i) else nth_error v r) /\
  (length v < i + length values -> write_entry v values i = None).
Proof. exact @C158_write_proof. Qed.
Print Assumptions C158_write.

(** Two lanes. *)
Example C158_access_ex :
  get_entry 2 [10; 20; 30; 40] 1 = Some [20; 30] /\ get_entry 2 [10; 20; 30; 40] 3 = None /\
  gather [10; 20; 30; 40] [3; 0] = Some [40; 10] /\ write_entry [10; 20; 30; 40] [7; 8] 1 = Some [10; 7; 8; 40].
Proof. exact access_case. Qed.

(** Reading with a change of precision converts every lane. *)
Theorem C158_converted : forall (A B : Type) (cv : A -> B) (w : nat) (v : list A) (i : nat),
  0 < w ->
  get_converted cv w v i = option_map (map cv) (get_entry w v i).
Proof. exact @C158_converted_proof. Qed.
Print Assumptions C158_converted.

(** Writing with a change of precision. *)
Theorem C158_write_converted : forall (A B : Type) (cv : B -> A) (values : list B),
  forall v i, i + length values <= length v ->
  write_converted cv v values i = write_entry v (map cv values) i.
Proof. exact @C158_write_converted_proof. Qed.
Print Assumptions C158_write_converted.

(** One lane of a tensor: what is assigned is read back, the other lanes are untouched. *)
Theorem C158_tensor : forall (A : Type) (rank n k : nat) (t : tensor (list A) rank) (s : tensor A rank),
  shaped rank n t -> conforms rank t s -> k < n ->
  exists t', assign_serial rank t s k = Some t' /\ shaped rank n t' /\ serialize rank t' k = Some s /\
    forall j, j <> k -> serialize rank t' j = serialize rank t j.
Proof. exact @C158_tensor_proof. Qed.
Print Assumptions C158_tensor.

(** A matrix with two lanes. *)
Example C158_tensor_ex :
  let t := [[[1; 2]; [3; 4]]; [[5; 6]; [7; 8]]] in
  shaped 2 2 (t : tensor (list nat) 2) /\ conforms 2 (t : tensor (list nat) 2) ([[10; 11]; [12; 13]] : tensor nat 2) /\ 1 < 2 /\
  serialize 2 (t : tensor (list nat) 2) 1 = Some [[2; 4]; [6; 8]] /\
  assign_serial 2 (t : tensor (list nat) 2) ([[10; 11]; [12; 13]] : tensor nat 2) 1 = Some [[[1; 10]; [3; 11]]; [[5; 12]; [7; 13]]].
Proof. exact tensor_case. Qed.

(** A serial loop over the irregular rows and a vectorized loop over the others, executed by any number of threads in any interleaving: no access outside, at most two steps per iteration, some thread can always go on, and at the end every row has been updated once, just as by a serial loop. *)
Theorem C158_loop : forall (A B : Type) (body : A -> list B -> A) (input : list B) (default : B) (columns : nat -> list nat) (w ni no n : nat) (v : list A) s,
  0 < w -> ni mod w = 0 -> ni <= no -> no <= length v ->
  (forall r, r < ni -> length (columns r) = length (columns (r / w * w))) ->
  (forall r j, r < no -> In j (columns r) -> j < length input) ->
  steps body input columns default (tasks w ni no) n (start (tasks w ni no) v) s ->
  n <= 2 * length (tasks w ni no) /\
  (Forall (eq Written) (phases s) \/ exists s', step body input columns default (tasks w ni no) s s') /\
  (Forall (eq Written) (phases s) -> length (memory s) = length v /\
     forall r a, nth_error v r = Some a ->
       nth_error (memory s) r = Some (if Nat.ltb r no then serial_row body input default columns r a else a)).
Proof. exact @C158_loop_proof. Qed.
Print Assumptions C158_loop.

(** A ring of five rows, width two. *)
Example C158_loop_ex :
  0 < 2 /\ 4 mod 2 = 0 /\ 4 <= 5 /\ 5 <= length [1; 2; 3; 4; 5; 6] /\
  (forall r, r < 4 -> length (ring r) = length (ring (r / 2 * 2))) /\
  (forall r j, r < 5 -> In j (ring r) -> j < length [10; 20; 30; 40; 50]) /\
  tasks 2 4 5 = [(4, 1); (0, 2); (2, 2)] /\
  serial_row (fun a l => a + list_sum l) [10; 20; 30; 40; 50] 0 ring 0 1 = 81.
Proof. exact ring_case. Qed.

(** Such executions exist. *)
Theorem C158_completes : forall (A B : Type) (body : A -> list B -> A) (input : list B) (default : B) (columns : nat -> list nat) (w ni no : nat) (v : list A),
  0 < w -> ni mod w = 0 -> ni <= no -> no <= length v ->
  (forall r, r < ni -> length (columns r) = length (columns (r / w * w))) ->
  (forall r j, r < no -> In j (columns r) -> j < length input) ->
  exists n s, steps body input columns default (tasks w ni no) n (start (tasks w ni no) v) s /\ Forall (eq Written) (phases s).
Proof. exact @C158_completes_proof. Qed.
Print Assumptions C158_completes.

(** The result depends neither on the width nor on the schedule. *)
Theorem C158_width : forall (A B : Type) (body : A -> list B -> A) (input : list B) (default : B) (columns : nat -> list nat) (w1 w2 ni1 ni2 no n1 n2 : nat) (v : list A) s1 s2,
  0 < w1 -> 0 < w2 -> ni1 mod w1 = 0 -> ni2 mod w2 = 0 -> ni1 <= no -> ni2 <= no -> no <= length v ->
  (forall r, r < ni1 -> length (columns r) = length (columns (r / w1 * w1))) ->
  (forall r, r < ni2 -> length (columns r) = length (columns (r / w2 * w2))) ->
  (forall r j, r < no -> In j (columns r) -> j < length input) ->
  steps body input columns default (tasks w1 ni1 no) n1 (start (tasks w1 ni1 no) v) s1 -> Forall (eq Written) (phases s1) ->
  steps body input columns default (tasks w2 ni2 no) n2 (start (tasks w2 ni2 no) v) s2 -> Forall (eq Written) (phases s2) ->
  memory s1 = memory s2.
Proof. exact @C158_width_proof. Qed.
Print Assumptions C158_width.

(** The range used by the parabolic solver is the largest multiple of the width. *)
Theorem C158_regular : forall w no,
  0 < w -> n_regular w no mod w = 0 /\ n_regular w no <= no /\ no < n_regular w no + w.
Proof. exact C158_regular_proof. Qed.
Print Assumptions C158_regular.

(** That it is a multiple matters: otherwise a row is updated twice. *)
Example C158_ragged_ex :
  exists n s,
  steps (fun a (_ : list nat) => S a) [0] (fun _ => []) 0 (tasks 2 3 4) n (start (tasks 2 3 4) [0; 0; 0; 0]) s /\
  Forall (eq Written) (phases s) /\ 3 mod 2 <> 0 /\ memory s = [1; 1; 1; 2].
Proof. exact ragged_case. Qed.
