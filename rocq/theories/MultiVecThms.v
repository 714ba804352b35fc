(** * C04, C05: multi-component vectors (property theorems)

    [n] is the number of components, [m] the number of (owned and ghost)
    indices, the vector stores [m * n] numbers. *)
From Coq Require Import List Arith Lia Bool Permutation.
From Verif Require Import Vec Opt MultiVec MultiVecSpec MultiVecProofs.
Import ListNotations.

(** ** C04 *)

(** write_tensor then get_tensor; other indices are not changed. *)
Theorem C04_write_read :
  forall (A : Type) n m (v : list A) i t,
    length v = m * n -> i < m -> length t = n ->
    exists v', mv_write n v i t = Some v' /\ length v' = length v /\
      mv_get n v' i = Some t /\
      forall j, j < m -> j <> i ->
        exists u, mv_get n v j = Some u /\ mv_get n v' j = Some u.
Proof. exact C04_write_read_proof. Qed.
Print Assumptions C04_write_read.

(** insert_component then extract_component; the other components, and
    whatever is stored beyond the owned range, are not changed. *)
Theorem C04_insert_extract :
  forall (A : Type) n m (v : list A) local_size c s s0,
    length v = m * n -> local_size <= m -> c < n ->
    length s = local_size -> length s0 = local_size ->
    exists v', insert_component n v local_size s c = Some v' /\
      length v' = length v /\
      extract_component n v' local_size s0 c = Some s /\
      (forall c', c' < n -> c' <> c ->
         extract_component n v' local_size s0 c' = extract_component n v local_size s0 c') /\
      (forall i, local_size <= i -> i < m -> mv_get n v' i = mv_get n v i).
Proof. exact C04_insert_extract_proof. Qed.
Print Assumptions C04_insert_extract.

(** Component and tensor access agree: entry [i] of the extracted component
    [c] is entry [c] of the tensor at [i]. *)
Theorem C04_extract_is_tensor_component :
  forall (A : Type) n m (v : list A) local_size c s0,
    length v = m * n -> local_size <= m -> c < n -> length s0 = local_size ->
    exists s, extract_component n v local_size s0 c = Some s /\ length s = local_size /\
      forall i, i < local_size ->
        exists t x, mv_get n v i = Some t /\ nth_error t c = Some x /\ nth_error s i = Some x.
Proof. exact C04_extract_is_tensor_component_proof. Qed.
Print Assumptions C04_extract_is_tensor_component.

(** Vectorized reads: component [d], lane [k] is component [d] of the tensor
    at index [i+k] (contiguous access) or [js[k]] (gather). *)
Theorem C04_vector_read :
  forall (A : Type) n m w (v : list A) i,
    length v = m * n -> i + w <= m ->
    exists regs, mv_get_v n w v i = Some regs /\ length regs = n /\
      forall d k, d < n -> k < w ->
        exists reg t x, nth_error regs d = Some reg /\ length reg = w /\
          nth_error reg k = Some x /\ mv_get n v (i + k) = Some t /\ nth_error t d = Some x.
Proof. exact C04_vector_read_proof. Qed.
Print Assumptions C04_vector_read.

Theorem C04_vector_gather :
  forall (A : Type) n m w (v : list A) js,
    length v = m * n -> length js = w -> (forall j, In j js -> j < m) ->
    exists regs, mv_gather_v n w v js = Some regs /\ length regs = n /\
      forall d k j, d < n -> nth_error js k = Some j ->
        exists reg t x, nth_error regs d = Some reg /\ length reg = w /\
          nth_error reg k = Some x /\ mv_get n v j = Some t /\ nth_error t d = Some x.
Proof. exact C04_vector_gather_proof. Qed.
Print Assumptions C04_vector_gather.

(** Vectorized writes: [lanes] are the tensors for indices i, i+1, ...; the
    registers are their transposition.  Same resulting memory as the scalar
    writes. *)
Theorem C04_vector_write :
  forall (A : Type) n m w (v : list A) i lanes,
    0 < n -> 0 < w -> length v = m * n -> i + w <= m ->
    length lanes = w -> (forall t, In t lanes -> length t = n) ->
    exists regs v', mapM (fun d => mapM (fun t => nth_error t d) lanes) (seq 0 n) = Some regs /\
      mv_write_v n w v i regs = Some v' /\
      foldM (fun v kt => mv_write n v (i + fst kt) (snd kt)) v (combine (seq 0 w) lanes) = Some v'.
Proof. exact C04_vector_write_proof. Qed.
Print Assumptions C04_vector_write.

(** Same for add_tensor. *)
Theorem C04_vector_add :
  forall (A : Type) (plus : A -> A -> A) n m w (v : list A) i lanes,
    0 < n -> 0 < w -> length v = m * n -> i + w <= m ->
    length lanes = w -> (forall t, In t lanes -> length t = n) ->
    exists regs v', mapM (fun d => mapM (fun t => nth_error t d) lanes) (seq 0 n) = Some regs /\
      mv_add_v n plus w v i regs = Some v' /\
      foldM (fun v kt => mv_add n plus v (i + fst kt) (snd kt)) v (combine (seq 0 w) lanes) = Some v'.
Proof. exact C04_vector_add_proof. Qed.
Print Assumptions C04_vector_add.

(** add_tensor adds to every component of the addressed tensor and changes
    nothing else. *)
Theorem C04_add_tensor :
  forall (A : Type) (plus : A -> A -> A) n m (v : list A) i t,
    length v = m * n -> i < m -> length t = n ->
    exists u v', mv_get n v i = Some u /\ mv_add n plus v i t = Some v' /\
      mv_get n v' i = Some (map (fun yx => plus (fst yx) (snd yx)) (combine u t)) /\
      forall j, j < m -> j <> i -> mv_get n v' j = mv_get n v j.
Proof. exact C04_add_tensor_proof. Qed.
Print Assumptions C04_add_tensor.

Example C04_instance :
  mv_write 3 (seq 0 12) 2 [70; 71; 72] = Some [0;1;2;3;4;5;70;71;72;9;10;11] /\
  mv_get_v 3 2 (seq 0 12) 1 = Some [[3; 6]; [4; 7]; [5; 8]] /\
  mv_gather_v 3 2 (seq 0 12) [3; 0] = Some [[9; 0]; [10; 1]; [11; 2]] /\
  mv_write_v 3 2 (seq 0 12) 1 [[70; 80]; [71; 81]; [72; 82]]
    = Some [0;1;2;70;71;72;80;81;82;9;10;11] /\
  mv_add_v 3 plus 2 (seq 0 12) 1 [[70; 80]; [71; 81]; [72; 82]]
    = Some [0;1;2;73;75;77;86;88;90;9;10;11] /\
  insert_component 3 (seq 0 12) 3 [70; 80; 90] 1 = Some [0;70;2;3;80;5;6;90;8;9;10;11] /\
  extract_component 3 (seq 0 12) 3 [0; 0; 0] 1 = Some [1; 4; 7].
Proof. repeat split; vm_compute; reflexivity. Qed.

(** ** C05 *)

(** The vector partitioner owns (has as ghost) index [g * n + c] exactly if
    the scalar partitioner owns (has as ghost) [g]. *)
Theorem C05_membership :
  forall n p g c, c < n ->
    (forall a b, In (a, b) (part_owned p ++ part_ghost p) -> a < b) ->
    is_element (part_owned (create_vector_partitioner n p)) (g * n + c)
      = is_element (part_owned p) g /\
    is_element (part_ghost (create_vector_partitioner n p)) (g * n + c)
      = is_element (part_ghost p) g.
Proof. exact C05_membership_proof. Qed.
Print Assumptions C05_membership.

(** The local index of component [c] of the tensor at global index [g] is
    [n * local(g) + c]: this is what get_tensor and write_tensor of C04 rely
    on, for owned as well as for ghost indices.  Intervals are disjoint: an
    index is in at most one of them. *)
Theorem C05_local_numbering :
  forall n p g c, c < n ->
    (forall a b, In (a, b) (part_owned p ++ part_ghost p) -> a < b) ->
    disjoint_intervals (part_owned p) -> disjoint_intervals (part_ghost p) ->
    global_to_local (create_vector_partitioner n p) (g * n + c) =
      (l <- global_to_local p g ;; Some (l * n + c)).
Proof. exact C05_local_numbering_proof. Qed.
Print Assumptions C05_local_numbering.

Example C05_instance :
  let p := {| part_owned := [(10, 14)]; part_ghost := [(3, 5); (20, 21)] |} in
  global_to_local p 20 = Some 6 /\
  global_to_local (create_vector_partitioner 4 p) 83 = Some 27 /\
  disjoint_intervals (part_ghost p).
Proof. repeat split; try (vm_compute; reflexivity). intros [|[|[|i]]] [|[|[|j]]] x a b a' b' H1 H2 Hx Hx';
  simpl in *; try discriminate; try reflexivity; inversion H1; inversion H2; subst; lia. Qed.
