(** * Renumbering of degrees of freedom

    Model of source/local_index_handling.h (namespace DoFRenumbering) and of
    the index bookkeeping in source/offline_data.template.h
    (OfflineData::setup).

    Simplifications: a sparsity pattern enters only through the function
    [row_length] on global indices; the set of exported indices enters as a
    boolean function on local indices; deal.II's [renumber_dofs] is not
    modelled, the functions return the vector [new_order] handed to it. *)
From Coq Require Import List Arith Lia Permutation Bool.
From Verif Require Import Vec.
Import ListNotations.

(** Models the loops [for (j = 0; j < group_size; ++j) new_order[i + j] = ...]
    of source/local_index_handling.h:152-161, 180-188, 256-263, 272-280: writes
    [f 0, ..., f (cnt-1)] to positions [start, ..., start+cnt-1]. *)
Fixpoint write_group {A} (v : list A) (start cnt : nat) (f : nat -> A)
  : option (list A) :=
  match cnt with
  | 0 => Some v
  | S c => match write_group v start c f with
           | Some v' => vset v' (start + c) (f c)
           | None => None
           end
  end.

(** Number of iterations of [for (i = 0; i < n; i += group_size)],
    source/local_index_handling.h:143, 180, 245, 272. *)
Definition n_strides (n group_size : nat) : nat :=
  (n + group_size - 1) / group_size.

(** Models the first pass, source/local_index_handling.h:134-162 and 235-264.
    [front k] is the decision for the stride starting at [k * group_size];
    [None] as element models numbers::invalid_dof_index; the second component
    is n_export_indices (n_consistent_range). *)
Definition first_pass (front : nat -> bool) (group_size offset strides : nat)
           (init : list (option nat)) : option (list (option nat) * nat) :=
  fold_left
    (fun st k =>
       match st with
       | None => None
       | Some (v, n) =>
         if front k
         then match write_group v (k * group_size) group_size
                                (fun j => Some (offset + (n + j))) with
              | Some v' => Some (v', n + group_size)
              | None => None
              end
         else match write_group v (k * group_size) group_size
                                (fun _ => None) with
              | Some v' => Some (v', n)
              | None => None
              end
       end)
    (seq 0 strides) (Some (init, 0)).

(** Models the second pass, source/local_index_handling.h:174-188 and
    266-280: strides marked invalid are appended in order. *)
Definition second_pass (group_size offset strides running : nat)
           (init : list (option nat)) : option (list (option nat) * nat) :=
  fold_left
    (fun st k =>
       match st with
       | None => None
       | Some (v, r) =>
         match vget v (k * group_size) with
         | None => None
         | Some (Some _) => Some (v, r)
         | Some None =>
           match write_group v (k * group_size) group_size
                             (fun j => Some (offset + (r + j))) with
           | Some v' => Some (v', r + group_size)
           | None => None
           end
         end
       end)
    (seq 0 strides) (Some (init, running)).

(** Models the trailing loop, source/local_index_handling.h:192-194 and
    284-286: the remaining owned indices get the next running indices. *)
Definition tail_pass (offset n_internal n_owned running : nat)
           (init : list (option nat)) : option (list (option nat)) :=
  write_group init n_internal (n_owned - n_internal)
              (fun j => Some (offset + (running + j))).

(** The common body of export_indices_first and inconsistent_strides_last,
    source/local_index_handling.h:129-203 and 231-295.  The initial vector
    [new_order(n_locally_owned)] is value initialized to 0 (line 129, 231). *)
Definition two_pass (front : nat -> bool)
           (group_size offset n_internal n_owned : nat)
  : option (list (option nat) * nat) :=
  let strides := n_strides n_internal group_size in
  match first_pass front group_size offset strides
                   (repeat (Some 0) n_owned) with
  | None => None
  | Some (v1, n_front) =>
    match second_pass group_size offset strides n_front v1 with
    | None => None
    | Some (v2, running) =>
      match tail_pass offset n_internal n_owned running v2 with
      | None => None
      | Some v3 => Some (v3, n_front)
      end
    end
  end.

(** Models the inner search loop, source/local_index_handling.h:144-150. *)
Definition stride_has_export (exported : nat -> bool) (group_size k : nat)
  : bool :=
  existsb (fun j => exported (k * group_size + j)) (seq 0 group_size).

(** Models DoFRenumbering::export_indices_first,
    source/local_index_handling.h:100-204: returns new_order and
    n_export_indices. *)
Definition export_indices_first (exported : nat -> bool)
           (group_size offset n_internal n_owned : nat) :=
  two_pass (stride_has_export exported group_size)
           group_size offset n_internal n_owned.

(** Models the inner comparison loop, source/local_index_handling.h:247-254. *)
Definition stride_is_consistent (row_length : nat -> nat)
           (group_size offset k : nat) : bool :=
  forallb (fun j => row_length (offset + k * group_size)
                    =? row_length (offset + k * group_size + j))
          (seq 0 group_size).

(** Models DoFRenumbering::inconsistent_strides_last,
    source/local_index_handling.h:214-296: returns new_order and
    n_consistent_range. *)
Definition inconsistent_strides_last (row_length : nat -> nat)
           (group_size offset n_internal n_owned : nat) :=
  two_pass (stride_is_consistent row_length group_size offset)
           group_size offset n_internal n_owned.

(** ** Grouping by stencil size *)

(** Models [bins[row_length].insert(index)] on
    [std::map<unsigned, std::set<dof_type>>],
    source/local_index_handling.h:342,347.  The map is an association list
    sorted by key (iteration order of std::map); indices are inserted in
    ascending order, so the std::set is the list in order of insertion. *)
Fixpoint bin_insert (bins : list (nat * list nat)) (key idx : nat)
  : list (nat * list nat) :=
  match bins with
  | [] => [(key, [idx])]
  | (k, l) :: r =>
    if key =? k then (k, l ++ [idx]) :: r
    else if key <? k then (key, [idx]) :: (k, l) :: r
    else (k, l) :: bin_insert r key idx
  end.

(** Models the lookup [bins[row_length]], source/local_index_handling.h:350. *)
Fixpoint bin_find (bins : list (nat * list nat)) (key : nat) : list nat :=
  match bins with
  | [] => []
  | (k, l) :: r => if key =? k then l else bin_find r key
  end.

(** Models [bins.erase(row_length)], source/local_index_handling.h:352. *)
Fixpoint bin_erase (bins : list (nat * list nat)) (key : nat)
  : list (nat * list nat) :=
  match bins with
  | [] => []
  | (k, l) :: r => if key =? k then r else (k, l) :: bin_erase r key
  end.

(** Models [for (index : set) new_order[index] = current_index++],
    source/local_index_handling.h:350-351 and 362-363. *)
Fixpoint assign_all (v : list nat) (cur : nat) (l : list nat)
  : option (list nat * nat) :=
  match l with
  | [] => Some (v, cur)
  | i :: r => match vset v i cur with
              | None => None
              | Some v' => assign_all v' (S cur) r
              end
  end.

(** One iteration of the sweep, source/local_index_handling.h:344-354. *)
Definition bin_step (row_length : nat -> nat) (offset group_size : nat)
           (st : option (list nat * nat * list (nat * list nat))) (i : nat)
  : option (list nat * nat * list (nat * list nat)) :=
  match st with
  | None => None
  | Some (v, cur, bins) =>
    let rl := row_length (offset + i) in
    let bins1 := bin_insert bins rl i in
    let l := bin_find bins1 rl in
    if length l =? group_size
    then match assign_all v cur l with
         | None => None
         | Some (v', cur') => Some (v', cur', bin_erase bins1 rl)
         end
    else Some (v, cur, bins1)
  end.

(** Models the final loop over all bins, source/local_index_handling.h:360-364. *)
Fixpoint assign_bins (v : list nat) (cur : nat) (bins : list (nat * list nat))
  : option (list nat * nat) :=
  match bins with
  | [] => Some (v, cur)
  | (_, l) :: r => match assign_all v cur l with
                   | None => None
                   | Some (v', cur') => assign_bins v' cur' r
                   end
  end.

(** Models DoFRenumbering::internal_range,
    source/local_index_handling.h:313-371: returns new_order and
    n_locally_internal. *)
Definition internal_range (row_length : nat -> nat)
           (group_size offset n_owned : nat) : option (list nat * nat) :=
  match fold_left (bin_step row_length offset group_size) (seq 0 n_owned)
                  (Some (repeat 0 n_owned, offset, [])) with
  | None => None
  | Some (v, cur, bins) =>
    match assign_bins v cur bins with
    | None => None
    | Some (v', _) => Some (v', cur - offset)
    end
  end.

(** ** Index bookkeeping in OfflineData::setup *)

(** Models the loop of the lambda consistent_stride_range,
    source/offline_data.template.h:260-271: returns the loop index [i] at
    which the loop stops; [cur] is group_row_length. *)
Fixpoint stride_scan (row_length : nat -> nat) (group_size offset : nat)
         (i fuel cur : nat) : nat :=
  match fuel with
  | 0 => i
  | S f =>
    if i mod group_size =? 0
    then stride_scan row_length group_size offset (S i) f
                     (row_length (offset + i))
    else if negb (cur =? row_length (offset + i)) then i
         else stride_scan row_length group_size offset (S i) f cur
  end.

(** Models consistent_stride_range, source/offline_data.template.h:255-273. *)
Definition consistent_stride_range (row_length : nat -> nat)
           (group_size offset n_internal : nat) : nat :=
  stride_scan row_length group_size offset 0 n_internal 0
    / group_size * group_size.

(** Models the recomputation of n_export_indices_,
    source/offline_data.template.h:372-379.  A range [(a, b)] stands for the
    half open interval [a, b) of import_indices(). *)
Definition recompute_n_export (ranges : list (nat * nat))
           (n_internal simd_length : nat) : nat :=
  let m := fold_left
             (fun acc it => if snd it <=? n_internal
                            then Nat.max acc (snd it) else acc)
             ranges 0 in
  (m + simd_length - 1) / simd_length * simd_length.
