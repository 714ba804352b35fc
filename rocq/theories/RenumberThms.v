(** * C06 - C09: renumbering of degrees of freedom (property theorems) *)
From Coq Require Import List Arith Lia Permutation Bool.
From Verif Require Import Vec Renumber RenumberProofs.
Import ListNotations.

(** ** C06: grouping by stencil size

    [order] is the vector handed to renumber_dofs: old local index [i] becomes
    global index [order[i]].  The result is a permutation of the owned range,
    the bound is a multiple of the group size, two old indices that end up in
    the same stride below the bound have equal row length, and for no row
    length [L] as many as [g] rows are left outside of the grouped range. *)
Theorem C06_internal_range_groups :
  forall (row_length : nat -> nat) (g offset n : nat),
    0 < g ->
    exists order n_int,
      internal_range row_length g offset n = Some (order, n_int) /\
      Permutation order (seq offset n) /\
      (exists c, n_int = c * g) /\ n_int <= n /\
      (forall i1 i2 a b,
          vget order i1 = Some (offset + a) ->
          vget order i2 = Some (offset + b) ->
          a < n_int -> b < n_int -> a / g = b / g ->
          row_length (offset + i1) = row_length (offset + i2)) /\
      (forall L,
          length (filter (fun i => (row_length (offset + i) =? L) &&
                                   (offset + n_int <=? nth i order 0))
                         (seq 0 n)) < g).
Proof. exact internal_range_facts. Qed.
Print Assumptions C06_internal_range_groups.

(** Concrete instance: ten rows with two stencil sizes, width 4, offset 100. *)
Example C06_instance :
  internal_range (fun i => if Nat.even (i / 3) then 9 else 6) 4 100 10
  = Some ([100; 101; 104; 105; 106; 102; 103; 108; 107; 109], 8).
Proof. vm_compute. reflexivity. Qed.

(** ** C07: exported strides first

    Defined for every set of exported indices (no out of range access); a
    permutation; every stride moves as a whole; indices beyond the internal
    range are fixed; an index of the internal range lands below the returned
    count exactly if its stride contains an exported index. *)
Theorem C07_export_indices_first :
  forall (exported : nat -> bool) (g offset s n : nat),
    0 < g -> s * g <= n ->
    exists order n_export,
      export_indices_first exported g offset (s * g) n
        = Some (map Some order, n_export) /\
      Permutation order (seq offset n) /\
      (exists c, n_export = c * g) /\ n_export <= s * g /\
      (forall k, k < s -> exists k', k' < s /\
         forall j, j < g -> vget order (k * g + j) = Some (offset + k' * g + j)) /\
      (forall i, s * g <= i < n -> vget order i = Some (offset + i)) /\
      (forall i x, i < s * g -> vget order i = Some x ->
         (x < offset + n_export <->
          exists j, j < g /\ exported (i / g * g + j) = true)).
Proof. exact C07_export_indices_first_proof. Qed.
Print Assumptions C07_export_indices_first.

(** In particular every exported index of the internal range is renumbered to
    an index below the export bound. *)
Theorem C07_exported_below_bound :
  forall (exported : nat -> bool) (g offset s n : nat) order n_export,
    0 < g -> s * g <= n ->
    export_indices_first exported g offset (s * g) n
      = Some (map Some order, n_export) ->
    forall i x, i < s * g -> exported i = true ->
      vget order i = Some x -> x < offset + n_export.
Proof. exact C07_exported_below_bound_proof. Qed.
Print Assumptions C07_exported_below_bound.

(** The renumbering does not destroy the uniform strides established by
    internal_range: if [row_length'] are the row lengths in the new numbering
    and strides were uniform before they are uniform afterwards. *)
Theorem C07_keeps_uniform_strides :
  forall (exported : nat -> bool) (g offset s n : nat) order n_export
         (row_length row_length' : nat -> nat),
    0 < g -> s * g <= n ->
    export_indices_first exported g offset (s * g) n
      = Some (map Some order, n_export) ->
    (forall i x, vget order i = Some x ->
                 row_length' x = row_length (offset + i)) ->
    (forall k j, k < s -> j < g ->
       row_length (offset + k * g + j) = row_length (offset + k * g)) ->
    forall k j, k < s -> j < g ->
       row_length' (offset + k * g + j) = row_length' (offset + k * g).
Proof. exact C07_keeps_uniform_strides_proof. Qed.
Print Assumptions C07_keeps_uniform_strides.

(** Concrete instance: width 2, three strides, index 3 and 4 exported. *)
Example C07_instance :
  export_indices_first (fun i => (i =? 3) || (i =? 4)) 2 10 6 8
  = Some (map Some [14; 15; 10; 11; 12; 13; 16; 17], 4).
Proof. vm_compute. reflexivity. Qed.

(** ** C08: inconsistent strides last *)
Theorem C08_inconsistent_strides_last :
  forall (row_length : nat -> nat) (g offset s n : nat),
    0 < g -> s * g <= n ->
    exists order n_ok,
      inconsistent_strides_last row_length g offset (s * g) n
        = Some (map Some order, n_ok) /\
      Permutation order (seq offset n) /\
      (exists c, n_ok = c * g) /\ n_ok <= s * g /\
      (forall k, k < s -> exists k', k' < s /\
         forall j, j < g -> vget order (k * g + j) = Some (offset + k' * g + j)) /\
      (forall i, s * g <= i < n -> vget order i = Some (offset + i)) /\
      (** below the returned bound exactly the rows of uniform strides *)
      (forall i x, i < s * g -> vget order i = Some x ->
         (x < offset + n_ok <->
          forall j, j < g -> row_length (offset + i / g * g + j)
                             = row_length (offset + i / g * g))) /\
      (** in their previous relative order *)
      (forall a b x y, a < b -> b < s * g ->
         vget order a = Some x -> vget order b = Some y ->
         x < offset + n_ok -> y < offset + n_ok -> x < y).
Proof. exact C08_inconsistent_strides_last_proof. Qed.
Print Assumptions C08_inconsistent_strides_last.

Example C08_instance :
  inconsistent_strides_last (fun i => if i =? 3 then 5 else 9) 2 0 6 7
  = Some (map Some [0; 1; 4; 5; 2; 3; 6], 4).
Proof. vm_compute. reflexivity. Qed.

(** The consistency check used afterwards returns the largest multiple of the
    group size below which all strides are uniform. *)
Theorem C08_consistent_stride_range :
  forall (row_length : nat -> nat) (g offset s : nat),
    0 < g ->
    let r := consistent_stride_range row_length g offset (s * g) in
    (exists c, r = c * g) /\ r <= s * g /\
    (forall k j, k * g + g <= r -> j < g ->
       row_length (offset + k * g + j) = row_length (offset + k * g)) /\
    (r < s * g -> exists j, j < g /\
       row_length (offset + r + j) <> row_length (offset + r)).
Proof. exact consistent_stride_range_facts. Qed.
Print Assumptions C08_consistent_stride_range.

Example C08_range_instance :
  consistent_stride_range (fun i => if i =? 5 then 5 else 9) 2 0 8 = 4.
Proof. vm_compute. reflexivity. Qed.

(** ** C09: the recomputed export count

    Full statement: every exported index of the vectorized range is below the
    recomputed count, i.e.
      forall ranges s w, 0 < w -> forall a b i, In (a, b) ranges ->
        a <= i < b -> i < s * w -> i < recompute_n_export ranges (s * w) w.
    It is false: a range that straddles the end of the vectorized range is
    ignored altogether.  The witness is a well formed list of (ascending,
    disjoint, nonempty) ranges as produced by the partitioner. *)
Theorem C09_export_count_covers_refuted :
  exists ranges s w a b i,
    0 < w /\ (forall x y, In (x, y) ranges -> x < y) /\
    In (a, b) ranges /\ a <= i < b /\ i < s * w /\
    ~ (i < recompute_n_export ranges (s * w) w).
Proof. exact C09_export_count_covers_refuted_proof. Qed.
Print Assumptions C09_export_count_covers_refuted.

(** What does hold: the count covers all exported indices if no range
    straddles the end of the vectorized range. *)
Theorem C09_export_count_covers_partial :
  forall (ranges : list (nat * nat)) (s w : nat),
    0 < w ->
    (forall a b, In (a, b) ranges -> b <= s * w \/ s * w <= a) ->
    (forall a b i, In (a, b) ranges -> a <= i < b -> i < s * w ->
        i < recompute_n_export ranges (s * w) w) /\
    recompute_n_export ranges (s * w) w <= s * w /\
    exists c, recompute_n_export ranges (s * w) w = c * w.
Proof. exact C09_export_count_covers_partial_proof. Qed.
Print Assumptions C09_export_count_covers_partial.

Example C09_instance :
  recompute_n_export [(1, 3); (5, 6); (12, 14)] 12 4 = 8.
Proof. vm_compute. reflexivity. Qed.
