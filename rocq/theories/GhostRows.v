(** * The exchange of the ghost rows of SparseMatrixSIMD

    The exchange pattern of SparsityPatternSIMD::reinit and update_ghost_rows().  [None]
    stands for an access out of range, a truncated message, or a receive without a
    matching send (a hang). *)
From Coq Require Import List Arith Bool.
From Verif Require Import Vec Opt Sparse.
Import ListNotations.

(** ** The partitioner of deal.II (library code) *)

(** The distribution of the global indices: rank r owns [first r, first r + size r) and
    has ghosts, ascending.  dealii::Utilities::MPI::Partitioner as set up in
    source/offline_data.template.h:353-354. *)
Record layout := Layout { ranks : nat; first : nat -> nat; size : nat -> nat; ghosts : nat -> list nat }.

(** in_local_range() of rank r.
    deal.II, partitioner of source/offline_data.template.h:353-354. *)
Definition owns (L : layout) (r g : nat) : bool := (first L r <=? g) && (g <? first L r + size L r).

(** The ghosts of rank r that rank q owns.
    deal.II, partitioner of source/offline_data.template.h:353-354. *)
Definition ghosts_from (L : layout) (r q : nat) : list nat := filter (owns L q) (ghosts L r).

(** global_to_local() and local_to_global(), used in
    source/sparse_matrix_simd.template.h:64-67. *)
Definition to_local (L : layout) (r g : nat) : nat :=
  if owns L r g then g - first L r else size L r + length (filter (fun x => x <? g) (ghosts L r)).
(** See the comment above, source/sparse_matrix_simd.template.h:64-67. *)
Definition to_global (L : layout) (r i : nat) : nat :=
  if i <? size L r then first L r + i else nth (i - size L r) (ghosts L r) 0.

(** What reinit reads of the partitioner: ghost_targets(), import_targets() (rank and
    number of indices, ascending by rank, only ranks with indices) and the import
    indices, expanded; source/sparse_matrix_simd.template.h:164,206-214. *)
Record partitioner := Partitioner {
  ghost_targets : list (nat * nat); import_targets : list (nat * nat); import_indices : list nat }.
(** See the comment above, source/sparse_matrix_simd.template.h:164,206-214. *)
Definition nonzero (l : list (nat * nat)) : list (nat * nat) := filter (fun t => negb (snd t =? 0)) l.
(** See the comment above, source/sparse_matrix_simd.template.h:164,206-214. *)
Definition partitioner_of (L : layout) (r : nat) : partitioner :=
  Partitioner
    (nonzero (map (fun q => (q, length (ghosts_from L r q))) (seq 0 (ranks L))))
    (nonzero (map (fun q => (q, length (ghosts_from L q r))) (seq 0 (ranks L))))
    (flat_map (fun q => map (fun g => g - first L r) (ghosts_from L q r)) (seq 0 (ranks L))).

(** ** The exchange pattern *)

(** source/sparse_matrix_simd.h:117-142 *)
Record exchange := Exchange {
  receive_targets : list (nat * nat); send_targets : list (nat * nat); entries_to_be_sent : list (nat * nat) }.

(** std::vector::resize: elements that exist keep their value;
    source/sparse_matrix_simd.template.h:166. *)
Definition resize (n : nat) (l : list (nat * nat)) : list (nat * nat) := firstn n l ++ repeat (0, 0) (n - length l).

(** The receive targets, source/sparse_matrix_simd.template.h:164-185: state of the loop
    are gt_ptr, index, row_count and the targets; dereferencing gt_ptr at the end is
    undefined. *)
Definition receive_step (gt : list (nat * nat)) (st : nat * nat * nat * list (nat * nat)) (row : list nat)
  : option (nat * nat * nat * list (nat * nat)) :=
  let '(gt_ptr, index, row_count, rt) := st in
  let index := index + length row in
  let row_count := row_count + 1 in
  t <- vget gt gt_ptr ;;
  if row_count =? snd t then
    e <- vget rt gt_ptr ;;
    rt' <- vset rt gt_ptr (fst e, index) ;;
    Some (gt_ptr + 1, index, 0, rt')
  else Some (gt_ptr, index, row_count, rt).
(** See the comment above, source/sparse_matrix_simd.template.h:164-185. *)
Definition receive_loop (n_owned : nat) (rows : list (list nat)) (gt old : list (nat * nat)) : option (list (nat * nat)) :=
  let rt0 := combine (map fst gt) (map snd (resize (length gt) old)) in
  st <- foldM (fun st i => row <- vget rows i ;; receive_step gt st row) (0, 0, 0, rt0) (seq n_owned (length rows - n_owned)) ;;
  Some (snd st).

(** ghost_ranges, source/sparse_matrix_simd.template.h:200-204 *)
Fixpoint ghost_ranges (start : nat) (gt : list (nat * nat)) : list nat :=
  match gt with [] => [start] | t :: r => start :: ghost_ranges (start + snd t) r end.

(** The while loop that matches the rank, source/sparse_matrix_simd.template.h:237-240 *)
Fixpoint scan (rank : nat) (l : list (nat * nat)) : nat :=
  match l with [] => 0 | t :: r => if fst t =? rank then 0 else S (scan rank r) end.
(** See the comment above, source/sparse_matrix_simd.template.h:237-240. *)
Definition match_rank (rt : list (nat * nat)) (p_match rank : nat) : nat :=
  let p_match := if p_match =? length rt then 0 else p_match in
  p_match + scan rank (skipn p_match rt).

(** The entries of one row that are sent: the diagonal and the columns in the ghost range
    of the receiver, source/sparse_matrix_simd.template.h:253-261 *)
Definition row_entries (row : nat) (cols : list nat) (lo hi : nat) : list (nat * nat) :=
  (row, 0) :: map (fun '(pos, _) => (row, pos))
    (filter (fun '(_, j) => (lo <=? j) && (j <? hi)) (combine (seq 1 (length cols - 1)) (tl cols))).

(** The loop over the import targets, source/sparse_matrix_simd.template.h:214-266;
    state: p_match, idx, entries_to_be_sent and the send targets set so far. *)
Definition send_step (rows : list (list nat)) (rt : list (nat * nat)) (ranges imports : list nat)
    (st : nat * nat * list (nat * nat) * list (nat * nat)) (target : nat * nat)
  : option (nat * nat * list (nat * nat) * list (nat * nat)) :=
  let '(p_match, idx, entries, sends) := st in
  let p_match := match_rank rt p_match (fst target) in
  ie <- foldM (fun '(idx, entries) (_ : nat) =>
      if p_match =? length rt then Some (idx + 1, entries)
      else
        row <- vget imports idx ;;
        cols <- vget rows row ;;
        lo <- vget ranges p_match ;;
        hi <- vget ranges (p_match + 1) ;;
        Some (idx + 1, entries ++ row_entries row cols lo hi))
    (idx, entries) (seq 0 (snd target)) ;;
  Some (p_match, fst ie, snd ie, sends ++ [(fst target, length (snd ie))]).

(** source/sparse_matrix_simd.template.h:152-267; without ghost rows nothing is changed. *)
Definition exchange_pattern (n_owned : nat) (rows : list (list nat)) (P : partitioner) (old : exchange) : option exchange :=
  if n_owned <? length rows then
    rt <- receive_loop n_owned rows (ghost_targets P) (receive_targets old) ;;
    st <- foldM (send_step rows rt (ghost_ranges n_owned (ghost_targets P)) (import_indices P)) (0, 0, [], []) (import_targets P) ;;
    let '(_, _, entries, sends) := st in
    Some (Exchange rt sends entries)
  else Some old.

(** SparsityPatternSIMD::reinit on rank r, source/sparse_matrix_simd.template.h:39-268;
    [cols] is the global sparsity pattern. *)
Definition local_rows (L : layout) (cols : nat -> list nat) (r : nat) : list (list nat) :=
  map (fun i => map (to_local L r) (cols (first L r + i))) (seq 0 (size L r)).
(** See the comment above, source/sparse_matrix_simd.template.h:39-268. *)
Definition reinit_rank (w n_internal : nat) (L : layout) (cols : nat -> list nat) (old : exchange) (r : nat)
  : option (simd_pattern * exchange) :=
  let n_relevant := size L r + length (ghosts L r) in
  p <- reinit w n_internal (size L r) n_relevant (local_rows L cols r) ;;
  rows <- dsp_minimal (size L r) n_relevant (local_rows L cols r) ;;
  e <- exchange_pattern (size L r) (static_rows rows) (partitioner_of L r) old ;;
  Some (p, e).

(** ** update_ghost_rows *)
Section Update.
Context {A : Type}.

(** The copy into the exchange buffer, source/sparse_matrix_simd.h:701-726 *)
Definition send_addr (p : simd_pattern) (nc row pos d : nat) : option nat :=
  if row <? sp_internal p then
    let simd_row := row / sp_width p in
    let simd_offset := row mod sp_width p in
    b <- rs p simd_row ;;
    Some ((b + pos * sp_width p) * nc + d * sp_width p + simd_offset)
  else
    b <- rs p row ;; Some ((b + pos) * nc + d).
(** See the comment above, source/sparse_matrix_simd.h:701-726. *)
Definition pack (p : simd_pattern) (nc : nat) (data : list A) (entries : list (nat * nat)) : option (list A) :=
  l <- mapM (fun '(row, pos) => mapM (fun d => a <- send_addr p nc row pos d ;; vget data a) (seq 0 nc)) entries ;;
  Some (concat l).

(** (p == 0 ? 0 : targets[p - 1].second), source/sparse_matrix_simd.h:683-687,739-742 *)
Definition begin_of (targets : list (nat * nat)) (k : nat) : option nat :=
  match k with 0 => Some 0 | S k' => t <- vget targets k' ;; Some (snd t) end.

(** The messages of a rank: receiver and content, source/sparse_matrix_simd.h:734-749 *)
Definition messages (p : simd_pattern) (e : exchange) (nc : nat) (data : list A) : option (list (nat * list A)) :=
  buffer <- pack p nc data (entries_to_be_sent e) ;;
  mapM (fun k =>
      t <- vget (send_targets e) k ;;
      b <- begin_of (send_targets e) k ;;
      Some (fst t, firstn ((snd t - b) * nc) (skipn (nc * b) buffer)))
    (seq 0 (length (send_targets e))).

(** MPI: a message overwrites the beginning of the receive buffer.
    source/sparse_matrix_simd.h:734-749. *)
Definition splice (data : list A) (base : nat) (msg : list A) : option (list A) :=
  if base + length msg <=? length data then Some (firstn base data ++ msg ++ skipn (base + length msg) data) else None.
(** See the comment above, source/sparse_matrix_simd.h:734-749. *)
Definition message_to (r : nat) (l : list (nat * list A)) : option (list A) :=
  match find (fun m => fst m =? r) l with Some m => Some (snd m) | None => None end.

(** The receives of rank r, source/sparse_matrix_simd.h:676-693; [sent q] are the messages
    of rank q. *)
Definition receive (p : simd_pattern) (e : exchange) (nc : nat) (r : nat) (sent : list (list (nat * list A))) (data : list A)
  : option (list A) :=
  base <- rs p (sp_owned p) ;;
  foldM (fun data k =>
      t <- vget (receive_targets e) k ;;
      b <- begin_of (receive_targets e) k ;;
      from <- vget sent (fst t) ;;
      msg <- message_to r from ;;
      if length msg <=? (snd t - b) * nc then splice data (nc * (base + b)) msg else None)
    data (seq 0 (length (receive_targets e))).

(** update_ghost_rows() on all ranks, source/sparse_matrix_simd.h:651-772.  Every message
    must find a receive. *)
Definition update_ghost_rows (nc : nat) (state : list (simd_pattern * exchange)) (datas : list (list A)) : option (list (list A)) :=
  sent <- mapM (fun '((p, e), data) => messages p e nc data) (combine state datas) ;;
  if forallb (fun '(q, msgs) =>
       forallb (fun m : nat * list A => match nth_error state (fst m) with
                          | Some (_, e) => existsb (fun t => fst t =? q) (receive_targets e)
                          | None => false end) msgs)
     (combine (seq 0 (length sent)) sent)
  then mapM (fun '(r, ((p, e), data)) => receive p e nc r sent data) (combine (seq 0 (length state)) (combine state datas))
  else None.
End Update.
