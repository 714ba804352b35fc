(** * SparsityPatternSIMD and SparseMatrixSIMD

    Index computations are on [nat]; overflow of [unsigned int] is not
    modelled (the code throws if there are 2^32 or more entries,
    source/sparse_matrix_simd.template.h:88-92).  [None] stands for an out of
    range or uninitialized access. *)
From Coq Require Import List Arith Bool.
From Verif Require Import Vec Opt.
Import ListNotations.

(** ** Building the sparsity pattern *)

(** dealii::DynamicSparsityPattern::add on one row: sorted set of columns.
    Library code (deal.II), used in
    source/sparse_matrix_simd.template.h:68,71. *)
Fixpoint insert_col (j : nat) (row : list nat) : list nat :=
  match row with
  | [] => [j]
  | k :: r => if j <? k then j :: k :: r
              else if j =? k then k :: r
              else k :: insert_col j r
  end.

(** dsp_minimal.add(i, j), source/sparse_matrix_simd.template.h:68,71. *)
Definition dsp_add (rows : list (list nat)) (i j : nat) : option (list (list nat)) :=
  r <- vget rows i ;; vset rows i (insert_col j r).

(** source/sparse_matrix_simd.template.h:61-74.  [dsp] are the rows of the
    locally owned dofs, with columns already in local numbering (the
    conversions local_to_global/global_to_local of lines 64-67 are taken to be
    mutually inverse and are left out). *)
Definition dsp_minimal (n_owned n_relevant : nat) (dsp : list (list nat))
  : option (list (list nat)) :=
  foldM (fun rows i =>
      cols <- vget dsp i ;;
      foldM (fun rows j =>
          rows1 <- dsp_add rows i j ;;
          if n_owned <=? j then dsp_add rows1 j i else Some rows1)
        rows cols)
    (repeat [] n_relevant) (seq 0 n_owned).

(** dealii::SparsityPattern::copy_from for a square pattern: the diagonal is
    always present and comes first, then the other columns ascending.
    source/sparse_matrix_simd.template.h:76-77. *)
Definition static_row (i : nat) (row : list nat) : list nat :=
  i :: filter (fun j => negb (j =? i)) row.
(** See the comment above, source/sparse_matrix_simd.template.h:76-77. *)
Definition static_rows (rows : list (list nat)) : list (list nat) :=
  map (fun ir => static_row (fst ir) (snd ir))
      (combine (seq 0 (length rows)) rows).

(** Start of row [i] in the static (CSR) sparsity pattern.
    deal.II, used in source/sparse_matrix_simd.template.h:101-146. *)
Definition csr_start (rows : list (list nat)) (i : nat) : nat :=
  fold_right (fun r s => length r + s) 0 (firstn i rows).

(** Position of a column in a row.
    SparsityPattern::operator() of deal.II, used in source/sparse_matrix_simd.template.h:101-146. *)
Fixpoint find_col (j : nat) (row : list nat) : option nat :=
  match row with
  | [] => None
  | k :: r => if k =? j then Some 0 else (p <- find_col j r ;; Some (S p))
  end.

(** sparsity(i, j): position of entry (i,j) in the static pattern,
    source/sparse_matrix_simd.template.h:109,112,133,136.  Invalid entry is
    [None]. *)
Definition csr_position (rows : list (list nat)) (i j : nat) : option nat :=
  r <- vget rows i ;; p <- find_col j r ;; Some (csr_start rows i + p).

(** The three arrays, source/sparse_matrix_simd.h:109-115.  row_starts is
    resized without initialization (source/sparse_matrix_simd.template.h:85):
    an uninitialized element is [None]. *)
Record simd_pattern := {
  sp_width : nat;
  sp_internal : nat;
  sp_owned : nat;
  row_starts : list (option nat);
  column_indices : list nat;
  indices_transposed : list nat }.

(** Transposed index of entry (row, column),
    source/sparse_matrix_simd.template.h:109-119 and 133-143. *)
Definition transposed_index (width n_internal : nat) (rows : list (list nat))
           (row column : nat) : option nat :=
  position <- csr_position rows column row ;;
  if column <? n_internal then
    col_row <- vget rows column ;;
    position_diag <- csr_position rows column column ;;
    let my_row_length := length col_row in
    let pos_within_row := position - position_diag in
    let simd_offset := column mod width in
    Some (position - simd_offset * my_row_length - pos_within_row + simd_offset
          + pos_within_row * width)
  else Some position.

(** One iteration of the innermost loop: push a column and a transposed index.
    source/sparse_matrix_simd.template.h:107-119, 131-143. *)
Definition push_entry (width n_internal : nat) (rows : list (list nat))
           (row pos : nat) (st : list nat * list nat) : option (list nat * list nat) :=
  r <- vget rows row ;;
  column <- vget r pos ;;
  t <- transposed_index width n_internal rows row column ;;
  Some (fst st ++ [column], snd st ++ [t]).

(** source/sparse_matrix_simd.template.h:101-123. *)
Definition vectorized_part (width n_internal : nat) (rows : list (list nat))
           (st : list (option nat) * (list nat * list nat))
  : option (list (option nat) * (list nat * list nat)) :=
  foldM (fun st s =>
      let i := s * width in
      row_i <- vget rows i ;;
      ct <- foldM (fun ct p =>
              foldM (fun ct k => push_entry width n_internal rows (i + k) p ct)
                ct (seq 0 width))
            (snd st) (seq 0 (length row_i)) ;;
      rs <- vset (fst st) (i / width + 1) (Some (length (fst ct))) ;;
      Some (rs, ct))
    st (seq 0 (n_internal / width)).

(** source/sparse_matrix_simd.template.h:129-146. *)
Definition scalar_part (width n_internal : nat) (rows : list (list nat))
           (st : list (option nat) * (list nat * list nat))
  : option (list (option nat) * (list nat * list nat)) :=
  foldM (fun st i =>
      row_i <- vget rows i ;;
      ct <- foldM (fun ct p => push_entry width n_internal rows i p ct)
            (snd st) (seq 0 (length row_i)) ;;
      rs <- vset (fst st) (i + 1) (Some (length (fst ct))) ;;
      Some (rs, ct))
    st (seq n_internal (length rows - n_internal)).

(** source/sparse_matrix_simd.template.h:79-148, for a given static pattern.
    Lines 152-267 (exchange pattern) are modelled in GhostRows.v. *)
Definition reinit_static (width n_internal n_owned : nat) (rows : list (list nat))
  : option simd_pattern :=
  rs0 <- vset (repeat None (length rows + 1)) 0 (Some 0) ;;
  st1 <- vectorized_part width n_internal rows (rs0, ([], [])) ;;
  x <- vget (fst st1) (n_internal / width) ;;
  rs2 <- vset (fst st1) n_internal x ;;
  st3 <- scalar_part width n_internal rows (rs2, snd st1) ;;
  Some {| sp_width := width; sp_internal := n_internal; sp_owned := n_owned;
          row_starts := fst st3;
          column_indices := fst (snd st3);
          indices_transposed := snd (snd st3) |}.

(** SparsityPatternSIMD::reinit,
    source/sparse_matrix_simd.template.h:39-148. *)
Definition reinit (width n_internal n_owned n_relevant : nat) (dsp : list (list nat))
  : option simd_pattern :=
  rows <- dsp_minimal n_owned n_relevant dsp ;;
  reinit_static width n_internal n_owned (static_rows rows).

(** ** Access to the pattern *)

(** Read of an element of row_starts; uninitialized is undefined.
    row_starts.resize_fast, source/sparse_matrix_simd.template.h:85. *)
Definition rs (p : simd_pattern) (k : nat) : option nat :=
  x <- vget (row_starts p) k ;; x.

(** source/sparse_matrix_simd.h:355-358. *)
Definition n_rows (p : simd_pattern) : nat := length (row_starts p) - 1.

(** source/sparse_matrix_simd.h:363-368: row_starts.back(). *)
Definition n_nonzero (p : simd_pattern) : option nat := rs p (n_rows p).

(** source/sparse_matrix_simd.h:313-321. *)
Definition stride_of_row (p : simd_pattern) (row : nat) : nat :=
  if row <? sp_internal p then sp_width p else 1.

(** *(columns(row) + pos * stride_of_row(row)),
    source/sparse_matrix_simd.h:326-335. *)
Definition column (p : simd_pattern) (row pos : nat) : option nat :=
  if row <? sp_internal p then
    b <- rs p (row / sp_width p) ;;
    vget (column_indices p) (b + row mod sp_width p + pos * sp_width p)
  else
    b <- rs p row ;; vget (column_indices p) (b + pos).

(** source/sparse_matrix_simd.h:340-350. *)
Definition row_length (p : simd_pattern) (row : nat) : option nat :=
  if row <? sp_internal p then
    let simd_row := row / sp_width p in
    b <- rs p (simd_row + 1) ;; a <- rs p simd_row ;;
    Some ((b - a) / sp_width p)
  else
    b <- rs p (row + 1) ;; a <- rs p row ;; Some (b - a).

(** ** Access to the matrix.  [data] is the array of
    source/sparse_matrix_simd.h:301, [nc] is n_components; an entry (tensor)
    is a list of [nc] values. *)
Section Access.
Context {A : Type}.

(** Index expressions of source/sparse_matrix_simd.h:403-418 (same as
    601-615). *)
Definition entry_addr (p : simd_pattern) (nc row pos d : nat) : option nat :=
  if row <? sp_internal p then
    let simd_row := row / sp_width p in
    let simd_offset := row mod sp_width p in
    b <- rs p simd_row ;;
    Some ((b + pos * sp_width p) * nc + d * sp_width p + simd_offset)
  else
    b <- rs p row ;; Some ((b + pos) * nc + d).

(** get_tensor<Number>, source/sparse_matrix_simd.h:389-419.  get_entry
    (374-383) is the case [nc = 1]. *)
Definition get_tensor (p : simd_pattern) (nc : nat) (data : list A) (row pos : nat)
  : option (list A) :=
  mapM (fun d => a <- entry_addr p nc row pos d ;; vget data a) (seq 0 nc).

(** get_tensor<VectorizedArray>, source/sparse_matrix_simd.h:421-440: for
    every component the list of lanes.  The assertions (release mode: none) of
    lines 427-432 are part of the preconditions. *)
Definition get_tensor_v (p : simd_pattern) (nc : nat) (data : list A) (row pos : nat)
  : option (list (list A)) :=
  b <- rs p (row / sp_width p) ;;
  let load_pos := (b + pos * sp_width p) * nc in
  mapM (fun d => mapM (fun k => vget data (load_pos + d * sp_width p + k))
                   (seq 0 (sp_width p))) (seq 0 nc).

(** write_entry<Number>, source/sparse_matrix_simd.h:595-616. *)
Definition write_tensor (p : simd_pattern) (nc : nat) (data : list A) (row pos : nat)
           (entry : list A) : option (list A) :=
  foldM (fun data d =>
      a <- entry_addr p nc row pos d ;;
      x <- vget entry d ;; vset data a x)
    data (seq 0 nc).

(** write_entry<VectorizedArray>, source/sparse_matrix_simd.h:618-640;
    (streaming) stores of one vector register are modelled as the stores of
    its lanes in order. *)
Definition write_tensor_v (p : simd_pattern) (nc : nat) (data : list A) (row pos : nat)
           (entry : list (list A)) : option (list A) :=
  b <- rs p (row / sp_width p) ;;
  let store_pos := (b + pos * sp_width p) * nc in
  foldM (fun data d =>
      lanes <- vget entry d ;;
      foldM (fun data k =>
          x <- vget lanes k ;;
          vset data (store_pos + d * sp_width p + k) x)
        data (seq 0 (sp_width p)))
    data (seq 0 nc).

(** get_transposed_tensor<Number>, source/sparse_matrix_simd.h:479-527. *)
Definition get_transposed_tensor (p : simd_pattern) (nc : nat) (data : list A)
           (row pos : nat) : option (list A) :=
  slot <- (if row <? sp_internal p then
             b <- rs p (row / sp_width p) ;;
             Some (b + row mod sp_width p + pos * sp_width p)
           else b <- rs p row ;; Some (b + pos)) ;;
  index <- vget (indices_transposed p) slot ;;
  if 1 <? nc then
    col <- vget (column_indices p) slot ;;
    if col <? sp_internal p then
      mapM (fun d => vget data (index / sp_width p * sp_width p * nc
                                + sp_width p * d + index mod sp_width p)) (seq 0 nc)
    else
      mapM (fun d => vget data (index * nc + d)) (seq 0 nc)
  else
    x <- vget data index ;; Some [x].

(** get_transposed_tensor<VectorizedArray>, n_components = 1,
    source/sparse_matrix_simd.h:529-546 (gather): list of lanes. *)
Definition get_transposed_v (p : simd_pattern) (data : list A) (row pos : nat)
  : option (list A) :=
  b <- rs p (row / sp_width p) ;;
  let offset := b + pos * sp_width p in
  mapM (fun k => index <- vget (indices_transposed p) (offset + k) ;;
                 vget data index) (seq 0 (sp_width p)).

(** read_in, source/sparse_matrix_simd.template.h:298-355 (358-414 is the
    scalar variant), locally indexed; [m i j] is the (tensor) entry of the
    matrix that is copied. *)
Definition read_in (p : simd_pattern) (nc : nat) (m : nat -> nat -> list A)
           (data : list A) : option (list A) :=
  data1 <- foldM (fun data s =>
      let i := s * sp_width p in
      len <- row_length p i ;;
      foldM (fun data col_idx =>
          lanes <- mapM (fun k => j <- column p (i + k) col_idx ;; Some (m (i + k) j))
                     (seq 0 (sp_width p)) ;;
          temp <- mapM (fun d => mapM (fun e => vget e d) lanes) (seq 0 nc) ;;
          write_tensor_v p nc data i col_idx temp)
        data (seq 0 len))
    data (seq 0 (sp_internal p / sp_width p)) ;;
  foldM (fun data i =>
      len <- row_length p i ;;
      foldM (fun data col_idx =>
          j <- column p i col_idx ;;
          write_tensor p nc data i col_idx (m i j))
        data (seq 0 len))
    data1 (seq (sp_internal p) (sp_owned p - sp_internal p)).
End Access.
