(** * The boundary map and the coupling boundary pairs

    source/offline_data.template.h: construct_boundary_map and
    collect_coupling_boundary_pairs.  The finite element machinery of deal.II is
    abstracted into the list of all (face, degree of freedom) visits of the loops. *)
From Coq Require Import Reals Arith List Bool.
From Verif Require Import RVec.
Import ListNotations.
Local Open Scope R_scope.

(** dealii::types::boundary_id; the values of source/discretization.h:48-123 used here. *)
Definition id_periodic := 1%nat.
(** See the comment above, source/discretization.h:48-123. *)
Definition id_slip := 2%nat.
(** See the comment above, source/discretization.h:48-123. *)
Definition id_no_slip := 3%nat.

(** A visit of a degree of freedom of a face in the innermost loop over j
    (source/offline_data.template.h:1210-1282): whether the cell is artificial, the face
    is at the boundary, the shape function has support on the face, the boundary id, the
    shape value, JxW and the normal at each quadrature point, the local index, the length
    of its row in the sparsity pattern, and the position. *)
Record visit := Visit {
  v_artificial : bool; v_at_boundary : bool; v_support : bool; v_id : nat;
  v_quadrature : list (R * R * vec); v_index : nat; v_row_length : nat; v_position : vec }.

(** BoundaryData, source/offline_data.template.h:1187-1191 *)
Record boundary_data := BData { b_normal : vec; b_normal_mass : R; b_mass : R; b_id : nat; b_position : vec }.

(** The quadrature loop, source/offline_data.template.h:1246-1255 *)
Definition face_mass (q : list (R * R * vec)) : R := fold_left (fun s '(phi, JxW, _) => s + phi * JxW) q 0.
(** See the comment above, source/offline_data.template.h:1246-1255. *)
Definition face_normal (q : list (R * R * vec)) : vec :=
  fold_left (fun s '(phi, JxW, n) => vadd s (vscal (phi * JxW) n)) q (fun _ => 0).

(** insert() of std::multimap: behind the entries with an equal key.
    Used in source/offline_data.template.h:1278, 1339. *)
Fixpoint multimap_insert {A} (k : nat) (a : A) (l : list (nat * A)) : list (nat * A) :=
  match l with
  | [] => [(k, a)]
  | (k', a') :: r => if Nat.leb k' k then (k', a') :: multimap_insert k a r else (k, a) :: (k', a') :: r
  end.

(** The visits that reach the insertion, source/offline_data.template.h:1218-1268 *)
Definition relevant (n_locally_owned : nat) (v : visit) : bool :=
  negb (v_artificial v) && v_at_boundary v && negb (Nat.eqb (v_id v) id_periodic) && v_support v &&
  Nat.ltb (v_index v) n_locally_owned && negb (Nat.eqb (v_row_length v) 1).

(** The inserted value, source/offline_data.template.h:1278-1279 *)
Definition contribution_of (v : visit) : boundary_data :=
  BData (face_normal (v_quadrature v)) (face_mass (v_quadrature v)) (face_mass (v_quadrature v)) (v_id v) (v_position v).

(** The loop that fills preliminary_map, source/offline_data.template.h:1210-1282 *)
Definition preliminary_map (n_locally_owned : nat) (visits : list visit) : list (nat * boundary_data) :=
  fold_left (fun m v => if relevant n_locally_owned v then multimap_insert (v_index v) (contribution_of v) m else m) visits [].

Section Filter.
Variable dim : nat.

(** Tensor::norm().  Used in source/offline_data.template.h:1313, 1357. *)
Definition norm (v : vec) : R := sqrt (norm2 dim v).

(** The condition, source/offline_data.template.h:1313.  For a vanishing normal the
    code compares a NaN, which is false; so is 0 > 1/2 here. *)
Definition acute (normal new_normal : vec) : bool :=
  if Rgt_dec (dot dim normal new_normal / norm normal / norm new_normal) (1 / 2) then true else false.

(** The loop over the entries with the same key, source/offline_data.template.h:1298-1337;
    [new_id] and [inserted] are the mutable id of the copy of the entry and the flag. *)
Fixpoint merge_loop (k : nat) (new : boundary_data) (new_id : nat) (inserted : bool) (l : list (nat * boundary_data))
  : nat * bool * list (nat * boundary_data) :=
  match l with
  | [] => (new_id, inserted, [])
  | (k', b) :: r =>
      let '(b', new_id', inserted') :=
        if negb (Nat.eqb k' k) then (b, new_id, inserted)
        else if negb (Nat.eqb (b_id b) new_id) then (b, new_id, inserted)
        else if acute (b_normal b) (b_normal new) then
          (BData (vadd (b_normal b) (b_normal new)) (b_normal_mass b) (b_mass b + b_mass new) (b_id b) (b_position b), new_id, true)
        else if Nat.eqb dim 2 && Nat.eqb new_id id_slip then
          (BData (b_normal b) (b_normal_mass b) (b_mass b) id_no_slip (b_position b), id_no_slip, inserted)
        else (b, new_id, inserted) in
      let '(new_id'', inserted'', r') := merge_loop k new new_id' inserted' r in
      (new_id'', inserted'', (k', b') :: r')
  end.

(** One entry of preliminary_map, source/offline_data.template.h:1297-1340 *)
Definition filter_entry (m : list (nat * boundary_data)) (e : nat * boundary_data) : list (nat * boundary_data) :=
  let '(k, new) := e in
  let '(new_id, inserted, m') := merge_loop k new (b_id new) false m in
  if inserted then m' else multimap_insert k (BData (b_normal new) (b_normal_mass new) (b_mass new) new_id (b_position new)) m'.

(** source/offline_data.template.h:1295-1340 *)
Definition filtered_map (preliminary : list (nat * boundary_data)) : list (nat * boundary_data) :=
  fold_left filter_entry preliminary [].

(** BoundaryDescription, source/offline_data.h:66-72 *)
Record description := Description {
  d_index : nat; d_normal : vec; d_normal_mass : R; d_boundary_mass : R; d_id : nat; d_position : vec }.

(** The normalization, source/offline_data.template.h:1346-1361; [eps] is the machine epsilon. *)
Definition finish (eps : R) (e : nat * boundary_data) : description :=
  let '(k, b) := e in
  let new_normal_mass := norm (b_normal b) + eps in
  Description k (vscal (/ new_normal_mass) (b_normal b)) new_normal_mass (b_mass b) (b_id b) (b_position b).

(** OfflineData::construct_boundary_map, source/offline_data.template.h:1173-1364 *)
Definition construct_boundary_map (eps : R) (n_locally_owned : nat) (visits : list visit) : list description :=
  map (finish eps) (filtered_map (preliminary_map n_locally_owned visits)).
End Filter.

(** The boundary map of a multigrid level, source/offline_data.template.h:1165-1167.  The
    function compares with the number of owned degrees of freedom and reads the row
    lengths of the active mesh, also for the indices of a level. *)
Definition level_boundary_map (dim : nat) (eps : R) (n_locally_owned : nat) (row_length : nat -> nat) (visits : list visit) : list description :=
  construct_boundary_map dim eps n_locally_owned
    (map (fun v => Visit (v_artificial v) (v_at_boundary v) (v_support v) (v_id v) (v_quadrature v) (v_index v)
                         (row_length (v_index v)) (v_position v)) visits).

(** A visit in collect_coupling_boundary_pairs, source/offline_data.template.h:1394-1428 *)
Record face_visit := FVisit { f_artificial : bool; f_at_boundary : bool; f_support : bool; f_id : nat; f_index : nat }.

(** std::set<unsigned int>: sorted without repetitions.
    Used in source/offline_data.template.h:1386, 1425. *)
Fixpoint set_insert (k : nat) (l : list nat) : list nat :=
  match l with
  | [] => [k]
  | a :: r => if Nat.ltb k a then k :: a :: r else if Nat.eqb k a then a :: r else a :: set_insert k r
  end.

(** locally_relevant_boundary_indices, source/offline_data.template.h:1386-1428 *)
Definition boundary_indices (n_locally_relevant : nat) (visits : list face_visit) : list nat :=
  fold_left (fun s v =>
    if negb (f_artificial v) && f_at_boundary v && negb (Nat.eqb (f_id v) id_periodic) && f_support v && Nat.ltb (f_index v) n_locally_relevant
    then set_insert (f_index v) s else s) visits [].

(** OfflineData::collect_coupling_boundary_pairs, source/offline_data.template.h:1367-1462.
    [row i] is the list of the columns of row i, the diagonal first (the addressing in the
    SIMD layout is the subject of Sparse.v). *)
Definition collect_coupling_boundary_pairs (n_locally_owned n_locally_relevant : nat) (row : nat -> list nat)
    (visits : list face_visit) : list (nat * nat * nat) :=
  let indices := boundary_indices n_locally_relevant visits in
  flat_map (fun i =>
    if Nat.leb n_locally_owned i then []
    else if Nat.eqb (length (row i)) 1 then []
    else flat_map (fun '(col_idx, j) => if existsb (Nat.eqb j) indices then [(i, col_idx, j)] else [])
           (combine (seq 1 (length (row i) - 1)) (tl (row i)))) indices.
