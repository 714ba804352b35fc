(** * Multi-component vectors and their partitioner

    [None] is an out of range access.  The numbers stored are of an arbitrary
    type; [n_comp] components are stored next to each other. *)
From Coq Require Import List Arith.
From Verif Require Import Vec Opt.
Import ListNotations.

Section MultiVec.
Context {A : Type}.
Variable n_comp : nat.

(** MultiComponentVector::get_tensor(i), scalar branch,
    source/multicomponent_vector.h:262-266. *)
Definition mv_get (v : list A) (i : nat) : option (list A) :=
  mapM (fun d => vget v (i * n_comp + d)) (seq 0 n_comp).

(** dealii::vectorized_load_and_transpose(n, base + off, offsets, out):
    out[d][k] = base[off + offsets[k] + d].  Library code, called in
    source/multicomponent_vector.h:275-276 and 313-314. *)
Definition load_and_transpose (v : list A) (off : nat) (offsets : list nat)
  : option (list (list A)) :=
  mapM (fun d => mapM (fun o => vget v (off + o + d)) offsets) (seq 0 n_comp).

(** get_tensor(i), vectorized branch, source/multicomponent_vector.h:268-276:
    for every component the register with its lanes. *)
Definition mv_get_v (width : nat) (v : list A) (i : nat) : option (list (list A)) :=
  load_and_transpose v (i * n_comp) (map (fun k => k * n_comp) (seq 0 width)).

(** get_tensor(js), scalar branch, source/multicomponent_vector.h:301-305. *)
Definition mv_gather (v : list A) (js : list nat) : option (list A) :=
  j <- vget js 0 ;; mapM (fun d => vget v (j * n_comp + d)) (seq 0 n_comp).

(** get_tensor(js), vectorized branch, source/multicomponent_vector.h:307-314. *)
Definition mv_gather_v (width : nat) (v : list A) (js : list nat)
  : option (list (list A)) :=
  offsets <- mapM (fun k => j <- vget js k ;; Some (j * n_comp)) (seq 0 width) ;;
  load_and_transpose v 0 offsets.

(** write_tensor, scalar branch, source/multicomponent_vector.h:341-345. *)
Definition mv_write (v : list A) (i : nat) (tensor : list A) : option (list A) :=
  foldM (fun v d => x <- vget tensor d ;; vset v (i * n_comp + d) x) v (seq 0 n_comp).

(** dealii::vectorized_transpose_and_store(add_into, n, in, offsets, base +
    off): base[off + offsets[k] + d] = (or +=) in[d][k].  Library code, called in
    source/multicomponent_vector.h:354-358 and 393-397. The variant with
    add_into receives the addition as [Some plus]. *)
Definition transpose_and_store (add_into : option (A -> A -> A)) (v : list A)
           (off : nat) (offsets : list nat) (regs : list (list A)) : option (list A) :=
  foldM (fun v d => reg <- vget regs d ;;
     foldM (fun v ko => x <- vget reg (fst ko) ;;
              match add_into with
              | None => vset v (off + snd ko + d) x
              | Some plus => y <- vget v (off + snd ko + d) ;;
                             vset v (off + snd ko + d) (plus y x)
              end)
       v (combine (seq 0 (length offsets)) offsets))
    v (seq 0 n_comp).

(** write_tensor, vectorized branch, source/multicomponent_vector.h:347-358. *)
Definition mv_write_v (width : nat) (v : list A) (i : nat) (regs : list (list A))
  : option (list A) :=
  transpose_and_store None v (i * n_comp) (map (fun k => k * n_comp) (seq 0 width)) regs.

(** add_tensor, scalar branch, source/multicomponent_vector.h:380-384. *)
Definition mv_add (plus : A -> A -> A) (v : list A) (i : nat) (tensor : list A)
  : option (list A) :=
  foldM (fun v d => x <- vget tensor d ;; y <- vget v (i * n_comp + d) ;;
                    vset v (i * n_comp + d) (plus y x)) v (seq 0 n_comp).

(** add_tensor, vectorized branch, source/multicomponent_vector.h:386-397. *)
Definition mv_add_v (plus : A -> A -> A) (width : nat) (v : list A) (i : nat)
           (regs : list (list A)) : option (list A) :=
  transpose_and_store (Some plus) v (i * n_comp)
    (map (fun k => k * n_comp) (seq 0 width)) regs.

(** extract_component, source/multicomponent_vector.h:219-223.  The ghost
    update of line 224 is not modelled: [scalar] holds the [local_size] owned
    entries. *)
Definition extract_component (v : list A) (local_size : nat) (scalar : list A)
           (component : nat) : option (list A) :=
  foldM (fun s i => x <- vget v (i * n_comp + component) ;; vset s i x)
    scalar (seq 0 local_size).

(** insert_component, source/multicomponent_vector.h:240-244. *)
Definition insert_component (v : list A) (local_size : nat) (scalar : list A)
           (component : nat) : option (list A) :=
  foldM (fun v i => x <- vget scalar i ;; vset v (i * n_comp + component) x)
    v (seq 0 local_size).
End MultiVec.

(** ** Partitioner *)

(** A dealii::IndexSet: its maximal intervals [a, b), ascending.  Library
    type.  Used in source/multicomponent_vector.cc:13-40. *)
Definition index_set := list (nat * nat).

(** One of the two loops of create_vector_partitioner: add_range of
    [*it->begin() * n, (it->last() + 1) * n), where last() is the last element
    of the interval.  source/multicomponent_vector.cc:21-26 (owned) and 30-35
    (ghost); add_range/compress of IndexSet are taken to keep the list of
    (already sorted, disjoint) intervals. *)
Definition expand_intervals (n_components : nat) (s : index_set) : index_set :=
  map (fun ab => let begin := fst ab in let last := snd ab - 1 in
                 (begin * n_components, (last + 1) * n_components)) s.

(** A partitioner: owned and ghost index sets (dealii::Utilities::MPI::Partitioner).
    Used in source/multicomponent_vector.cc:13-40. *)
Record partitioner := { part_owned : index_set; part_ghost : index_set }.

(** create_vector_partitioner, source/multicomponent_vector.cc:13-40. *)
Definition create_vector_partitioner (n_components : nat) (p : partitioner) : partitioner :=
  {| part_owned := expand_intervals n_components (part_owned p);
     part_ghost := expand_intervals n_components (part_ghost p) |}.

(** IndexSet::is_element, IndexSet::n_elements, IndexSet::index_within_set
    and Partitioner::global_to_local (owned indices first, then ghosts).
    Library functions.  deal.II, used through source/multicomponent_vector.cc:13-40. *)
Definition is_element (s : index_set) (x : nat) : bool :=
  existsb (fun ab => andb (fst ab <=? x) (x <? snd ab)) s.
(** See the comment above, source/multicomponent_vector.cc:13-40. *)
Definition n_elements (s : index_set) : nat :=
  fold_right (fun ab t => (snd ab - fst ab) + t) 0 s.
(** See the comment above, source/multicomponent_vector.cc:13-40. *)
Definition index_within_set (s : index_set) (x : nat) : nat :=
  fold_right (fun ab t => Nat.min (x - fst ab) (snd ab - fst ab) + t) 0 s.
(** See the comment above, source/multicomponent_vector.cc:13-40. *)
Definition global_to_local (p : partitioner) (x : nat) : option nat :=
  if is_element (part_owned p) x then Some (index_within_set (part_owned p) x)
  else if is_element (part_ghost p) x then
    Some (n_elements (part_owned p) + index_within_set (part_ghost p) x)
  else None.
