(** * The exchange of ghost rows: what is assumed of the distributed pattern *)
From Coq Require Import List Arith Bool Sorted.
From Verif Require Import Opt Sparse SparseSpec GhostRows.
Import ListNotations.

(** Rank r owns the global index g. *)
Definition owned_by (L : layout) (r g : nat) : Prop := r < ranks L /\ first L r <= g < first L r + size L r.

(** The owned ranges are disjoint and ascending; ghosts are owned by other ranks; the
    global pattern [cols] is symmetric, contains the diagonal and couples only indices
    that some rank owns; a rank has all columns of its rows as ghosts; within a stride
    of [w] rows in the vectorized range [ni r] the rows have the same length. *)
Record good_world (w : nat) (ni : nat -> nat) (L : layout) (cols : nat -> list nat) : Prop := {
  gw_ascending : forall r q, r < q -> q < ranks L -> first L r + size L r <= first L q;
  gw_ghosts : forall r, r < ranks L -> StronglySorted lt (ghosts L r);
  gw_foreign : forall r g, r < ranks L -> In g (ghosts L r) -> exists q, q <> r /\ owned_by L q g;
  gw_nodup : forall r g, owned_by L r g -> NoDup (cols g);
  gw_diag : forall r g, owned_by L r g -> In g (cols g);
  gw_sym : forall r q a b, owned_by L r a -> owned_by L q b -> In b (cols a) -> In a (cols b);
  gw_ghosted : forall r a b, owned_by L r a -> In b (cols a) -> owned_by L r b \/ In b (ghosts L r);
  gw_width : 0 < w;
  gw_multiple : forall r, r < ranks L -> exists q, ni r = q * w;
  gw_internal : forall r, r < ranks L -> ni r <= size L r;
  gw_uniform : forall r s k, r < ranks L -> k < w -> s * w + k < ni r ->
    length (cols (first L r + (s * w + k))) = length (cols (first L r + s * w)) }.

(** Ghosts on some rank have a counterpart: a rank whose indices are ghosts elsewhere has
    ghosts itself. *)
Definition no_isolated_rank (L : layout) : Prop :=
  forall r q g, r < ranks L -> q < ranks L -> In g (ghosts L q) -> owned_by L r g -> ghosts L r <> [].

(** Decision procedure, to check concrete cases. *)
Definition good_worldb (w : nat) (ni : nat -> nat) (L : layout) (cols : nat -> list nat) : bool :=
  let rk := seq 0 (ranks L) in
  let idx r := seq (first L r) (size L r) in
  let mem x l := if in_dec Nat.eq_dec x l then true else false in
  let asc := fix asc (l : list nat) := match l with a :: ((b :: _) as t) => (a <? b) && asc t | _ => true end in
  (0 <? w) &&
  forallb (fun r => forallb (fun q => (q <=? r) || (first L r + size L r <=? first L q)) rk) rk &&
  forallb (fun r => asc (ghosts L r)) rk &&
  forallb (fun r => forallb (fun g => existsb (fun q => negb (q =? r) && mem g (idx q)) rk) (ghosts L r)) rk &&
  forallb (fun r => forallb (fun g =>
     (if list_eq_dec Nat.eq_dec (nodup Nat.eq_dec (cols g)) (cols g) then true else false) && mem g (cols g) &&
     forallb (fun b => (mem b (idx r) || mem b (ghosts L r)) && mem g (cols b)) (cols g)) (idx r)) rk &&
  forallb (fun r => (ni r mod w =? 0) && (ni r <=? size L r) &&
     forallb (fun i => length (cols (first L r + i)) =? length (cols (first L r + i / w * w))) (seq 0 (ni r))) rk.

(** A matrix on every rank with the right number of entries. *)
Definition fits {A} (nc : nat) (state : list (simd_pattern * exchange)) (datas : list (list A)) : Prop :=
  Forall2 (fun pe data => length data = nnz (fst pe) * nc) state datas.

(** Entry [pos] of a local row, if the row has that many entries. *)
Definition entry {A} (p : simd_pattern) (nc : nat) (data : list A) (row pos : nat) : option (list A) :=
  match row_length p row with
  | Some len => if pos <? len then get_tensor p nc data row pos else None
  | None => None
  end.

(** Rank q has a ghost that rank r owns. *)
Definition has_ghost_of (L : layout) (q r : nat) : Prop := exists h, In h (ghosts L q) /\ owned_by L r h.

(** Rank r after the exchange: the owned rows are as before; entry [pos] of the row of a
    ghost g is the owner's entry in the same global column — the diagonal ([pos = 0]) only
    if the owner q has a ghost that rank r owns. *)
Definition synchronized {A} (L : layout) (nc : nat) (state : list (simd_pattern * exchange)) (datas datas' : list (list A)) : Prop :=
  forall r p e data data',
  nth_error state r = Some (p, e) -> nth_error datas r = Some data -> nth_error datas' r = Some data' ->
  (forall i pos, i < size L r -> entry p nc data' i pos = entry p nc data i pos) /\
  forall g q p' e' data_q, In g (ghosts L r) -> owned_by L q g ->
    nth_error state q = Some (p', e') -> nth_error datas q = Some data_q ->
    forall pos x, entry p nc data' (to_local L r g) pos = Some x ->
      (pos <> 0 \/ has_ghost_of L q r ->
       exists c pos', column p (to_local L r g) pos = Some (to_local L r c) /\
         column p' (to_local L q g) pos' = Some (to_local L q c) /\
         entry p' nc data_q (to_local L q g) pos' = Some x) /\
      (pos = 0 -> ~ has_ghost_of L q r -> entry p nc data (to_local L r g) 0 = Some x).
