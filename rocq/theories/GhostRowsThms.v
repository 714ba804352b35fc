(** * Theorems: C59, the exchange of ghost rows *)
From Coq Require Import List Arith.
From Verif Require Import Vec Opt Sparse SparseSpec GhostRows GhostRowsSpec GhostRowsProofs GhostRowsFinal.
Import ListNotations.

(** On all ranks reinit succeeds and an exchange neither hangs nor leaves its buffers.
    Owned rows are unchanged, and every entry of every ghost row is the owner's entry of
    the same global row and column; the diagonal of a ghost row is left as it was if the
    owner has no ghost that the receiver owns.  Missing: that diagonal, ranks without
    ghosts whose indices are ghosts elsewhere, and a reinit without ghosts after one with
    ghosts, see the refutations. *)
Theorem C59_exchange_partial :
  forall (A : Type) w ni L cols olds,
  good_world w ni L cols -> no_isolated_rank L ->
  (forall r, r < ranks L -> ghosts L r = [] -> olds r = Exchange [] [] []) ->
  exists state, mapM (fun r => reinit_rank w (ni r) L cols (olds r) r) (seq 0 (ranks L)) = Some state /\
  forall nc (datas : list (list A)), fits nc state datas ->
  exists datas', update_ghost_rows nc state datas = Some datas' /\ fits nc state datas' /\
    synchronized L nc state datas datas'.
Proof. exact @C59_exchange_proof. Qed.
Print Assumptions C59_exchange_partial.
Example C59_exchange_example :
  good_world 1 (fun r => 0) line_world line_cols /\ no_isolated_rank line_world /\
  mapM (fun r => reinit_rank 1 0 line_world line_cols (Exchange [] [] []) r) (seq 0 (ranks line_world)) = Some line_state /\
  fits 1 line_state line_data /\
  update_ghost_rows 1 line_state line_data =
    Some [[11; 12; 21; 22; 23; 1; 2]; [1; 2; 3; 11; 21; 23; 5; 6]; [5; 6; 7; 1; 3]].
Proof. exact (conj line_good (conj line_connected line_example)). Qed.

(** If ghosts are mutual (whenever r has a ghost owned by q, then q has one owned by r),
    all entries of all ghost rows agree with the owner. *)
Theorem C59_mutual :
  forall (A : Type) w ni L cols olds,
  good_world w ni L cols ->
  (forall r q, r < ranks L -> q < ranks L -> has_ghost_of L r q -> has_ghost_of L q r) ->
  (forall r, r < ranks L -> ghosts L r = [] -> olds r = Exchange [] [] []) ->
  exists state, mapM (fun r => reinit_rank w (ni r) L cols (olds r) r) (seq 0 (ranks L)) = Some state /\
  forall nc (datas : list (list A)), fits nc state datas ->
  exists datas', update_ghost_rows nc state datas = Some datas' /\ fits nc state datas' /\
  forall r p e data' g q p' e' data_q pos x,
    nth_error state r = Some (p, e) -> nth_error datas' r = Some data' ->
    nth_error state q = Some (p', e') -> nth_error datas' q = Some data_q ->
    In g (ghosts L r) -> owned_by L q g -> entry p nc data' (to_local L r g) pos = Some x ->
    exists c pos', column p (to_local L r g) pos = Some (to_local L r c) /\
      column p' (to_local L q g) pos' = Some (to_local L q c) /\
      entry p' nc data_q (to_local L q g) pos' = Some x.
Proof. exact @C59_mutual_proof. Qed.
Print Assumptions C59_mutual.
Example C59_mutual_example :
  good_world 2 (fun r => 2) ring_world ring_cols /\
  (forall r q, r < ranks ring_world -> q < ranks ring_world -> has_ghost_of ring_world r q -> has_ghost_of ring_world q r) /\
  mapM (fun r => reinit_rank 2 2 ring_world ring_cols (Exchange [] [] []) r) (seq 0 (ranks ring_world)) = Some ring_state /\
  fits 1 ring_state ring_data /\
  update_ghost_rows 1 ring_state ring_data =
    Some [[0; 1; 2; 3; 4; 5; 6; 7; 8; 100; 104; 106; 108]; [100; 101; 102; 103; 104; 105; 106; 107; 108; 0; 4; 6; 8]].
Proof. exact (conj ring_good (conj ring_mutual ring_example)). Qed.

(** A ghost row has the diagonal first and then exactly the columns that the rank owns. *)
Theorem C59_columns :
  forall w ni L cols olds,
  good_world w ni L cols -> no_isolated_rank L ->
  (forall r, r < ranks L -> ghosts L r = [] -> olds r = Exchange [] [] []) ->
  forall r p e g q, r < ranks L -> reinit_rank w (ni r) L cols (olds r) r = Some (p, e) ->
  In g (ghosts L r) -> owned_by L q g ->
  exists len, row_length p (to_local L r g) = Some len /\
  (forall pos, pos < len -> exists c, column p (to_local L r g) pos = Some (to_local L r c) /\
     (pos = 0 /\ c = g \/ 0 < pos /\ owned_by L r c /\ In c (cols g))) /\
  (forall c, owned_by L r c -> In c (cols g) ->
     exists pos, 0 < pos < len /\ column p (to_local L r g) pos = Some (to_local L r c)).
Proof. exact C59_columns_proof. Qed.
Print Assumptions C59_columns.
Example C59_columns_example :
  exists p e, reinit_rank 1 0 line_world line_cols (Exchange [] [] []) 1 = Some (p, e) /\
  In 1 (ghosts line_world 1) /\ owned_by line_world 0 1 /\ row_length p (to_local line_world 1 1) = Some 2.
Proof.
  exact (ex_intro _ _ (ex_intro _ _ (conj eq_refl (conj (or_intror (or_introl eq_refl))
    (conj (conj (le_S _ _ (le_S _ _ (le_n 1))) (conj (Nat.le_0_l 1) (le_n 2))) eq_refl))))).
Qed.

(** On a line of three cells on three ranks the diagonal of a ghost row is not updated. *)
Theorem C59_diagonal_refuted :
  exists w ni L cols, good_world w ni L cols /\ no_isolated_rank L /\
  exists state (datas datas' : list (list nat)),
    mapM (fun r => reinit_rank w (ni r) L cols (Exchange [] [] []) r) (seq 0 (ranks L)) = Some state /\
    fits 1 state datas /\ update_ghost_rows 1 state datas = Some datas' /\
  exists r q g p e p' e' data' data_q x y, In g (ghosts L r) /\ owned_by L q g /\
    nth_error state r = Some (p, e) /\ nth_error state q = Some (p', e') /\
    nth_error datas' r = Some data' /\ nth_error datas' q = Some data_q /\
    entry p 1 data' (to_local L r g) 0 = Some x /\ entry p' 1 data_q (to_local L q g) 0 = Some y /\ x <> y.
Proof. exact C59_diagonal_refuted_proof. Qed.
Print Assumptions C59_diagonal_refuted.

(** A rank without ghosts sends nothing; ranks that have its indices as ghosts hang. *)
Theorem C59_isolated_refuted :
  exists w ni L cols, good_world w ni L cols /\
  exists state, mapM (fun r => reinit_rank w (ni r) L cols (Exchange [] [] []) r) (seq 0 (ranks L)) = Some state /\
  exists datas : list (list nat), fits 1 state datas /\ update_ghost_rows 1 state datas = None.
Proof. exact C59_isolated_refuted_proof. Qed.
Print Assumptions C59_isolated_refuted.

(** A reinit without ghosts keeps the targets of an earlier one: the exchange fails. *)
Theorem C59_stale_refuted :
  exists w ni L1 cols1 L2 cols2, good_world w ni L1 cols1 /\ no_isolated_rank L1 /\ good_world w ni L2 cols2 /\ no_isolated_rank L2 /\
  ranks L1 = ranks L2 /\
  exists state1 state2,
    mapM (fun r => reinit_rank w (ni r) L1 cols1 (Exchange [] [] []) r) (seq 0 (ranks L1)) = Some state1 /\
    mapM (fun r => e <- nth_error state1 r ;; reinit_rank w (ni r) L2 cols2 (snd e) r) (seq 0 (ranks L2)) = Some state2 /\
  exists datas : list (list nat), fits 1 state2 datas /\ update_ghost_rows 1 state2 datas = None.
Proof. exact C59_stale_refuted_proof. Qed.
Print Assumptions C59_stale_refuted.
