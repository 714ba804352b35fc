(** * The exchange of ghost rows: columns, the symmetric case, examples and counterexamples *)
From Coq Require Import List Arith Bool Lia Sorted Permutation.
From Verif Require Import Vec Opt Sparse SparseSpec SparseProofs GhostRows GhostRowsSpec GhostRowsLists GhostRowsWorld GhostRowsProofs.
Import ListNotations.

Lemma good_worldb_ok w ni L cols : good_worldb w ni L cols = true -> good_world w ni L cols.
Proof.
  unfold good_worldb. rewrite !andb_true_iff.
  intros [[[[[H0 H1] H2] H3] H4] H5].
  set (mm := fun x l => if in_dec Nat.eq_dec x l then true else false) in *.
  assert (Mm : forall x l, mm x l = true <-> In x l).
  { intros x l. unfold mm. destruct (in_dec Nat.eq_dec x l); split; congruence || tauto. }
  assert (RK : forall r, r < ranks L -> In r (seq 0 (ranks L))) by (intros; apply in_seq; lia).
  assert (IX : forall r g, r < ranks L -> owned_by L r g <-> In g (seq (first L r) (size L r))).
  { intros r g Hr. rewrite in_seq. unfold owned_by. lia. }
  rewrite forallb_forall in H1, H2, H3, H4, H5.
  assert (P4 : forall r g, owned_by L r g -> NoDup (cols g) /\ In g (cols g) /\
     forall b, In b (cols g) -> (owned_by L r b \/ In b (ghosts L r)) /\ In g (cols b)).
  { intros r g O. assert (Hr := proj1 O). specialize (H4 r (RK r Hr)). rewrite forallb_forall in H4.
    specialize (H4 g (proj1 (IX r g Hr) O)). rewrite !andb_true_iff in H4. destruct H4 as [[A B] C]. split; [|split].
    - destruct (list_eq_dec Nat.eq_dec (nodup Nat.eq_dec (cols g)) (cols g)) as [E|E]; [|discriminate].
      rewrite <- E. apply NoDup_nodup.
    - apply Mm; assumption.
    - intros b Hb. rewrite forallb_forall in C. specialize (C b Hb). rewrite andb_true_iff, orb_true_iff in C.
      destruct C as [C1 C2]. split; [|apply Mm; assumption].
      destruct C1 as [C1|C1]; [left; apply IX; [assumption|]; apply Mm; assumption|right; apply Mm; assumption]. }
  constructor.
  - intros r q Hrq Hq. specialize (H1 r (RK r ltac:(lia))). rewrite forallb_forall in H1. specialize (H1 q (RK q Hq)).
    apply orb_true_iff in H1 as [H1|H1]; apply Nat.leb_le in H1; lia.
  - intros r Hr. specialize (H2 r (RK r Hr)). apply Sorted_StronglySorted; [intros a b c; lia|].
    revert H2. generalize (ghosts L r) as l. induction l as [|a l IH]; intros H; [constructor|].
    destruct l as [|b l]; [constructor; constructor|]. apply andb_true_iff in H as [Ha Hb].
    constructor; [apply IH; exact Hb|]. constructor. apply Nat.ltb_lt. assumption.
  - intros r g Hr Hg. specialize (H3 r (RK r Hr)). rewrite forallb_forall in H3. specialize (H3 g Hg).
    apply existsb_exists in H3 as [q [Hq H3]]. apply in_seq in Hq. apply andb_true_iff in H3 as [Hn Hm].
    exists q. split.
    + apply negb_true_iff, Nat.eqb_neq in Hn. assumption.
    + apply IX; [lia|]. apply Mm. assumption.
  - intros r g O. exact (proj1 (P4 r g O)).
  - intros r g O. exact (proj1 (proj2 (P4 r g O))).
  - intros r q a b Oa _ Hb. exact (proj2 (proj2 (proj2 (P4 r a Oa)) b Hb)).
  - intros r a b Oa Hb. exact (proj1 (proj2 (proj2 (P4 r a Oa)) b Hb)).
  - apply Nat.ltb_lt; assumption.
  - intros r Hr. specialize (H5 r (RK r Hr)). rewrite !andb_true_iff in H5. destruct H5 as [[A _] _].
    apply Nat.eqb_eq in A. apply Nat.ltb_lt in H0. exists (ni r / w).
    assert (D := Nat.div_mod (ni r) w ltac:(lia)). lia.
  - intros r Hr. specialize (H5 r (RK r Hr)). rewrite !andb_true_iff in H5. destruct H5 as [[_ B] _].
    apply Nat.leb_le. assumption.
  - intros r s k Hr Hk Hs. specialize (H5 r (RK r Hr)). rewrite !andb_true_iff in H5. destruct H5 as [_ C].
    rewrite forallb_forall in C. specialize (C (s * w + k) ltac:(apply in_seq; lia)). apply Nat.eqb_eq in C.
    replace ((s * w + k) / w) with s in C by (apply Nat.div_unique with k; lia). assumption.
Qed.

(** The columns of a ghost row. *)
Lemma C59_columns_proof w ni L cols olds :
  good_world w ni L cols -> no_isolated_rank L ->
  (forall r, r < ranks L -> ghosts L r = [] -> olds r = Exchange [] [] []) ->
  forall r p e g q, r < ranks L -> reinit_rank w (ni r) L cols (olds r) r = Some (p, e) ->
  In g (ghosts L r) -> owned_by L q g ->
  exists len, row_length p (to_local L r g) = Some len /\
  (forall pos, pos < len -> exists c, column p (to_local L r g) pos = Some (to_local L r c) /\
     (pos = 0 /\ c = g \/ 0 < pos /\ owned_by L r c /\ In c (cols g))) /\
  (forall c, owned_by L r c -> In c (cols g) ->
     exists pos, 0 < pos < len /\ column p (to_local L r g) pos = Some (to_local L r c)).
Proof.
  intros W NI Ho r p e g q Hr E G O.
  rewrite (reinit_rank_spec w ni L cols W NI r (olds r) Hr (Ho r Hr)) in E. inversion E; subst p e. clear E.
  destruct (pat_spec w ni L cols W r Hr) as [_ [PK [_ [Le [WS WT]]]]].
  destruct (to_global_local w ni L cols W r g Hr (or_intror G)) as [Eg Bg].
  assert (Hlen := ghost_slen w ni L cols W r g Hr G).
  assert (Hcol : forall pos, pos < ghost_weight L cols r g ->
     column (pat w ni L cols r) (to_local L r g) pos = Some (to_local L r (nth pos (g :: K L cols r g) 0))).
  { intros pos Hp. rewrite (column_spec _ w (ni r) WT _ PK); [|split; cbn [fst snd]; lia].
    f_equal. unfold scol. rewrite (ghost_row w ni L cols W r g Hr G). destruct pos as [|pos]; [reflexivity|]. cbn [nth].
    unfold ghost_weight in Hp.
    rewrite (nth_indep _ 0 (0 - first L r)) by (rewrite map_length; lia). rewrite (map_nth (fun c => c - first L r)).
    assert (Hk : In (nth pos (K L cols r g) 0) (K L cols r g)) by (apply nth_In; lia).
    apply K_In in Hk as [Ok _]; [|assumption]. destruct (to_local_owned L r _ Ok) as [-> _]. reflexivity. }
  exists (ghost_weight L cols r g). split; [rewrite (row_length_spec _ w (ni r) WT _ PK) by lia; f_equal; assumption|]. split.
  - intros pos Hp. exists (nth pos (g :: K L cols r g) 0). split; [apply Hcol; assumption|].
    destruct pos as [|pos]; [left; auto|right]. split; [lia|]. cbn [nth]. apply K_In; [assumption|].
    apply nth_In. unfold ghost_weight in Hp. lia.
  - intros c Oc Ic. assert (Hc : In c (K L cols r g)) by (apply K_In; auto).
    apply (In_nth _ _ 0) in Hc as [k [Hk Ek]]. exists (S k). unfold ghost_weight. split; [lia|].
    rewrite Hcol by (unfold ghost_weight; lia). cbn [nth]. rewrite Ek. reflexivity.
Qed.

(** If ghosts are mutual, all entries of all ghost rows agree with the owner. *)
Lemma C59_mutual_proof {A} w ni L cols olds :
  good_world w ni L cols ->
  (forall r q, r < ranks L -> q < ranks L -> has_ghost_of L r q -> has_ghost_of L q r) ->
  (forall r, r < ranks L -> ghosts L r = [] -> olds r = Exchange [] [] []) ->
  exists state, mapM (fun r => reinit_rank w (ni r) L cols (olds r) r) (seq 0 (ranks L)) = Some state /\
  forall nc (datas : list (list A)), fits nc state datas ->
  exists datas', update_ghost_rows nc state datas = Some datas' /\ fits nc state datas' /\
  forall r p e data' g q p' e' data_q pos x,
    nth_error state r = Some (p, e) -> nth_error datas' r = Some data' ->
    nth_error state q = Some (p', e') -> nth_error datas' q = Some data_q ->
    In g (ghosts L r) -> owned_by L q g -> entry p nc data' (to_local L r g) pos = Some x ->
    exists c pos', column p (to_local L r g) pos = Some (to_local L r c) /\
      column p' (to_local L q g) pos' = Some (to_local L q c) /\
      entry p' nc data_q (to_local L q g) pos' = Some x.
Proof.
  intros W Mu Ho.
  assert (NI : no_isolated_rank L).
  { intros r q g Hr Hq Hg O E. destruct (Mu q r Hq Hr (ex_intro _ g (conj Hg O))) as [h [Hh _]]. rewrite E in Hh. destruct Hh. }
  destruct (@C59_exchange_proof A w ni L cols olds W NI Ho) as [state [E H]]. exists state. split; [assumption|].
  intros nc datas F. destruct (H nc datas F) as [datas' [E1 [F' S]]]. exists datas'. split; [assumption|]. split; [assumption|].
  intros r p e data' g q p' e' data_q pos x Hs Hd Hs' Hd' G O Hx.
  assert (NE : forall k pe, nth_error state k = Some pe -> exists d, nth_error datas k = Some d).
  { clear -F. induction F as [|pe d s ds _ F IH]; intros k pe' Hk; [destruct k; discriminate|].
    destruct k as [|k]; [exists d; reflexivity|]. simpl in *. eapply IH; eauto. }
  assert (RL : forall k pe, nth_error state k = Some pe -> k < ranks L).
  { intros k pe Hk. apply mapM_some in E as [Len _]. rewrite seq_length in Len. rewrite <- Len. apply nth_error_Some. congruence. }
  destruct (NE r _ Hs) as [d Hdr]. destruct (NE q _ Hs') as [dq Hdq].
  assert (Hr := RL r _ Hs). assert (Hq := proj1 O).
  destruct (S r p e d data' Hs Hdr Hd) as [_ S1].
  destruct (S1 g q p' e' dq G O Hs' Hdq pos x Hx) as [S2 _].
  destruct (S2 (or_intror (Mu r q Hr Hq (ex_intro _ g (conj G O))))) as [c [pos' [C1 [C2 C3]]]].
  exists c, pos'. split; [assumption|]. split; [assumption|].
  destruct (S q p' e' dq data_q Hs' Hdq Hd') as [S3 _]. rewrite S3; [assumption|]. apply to_local_owned. assumption.
Qed.

(** ** A line of three cells on three ranks

    Degrees of freedom 0, 1 on rank 0, 2 on rank 1 and 3 on rank 2.  Ghosts are the
    degrees of freedom of the ghost cells, as in deal.II. *)
Definition line_cols (g : nat) : list nat :=
  match g with 0 => [0; 1] | 1 => [0; 1; 2] | 2 => [1; 2; 3] | 3 => [2; 3] | _ => [] end.
Definition line_world : layout :=
  Layout 3 (fun r => match r with 0 => 0 | 1 => 2 | _ => 3 end) (fun r => match r with 0 => 2 | _ => 1 end)
    (fun r => match r with 0 => [2] | 1 => [0; 1; 3] | _ => [1; 2] end).
Definition fresh (r : nat) : exchange := Exchange [] [] [].

(** A ring of six on two ranks: mutual ghosts; rank 0 has a stride of two. *)
Definition ring_cols (g : nat) : list nat :=
  match g with 0 => [0; 1; 5] | 1 => [0; 1; 2] | 2 => [1; 2; 3] | 3 => [2; 3; 4] | 4 => [3; 4; 5] | 5 => [4; 5; 0] | _ => [] end.
Definition ring_world : layout :=
  Layout 2 (fun r => match r with 0 => 0 | _ => 3 end) (fun _ => 3) (fun r => match r with 0 => [3; 5] | _ => [0; 2] end).

(** All ranks interior but one that owns nothing: it waits for rank 0. *)
Definition nested_world : layout :=
  Layout 2 (fun r => match r with 0 => 0 | _ => 4 end) (fun r => match r with 0 => 4 | _ => 0 end)
    (fun r => match r with 0 => [] | _ => [1; 2] end).

(** Two ranks, then everything on rank 0. *)
Definition pair_cols (g : nat) : list nat := match g with 0 => [0; 1] | 1 => [0; 1; 2] | 2 => [1; 2] | _ => [] end.
Definition pair_world : layout :=
  Layout 2 (fun r => match r with 0 => 0 | _ => 2 end) (fun r => match r with 0 => 2 | _ => 1 end)
    (fun r => match r with 0 => [2] | _ => [0; 1] end).
Definition single_world : layout :=
  Layout 2 (fun r => match r with 0 => 0 | _ => 3 end) (fun r => match r with 0 => 3 | _ => 0 end) (fun _ => []).


Lemma ring_good : good_world 2 (fun r => 2) ring_world ring_cols.
Proof. apply good_worldb_ok. vm_compute. reflexivity. Qed.
Lemma line_good : good_world 1 (fun r => 0) line_world line_cols.
Proof. apply good_worldb_ok. vm_compute. reflexivity. Qed.
Lemma nested_good : good_world 1 (fun r => 0) nested_world line_cols.
Proof. apply good_worldb_ok. vm_compute. reflexivity. Qed.
Lemma pair_good : good_world 1 (fun r => 0) pair_world pair_cols.
Proof. apply good_worldb_ok. vm_compute. reflexivity. Qed.
Lemma single_good : good_world 1 (fun r => 0) single_world pair_cols.
Proof. apply good_worldb_ok. vm_compute. reflexivity. Qed.

Lemma ring_mutual r q : r < ranks ring_world -> q < ranks ring_world ->
  has_ghost_of ring_world r q -> has_ghost_of ring_world q r.
Proof.
  cbn. intros Hr Hq [h [Hh O]]. unfold owned_by in O. destruct r as [|[|r]], q as [|[|q]]; try lia; cbn in *.
  - destruct Hh as [<-|[<-|[]]]; lia.
  - exists 0. unfold owned_by; cbn. lia.
  - exists 3. unfold owned_by; cbn. lia.
  - destruct Hh as [<-|[<-|[]]]; lia.
Qed.
Lemma line_connected : no_isolated_rank line_world.
Proof. intros r q g Hr Hq Hg O. cbn in *. destruct r as [|[|[|r]]]; cbn; try discriminate; lia. Qed.
Lemma single_connected : no_isolated_rank single_world.
Proof. intros r q g Hr Hq Hg O. destruct Hg. Qed.
Lemma pair_connected : no_isolated_rank pair_world.
Proof. intros r q g Hr Hq Hg O. cbn in *. destruct r as [|[|r]]; cbn; try discriminate; lia. Qed.

(** The ranks of a world with new exchange data. *)
Definition reinit_world w ni L cols (olds : nat -> exchange) : list (simd_pattern * exchange) :=
  match mapM (fun r => reinit_rank w (ni r) L cols (olds r) r) (seq 0 (ranks L)) with Some s => s | None => [] end.
Definition line_state := reinit_world 1 (fun _ => 0) line_world line_cols fresh.
Definition ring_state := reinit_world 2 (fun _ => 2) ring_world ring_cols fresh.
Definition nested_state := reinit_world 1 (fun _ => 0) nested_world line_cols fresh.
Definition pair_state := reinit_world 1 (fun _ => 0) pair_world pair_cols fresh.
Definition after_pair (r : nat) : exchange := match nth_error pair_state r with Some pe => snd pe | None => fresh r end.
Definition stale_state := reinit_world 1 (fun _ => 0) single_world pair_cols after_pair.

Definition line_data : list (list nat) := [[11; 12; 21; 22; 23; 0; 0]; [1; 2; 3; 0; 0; 0; 0; 0]; [5; 6; 7; 0; 0]].
Definition ring_data : list (list nat) := map (fun r => map (fun k => 100 * r + k) (seq 0 13)) [0; 1].

(** The diagonal of a ghost row is not sent if the owner has no ghost of the receiver. *)
Lemma C59_diagonal_refuted_proof :
  exists w ni L cols, good_world w ni L cols /\ no_isolated_rank L /\
  exists state (datas datas' : list (list nat)),
    mapM (fun r => reinit_rank w (ni r) L cols (Exchange [] [] []) r) (seq 0 (ranks L)) = Some state /\
    fits 1 state datas /\ update_ghost_rows 1 state datas = Some datas' /\
  exists r q g p e p' e' data' data_q x y, In g (ghosts L r) /\ owned_by L q g /\
    nth_error state r = Some (p, e) /\ nth_error state q = Some (p', e') /\
    nth_error datas' r = Some data' /\ nth_error datas' q = Some data_q /\
    entry p 1 data' (to_local L r g) 0 = Some x /\ entry p' 1 data_q (to_local L q g) 0 = Some y /\ x <> y.
Proof.
  exists 1, (fun r => 0), line_world, line_cols. split; [exact line_good|]. split; [exact line_connected|].
  exists line_state, line_data, [[11; 12; 21; 22; 23; 1; 2]; [1; 2; 3; 11; 21; 23; 5; 6]; [5; 6; 7; 1; 3]].
  split; [vm_compute; reflexivity|].
  split; [unfold fits; vm_compute; repeat constructor|].
  split; [vm_compute; reflexivity|].
  exists 2, 0, 1. do 6 eexists. exists [7], [21].
  split; [vm_compute; auto|]. split; [unfold owned_by; cbn; lia|].
  split; [vm_compute; reflexivity|]. split; [vm_compute; reflexivity|].
  split; [vm_compute; reflexivity|]. split; [vm_compute; reflexivity|].
  split; [vm_compute; reflexivity|]. split; [vm_compute; reflexivity|]. discriminate.
Qed.

(** A rank without ghosts sends nothing: the ranks that have its indices as ghosts wait
    forever. *)
Lemma C59_isolated_refuted_proof :
  exists w ni L cols, good_world w ni L cols /\
  exists state, mapM (fun r => reinit_rank w (ni r) L cols (Exchange [] [] []) r) (seq 0 (ranks L)) = Some state /\
  exists datas : list (list nat), fits 1 state datas /\ update_ghost_rows 1 state datas = None.
Proof.
  exists 1, (fun r => 0), nested_world, line_cols. split; [exact nested_good|].
  exists nested_state. split; [vm_compute; reflexivity|].
  exists [[1; 2; 3; 4; 5; 6; 7; 8; 9; 10]; [0; 0]]. split; [unfold fits; vm_compute; repeat constructor|]. vm_compute. reflexivity.
Qed.

(** A second reinit without ghosts keeps the targets of the first. *)
Lemma C59_stale_refuted_proof :
  exists w ni L1 cols1 L2 cols2, good_world w ni L1 cols1 /\ no_isolated_rank L1 /\ good_world w ni L2 cols2 /\ no_isolated_rank L2 /\
  ranks L1 = ranks L2 /\
  exists state1 state2,
    mapM (fun r => reinit_rank w (ni r) L1 cols1 (Exchange [] [] []) r) (seq 0 (ranks L1)) = Some state1 /\
    mapM (fun r => e <- nth_error state1 r ;; reinit_rank w (ni r) L2 cols2 (snd e) r) (seq 0 (ranks L2)) = Some state2 /\
  exists datas : list (list nat), fits 1 state2 datas /\ update_ghost_rows 1 state2 datas = None.
Proof.
  exists 1, (fun r => 0), pair_world, pair_cols, single_world, pair_cols.
  split; [exact pair_good|]. split; [exact pair_connected|]. split; [exact single_good|]. split; [exact single_connected|].
  split; [reflexivity|]. exists pair_state, stale_state. split; [vm_compute; reflexivity|]. split; [vm_compute; reflexivity|].
  exists [[1; 2; 3; 4; 5; 6; 7]; []]. split; [unfold fits; vm_compute; repeat constructor|]. vm_compute. reflexivity.
Qed.

(** The examples. *)
Lemma line_example :
  mapM (fun r => reinit_rank 1 0 line_world line_cols (Exchange [] [] []) r) (seq 0 (ranks line_world)) = Some line_state /\
  fits 1 line_state line_data /\
  update_ghost_rows 1 line_state line_data =
    Some [[11; 12; 21; 22; 23; 1; 2]; [1; 2; 3; 11; 21; 23; 5; 6]; [5; 6; 7; 1; 3]].
Proof.
  split; [vm_compute; reflexivity|]. split; [unfold fits; vm_compute; repeat constructor|]. vm_compute. reflexivity.
Qed.
Lemma ring_example :
  mapM (fun r => reinit_rank 2 2 ring_world ring_cols (Exchange [] [] []) r) (seq 0 (ranks ring_world)) = Some ring_state /\
  fits 1 ring_state ring_data /\
  update_ghost_rows 1 ring_state ring_data =
    Some [[0; 1; 2; 3; 4; 5; 6; 7; 8; 100; 104; 106; 108]; [100; 101; 102; 103; 104; 105; 106; 107; 108; 0; 4; 6; 8]].
Proof.
  split; [vm_compute; reflexivity|]. split; [unfold fits; vm_compute; repeat constructor|]. vm_compute. reflexivity.
Qed.
