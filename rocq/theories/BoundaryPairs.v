(** * The coupling boundary pairs, examples and refutations *)
From Coq Require Import Reals Arith List Bool Lia Lra Psatz Permutation Sorted.
From Verif Require Import RVec SchemeSpec SchemeProofs BoundaryMap BoundaryMapSpec BoundaryMapProofs BoundaryMapFinal BoundaryMapRays.
Import ListNotations.

Lemma set_insert_In k l x : In x (set_insert k l) <-> x = k \/ In x l.
Proof.
  induction l as [|a l IH]; cbn [set_insert]; [cbn; intuition congruence|]. destruct (Nat.ltb k a); [cbn; intuition congruence|].
  destruct (Nat.eqb_spec k a) as [E|E]; cbn [In]; [intuition congruence|]. rewrite IH. tauto.
Qed.

Lemma set_insert_sorted k l : StronglySorted lt l -> StronglySorted lt (set_insert k l).
Proof.
  intros S. induction S as [|a l S IH H]; cbn [set_insert]; [repeat constructor|].
  destruct (Nat.ltb_spec k a) as [L|L].
  - constructor; [constructor; assumption|]. constructor; [exact L|]. rewrite Forall_forall in H |- *. intros x I. specialize (H x I). lia.
  - destruct (Nat.eqb_spec k a) as [->|N]; [constructor; assumption|]. constructor; [exact IH|]. rewrite Forall_forall in H |- *. intros x I. apply set_insert_In in I. destruct I as [->|I]; [lia|apply H; exact I].
Qed.

Lemma sorted_NoDup l : StronglySorted lt l -> NoDup l.
Proof. intros S. induction S as [|a l S IH H]; constructor; [|exact IH]. intros I. rewrite Forall_forall in H. specialize (H a I). lia. Qed.

Lemma boundary_indices_spec nr visits : StronglySorted lt (boundary_indices nr visits) /\ forall j, In j (boundary_indices nr visits) <-> on_boundary nr visits j.
Proof.
  unfold boundary_indices.
  assert (G : forall l s, StronglySorted lt s -> let s' := fold_left (fun s v => if negb (f_artificial v) && f_at_boundary v && negb (Nat.eqb (f_id v) id_periodic) && f_support v && Nat.ltb (f_index v) nr then set_insert (f_index v) s else s) l s in
    StronglySorted lt s' /\ forall j, In j s' <-> In j s \/ on_boundary nr l j).
  { induction l as [|v l IH]; intros s S; cbn [fold_left].
    - split; [exact S|]. intros j. split; [auto|]. intros [I|(_ & v & [] & _)]. exact I.
    - destruct (negb (f_artificial v) && f_at_boundary v && negb (Nat.eqb (f_id v) id_periodic) && f_support v && Nat.ltb (f_index v) nr) eqn:E.
      + destruct (IH _ (set_insert_sorted (f_index v) s S)) as [S' I']. split; [exact S'|]. intros j. rewrite I', set_insert_In.
        rewrite !andb_true_iff, !negb_true_iff, Nat.ltb_lt, Nat.eqb_neq in E. destruct E as [[[[E1 E2] E3] E4] E5].
        split.
        * intros [[->|I]|(L & w & Iw & W)]; [right; split; [exact E5|]; exists v; split; [left; reflexivity|auto]|auto|]. right. split; [exact L|]. exists w. split; [right; exact Iw|exact W].
        * intros [I|(L & w & [<-|Iw] & W)]; [auto| |]; [left; left; symmetry; apply W|]. right. split; [exact L|]. exists w. auto.
      + destruct (IH s S) as [S' I']. split; [exact S'|]. intros j. rewrite I'. split; (intros [I|(L & w & Iw & W)]; [auto|]).
        * right. split; [exact L|]. exists w. split; [right; exact Iw|exact W].
        * destruct Iw as [<-|Iw]; [|right; split; [exact L|]; exists w; auto]. exfalso. destruct W as (W1 & W2 & W3 & W4 & W5).
          apply Nat.eqb_neq in W3. subst j. apply Nat.ltb_lt in L. unfold id_periodic in E. rewrite W1, W2, W3, W4, L in E. discriminate. }
  destruct (G visits []) as [S I]; [constructor|]. split; [exact S|]. intros j. rewrite I. cbn. tauto.
Qed.

Lemma in_row_positions (r : list nat) c j : In (c, j) (combine (seq 1 (length r - 1)) (tl r)) <-> 1 <= c /\ nth_error r c = Some j.
Proof.
  assert (G : forall (l : list nat) s, In (c, j) (combine (seq s (length l)) l) <-> s <= c /\ nth_error l (c - s) = Some j).
  { induction l as [|a l IH]; intros s; cbn [length seq combine].
    - split; [intros []|]. intros [_ H]. destruct (c - s); discriminate.
    - cbn [In]. rewrite IH. split.
      + intros [E|[L E]]; [injection E as -> ->; rewrite Nat.sub_diag; auto|]. split; [lia|]. replace (c - s) with (S (c - S s)) by lia. exact E.
      + intros [L E]. destruct (Nat.eq_dec c s) as [->|N].
        * left. rewrite Nat.sub_diag in E. cbn in E. congruence.
        * right. split; [lia|]. replace (c - s) with (S (c - S s)) in E by lia. exact E. }
  destruct r as [|a r].
  - cbn. split; [intros []|]. intros [_ H]. destruct c; discriminate.
  - cbn [length tl]. replace (S (length r) - 1) with (length r) by lia. rewrite G. split; intros [L E]; (split; [exact L|]).
    + destruct c; [lia|]. cbn. replace (S c - 1) with c in E by lia. exact E.
    + destruct c; [lia|]. cbn in E. replace (S c - 1) with c by lia. exact E.
Qed.

Lemma C56_exact_proof n_owned n_relevant row visits i c j :
  In (i, c, j) (collect_coupling_boundary_pairs n_owned n_relevant row visits) <->
  i < n_owned /\ on_boundary n_relevant visits i /\ on_boundary n_relevant visits j /\ 1 <= c /\ nth_error (row i) c = Some j.
Proof.
  unfold collect_coupling_boundary_pairs. destruct (boundary_indices_spec n_relevant visits) as [_ B]. rewrite in_flat_map. split.
  - intros (i' & I & H). apply B in I. destruct (Nat.leb_spec n_owned i') as [|L]; [destruct H|]. destruct (Nat.eqb (length (row i')) 1); [destruct H|].
    apply in_flat_map in H. destruct H as ([c' j'] & I' & H). destruct (existsb (Nat.eqb j') (boundary_indices n_relevant visits)) eqn:E; [|destruct H].
    destruct H as [H|[]]. injection H as -> -> ->. apply in_row_positions in I'. apply existsb_exists in E. destruct E as (j0 & Ij & Ej). apply Nat.eqb_eq in Ej. subst j0. apply B in Ij. auto.
  - intros (L & Hi & Hj & C & E). exists i. split; [apply B; exact Hi|]. destruct (Nat.leb_spec n_owned i); [lia|].
    assert (c < length (row i)) by (apply nth_error_Some; congruence). destruct (Nat.eqb_spec (length (row i)) 1); [lia|].
    apply in_flat_map. exists (c, j). split; [apply in_row_positions; auto|].
    assert (X : existsb (Nat.eqb j) (boundary_indices n_relevant visits) = true) by (apply existsb_exists; exists j; split; [apply B; exact Hj|apply Nat.eqb_refl]). rewrite X. left. reflexivity.
Qed.

Lemma NoDup_flat_map {A B} (f : A -> list B) l : NoDup l -> (forall a, In a l -> NoDup (f a)) ->
  (forall a b x, In a l -> In b l -> In x (f a) -> In x (f b) -> a = b) -> NoDup (flat_map f l).
Proof.
  intros N. induction N as [|a l NI N IH]; intros H D; cbn; [constructor|].
  assert (NA := H a (or_introl eq_refl)).
  assert (NR : NoDup (flat_map f l)). { apply IH; [intros b I; apply H; right; exact I|]. intros b c x Ib Ic. apply D; right; assumption. }
  revert NA. assert (Dj : forall x, In x (f a) -> ~ In x (flat_map f l)).
  { intros x I I'. apply in_flat_map in I'. destruct I' as (b & Ib & I'). assert (a = b) by (apply (D a b x); [left; reflexivity|right; exact Ib|exact I|exact I']). subst. contradiction. }
  clear -NR Dj. induction (f a) as [|x r IHr]; intros NA; cbn; [exact NR|]. inversion NA as [|? ? N1 N2]; subst. constructor.
  - intros I. apply in_app_iff in I. destruct I as [I|I]; [contradiction|]. apply (Dj x); [left; reflexivity|exact I].
  - apply IHr; [|exact N2]. intros y I. apply Dj. right. exact I.
Qed.

Lemma C56_once_proof n_owned n_relevant row visits : NoDup (collect_coupling_boundary_pairs n_owned n_relevant row visits).
Proof.
  unfold collect_coupling_boundary_pairs. destruct (boundary_indices_spec n_relevant visits) as [S _].
  apply NoDup_flat_map; [apply sorted_NoDup; exact S| |].
  - intros i _. destruct (Nat.leb n_owned i); [constructor|]. destruct (Nat.eqb (length (row i)) 1); [constructor|]. apply NoDup_flat_map.
    + assert (G : forall (l m : list nat), NoDup l -> NoDup (combine l m)).
      { induction l as [|a l IH]; intros m N; [constructor|]. destruct m as [|b m]; [constructor|]. inversion N; subst. cbn. constructor; [|apply IH; assumption].
        intros I. apply in_combine_l in I. contradiction. }
      apply G, seq_NoDup.
    + intros [c j] _. destruct (existsb _ _); [constructor; [intros []|constructor]|constructor].
    + intros [c j] [c' j'] x _ _ I I'. destruct (existsb (Nat.eqb j) _); [|destruct I]. destruct (existsb (Nat.eqb j') _); [|destruct I']. destruct I as [<-|[]], I' as [E|[]]. congruence.
  - assert (G : forall i x, In x (if Nat.leb n_owned i then [] else if Nat.eqb (length (row i)) 1 then [] else
        flat_map (fun '(col_idx, j) => if existsb (Nat.eqb j) (boundary_indices n_relevant visits) then [(i, col_idx, j)] else []) (combine (seq 1 (length (row i) - 1)) (tl (row i)))) -> fst (fst x) = i).
    { intros i x I. destruct (Nat.leb n_owned i); [destruct I|]. destruct (Nat.eqb (length (row i)) 1); [destruct I|]. apply in_flat_map in I. destruct I as ([c j] & _ & I).
      destruct (existsb _ _); [|destruct I]. destruct I as [<-|[]]. reflexivity. }
    intros a b x _ _ I I'. rewrite <- (G a x I). apply G. exact I'.
Qed.

Lemma C56_symmetric_proof n_owned n_relevant row visits i j : i < n_owned -> j < n_owned ->
  (forall i j, i < n_owned -> j < n_owned -> In j (tl (row i)) -> In i (tl (row j))) ->
  (exists c, In (i, c, j) (collect_coupling_boundary_pairs n_owned n_relevant row visits)) <->
  (exists c, In (j, c, i) (collect_coupling_boundary_pairs n_owned n_relevant row visits)).
Proof.
  intros Hi Hj Sym.
  assert (T : forall (r : list nat) x, In x (tl r) <-> exists c, 1 <= c /\ nth_error r c = Some x).
  { intros [|a r] x; cbn; [split; [intros []|intros (c & L & E); destruct c; discriminate]|]. split.
    - intros I. apply In_nth_error in I. destruct I as (c & E). exists (S c). split; [lia|exact E].
    - intros (c & L & E). destruct c; [lia|]. apply (nth_error_In _ c). exact E. }
  assert (G : forall i j, i < n_owned -> j < n_owned -> (exists c, In (i, c, j) (collect_coupling_boundary_pairs n_owned n_relevant row visits)) ->
     exists c, In (j, c, i) (collect_coupling_boundary_pairs n_owned n_relevant row visits)).
  { clear i j Hi Hj. intros i j Hi Hj (c & H). apply C56_exact_proof in H. destruct H as (_ & Bi & Bj & C & E).
    assert (I : In j (tl (row i))) by (apply T; eauto). apply (Sym i j Hi Hj) in I. apply T in I. destruct I as (c' & C' & E'). exists c'. apply C56_exact_proof. auto. }
  split; apply G; assumption.
Qed.

(** ** Examples *)
Local Open Scope R_scope.
Definition v2 (a b : R) : vec := fun x => match x with O => a | S O => b | _ => 0 end.
Definition v3 (a b c : R) : vec := fun x => match x with O => a | S O => b | S (S O) => c | _ => 0 end.

(** A visit of a boundary face with one quadrature point. *)
Definition bvisit (index id : nat) (m : R) (n : vec) : visit := Visit false true true id [(1, m, n)] index 4 (fun _ => 0).

(** Three faces of a vertex in three dimensions: two orthogonal ones and the bevel
    between them, which is within 60 degrees of both. *)
Definition bevel : list visit := [bvisit 0 id_slip 1 (v3 1 0 0); bvisit 0 id_slip 1 (v3 0 1 0); bvisit 0 id_slip 1 (v3 1 1 0)].

Lemma acute_true dim a b : 0 < norm2 dim a -> 0 < norm2 dim b -> 0 < dot dim a b -> norm2 dim a * norm2 dim b < 4 * (dot dim a b * dot dim a b) -> acute dim a b = true.
Proof.
  intros Ha Hb Hd H. unfold acute, norm. destruct (Rgt_dec _ _) as [|G]; [reflexivity|]. exfalso. apply G. clear G.
  pose proof (sqrt_lt_R0 _ Ha). pose proof (sqrt_lt_R0 _ Hb). pose proof (sqrt_sqrt _ (Rlt_le _ _ Ha)) as Sa. pose proof (sqrt_sqrt _ (Rlt_le _ _ Hb)) as Sb.
  set (u := sqrt (norm2 dim a)) in *. set (v := sqrt (norm2 dim b)) in *. set (d := dot dim a b) in *.
  replace (d / u / v) with (d * / (u * v)) by (field; lra). assert (0 < u * v) by nra. apply Rlt_gt, (Rmult_lt_reg_r (u * v)); [lra|]. rewrite Rmult_assoc, Rinv_l, Rmult_1_r by lra.
  assert ((u * v) * (u * v) < (2 * d) * (2 * d)) by (rewrite <- Sa, <- Sb in H; nra). assert (u * v < 2 * d) by nra. lra.
Qed.

Lemma acute_false dim a b : 0 < norm2 dim a -> 0 < norm2 dim b -> dot dim a b <= 0 -> acute dim a b = false.
Proof.
  intros Ha Hb Hd. unfold acute, norm. destruct (Rgt_dec _ _) as [G|]; [|reflexivity]. exfalso.
  pose proof (sqrt_lt_R0 _ Ha) as H. pose proof (sqrt_lt_R0 _ Hb) as H0.
  set (u := sqrt (norm2 dim a)) in *. set (v := sqrt (norm2 dim b)) in *. set (d := dot dim a b) in *.
  replace (d / u / v) with (d * / (u * v)) in G by (field; lra). assert (0 < u * v) by nra. apply (Rmult_gt_compat_r (u * v)) in G; [|lra]. rewrite Rmult_assoc, Rinv_l, Rmult_1_r in G by lra. nra.
Qed.

Lemma bevel_out eps : map d_boundary_mass (construct_boundary_map 3 eps 1 bevel) = [1 + 1; 1 + 1].
Proof.
  set (n1 := face_normal [(1, 1, v3 1 0 0)]). set (n2 := face_normal [(1, 1, v3 0 1 0)]). set (n3 := face_normal [(1, 1, v3 1 1 0)]).
  assert (A12 : acute 3 n1 n2 = false) by (apply acute_false; cbv [n1 n2 face_normal fold_left vadd vscal v3 norm2 dot]; cbn; lra).
  assert (A13 : acute 3 n1 n3 = true) by (apply acute_true; cbv [n1 n3 face_normal fold_left vadd vscal v3 norm2 dot]; cbn; lra).
  assert (A23 : acute 3 n2 n3 = true) by (apply acute_true; cbv [n2 n3 face_normal fold_left vadd vscal v3 norm2 dot]; cbn; lra).
  unfold construct_boundary_map, preliminary_map, bevel. cbn [fold_left]. unfold relevant, bvisit, contribution_of.
  cbn [v_artificial v_at_boundary v_id v_support v_index v_row_length v_quadrature v_position Nat.eqb Nat.ltb Nat.leb negb andb id_slip id_periodic multimap_insert].
  fold n1 n2 n3. assert (M : forall n, face_mass [(1, 1, n)] = 1) by (intros n; unfold face_mass; cbn; lra). rewrite !M.
  unfold filtered_map. change id_slip with 2%nat. cbn [fold_left filter_entry merge_loop b_id b_normal b_mass b_normal_mass b_position Nat.eqb negb multimap_insert Nat.leb andb].
  rewrite A12. cbn [fold_left filter_entry merge_loop b_id b_normal b_mass b_normal_mass b_position Nat.eqb negb multimap_insert Nat.leb andb].
  rewrite A13, A23. reflexivity.
Qed.

Lemma C55_once_refuted_proof : exists eps n visits,
  0 < eps /\ (forall e, In e (contributions n visits) -> 0 < b_mass (snd e)) /\ (forall v, In v visits -> v_id v = id_slip) /\
  lsum d_boundary_mass (construct_boundary_map 3 eps n visits) <> lsum (fun e => b_mass (snd e)) (contributions n visits).
Proof.
  exists 1, 1%nat, bevel. split; [lra|]. split; [|split].
  - intros e [<-|[<-|[<-|[]]]]; cbn; lra.
  - intros v [<-|[<-|[<-|[]]]]; reflexivity.
  - replace (lsum d_boundary_mass (construct_boundary_map 3 1 1 bevel)) with (lsum (fun x => x) (map d_boundary_mass (construct_boundary_map 3 1 1 bevel))).
    2:{ rewrite lsum_map. reflexivity. }
    rewrite bevel_out. cbn. lra.
Qed.

(** A corner of a square: two slip walls. *)
Definition corner : list visit := [bvisit 0 id_slip 1 (v2 1 0); bvisit 1 id_slip 1 (v2 1 0); bvisit 0 id_slip 1 (v2 0 1)].

(** A vertex of a box: three slip walls, the first of them with two faces. *)
Definition box_vertex : list visit :=
  [bvisit 0 id_slip 1 (v3 1 0 0); bvisit 0 id_slip 2 (v3 0 1 0); bvisit 0 id_slip 1 (v3 1 0 0); bvisit 0 id_slip 1 (v3 0 0 1)].
Definition axis (a : nat) : vec := fun x => if Nat.eqb x a then 1 else 0.
Definition box_ray (b : boundary_data) : nat := if Rlt_dec 0 (b_normal b 0%nat) then 0%nat else if Rlt_dec 0 (b_normal b 1%nat) then 1%nat else 2%nat.

Lemma box_rays : on_rays 3 axis box_ray (contributions 1 box_vertex).
Proof.
  assert (G : forall e, In e (contributions 1 box_vertex) -> exists a c, (a < 3)%nat /\ 0 < c /\ box_ray (snd e) = a /\ forall x, (x < 3)%nat -> b_normal (snd e) x = c * axis a x).
  { assert (N : forall i id m a b c x, b_normal (snd (v_index (bvisit i id m (v3 a b c)), BData (normal_of (v_quadrature (bvisit i id m (v3 a b c)))) 0 0 0 (v3 0 0 0))) x = m * v3 a b c x).
    { intros. cbn. unfold normal_of. cbn. ring. }
    intros e [<-|[<-|[<-|[<-|[]]]]]; cbn [snd b_normal] in N |- *; unfold box_ray; cbn [b_normal]; rewrite !N; cbn [v3].
    all: repeat match goal with |- context [Rlt_dec 0 ?t] => (let H := fresh in assert (H : 0 < t) by lra; destruct (Rlt_dec 0 t); [clear H|contradiction]) || (destruct (Rlt_dec 0 t); [exfalso; lra|]) end.
    - exists 0%nat, 1. split; [lia|]. split; [lra|]. split; [reflexivity|]. intros x Hx. rewrite N. destruct x as [|[|[|x]]]; try lia; unfold axis; cbn; lra.
    - exists 1%nat, 2. split; [lia|]. split; [lra|]. split; [reflexivity|]. intros x Hx. rewrite N. destruct x as [|[|[|x]]]; try lia; unfold axis; cbn; lra.
    - exists 0%nat, 1. split; [lia|]. split; [lra|]. split; [reflexivity|]. intros x Hx. rewrite N. destruct x as [|[|[|x]]]; try lia; unfold axis; cbn; lra.
    - exists 2%nat, 1. split; [lia|]. split; [lra|]. split; [reflexivity|]. intros x Hx. rewrite N. destruct x as [|[|[|x]]]; try lia; unfold axis; cbn; lra. }
  split; [|split].
  - intros e I. destruct (G e I) as (a & c & A & _ & -> & _). destruct a as [|[|[|a]]]; try lia; unfold norm2, dot, axis; cbn; lra.
  - intros e e' I I'. destruct (G e I) as (a & _ & A & _ & -> & _). destruct (G e' I') as (b & _ & B & _ & -> & _). intros N.
    destruct a as [|[|[|a]]], b as [|[|[|b]]]; try lia; unfold dot, axis; cbn; lra.
  - intros e I. destruct (G e I) as (a & c & A & C & -> & E). exists c. auto.
Qed.

Lemma C55_indices_proof dim eps n visits k : 0 < eps ->
  In k (map d_index (construct_boundary_map dim eps n visits)) <-> exists e, In e (contributions n visits) /\ fst e = k.
Proof.
  intros He. destruct (groups_proof dim eps n visits He) as (l & groups & P & F & Cov & _). split.
  - intros I. apply in_map_iff in I. destruct I as (d & <- & I). clear Cov.
    assert (G : exists mem, mem <> [] /\ forall q, In q mem -> exists e, nth_error l q = Some e /\ fst e = d_index d).
    { induction F as [|d' mem out groups H F IH]; [destruct I|]. destruct I as [->|I]; [|apply IH; exact I]. exists mem. destruct H as (N & _ & C & _). split; [exact N|].
      intros q Iq. destruct (C q Iq) as (e & E1 & E2 & _). eauto. }
    destruct G as ([|q mem] & N & C); [contradiction|]. destruct (C q (or_introl eq_refl)) as (e & E1 & E2). exists e. split; [|exact E2]. apply (Permutation_in _ P). apply (nth_error_In _ q). exact E1.
  - intros (e & I & <-). apply (Permutation_in _ (Permutation_sym P)) in I. apply In_nth_error in I. destruct I as (q & E).
    assert (Q : (q < length l)%nat) by (apply nth_error_Some; congruence). destruct (Cov q Q) as (mem & Im & Iq). clear Cov.
    induction F as [|d mem' out groups H F IH]; [destruct Im|]. destruct Im as [->|Im]; [|right; apply IH; exact Im]. left.
    destruct H as (_ & _ & C & _). destruct (C q Iq) as (e' & E1 & E2 & _). congruence.
Qed.

Lemma C87_level_proof dim eps n row_length visits k : 0 < eps -> (k < n)%nat -> row_length k <> 1%nat ->
  (exists v, In v visits /\ v_index v = k /\ v_at_boundary v = true /\ v_support v = true /\ v_artificial v = false /\ v_id v <> id_periodic) ->
  In k (map d_index (level_boundary_map dim eps n row_length visits)).
Proof.
  intros He Hk Hr (v & I & E & A1 & A2 & A3 & A4). unfold level_boundary_map. apply C55_indices_proof; [exact He|].
  set (w := Visit (v_artificial v) (v_at_boundary v) (v_support v) (v_id v) (v_quadrature v) (v_index v) (row_length (v_index v)) (v_position v)).
  eexists. split.
  - unfold contributions. apply (in_map _ _ w). apply filter_In. split; [apply in_map_iff; exists v; split; [reflexivity|exact I]|].
    unfold contributes, w. cbn. rewrite A1, A2, A3, E. apply Nat.eqb_neq in A4, Hr. unfold id_periodic in A4. rewrite A4, Hr. cbn. rewrite andb_true_r. apply Nat.ltb_lt. exact Hk.
  - exact E.
Qed.

Lemma C87_complete_refuted_proof : exists n row_length visits k n_level, (k < n_level)%nat /\ (n_level <= n)%nat /\
  (forall i, (1 <= row_length i)%nat) /\ In k (map v_index visits) /\ (forall v, In v visits -> v_at_boundary v = true /\ v_support v = true /\ v_artificial v = false /\ v_id v = id_slip /\ (v_index v < n_level)%nat) /\
  forall dim eps, ~ In k (map d_index (level_boundary_map dim eps n row_length visits)).
Proof.
  exists 4%nat, (fun i => if Nat.eqb i 1 then 1%nat else 4%nat), [bvisit 0 id_slip 1 (v2 1 0); bvisit 1 id_slip 1 (v2 1 0)], 1%nat, 2%nat.
  split; [lia|]. split; [lia|]. split; [intros i; destruct (Nat.eqb i 1); lia|]. split; [cbn; auto|]. split; [intros v [<-|[<-|[]]]; cbn; repeat split; lia|].
  intros dim eps. cbn. intros [E|[]]. discriminate.
Qed.

Lemma C87_owned_refuted_proof : exists n row_length visits k n_level, (n_level <= k)%nat /\
  (forall i, (2 <= row_length i)%nat) /\ (forall v, In v visits -> v_at_boundary v = true /\ v_support v = true /\ v_artificial v = false /\ v_id v = id_slip) /\
  forall dim eps, In k (map d_index (level_boundary_map dim eps n row_length visits)).
Proof.
  exists 4%nat, (fun _ => 4%nat), [bvisit 2 id_slip 1 (v2 1 0)], 2%nat, 2%nat.
  split; [lia|]. split; [intros; lia|]. split; [intros v [<-|[]]; cbn; auto|]. intros dim eps. cbn. auto.
Qed.
