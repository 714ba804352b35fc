(** * The boundary map: proofs *)
From Coq Require Import Reals Arith List Bool Lia Lra Psatz Permutation.
From Verif Require Import RVec SchemeSpec SchemeProofs BoundaryMap BoundaryMapSpec.
Import ListNotations.
Local Open Scope R_scope.

(** ** The multimap *)
Lemma insert_perm {A} k (a : A) l : Permutation (multimap_insert k a l) ((k, a) :: l).
Proof.
  induction l as [|[k' a'] l IH]; cbn; [reflexivity|]. destruct (Nat.leb k' k); [|reflexivity].
  rewrite IH. apply perm_swap.
Qed.

Lemma face_mass_eq q : face_mass q = mass_of q.
Proof.
  unfold face_mass, mass_of. assert (G : forall q s, fold_left (fun s '(phi, JxW, _) => s + phi * JxW) q s = s + lsum (fun '(phi, JxW, _) => phi * JxW) (q : list (R * R * vec))).
  { induction q0 as [|[[phi J] nn] q0 IH]; intros s; cbn; [ring|]. rewrite IH. ring. }
  rewrite G. ring.
Qed.

Lemma face_normal_eq q : face_normal q = normal_of q.
Proof.
  apply FunctionalExtensionality.functional_extensionality. intros x. unfold face_normal, normal_of.
  assert (G : forall q s, fold_left (fun s '(phi, JxW, n) => vadd s (vscal (phi * JxW) n)) q s x = s x + lsum (fun '(phi, JxW, n) => phi * JxW * n x) (q : list (R * R * vec))).
  { induction q0 as [|[[phi J] nn] q0 IH]; intros s; cbn; [ring|]. rewrite IH. unfold vadd, vscal. ring. }
  rewrite G. ring.
Qed.

Lemma contribution_eq v : contribution_of v = BData (normal_of (v_quadrature v)) (mass_of (v_quadrature v)) (mass_of (v_quadrature v)) (v_id v) (v_position v).
Proof. unfold contribution_of. rewrite face_mass_eq, face_normal_eq. reflexivity. Qed.

Lemma relevant_eq n v : relevant n v = contributes n v.
Proof. unfold relevant, contributes, id_periodic. destruct (v_artificial v), (v_at_boundary v), (v_support v), (Nat.eqb (v_id v) 1); reflexivity. Qed.

Lemma contributions_eq n visits : contributions n visits = map (fun v => (v_index v, contribution_of v)) (filter (relevant n) visits).
Proof.
  unfold contributions. rewrite (filter_ext _ _ (relevant_eq n)). apply map_ext. intros v. rewrite contribution_eq. reflexivity.
Qed.

Lemma preliminary_perm n visits : Permutation (preliminary_map n visits) (contributions n visits).
Proof.
  rewrite contributions_eq. unfold preliminary_map.
  assert (G : forall l m, Permutation (fold_left (fun m v => if relevant n v then multimap_insert (v_index v) (contribution_of v) m else m) l m)
                                      (m ++ map (fun v => (v_index v, contribution_of v)) (filter (relevant n) l))).
  { induction l as [|v l IH]; intros m; cbn [fold_left filter]; [rewrite app_nil_r; reflexivity|]. rewrite IH.
    destruct (relevant n v); [|reflexivity]. cbn [map]. rewrite insert_perm. cbn. apply Permutation_middle. }
  apply (G visits []).
Qed.

Lemma NoDup_app_intro_one {A} (l : list A) a : NoDup l -> ~ In a l -> NoDup (l ++ [a]).
Proof.
  intros H N. apply (Permutation_NoDup (l := a :: l)); [apply Permutation_cons_append|]. constructor; assumption.
Qed.

(** ** The filter with a record of the members of each entry *)
Section Filter.
Variable dim : nat.

(** A group: key, data, members (positions in the preliminary map). *)
Definition group := (nat * boundary_data * list nat)%type.
Definition erase (g : group) : nat * boundary_data := fst g.

Fixpoint merge_rec (p k : nat) (new : boundary_data) (new_id : nat) (inserted : bool) (l : list group) : nat * bool * list group :=
  match l with
  | [] => (new_id, inserted, [])
  | (k', b, mem) :: r =>
      let '(b', mem', new_id', inserted') :=
        if negb (Nat.eqb k' k) then (b, mem, new_id, inserted)
        else if negb (Nat.eqb (b_id b) new_id) then (b, mem, new_id, inserted)
        else if acute dim (b_normal b) (b_normal new) then
          (BData (vadd (b_normal b) (b_normal new)) (b_normal_mass b) (b_mass b + b_mass new) (b_id b) (b_position b), mem ++ [p], new_id, true)
        else if Nat.eqb dim 2 && Nat.eqb new_id id_slip then
          (BData (b_normal b) (b_normal_mass b) (b_mass b) id_no_slip (b_position b), mem, id_no_slip, inserted)
        else (b, mem, new_id, inserted) in
      let '(new_id'', inserted'', r') := merge_rec p k new new_id' inserted' r in
      (new_id'', inserted'', (k', b', mem') :: r')
  end.

Fixpoint insert_rec (k : nat) (a : boundary_data) (mem : list nat) (l : list group) : list group :=
  match l with
  | [] => [(k, a, mem)]
  | (k', a', m') :: r => if Nat.leb k' k then (k', a', m') :: insert_rec k a mem r else (k, a, mem) :: (k', a', m') :: r
  end.

Definition entry_rec (p : nat) (m : list group) (e : nat * boundary_data) : list group :=
  let '(k, new) := e in
  let '(new_id, inserted, m') := merge_rec p k new (b_id new) false m in
  if inserted then m' else insert_rec k (BData (b_normal new) (b_normal_mass new) (b_mass new) new_id (b_position new)) [p] m'.

Fixpoint filter_rec (p : nat) (l : list (nat * boundary_data)) (m : list group) : list group :=
  match l with [] => m | e :: r => filter_rec (S p) r (entry_rec p m e) end.

Lemma merge_erase p k new : forall l id ins,
  merge_loop dim k new id ins (map erase l) =
  let '(id', ins', l') := merge_rec p k new id ins l in (id', ins', map erase l').
Proof using Type.
  induction l as [|[[k' b] mem] l IH]; intros id ins; [reflexivity|]. cbn [merge_rec map erase fst merge_loop].
  destruct (negb (Nat.eqb k' k)); [|destruct (negb (Nat.eqb (b_id b) id)); [|destruct (acute dim (b_normal b) (b_normal new)); [|destruct (Nat.eqb dim 2 && Nat.eqb id id_slip)]]];
    rewrite IH; match goal with |- context [merge_rec p k new ?i ?s l] => destruct (merge_rec p k new i s l) as [[? ?] ?] end; reflexivity.
Qed.

Lemma insert_erase k a mem l : map erase (insert_rec k a mem l) = multimap_insert k a (map erase l).
Proof using Type.
  induction l as [|[[k' b] m'] l IH]; [reflexivity|]. cbn [insert_rec map erase fst multimap_insert]. destruct (Nat.leb k' k); cbn [map erase fst]; [|reflexivity].
  rewrite IH. reflexivity.
Qed.

Lemma entry_erase p m e : map erase (entry_rec p m e) = filter_entry dim (map erase m) e.
Proof using Type.
  destruct e as [k new]. unfold entry_rec, filter_entry. rewrite (merge_erase p). destruct (merge_rec p k new (b_id new) false m) as [[id ins] m'].
  destruct ins; [reflexivity|]. apply insert_erase.
Qed.

Lemma filter_erase : forall l p m, map erase (filter_rec p l m) = fold_left (filter_entry dim) l (map erase m).
Proof using Type. induction l as [|e l IH]; intros p m; cbn; [reflexivity|]. rewrite IH, entry_erase. reflexivity. Qed.

Lemma insert_rec_perm k a mem l : Permutation (insert_rec k a mem l) ((k, a, mem) :: l).
Proof using Type.
  induction l as [|[[k' a'] m'] l IH]; cbn; [reflexivity|]. destruct (Nat.leb k' k); [|reflexivity]. rewrite IH. apply perm_swap.
Qed.

(** ** What holds of each group *)
Variable contr : list (nat * boundary_data).

Notation same_id := (same_id dim).

Definition good_group (n : nat) (g : group) : Prop :=
  let '(k, b, mem) := g in
  mem <> [] /\ NoDup mem /\
  (forall q, In q mem -> (q < n)%nat /\ exists e, nth_error contr q = Some e /\ fst e = k /\ same_id (b_id (snd e)) (b_id b)) /\
  b_mass b = lsum (fun q => match nth_error contr q with Some e => b_mass (snd e) | None => 0 end) mem /\
  (forall x, b_normal b x = lsum (fun q => match nth_error contr q with Some e => b_normal (snd e) x | None => 0 end) mem).

Lemma lsum_app {A} (f : A -> R) l m : lsum f (l ++ m) = lsum f l + lsum f m.
Proof using Type. induction l as [|a l IH]; cbn; [ring|]. rewrite IH. ring. Qed.

Lemma good_mono n n' g : (n <= n')%nat -> good_group n g -> good_group n' g.
Proof using Type.
  destruct g as [[k b] mem]. intros H (A & B & C & D). split; [exact A|split; [exact B|split; [|exact D]]].
  intros q Hq. destruct (C q Hq) as [C1 C2]. split; [lia|exact C2].
Qed.

(** Counting: the number of groups that contain a position. *)
Definition holds (q : nat) (g : group) : bool := existsb (Nat.eqb q) (snd g).
Definition count (q : nat) (m : list group) : nat := length (filter (holds q) m).

(** One pass over the groups. *)
Lemma merge_good p k new : nth_error contr p = Some (k, new) ->
  forall l id ins id' ins' l', merge_rec p k new id ins l = (id', ins', l') ->
  same_id (b_id new) id -> (forall g, In g l -> good_group p g) ->
  same_id (b_id new) id' /\ (forall g, In g l' -> good_group (S p) g) /\
  map (fun g => fst (fst g)) l' = map (fun g => fst (fst g)) l /\
  (forall q, q <> p -> count q l' = count q l) /\
  (count p l' <= length (filter (fun g => Nat.eqb (fst (fst g)) k) l))%nat /\
  ((0 < count p l')%nat -> ins' = true) /\ (ins' = true -> ins = true \/ (0 < count p l')%nat) /\ (ins = true -> ins' = true).
Proof using Type.
  intros Hp. induction l as [|[[k' b] mem] l IH]; intros id ins id' ins' l' H Hid Hl.
  - injection H as <- <- <-. cbn. repeat split; auto; try tauto; try lia.
  - assert (Hg := Hl _ (or_introl eq_refl)). assert (Hl' : forall g, In g l -> good_group p g) by (intros g I; apply Hl; right; exact I).
    assert (Np : holds p (k', b, mem) = false).
    { unfold holds. cbn. destruct (existsb (Nat.eqb p) mem) eqn:E; [|reflexivity]. apply existsb_exists in E. destruct E as (q & I & E).
      apply Nat.eqb_eq in E. subst q. destruct Hg as (_ & _ & C & _). destruct (C p I). lia. }
    cbn [merge_rec] in H.
    assert (KEEP : forall b' id1, good_group p (k', b', mem) -> same_id (b_id new) id1 ->
      (let '(id'', ins'', r') := merge_rec p k new id1 ins l in (id'', ins'', (k', b', mem) :: r')) = (id', ins', l') ->
      same_id (b_id new) id' /\ (forall g, In g l' -> good_group (S p) g) /\
      map (fun g => fst (fst g)) l' = map (fun g => fst (fst g)) ((k', b, mem) :: l) /\
      (forall q, q <> p -> count q l' = count q ((k', b, mem) :: l)) /\
      (count p l' <= length (filter (fun g => Nat.eqb (fst (fst g)) k) ((k', b, mem) :: l)))%nat /\
      ((0 < count p l')%nat -> ins' = true) /\ (ins' = true -> ins = true \/ (0 < count p l')%nat) /\ (ins = true -> ins' = true)).
    { intros b' id1 G1 I1 E. destruct (merge_rec p k new id1 ins l) as [[i2 s2] r2] eqn:M. injection E as <- <- <-.
      destruct (IH _ _ _ _ _ M I1 Hl') as (J1 & J2 & J3 & J4 & J5 & J6 & J7 & J8).
      assert (Cp : count p ((k', b', mem) :: r2) = count p r2).
      { unfold count. cbn [filter]. change (holds p (k', b', mem)) with (holds p (k', b, mem)). rewrite Np. reflexivity. }
      split; [exact J1|]. split; [intros g [<-|I]; [apply (good_mono p); [lia|exact G1]|apply J2; exact I]|].
      split; [cbn; f_equal; exact J3|].
      split; [intros q Hq; specialize (J4 q Hq); unfold count in J4 |- *; cbn [filter]; change (holds q (k', b', mem)) with (holds q (k', b, mem)); destruct (holds q (k', b, mem)); cbn; lia|].
      rewrite Cp. split; [cbn [filter fst]; destruct (Nat.eqb k' k); cbn; lia|]. tauto. }
    destruct (negb (Nat.eqb k' k)) eqn:Ek; [exact (KEEP b id Hg Hid H)|].
    destruct (negb (Nat.eqb (b_id b) id)) eqn:Ei; [exact (KEEP b id Hg Hid H)|].
    apply negb_false_iff, Nat.eqb_eq in Ek. apply negb_false_iff, Nat.eqb_eq in Ei. subst k'.
    destruct (acute dim (b_normal b) (b_normal new)).
    + set (b' := BData _ _ _ _ _) in H.
      assert (G1 : good_group (S p) (k, b', mem ++ [p])).
      { destruct Hg as (A & B & C & D & E). split; [destruct mem; discriminate|]. split.
        - apply NoDup_app_intro_one; [exact B|]. intros I. destruct (C p I). lia.
        - split; [|split].
          + intros q I. apply in_app_iff in I. destruct I as [I|[<-|[]]].
            * destruct (C q I) as [C1 C2]. split; [lia|exact C2].
            * split; [lia|]. exists (k, new). split; [exact Hp|]. split; [reflexivity|]. unfold b'. cbn. rewrite Ei. exact Hid.
          + unfold b'. cbn [b_mass]. rewrite lsum_app, <- D. cbn. rewrite Hp. cbn. ring.
          + intros x. unfold b'. cbn [b_normal]. unfold vadd. rewrite lsum_app, <- E. cbn. rewrite Hp. cbn. ring. }
      destruct (merge_rec p k new id true l) as [[i2 s2] r2] eqn:M. injection H as <- <- <-.
      destruct (IH _ _ _ _ _ M Hid Hl') as (J1 & J2 & J3 & J4 & J5 & J6 & J7 & J8).
      assert (Hh : holds p (k, b', mem ++ [p]) = true). { unfold holds. cbn [snd]. rewrite existsb_app. cbn. rewrite Nat.eqb_refl. destruct (existsb (Nat.eqb p) mem); reflexivity. }
      split; [exact J1|]. split; [intros g [<-|I]; [exact G1|apply J2; exact I]|].
      split; [cbn; f_equal; exact J3|].
      split.
      { intros q Hq. specialize (J4 q Hq). unfold count in J4 |- *. cbn [filter].
        assert (Hs : holds q (k, b', mem ++ [p]) = holds q (k, b, mem)).
        { unfold holds. cbn [snd]. rewrite existsb_app. cbn. destruct (Nat.eqb_spec q p); [contradiction|]. rewrite !orb_false_r. reflexivity. }
        rewrite Hs. destruct (holds q (k, b, mem)); cbn; lia. }
      assert (Cp : count p ((k, b', mem ++ [p]) :: r2) = S (count p r2)) by (unfold count; cbn [filter]; rewrite Hh; reflexivity).
      rewrite Cp. split; [cbn [filter fst]; rewrite Nat.eqb_refl; cbn; lia|].
      split; [intros _; apply J8; reflexivity|]. split; [intros _; right; lia|]. intros _. apply J8. reflexivity.
    + destruct (Nat.eqb dim 2 && Nat.eqb id id_slip) eqn:Ed; [|exact (KEEP b id Hg Hid H)].
      apply andb_true_iff in Ed. destruct Ed as [E1 E2]. apply Nat.eqb_eq in E1, E2.
      apply (KEEP _ _) in H; [exact H| |].
      * destruct Hg as (A & B & C & D & E). split; [exact A|]. split; [exact B|]. split; [|split; [exact D|exact E]].
        intros q I. destruct (C q I) as (C1 & e & C2 & C3 & C4). split; [exact C1|]. exists e. split; [exact C2|]. split; [exact C3|].
        cbn [b_id]. rewrite Ei, E2 in C4. destruct C4 as [C4|(C4 & C5 & C6)]; [|discriminate C6]. right. rewrite C4. auto.
      * rewrite E2 in Hid. destruct Hid as [Hid|(_ & _ & Hid)]; [|discriminate Hid]. right. rewrite Hid. auto.
Qed.

Notation key g := (fst (fst g)).
Definition kcount (k : nat) (m : list group) : nat := length (filter (fun g => Nat.eqb (key g) k) m).

Lemma kcount_map k m m' : map (fun g : group => key g) m = map (fun g : group => key g) m' -> kcount k m = kcount k m'.
Proof using Type.
  unfold kcount. revert m'. induction m as [|g m IH]; intros [|g' m'] H; try discriminate; [reflexivity|]. cbn in H. injection H as H1 H2.
  cbn [filter]. rewrite H1. destruct (Nat.eqb (key g') k); cbn; rewrite (IH _ H2); reflexivity.
Qed.

Lemma perm_filter_length {A} (f : A -> bool) l m : Permutation l m -> length (filter f l) = length (filter f m).
Proof using Type.
  intros H. induction H; cbn; [reflexivity| | |lia].
  - destruct (f x); cbn; lia.
  - destruct (f x), (f y); cbn; lia.
Qed.

Definition state_ok (p : nat) (m : list group) : Prop :=
  (forall g, In g m -> good_group p g) /\ (forall q, (q < p)%nat -> (1 <= count q m)%nat) /\ (forall k, (kcount k m <= ccount k (firstn p contr))%nat) /\ ((forall k, (ccount k contr <= 2)%nat) -> forall q, (q < p)%nat -> count q m = 1%nat).

Lemma firstn_snoc {A} (l : list A) p a : nth_error l p = Some a -> firstn (S p) l = firstn p l ++ [a].
Proof using Type.
  revert l. induction p as [|p IH]; intros [|x l] H; try discriminate; cbn in H |- *; [congruence|]. f_equal. apply IH. exact H.
Qed.

Lemma ccount_app k a b : ccount k (a ++ b) = (ccount k a + ccount k b)%nat.
Proof using Type. unfold ccount. rewrite filter_app, app_length. reflexivity. Qed.

Lemma count_zero p m : (forall g, In g m -> good_group p g) -> count p m = 0%nat.
Proof using Type.
  intros H. unfold count. induction m as [|g m IH]; [reflexivity|]. cbn [filter].
  assert (N : holds p g = false).
  { destruct g as [[k b] mem]. unfold holds. cbn. destruct (existsb (Nat.eqb p) mem) eqn:E; [|reflexivity]. apply existsb_exists in E. destruct E as (q & I & E).
    apply Nat.eqb_eq in E. subst q. destruct (H _ (or_introl eq_refl)) as (_ & _ & C & _). destruct (C p I). lia. }
  rewrite N. apply IH. intros g' I. apply H. right. exact I.
Qed.

Lemma entry_ok p m e : nth_error contr p = Some e -> state_ok p m -> state_ok (S p) (entry_rec p m e).
Proof using Type.
  intros Hp (I1 & I2 & I3 & I4). destruct e as [k new]. unfold entry_rec.
  destruct (merge_rec p k new (b_id new) false m) as [[id ins] m'] eqn:M.
  destruct (merge_good p k new Hp _ _ _ _ _ _ M (or_introl eq_refl) I1) as (J1 & J2 & J3 & J4 & J5 & J6 & J7 & _).
  assert (F : firstn (S p) contr = firstn p contr ++ [(k, new)]) by (apply firstn_snoc; exact Hp).
  assert (K : forall k0, kcount k0 m' = kcount k0 m) by (intros; apply kcount_map; exact J3).
  destruct ins.
  - destruct (J7 eq_refl) as [|Cp]; [discriminate|]. split; [exact J2|]. split; [|split].
    + intros q Hq. destruct (Nat.eq_dec q p) as [->|N]; [lia|]. rewrite (J4 q N). apply I2. lia.
    + intros k0. rewrite F, ccount_app, K. specialize (I3 k0). lia.
    + intros Two q Hq. destruct (Nat.eq_dec q p) as [->|N]; [|rewrite (J4 q N); apply I4; [exact Two|lia]].
      fold (kcount k m) in J5. specialize (I3 k). specialize (Two k).
      assert (ccount k (firstn (S p) contr) <= ccount k contr)%nat.
      { rewrite <- (firstn_skipn (S p) contr) at 2. rewrite ccount_app. lia. }
      rewrite F, ccount_app in H. assert (E1 : ccount k [(k, new)] = 1%nat) by (unfold ccount; cbn; rewrite Nat.eqb_refl; reflexivity). lia.
  - assert (C0 : count p m' = 0%nat). { destruct (count p m') eqn:E; [reflexivity|]. assert (false = true) by (apply J6; lia). discriminate. }
    set (g := (k, BData (b_normal new) (b_normal_mass new) (b_mass new) id (b_position new), [p]) : group).
    pose proof (insert_rec_perm k (BData (b_normal new) (b_normal_mass new) (b_mass new) id (b_position new)) [p] m') as P. fold g in P.
    assert (Hg : good_group (S p) g).
    { split; [discriminate|]. split; [constructor; [intros []|constructor]|]. split; [|split].
      - intros q [<-|[]]. split; [lia|]. exists (k, new). split; [exact Hp|]. split; [reflexivity|exact J1].
      - cbn. rewrite Hp. cbn. ring.
      - intros x. cbn. rewrite Hp. cbn. ring. }
    assert (Cq : forall q, count q (insert_rec k (BData (b_normal new) (b_normal_mass new) (b_mass new) id (b_position new)) [p] m') = (count q m' + (if Nat.eqb q p then 1 else 0))%nat).
    { intros q. unfold count. rewrite (perm_filter_length _ _ _ P). cbn [filter]. unfold g at 1, holds at 1. cbn. rewrite orb_false_r. destruct (Nat.eqb q p); cbn; lia. }
    split; [|split; [|split]].
    + intros g' I. apply (Permutation_in _ P) in I. destruct I as [<-|I]; [exact Hg|apply J2; exact I].
    + intros q Hq. rewrite Cq. destruct (Nat.eqb_spec q p) as [->|N]; [lia|]. rewrite (J4 q N). specialize (I2 q). lia.
    + intros k0. rewrite F, ccount_app.
      assert (Kg : kcount k0 (insert_rec k (BData (b_normal new) (b_normal_mass new) (b_mass new) id (b_position new)) [p] m') = (kcount k0 m' + (if Nat.eqb k k0 then 1 else 0))%nat).
      { unfold kcount. rewrite (perm_filter_length _ _ _ P). unfold g. cbn [filter fst]. destruct (Nat.eqb k k0); [rewrite Nat.add_comm|rewrite Nat.add_0_r]; reflexivity. }
      assert (Kc : ccount k0 [(k, new)] = if Nat.eqb k k0 then 1%nat else 0%nat) by (unfold ccount; cbn; destruct (Nat.eqb k k0); reflexivity).
      rewrite Kg, Kc, K. specialize (I3 k0). lia.
    + intros Two q Hq. rewrite Cq. destruct (Nat.eqb_spec q p) as [->|N]; [lia|]. rewrite (J4 q N), I4; [lia|exact Two|lia].
Qed.

Lemma filter_ok : forall l p m, (forall i e, nth_error l i = Some e -> nth_error contr (p + i) = Some e) -> state_ok p m ->
  state_ok (p + length l) (filter_rec p l m).
Proof using Type.
  induction l as [|e l IH]; intros p m H I; cbn; [rewrite Nat.add_0_r; exact I|]. replace (p + S (length l))%nat with (S p + length l)%nat by lia.
  apply IH.
  - intros i e' Hi. replace (S p + i)%nat with (p + S i)%nat by lia. apply H. exact Hi.
  - apply entry_ok; [|exact I]. specialize (H 0%nat e eq_refl). rewrite Nat.add_0_r in H. exact H.
Qed.

Lemma filtered_ok : state_ok (length contr) (filter_rec 0 contr []).
Proof using Type.
  apply (filter_ok contr 0 []); [intros i e H; exact H|]. split; [intros g []|]. split; [intros; lia|]. split; [intros; cbn; lia|intros; lia].
Qed.
End Filter.
