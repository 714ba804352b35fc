(** * The boundary map: faces of finitely many directions, corners, coupling pairs *)
From Coq Require Import Reals Arith List Bool Lia Lra Psatz Permutation Sorted.
From Verif Require Import RVec SchemeSpec SchemeProofs BoundaryMap BoundaryMapSpec BoundaryMapProofs BoundaryMapFinal.
Import ListNotations.
Local Open Scope R_scope.

Lemma key_eqb_eq a b : key_eqb a b = true <-> a = b.
Proof.
  destruct a as [[a1 a2] a3], b as [[b1 b2] b3]. unfold key_eqb. rewrite !andb_true_iff, !Nat.eqb_eq. split.
  - intros [[-> ->] ->]. reflexivity.
  - intros E. injection E as -> -> ->. auto.
Qed.

Lemma dot_ext dim a a' b b' : (forall x, (x < dim)%nat -> a x = a' x) -> (forall x, (x < dim)%nat -> b x = b' x) -> dot dim a b = dot dim a' b'.
Proof.
  unfold dot. revert a a' b b'. induction dim as [|d IH]; intros a a' b b' H1 H2; cbn; [reflexivity|].
  rewrite (IH a a' b b') by (intros x Hx; auto). rewrite H1, H2 by lia. reflexivity.
Qed.

Lemma dot_scal2 dim c c' a b : dot dim (fun x => c * a x) (fun x => c' * b x) = c * c' * dot dim a b.
Proof. unfold dot. induction dim as [|d IH]; cbn; [ring|]. rewrite IH. ring. Qed.

Section Rays.
Variables (dim : nat) (D : nat -> vec) (ray : boundary_data -> nat).
Variable used : nat -> Prop.
Hypothesis D1 : forall a, used a -> norm2 dim (D a) = 1.
Hypothesis D2 : forall a b, used a -> used b -> a <> b -> dot dim (D a) (D b) <= 1 / 2.
Variable slips : bool.
Hypothesis Hs : slips = true -> dim <> 2%nat.

Definition along (v : vec) (a : nat) : Prop := exists c, 0 < c /\ forall x, (x < dim)%nat -> v x = c * D a x.

Lemma norm_along v a c : used a -> 0 < c -> (forall x, (x < dim)%nat -> v x = c * D a x) -> norm dim v = c.
Proof using D1.
  intros Hu Hc H. unfold norm, norm2. rewrite (dot_ext dim v (fun x => c * D a x) v (fun x => c * D a x)) by assumption.
  rewrite dot_scal2. change (dot dim (D a) (D a)) with (norm2 dim (D a)). rewrite D1, Rmult_1_r by exact Hu. apply sqrt_square. lra.
Qed.

Lemma acute_ray v w a b : used a -> used b -> along v a -> along w b -> acute dim v w = Nat.eqb a b.
Proof using D1 D2.
  intros Ua Ub (c & Hc & V) (c' & Hc' & W). unfold acute. rewrite (norm_along v a c Ua Hc V), (norm_along w b c' Ub Hc' W).
  rewrite (dot_ext dim v (fun x => c * D a x) w (fun x => c' * D b x)) by assumption. rewrite dot_scal2.
  replace (c * c' * dot dim (D a) (D b) / c / c') with (dot dim (D a) (D b)) by (field; lra).
  destruct (Nat.eqb_spec a b) as [->|N].
  - change (dot dim (D b) (D b)) with (norm2 dim (D b)). rewrite D1 by exact Ub. destruct (Rgt_dec 1 (1 / 2)); [reflexivity|lra].
  - specialize (D2 a b Ua Ub N). destruct (Rgt_dec _ _); [lra|reflexivity].
Qed.

Definition good_entry (e : nat * boundary_data) : Prop := along (b_normal (snd e)) (ray (snd e)) /\ (b_id (snd e) = id_slip -> slips = true) /\ used (ray (snd e)).

(** An entry of the filtered map holds the sum over its key. *)
Definition holds_sum (P : list (nat * boundary_data)) (e : nat * boundary_data) (key : nat * nat * nat) : Prop :=
  fst e = fst (fst key) /\ b_id (snd e) = snd (fst key) /\ b_mass (snd e) = ray_sum ray key b_mass P /\
  forall x, b_normal (snd e) x = ray_sum ray key (fun b => b_normal b x) P.

Definition occurs (P : list (nat * boundary_data)) (key : nat * nat * nat) : Prop := exists e, In e P /\ ray_key ray e = key.

Lemma ray_sum_snoc key f P e : ray_sum ray key f (P ++ [e]) = ray_sum ray key f P + (if key_eqb (ray_key ray e) key then f (snd e) else 0).
Proof using Type. unfold ray_sum. rewrite lsum_app. cbn. ring. Qed.

Lemma sum_along P key : (forall e, In e P -> good_entry e) -> occurs P key ->
  along (fun x => ray_sum ray key (fun b => b_normal b x) P) (snd key).
Proof using Type.
  intros HP O.
  assert (G : forall Q, (forall e, In e Q -> good_entry e) -> exists c, 0 <= c /\ (occurs Q key -> 0 < c) /\
    forall x, (x < dim)%nat -> ray_sum ray key (fun b => b_normal b x) Q = c * D (snd key) x).
  { induction Q as [|e Q IH]; intros HQ.
    - exists 0. split; [lra|]. split; [intros (e & [] & _)|]. intros x _. cbn. ring.
    - destruct IH as (c & C0 & C1 & C2); [intros e' I; apply HQ; right; exact I|].
      destruct (HQ e (or_introl eq_refl)) as [(c' & Hc' & V) _]. destruct (key_eqb (ray_key ray e) key) eqn:E.
      + exists (c' + c). split; [lra|]. split; [intros _; lra|]. intros x Hx. unfold ray_sum. cbn [lsum]. rewrite E.
        change (lsum _ Q) with (ray_sum ray key (fun b => b_normal b x) Q). rewrite C2, V by exact Hx.
        apply key_eqb_eq in E. rewrite <- E. cbn. ring.
      + exists c. split; [exact C0|]. split.
        * intros (e' & [<-|I] & Ke).
          -- rewrite Ke in E. assert (key_eqb key key = true) by (apply key_eqb_eq; reflexivity). congruence.
          -- apply C1. exists e'. auto.
        * intros x Hx. unfold ray_sum. cbn [lsum]. rewrite E. change (lsum _ Q) with (ray_sum ray key (fun b => b_normal b x) Q). rewrite C2 by exact Hx. ring. }
  destruct (G P HP) as (c & _ & C1 & C2). exists c. split; [apply C1; exact O|exact C2].
Qed.

Lemma merge_rays P k new : (forall e, In e P -> good_entry e) -> good_entry (k, new) ->
  forall m keys, Forall2 (holds_sum P) m keys -> (forall key, In key keys -> occurs P key) -> forall ins,
  exists ins' m', merge_loop dim k new (b_id new) ins m = (b_id new, ins', m') /\
    Forall2 (holds_sum (P ++ [(k, new)])) m' keys /\
    (ins' = true <-> ins = true \/ In (ray_key ray (k, new)) keys).
Proof using D1 D2 Hs.
  intros HP He m keys F. induction F as [|[k' b] key m keys H F IH]; intros Hk ins.
  - exists ins, []. cbn. split; [reflexivity|]. split; [constructor|tauto].
  - assert (Hk' : forall key0, In key0 keys -> occurs P key0) by (intros key0 I; apply Hk; right; exact I).
    specialize (IH Hk'). destruct H as (H1 & H2 & H3 & H4). cbn [fst snd] in H1, H2, H3, H4.
    assert (Al : along (b_normal b) (snd key)).
    { destruct (sum_along P key HP (Hk key (or_introl eq_refl))) as (c & Hc & V). exists c. split; [exact Hc|]. intros x Hx. rewrite H4. apply V. exact Hx. }
    destruct He as (An & Sl & Un). cbn [snd] in An, Sl, Un.
    assert (Uk : used (snd key)). { destruct (Hk key (or_introl eq_refl)) as (e & Ie & <-). apply (HP e Ie). }
    pose proof (acute_ray _ _ _ _ Uk Un Al An) as AC.
    cbn [merge_loop].
    assert (KEEP : key_eqb (ray_key ray (k, new)) key = false ->
      exists ins' m', (let '(new_id'', inserted'', r') := merge_loop dim k new (b_id new) ins m in (new_id'', inserted'', (k', b) :: r')) = (b_id new, ins', m') /\
        Forall2 (holds_sum (P ++ [(k, new)])) m' (key :: keys) /\
        (ins' = true <-> ins = true \/ In (ray_key ray (k, new)) (key :: keys))).
    { intros E. destruct (IH ins) as (ins' & m' & M & F' & I'). rewrite M. exists ins', ((k', b) :: m'). split; [reflexivity|]. split.
      - constructor; [|exact F']. split; [exact H1|]. split; [exact H2|]. split; [|intros x]; rewrite ray_sum_snoc, E; cbn [snd]; [rewrite H3|rewrite H4]; ring.
      - rewrite I'. split; [intros [X|X]; [left; exact X|right; right; exact X]|].
        intros [X|[X|X]]; [left; exact X| |right; exact X]. rewrite X in E. assert (key_eqb (ray_key ray (k, new)) (ray_key ray (k, new)) = true) by (apply key_eqb_eq; reflexivity). congruence. }
    destruct key as [[k0 i0] a0]. cbn [fst snd] in *. subst k' i0.
    assert (NE : (k = k0 /\ b_id new = b_id b /\ ray new = a0 -> False) -> key_eqb (ray_key ray (k, new)) (k0, b_id b, a0) = false).
    { intros X. destruct (key_eqb _ _) eqn:E; [|reflexivity]. apply key_eqb_eq in E. injection E as E1 E2 E3. exfalso. apply X. auto. }
    destruct (Nat.eqb_spec k0 k) as [Ek|Ek]; cbn [negb]; [|apply KEEP, NE; intuition congruence].
    destruct (Nat.eqb_spec (b_id b) (b_id new)) as [Ei|Ei]; cbn [negb]; [|apply KEEP, NE; intuition congruence].
    rewrite AC. destruct (Nat.eqb_spec a0 (ray new)) as [Ea|Ea].
    + destruct (IH true) as (ins' & m' & M & F' & I'). rewrite M. eexists _, _. split; [reflexivity|].
      assert (E : key_eqb (ray_key ray (k, new)) (k0, b_id b, a0) = true) by (apply key_eqb_eq; unfold ray_key; cbn; congruence).
      split.
      * constructor; [|exact F']. split; [reflexivity|]. split; [reflexivity|]. split; [|intros x]; rewrite ray_sum_snoc, E; cbn [snd b_mass b_normal]; [rewrite H3|unfold vadd; rewrite H4]; reflexivity.
      * rewrite I'. split; [|auto]. intros _. right. left. symmetry. apply key_eqb_eq. exact E.
    + assert (N2 : Nat.eqb dim 2 && Nat.eqb (b_id new) id_slip = false).
      { destruct (Nat.eqb_spec (b_id new) id_slip) as [Es|Es]; [|apply andb_false_r]. specialize (Hs (Sl Es)). destruct (Nat.eqb_spec dim 2); [contradiction|reflexivity]. }
      rewrite N2. apply KEEP, NE. intuition congruence.
Qed.

Lemma insert_keys P k a key m keys : Forall2 (holds_sum P) m keys -> holds_sum P (k, a) key ->
  exists keys', Forall2 (holds_sum P) (multimap_insert k a m) keys' /\ Permutation keys' (key :: keys).
Proof using Type.
  intros F H. induction F as [|[k' b] key' m keys H' F IH]; cbn.
  - exists [key]. split; [constructor; [exact H|constructor]|reflexivity].
  - destruct (Nat.leb k' k).
    + destruct IH as (keys' & F' & P'). exists (key' :: keys'). split; [constructor; assumption|]. rewrite P'. apply perm_swap.
    + exists (key :: key' :: keys). split; [constructor; [exact H|constructor; assumption]|reflexivity].
Qed.

Definition rays_ok (P m : list (nat * boundary_data)) : Prop :=
  exists keys, NoDup keys /\ (forall key, In key keys <-> occurs P key) /\ Forall2 (holds_sum P) m keys.

Lemma entry_rays P m e : (forall e', In e' (P ++ [e]) -> good_entry e') -> rays_ok P m -> rays_ok (P ++ [e]) (filter_entry dim m e).
Proof using D1 D2 Hs.
  intros HP (keys & N & K & F). destruct e as [k new]. unfold filter_entry.
  assert (HP0 : forall e', In e' P -> good_entry e') by (intros e' I; apply HP, in_or_app; left; exact I).
  assert (He : good_entry (k, new)) by (apply HP, in_or_app; right; left; reflexivity).
  destruct (merge_rays P k new HP0 He m keys F (fun key => proj1 (K key)) false) as (ins & m' & M & F' & I). rewrite M.
  assert (K' : forall key, occurs (P ++ [(k, new)]) key <-> In key keys \/ key = ray_key ray (k, new)).
  { intros key. rewrite K. split.
    - intros (e & Ie & E). apply in_app_iff in Ie. destruct Ie as [Ie|[<-|[]]]; [left; exists e; auto|right; auto].
    - intros [(e & Ie & E)| ->]; [exists e|exists (k, new)]; (split; [apply in_or_app|auto]); [left; exact Ie|right; left; reflexivity]. }
  destruct ins.
  - destruct I as [I _]. destruct (I eq_refl) as [|I0]; [discriminate|]. exists keys. split; [exact N|]. split; [|exact F'].
    intros key. rewrite K'. split; [auto|]. intros [X| ->]; [exact X|exact I0].
  - assert (NI : ~ In (ray_key ray (k, new)) keys) by (intros X; assert (false = true) by (apply I; right; exact X); discriminate).
    destruct (insert_keys (P ++ [(k, new)]) k (BData (b_normal new) (b_normal_mass new) (b_mass new) (b_id new) (b_position new)) (ray_key ray (k, new)) m' keys F') as (keys' & F'' & P').
    { assert (Z : forall f, ray_sum ray (ray_key ray (k, new)) f P = 0).
      { intros f. unfold ray_sum. apply lsum_zero. intros e Ie. destruct (key_eqb _ _) eqn:E; [|reflexivity]. exfalso. apply NI, K. exists e. split; [exact Ie|]. apply key_eqb_eq. exact E. }
      assert (E : key_eqb (ray_key ray (k, new)) (ray_key ray (k, new)) = true) by (apply key_eqb_eq; reflexivity).
      split; [reflexivity|]. split; [reflexivity|]. split; [|intros x]; rewrite ray_sum_snoc, Z, E; cbn; ring. }
    exists keys'. split; [apply (Permutation_NoDup (Permutation_sym P')); constructor; assumption|]. split; [|exact F''].
    intros key. rewrite K'. split.
    + intros X. apply (Permutation_in _ P') in X. destruct X as [<-|X]; auto.
    + intros X. apply (Permutation_in _ (Permutation_sym P')). destruct X as [X| ->]; [right; exact X|left; reflexivity].
Qed.

Lemma filter_rays : forall l P m, (forall e, In e (P ++ l) -> good_entry e) -> rays_ok P m -> rays_ok (P ++ l) (fold_left (filter_entry dim) l m).
Proof using D1 D2 Hs.
  induction l as [|e l IH]; intros P m H I; cbn; [rewrite app_nil_r; exact I|].
  replace (P ++ e :: l) with ((P ++ [e]) ++ l) in * by (rewrite <- app_assoc; reflexivity). apply IH; [exact H|].
  apply entry_rays; [|exact I]. intros e' I'. apply H. apply in_or_app. left. exact I'.
Qed.
End Rays.

Lemma C55_rays_proof dim eps n visits D ray : 0 < eps -> on_rays dim D ray (contributions n visits) ->
  (dim <> 2%nat \/ forall e, In e (contributions n visits) -> b_id (snd e) <> id_slip) ->
  exists keys, NoDup keys /\ (forall key, In key keys <-> exists e, In e (contributions n visits) /\ ray_key ray e = key) /\
    Forall2 (fun d key => d_index d = fst (fst key) /\ d_id d = snd (fst key) /\
        d_boundary_mass d = ray_sum ray key b_mass (contributions n visits) /\
        exists m, 0 < m /\ d_normal_mass d = m + eps /\
          forall x, (x < dim)%nat -> m * D (snd key) x = ray_sum ray key (fun b => b_normal b x) (contributions n visits) /\
                                     d_normal d x = m / (m + eps) * D (snd key) x)
      (construct_boundary_map dim eps n visits) keys.
Proof.
  intros He (D1 & D2 & D3) Hd.
  set (slips := negb (Nat.eqb dim 2)).
  assert (Hs : slips = true -> dim <> 2%nat) by (unfold slips; destruct (Nat.eqb_spec dim 2); [discriminate|auto]).
  set (used := fun a => exists e, In e (contributions n visits) /\ ray (snd e) = a).
  assert (D1' : forall a, used a -> norm2 dim (D a) = 1) by (intros a (e & I & <-); apply D1; exact I).
  assert (D2' : forall a b, used a -> used b -> a <> b -> dot dim (D a) (D b) <= 1 / 2) by (intros a b (e & I & <-) (e' & I' & <-) N; apply D2; assumption).
  assert (HP : forall e, In e (preliminary_map n visits) -> good_entry dim D ray used slips e).
  { intros e I. apply (Permutation_in _ (preliminary_perm n visits)) in I. split; [apply D3; exact I|]. split; [|exists e; auto].
    intros Es. destruct Hd as [Hd|Hd]; [|elim (Hd e I Es)]. unfold slips. destruct (Nat.eqb_spec dim 2); [contradiction|reflexivity]. }
  destruct (filter_rays dim D ray used D1' D2' slips Hs (preliminary_map n visits) [] []) as (keys & N & K & F).
  - exact HP.
  - exists []. split; [constructor|]. split; [|constructor]. intros key. split; [intros []|intros (e & [] & _)].
  - cbn [app] in K, F. exists keys. split; [exact N|].
    assert (K' : forall key, In key keys <-> exists e, In e (contributions n visits) /\ ray_key ray e = key).
    { intros key. rewrite K. split; intros (e & I & E); exists e; (split; [|exact E]).
      - apply (Permutation_in _ (preliminary_perm n visits)). exact I.
      - apply (Permutation_in _ (Permutation_sym (preliminary_perm n visits))). exact I. }
    split; [exact K'|].
    assert (Occ : forall key, In key keys -> occurs ray (preliminary_map n visits) key) by (intros key I; apply K; exact I).
    unfold construct_boundary_map, filtered_map.
    assert (SP : forall key f, ray_sum ray key f (preliminary_map n visits) = ray_sum ray key f (contributions n visits)).
    { intros key f. unfold ray_sum. apply lsum_perm, preliminary_perm. }
    clear K K' N. revert Occ. induction F as [|[k b] key m keys H F IH]; intros Occ; cbn [map]; constructor.
    + destruct H as (H1 & H2 & H3 & H4). cbn [fst snd] in *. split; [exact H1|]. split; [exact H2|]. split; [cbn; rewrite H3; apply SP|].
      destruct (sum_along dim D ray used slips _ key HP (Occ key (or_introl eq_refl))) as (c & Hc & V).
      assert (V' : forall x, (x < dim)%nat -> b_normal b x = c * D (snd key) x) by (intros x Hx; rewrite H4; apply V; exact Hx).
      assert (Nb : norm dim (b_normal b) = c) by (apply (norm_along dim D used D1' _ (snd key)); [|assumption|assumption]; destruct (Occ key (or_introl eq_refl)) as (e & Ie & <-); exists e; split; [apply (Permutation_in _ (preliminary_perm n visits)); exact Ie|reflexivity]).
      exists c. split; [exact Hc|]. split; [cbn; rewrite Nb; reflexivity|]. intros x Hx. split.
      * rewrite <- V by exact Hx. apply SP.
      * cbn. rewrite Nb. unfold vscal. rewrite V' by exact Hx. field. lra.
    + apply IH. intros key0 I. apply Occ. right. exact I.
Qed.

(** ** Corners in two dimensions *)
Definition slips_at (k : nat) (m : list (nat * boundary_data)) : nat := length (filter (fun e => Nat.eqb (fst e) k && Nat.eqb (b_id (snd e)) id_slip) m).

Lemma merge_slip k new : forall m id ins id' ins' m',
  merge_loop 2 k new id ins m = (id', ins', m') ->
  (id' = id \/ (id = id_slip /\ id' = id_no_slip)) /\
  (forall k0, k0 <> k -> slips_at k0 m' = slips_at k0 m) /\ (slips_at k m' <= slips_at k m)%nat /\
  (id' = id_slip -> ins' = false -> slips_at k m' = 0%nat).
Proof.
  induction m as [|[k' b] m IH]; intros id ins id' ins' m' H.
  - injection H as <- <- <-. cbn. repeat split; auto.
  - cbn [merge_loop] in H.
    assert (ST : forall b1 id1 ins1, (let '(new_id'', inserted'', r') := merge_loop 2 k new id1 ins1 m in (new_id'', inserted'', (k', b1) :: r')) = (id', ins', m') ->
      exists r', merge_loop 2 k new id1 ins1 m = (id', ins', r') /\ m' = (k', b1) :: r').
    { intros b1 id1 ins1 E. destruct (merge_loop 2 k new id1 ins1 m) as [[i s] r'] eqn:M. injection E as <- <- <-. exists r'. auto. }
    assert (SC : forall k0 b1 r, slips_at k0 ((k', b1) :: r) = ((if Nat.eqb k' k0 && Nat.eqb (b_id b1) id_slip then 1 else 0) + slips_at k0 r)%nat).
    { intros k0 b1 r. unfold slips_at. cbn [filter fst snd]. destruct (Nat.eqb k' k0 && Nat.eqb (b_id b1) id_slip); reflexivity. }
    destruct (Nat.eqb_spec k' k) as [Ek|Ek]; cbn [negb] in H.
    2:{ destruct (ST _ _ _ H) as (r' & M & ->). destruct (IH _ _ _ _ _ M) as (J1 & J2 & J3 & J4). split; [exact J1|]. split; [intros k0 N; rewrite !SC, (J2 k0 N); reflexivity|].
        rewrite !SC. destruct (Nat.eqb_spec k' k); [contradiction|]. cbn. split; [lia|exact J4]. }
    subst k'. destruct (Nat.eqb_spec (b_id b) id) as [Ei|Ei]; cbn [negb] in H.
    2:{ destruct (ST _ _ _ H) as (r' & M & ->). destruct (IH _ _ _ _ _ M) as (J1 & J2 & J3 & J4). split; [exact J1|]. split; [intros k0 N; rewrite !SC, (J2 k0 N); reflexivity|].
        rewrite !SC. rewrite Nat.eqb_refl. cbn [andb]. split; [lia|]. intros E1 E2.
        destruct J1 as [J1|[_ J1]]; [|rewrite J1 in E1; discriminate]. destruct (Nat.eqb_spec (b_id b) id_slip) as [Es|Es]; [congruence|]. rewrite (J4 E1 E2). reflexivity. }
    destruct (acute 2 (b_normal b) (b_normal new)).
    { destruct (ST _ _ _ H) as (r' & M & ->). destruct (IH _ _ _ _ _ M) as (J1 & J2 & J3 & J4). split; [exact J1|]. split; [intros k0 N; rewrite !SC, (J2 k0 N); reflexivity|].
      rewrite !SC. cbn [b_id]. split; [lia|]. intros _ E2. exfalso. clear - M E2.
      assert (G : forall m id id' ins' r', merge_loop 2 k new id true m = (id', ins', r') -> ins' = true).
      { clear. induction m as [|[k' b] m IH]; intros id id' ins' r' H; [injection H as _ <- _; reflexivity|]. cbn [merge_loop] in H.
        destruct (negb (Nat.eqb k' k)); [|destruct (negb (Nat.eqb (b_id b) id)); [|destruct (acute 2 (b_normal b) (b_normal new)); [|destruct (Nat.eqb 2 2 && Nat.eqb id id_slip)]]];
          match type of H with (let '(_, _) := merge_loop 2 k new ?i true m in _) = _ => destruct (merge_loop 2 k new i true m) as [[i0 s0] r0] eqn:M end;
          injection H as _ <- _; apply (IH _ _ _ _ M). }
      rewrite (G _ _ _ _ _ M) in E2. discriminate. }
    destruct (Nat.eqb 2 2 && Nat.eqb id id_slip) eqn:Es.
    + cbn in Es. apply Nat.eqb_eq in Es. destruct (ST _ _ _ H) as (r' & M & ->). destruct (IH _ _ _ _ _ M) as (J1 & J2 & J3 & J4).
      assert (id' = id_no_slip) by (destruct J1 as [J1|[J1 _]]; [exact J1|discriminate]). split; [right; auto|].
      split; [intros k0 N; rewrite !SC, (J2 k0 N); destruct (Nat.eqb_spec k k0); [congruence|reflexivity]|].
      rewrite !SC. cbn [b_id]. rewrite andb_false_r. split; [lia|]. intros E1. rewrite H0 in E1. discriminate.
    + cbn in Es. apply Nat.eqb_neq in Es. destruct (ST _ _ _ H) as (r' & M & ->). destruct (IH _ _ _ _ _ M) as (J1 & J2 & J3 & J4). split; [exact J1|].
      split; [intros k0 N; rewrite !SC, (J2 k0 N); reflexivity|]. rewrite !SC. split; [lia|]. intros E1. destruct J1 as [J1|[J1 _]]; [|contradiction]. congruence.
Qed.

Lemma slips_insert k0 k a m : slips_at k0 (multimap_insert k a m) = ((if Nat.eqb k k0 && Nat.eqb (b_id a) id_slip then 1 else 0) + slips_at k0 m)%nat.
Proof.
  unfold slips_at. rewrite (perm_filter_length _ _ _ (insert_perm k a m)). cbn [filter fst snd]. destruct (Nat.eqb k k0 && Nat.eqb (b_id a) id_slip); reflexivity.
Qed.

Lemma slips_le : forall l m, (forall k, (slips_at k m <= 1)%nat) -> forall k, (slips_at k (fold_left (filter_entry 2) l m) <= 1)%nat.
Proof.
  induction l as [|[k new] l IH]; intros m H k0; cbn [fold_left]; [apply H|]. apply IH. clear k0. intros k0. unfold filter_entry.
  destruct (merge_loop 2 k new (b_id new) false m) as [[id ins] m'] eqn:M. destruct (merge_slip _ _ _ _ _ _ _ _ M) as (J1 & J2 & J3 & J4).
  assert (LE : (slips_at k0 m' <= 1)%nat). { destruct (Nat.eq_dec k0 k) as [->|N]; [specialize (H k); lia|rewrite (J2 k0 N); apply H]. }
  destruct ins; [exact LE|]. rewrite slips_insert. cbn [b_id].
  destruct (Nat.eqb_spec k k0) as [->|N]; cbn [andb]; [|exact LE]. destruct (Nat.eqb_spec id id_slip) as [->|N]; [|exact LE]. rewrite (J4 eq_refl eq_refl). lia.
Qed.

Lemma C55_slip_once_proof eps n visits k :
  (length (filter (fun d => Nat.eqb (d_index d) k && Nat.eqb (d_id d) id_slip) (construct_boundary_map 2 eps n visits)) <= 1)%nat.
Proof.
  unfold construct_boundary_map, filtered_map.
  pose proof (slips_le (preliminary_map n visits) [] (fun _ => le_S _ _ (le_n 0)) k) as H. unfold slips_at in H.
  revert H. generalize (fold_left (filter_entry 2) (preliminary_map n visits) []). intros m. apply Nat.le_trans. apply Nat.eq_le_incl.
  induction m as [|[k' b] m IH]; [reflexivity|]. cbn [map filter]. cbn [finish d_index d_id fst snd]. destruct (Nat.eqb k' k && Nat.eqb (b_id b) id_slip); cbn; rewrite IH; reflexivity.
Qed.

(** ** The entries of an index depend only on its own contributions *)
Definition keyis {A} (k : nat) (e : nat * A) : bool := Nat.eqb (fst e) k.
Definition ksorted {A} (m : list (nat * A)) : Prop := StronglySorted (fun a b => (fst a <= fst b)%nat) m.

Lemma insert_filter {A} k0 k (a : A) m : ksorted m ->
  filter (keyis k0) (multimap_insert k a m) = filter (keyis k0) m ++ (if Nat.eqb k k0 then [(k, a)] else []).
Proof.
  intros S. induction S as [|[k' b] m S IH H]; cbn [multimap_insert filter].
  - unfold keyis. cbn. destruct (Nat.eqb k k0); reflexivity.
  - destruct (Nat.leb_spec k' k) as [L|L].
    + cbn [filter]. rewrite IH. destruct (keyis k0 (k', b)); reflexivity.
    + change ((k, a) :: (k', b) :: m) with ([(k, a)] ++ ((k', b) :: m)). rewrite filter_app. cbn [filter]. unfold keyis at 1. cbn [fst].
      destruct (Nat.eqb_spec k k0) as [->|N]; [|cbn; rewrite app_nil_r; reflexivity].
      assert (E : filter (keyis k0) ((k', b) :: m) = []).
      { assert (G : forall e, In e ((k', b) :: m) -> keyis k0 e = false).
        { intros e [<-|I]; unfold keyis; cbn; apply Nat.eqb_neq; [lia|]. rewrite Forall_forall in H. specialize (H e I). cbn in H. lia. }
        clear -G. induction ((k', b) :: m) as [|e r IHr]; [reflexivity|]. cbn. rewrite (G e (or_introl eq_refl)). apply IHr. intros e' I. apply G. right. exact I. }
      cbn [filter] in E |- *. rewrite E. reflexivity.
Qed.

Lemma insert_sorted {A} k (a : A) m : ksorted m -> ksorted (multimap_insert k a m).
Proof.
  intros S. induction S as [|[k' b] m S IH H]; cbn [multimap_insert].
  - constructor; constructor.
  - destruct (Nat.leb_spec k' k) as [L|L].
    + constructor; [exact IH|]. rewrite Forall_forall. intros e I. apply (Permutation_in _ (insert_perm k a m)) in I. destruct I as [<-|I]; [exact L|]. rewrite Forall_forall in H. apply H. exact I.
    + constructor; [constructor; assumption|]. constructor; [cbn; lia|]. rewrite Forall_forall in H |- *. intros e I. specialize (H e I). cbn in *. lia.
Qed.

Lemma filter_yes {A} k (a : A) l : filter (keyis k) ((k, a) :: l) = (k, a) :: filter (keyis k) l.
Proof. cbn [filter]. unfold keyis at 1. cbn [fst]. rewrite Nat.eqb_refl. reflexivity. Qed.
Lemma filter_no {A} k k' (a : A) l : k' <> k -> filter (keyis k) ((k', a) :: l) = filter (keyis k) l.
Proof. intros N. cbn [filter]. unfold keyis at 1. cbn [fst]. destruct (Nat.eqb_spec k' k); [contradiction|reflexivity]. Qed.

Lemma merge_local dim k new k0 : forall m id ins,
  let '(id', ins', m') := merge_loop dim k new id ins m in
  map fst m' = map fst m /\
  (k0 <> k -> filter (keyis k0) m' = filter (keyis k0) m) /\
  merge_loop dim k new id ins (filter (keyis k) m) = (id', ins', filter (keyis k) m').
Proof.
  induction m as [|[k' b] m IH]; intros id ins; [cbn; auto|].
  assert (OTHER : k' <> k -> forall b1, let '(id', ins', m') := (let '(i, s, r) := merge_loop dim k new id ins m in (i, s, (k', b1) :: r)) in b1 = b ->
    map fst m' = map fst ((k', b) :: m) /\ (k0 <> k -> filter (keyis k0) m' = filter (keyis k0) ((k', b) :: m)) /\
    merge_loop dim k new id ins (filter (keyis k) ((k', b) :: m)) = (id', ins', filter (keyis k) m')).
  { intros N b1. specialize (IH id ins). destruct (merge_loop dim k new id ins m) as [[i s] r]. intros ->. destruct IH as (J1 & J2 & J3).
    split; [cbn; f_equal; exact J1|]. split; [intros X; cbn; rewrite (J2 X); reflexivity|]. rewrite !filter_no by exact N. exact J3. }
  cbn [merge_loop]. destruct (Nat.eqb_spec k' k) as [->|N]; cbn [negb].
  2:{ specialize (OTHER N b). destruct (merge_loop dim k new id ins m) as [[i s] r]. apply OTHER. reflexivity. }
  clear OTHER.
  assert (SAME : forall b1 id1 ins1, 
    (forall l, merge_loop dim k new id ins ((k, b) :: l) = let '(i, s, r) := merge_loop dim k new id1 ins1 l in (i, s, (k, b1) :: r)) ->
    let '(id', ins', m') := (let '(i, s, r) := merge_loop dim k new id1 ins1 m in (i, s, (k, b1) :: r)) in
    map fst m' = map fst ((k, b) :: m) /\ (k0 <> k -> filter (keyis k0) m' = filter (keyis k0) ((k, b) :: m)) /\
    merge_loop dim k new id ins (filter (keyis k) ((k, b) :: m)) = (id', ins', filter (keyis k) m')).
  { intros b1 id1 ins1 E. specialize (IH id1 ins1). rewrite (filter_yes k b). rewrite E.
    destruct (merge_loop dim k new id1 ins1 m) as [[i s] r]. destruct IH as (J1 & J2 & J3). rewrite J3.
    split; [cbn; f_equal; exact J1|]. split.
    - intros X. rewrite !filter_no by congruence. apply J2. exact X.
    - rewrite filter_yes. reflexivity. }
  cbn [merge_loop] in SAME. rewrite Nat.eqb_refl in SAME. cbn [negb] in SAME.
  destruct (negb (Nat.eqb (b_id b) id)) eqn:E1; [apply SAME; intros l; reflexivity|].
  destruct (acute dim (b_normal b) (b_normal new)) eqn:E2; [apply SAME; intros l; reflexivity|].
  destruct (Nat.eqb dim 2 && Nat.eqb id id_slip) eqn:E3; apply SAME; intros l; reflexivity.
Qed.

Lemma sorted_fst {A B} (m : list (nat * A)) (m' : list (nat * B)) : map fst m = map fst m' -> ksorted m -> ksorted m'.
Proof.
  unfold ksorted. revert m'. induction m as [|a m IH]; intros [|b m'] E S; try discriminate; [constructor|]. injection E as E1 E2.
  apply StronglySorted_inv in S. destruct S as [S H]. constructor; [apply IH; assumption|]. rewrite Forall_forall in H |- *. intros e I.
  assert (I' : In (fst e) (map fst m)) by (rewrite E2; apply in_map; exact I). apply in_map_iff in I'. destruct I' as (e' & E' & I'). rewrite <- E1, <- E'. apply H. exact I'.
Qed.

Lemma entry_local dim k0 m e : ksorted m -> ksorted (filter_entry dim m e) /\
  filter (keyis k0) (filter_entry dim m e) = if keyis k0 e then filter_entry dim (filter (keyis k0) m) e else filter (keyis k0) m.
Proof.
  intros S. destruct e as [k new]. unfold filter_entry, keyis at 2. cbn [fst].
  pose proof (merge_local dim k new k0 m (b_id new) false) as ML. destruct (merge_loop dim k new (b_id new) false m) as [[id ins] m'] eqn:M.
  destruct ML as (J1 & J2 & J3). assert (S' : ksorted m') by (apply (sorted_fst m); [symmetry; exact J1|exact S]).
  split; [destruct ins; [exact S'|apply insert_sorted; exact S']|].
  destruct (Nat.eqb_spec k k0) as [->|N].
  - rewrite J3. destruct ins; [reflexivity|]. rewrite insert_filter by exact S'. rewrite Nat.eqb_refl.
    assert (G : forall (a : boundary_data) l, multimap_insert k0 a (filter (keyis k0) l) = filter (keyis k0) l ++ [(k0, a)]).
    { intros a l. induction l as [|[k' b] l IH]; [reflexivity|]. destruct (Nat.eq_dec k' k0) as [->|N]; [rewrite filter_yes; cbn; rewrite Nat.leb_refl, IH; reflexivity|]. rewrite !filter_no by exact N. exact IH. }
    rewrite G. reflexivity.
  - destruct ins; [apply J2; congruence|]. rewrite insert_filter by exact S'. destruct (Nat.eqb_spec k k0); [contradiction|]. rewrite app_nil_r. apply J2. congruence.
Qed.

Lemma fold_local dim k0 : forall l m, ksorted m ->
  ksorted (fold_left (filter_entry dim) l m) /\
  filter (keyis k0) (fold_left (filter_entry dim) l m) = fold_left (filter_entry dim) (filter (keyis k0) l) (filter (keyis k0) m).
Proof.
  induction l as [|e l IH]; intros m S; cbn [fold_left filter]; [auto|]. destruct (entry_local dim k0 m e S) as [S' E]. destruct (IH _ S') as [S'' E'].
  split; [exact S''|]. rewrite E', E. destruct (keyis k0 e); reflexivity.
Qed.

Lemma preliminary_filter n visits k : filter (keyis k) (preliminary_map n visits) = filter (keyis k) (contributions n visits).
Proof.
  rewrite contributions_eq. unfold preliminary_map.
  assert (G : forall l m, ksorted m -> filter (keyis k) (fold_left (fun m v => if relevant n v then multimap_insert (v_index v) (contribution_of v) m else m) l m) =
     filter (keyis k) m ++ filter (keyis k) (map (fun v => (v_index v, contribution_of v)) (filter (relevant n) l))).
  { induction l as [|v l IH]; intros m S; cbn [fold_left filter]; [cbn; rewrite app_nil_r; reflexivity|]. destruct (relevant n v).
    - rewrite IH by (apply insert_sorted; exact S). rewrite insert_filter by exact S. rewrite <- app_assoc. f_equal. cbn [map].
      destruct (Nat.eqb_spec (v_index v) k) as [->|N]; [rewrite filter_yes|rewrite filter_no by exact N]; reflexivity.
    - apply IH. exact S. }
  apply (G visits []). constructor.
Qed.

Lemma out_local dim eps n visits k :
  filter (fun d => Nat.eqb (d_index d) k) (construct_boundary_map dim eps n visits) =
  map (finish dim eps) (filtered_map dim (filter (keyis k) (contributions n visits))).
Proof.
  unfold construct_boundary_map, filtered_map. rewrite <- preliminary_filter.
  destruct (fold_local dim k (preliminary_map n visits) []) as [_ E]; [constructor|]. cbn [filter] in E. rewrite <- E. clear E.
  induction (fold_left (filter_entry dim) (preliminary_map n visits) []) as [|[k' b] m IH]; [reflexivity|]. cbn [map filter]. unfold keyis at 1. cbn [fst].
  cbn [finish d_index]. destruct (Nat.eqb k' k); cbn [map]; rewrite IH; reflexivity.
Qed.

Lemma C55_sorted_proof dim eps n visits : StronglySorted (fun a b => (d_index a <= d_index b)%nat) (construct_boundary_map dim eps n visits).
Proof.
  unfold construct_boundary_map, filtered_map. destruct (fold_local dim 0 (preliminary_map n visits) []) as [S _]; [constructor|].
  induction S as [|[k b] m S IH H]; cbn [map]; constructor; [exact IH|]. rewrite Forall_forall in H |- *. intros d I. apply in_map_iff in I. destruct I as ([k' b'] & <- & I). apply (H _ I).
Qed.

Lemma C55_corner_proof eps n visits k a b :
  filter (fun e => Nat.eqb (fst e) k) (contributions n visits) = [(k, a); (k, b)] -> b_id a = id_slip -> b_id b = id_slip ->
  dot 2 (b_normal a) (b_normal b) <= 1 / 2 * (sqrt (norm2 2 (b_normal a)) * sqrt (norm2 2 (b_normal b))) ->
  0 < norm2 2 (b_normal a) -> 0 < norm2 2 (b_normal b) ->
  map (fun d => (d_id d, d_boundary_mass d)) (filter (fun d => Nat.eqb (d_index d) k) (construct_boundary_map 2 eps n visits)) = [(id_no_slip, b_mass a); (id_no_slip, b_mass b)].
Proof.
  intros F Ia Ib HA Na Nb. rewrite out_local. change (filter (keyis k) (contributions n visits)) with (filter (fun e : nat * boundary_data => Nat.eqb (fst e) k) (contributions n visits)). rewrite F.
  assert (AC : acute 2 (b_normal a) (b_normal b) = false).
  { unfold acute, norm. apply sqrt_lt_R0 in Na, Nb. set (u := sqrt (norm2 2 (b_normal a))) in *. set (v := sqrt (norm2 2 (b_normal b))) in *.
    destruct (Rgt_dec _ _) as [G|G]; [|reflexivity]. exfalso.
    replace (dot 2 (b_normal a) (b_normal b) / u / v) with (dot 2 (b_normal a) (b_normal b) * / (u * v)) in G by (field; lra).
    assert (0 < u * v) by nra. apply (Rmult_gt_compat_r (u * v)) in G; [|lra]. rewrite Rmult_assoc, Rinv_l, Rmult_1_r in G by lra. lra. }
  unfold filtered_map. cbn [fold_left filter_entry merge_loop multimap_insert b_id b_normal b_mass]. rewrite Nat.eqb_refl. cbn [negb]. rewrite Ia, Ib. cbn [Nat.eqb id_slip negb b_normal].
  change (b_normal {| b_normal := b_normal a; b_normal_mass := b_normal_mass a; b_mass := b_mass a; b_id := 2%nat; b_position := b_position a |}) with (b_normal a).
  rewrite AC. cbn. rewrite Nat.leb_refl. reflexivity.
Qed.
