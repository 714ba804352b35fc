(** * The boundary map and the coupling pairs: final lemmas *)
From Coq Require Import Reals Arith List Bool Lia Lra Psatz Permutation Sorted.
From Verif Require Import RVec SchemeSpec SchemeProofs BoundaryMap BoundaryMapSpec BoundaryMapProofs.
Import ListNotations.
Local Open Scope R_scope.

(** ** Groups *)
Section Groups.
Variables (dim : nat) (eps : R) (n : nat) (visits : list visit).
Let L := preliminary_map n visits.
Let G := filter_rec dim 0 L [].

Definition member_sum (l : list (nat * boundary_data)) (f : boundary_data -> R) (mem : list nat) : R :=
  lsum (fun q => match nth_error l q with Some e => f (snd e) | None => 0 end) mem.

Lemma out_eq : construct_boundary_map dim eps n visits = map (fun g => finish dim eps (erase g)) G.
Proof using Type.
  unfold construct_boundary_map, filtered_map. unfold G, L. rewrite <- (map_map erase). f_equal. rewrite filter_erase. reflexivity.
Qed.

Lemma norm_nonneg v : 0 <= norm dim v.
Proof using Type. apply sqrt_pos. Qed.

Lemma finish_normal b k x : 0 < eps -> d_normal_mass (finish dim eps (k, b)) * d_normal (finish dim eps (k, b)) x = b_normal b x.
Proof using Type.
  intros He. cbn. unfold vscal. pose proof (norm_nonneg (b_normal b)). field. lra.
Qed.

Lemma Forall2_map_self {A B C} (P : B -> C -> Prop) (f : A -> B) (g : A -> C) l :
  (forall a, In a l -> P (f a) (g a)) -> Forall2 P (map f l) (map g l).
Proof using Type. induction l as [|a l IH]; intros H; cbn; constructor; [apply H; left; reflexivity|]. apply IH. intros b I. apply H. right. exact I. Qed.

Lemma groups_proof : 0 < eps -> exists l groups,
  Permutation l (contributions n visits) /\
  Forall2 (fun d mem =>
     mem <> [] /\ NoDup mem /\
     (forall q, In q mem -> exists e, nth_error l q = Some e /\ fst e = d_index d /\ same_id dim (b_id (snd e)) (d_id d)) /\
     d_boundary_mass d = member_sum l b_mass mem /\
     (forall x, d_normal_mass d * d_normal d x = member_sum l (fun b => b_normal b x) mem))
    (construct_boundary_map dim eps n visits) groups /\
  (forall q, (q < length l)%nat -> exists mem, In mem groups /\ In q mem) /\
  ((forall k, (ccount k l <= 2)%nat) -> Permutation (concat groups) (seq 0 (length l))).
Proof using Type.
  intros He. exists L, (map snd G). split; [apply preliminary_perm|]. pose proof (filtered_ok dim L) as (I1 & I2 & _ & I4). fold G in I1, I2, I4.
  split; [|split].
  - rewrite out_eq. apply Forall2_map_self. intros [[k b] mem] I. destruct (I1 _ I) as (A & B & C & D & E).
    split; [exact A|]. split; [exact B|]. split; [|split].
    + intros q Hq. destruct (C q Hq) as (_ & e & C1 & C2 & C3). exists e. split; [exact C1|]. split; [exact C2|exact C3].
    + exact D.
    + intros x. unfold erase, fst. rewrite finish_normal by exact He. apply E.
  - intros q Hq. specialize (I2 q Hq). unfold count in I2. destruct (filter (holds q) G) as [|g r] eqn:F; [cbn in I2; lia|].
    assert (Ig : In g (filter (holds q) G)) by (rewrite F; left; reflexivity). apply filter_In in Ig. destruct Ig as [Ig Hh].
    exists (snd g). split; [apply in_map; exact Ig|]. unfold holds in Hh. apply existsb_exists in Hh. destruct Hh as (q' & Iq & Eq). apply Nat.eqb_eq in Eq. subst. exact Iq.
  - intros Two. specialize (I4 Two). 
    assert (CO : forall q m, (forall g, In g m -> good_group dim L (length L) g) -> count_occ Nat.eq_dec (concat (map snd m)) q = count q m).
    { intros q m. induction m as [|g m IH]; intros Hg; [reflexivity|]. cbn [map concat]. rewrite count_occ_app, IH by (intros g' I'; apply Hg; right; exact I').
      unfold count. cbn [filter]. assert (Hgg := Hg g (or_introl eq_refl)). destruct g as [[k b] mem]. cbn [snd]. destruct Hgg as (_ & Nd & _).
      destruct (holds q (k, b, mem)) eqn:Hh.
      - unfold holds in Hh. cbn in Hh. apply existsb_exists in Hh. destruct Hh as (q' & Iq & Eq). apply Nat.eqb_eq in Eq. subst q'.
        rewrite (proj1 (NoDup_count_occ' Nat.eq_dec mem) Nd q Iq). reflexivity.
      - rewrite (proj1 (count_occ_not_In Nat.eq_dec mem q)); [reflexivity|]. intros Iq. assert (holds q (k, b, mem) = true) by (unfold holds; cbn; apply existsb_exists; exists q; split; [exact Iq|apply Nat.eqb_refl]). congruence. }
    apply (Permutation_count_occ Nat.eq_dec). intros q. rewrite CO by exact I1.
    destruct (lt_dec q (length L)) as [Hq|Hq].
    + rewrite I4 by exact Hq. symmetry. apply (NoDup_count_occ' Nat.eq_dec); [apply seq_NoDup|apply in_seq; lia].
    + replace (count_occ Nat.eq_dec (seq 0 (length L)) q) with 0%nat by (symmetry; apply count_occ_not_In; rewrite in_seq; lia).
      rewrite <- CO by exact I1. apply count_occ_not_In. intros I. apply in_concat in I. destruct I as (mem & Im & Iq). apply in_map_iff in Im.
      destruct Im as ([[k b] mem'] & E & Ig). cbn in E. subst mem'. destruct (I1 _ Ig) as (_ & _ & C & _). destruct (C q Iq). lia.
Qed.
End Groups.

(** ** Sums *)
Lemma member_sum_total l f k groups (out : list description) :
  (Forall2 (fun d mem => forall q, In q mem -> exists e, nth_error l q = Some e /\ fst e = d_index d) out groups) ->
  Permutation (concat groups) (seq 0 (length l)) ->
  lsum (fun dm : description * list nat => if Nat.eqb (d_index (fst dm)) k then member_sum l f (snd dm) else 0) (combine out groups) =
  lsum (fun e => if Nat.eqb (fst e) k then f (snd e) else 0) l.
Proof.
  intros F P.
  set (h := fun q => match nth_error l q with Some e => if Nat.eqb (fst e) k then f (snd e) else 0 | None => 0 end).
  transitivity (lsum h (concat groups)).
  - clear P. induction F as [|d mem out groups Hd F IH]; [reflexivity|]. cbn [combine lsum concat fst snd]. rewrite IH, lsum_app. f_equal.
    unfold member_sum. destruct (Nat.eqb_spec (d_index d) k) as [E|E].
    + apply lsum_ext. intros q Iq. destruct (Hd q Iq) as (e & E1 & E2). unfold h. rewrite E1, E2. destruct (Nat.eqb_spec (d_index d) k); [reflexivity|contradiction].
    + symmetry. apply lsum_zero. intros q Iq. destruct (Hd q Iq) as (e & E1 & E2). unfold h. rewrite E1, E2. destruct (Nat.eqb_spec (d_index d) k); [contradiction|reflexivity].
  - rewrite (lsum_perm _ _ _ P). unfold h. clear. 
    assert (Q : forall l1 l2, lsum (fun q => match nth_error (l1 ++ l2) q with Some e => if Nat.eqb (fst e) k then f (snd e) else 0 | None => 0 end) (seq (length l1) (length l2)) =
      lsum (fun e => if Nat.eqb (fst e) k then f (snd e) else 0) l2).
    { intros l1 l2. revert l1. induction l2 as [|e l2 IH]; intros l1; [reflexivity|]. cbn [length seq lsum]. rewrite nth_error_app2, Nat.sub_diag by lia. cbn [nth_error]. f_equal.
      specialize (IH (l1 ++ [e])). rewrite <- app_assoc, app_length in IH. cbn [length app] in IH. rewrite Nat.add_1_r in IH. exact IH. }
    apply (Q []).
Qed.

Lemma Forall2_weaken {A B} (P Q : A -> B -> Prop) l m : (forall a b, P a b -> Q a b) -> Forall2 P l m -> Forall2 Q l m.
Proof. intros H F. induction F; constructor; auto. Qed.

Lemma Forall2_len {A B} (P : A -> B -> Prop) l m : Forall2 P l m -> length l = length m.
Proof. intros F. induction F; cbn; congruence. Qed.

Lemma ccount_perm k l m : Permutation l m -> ccount k l = ccount k m.
Proof. intros P. unfold ccount. apply perm_filter_length. exact P. Qed.

Lemma combine_fst_sum {A B} (g : A -> R) (l : list A) (m : list B) : length l = length m -> lsum (fun p : A * B => g (fst p)) (combine l m) = lsum g l.
Proof. revert m. induction l as [|a l IH]; intros [|b m] H; try discriminate; [reflexivity|]. cbn. rewrite IH by (cbn in H; lia). reflexivity. Qed.

Lemma lsum_forall2 {A B} (P : A -> B -> Prop) (g g' : A * B -> R) l m : Forall2 P l m -> (forall a b, P a b -> g (a, b) = g' (a, b)) ->
  lsum g (combine l m) = lsum g' (combine l m).
Proof. intros F H. induction F; cbn; [reflexivity|]. rewrite IHF, (H _ _ H0). reflexivity. Qed.

Lemma C55_total_proof dim eps n visits k : 0 < eps -> (forall k, (ccount k (contributions n visits) <= 2)%nat) ->
  let out := construct_boundary_map dim eps n visits in
  lsum (fun d => if Nat.eqb (d_index d) k then d_boundary_mass d else 0) out =
    lsum (fun e => if Nat.eqb (fst e) k then b_mass (snd e) else 0) (contributions n visits) /\
  forall x, lsum (fun d => if Nat.eqb (d_index d) k then d_normal_mass d * d_normal d x else 0) out =
    lsum (fun e => if Nat.eqb (fst e) k then b_normal (snd e) x else 0) (contributions n visits).
Proof.
  intros He Two out. destruct (groups_proof dim eps n visits He) as (l & groups & P & F & _ & X). fold out in F.
  assert (Two' : forall k, (ccount k l <= 2)%nat) by (intros k0; rewrite (ccount_perm k0 _ _ P); apply Two). specialize (X Two').
  assert (F' : Forall2 (fun d mem => forall q, In q mem -> exists e, nth_error l q = Some e /\ fst e = d_index d) out groups).
  { revert F. apply Forall2_weaken. intros d mem (_ & _ & C & _) q Iq. destruct (C q Iq) as (e & C1 & C2 & _). eauto. }
  pose proof (Forall2_len _ _ _ F) as Len.
  split.
  - rewrite <- (lsum_perm _ _ _ P), <- (member_sum_total l b_mass k groups out F' X).
    rewrite <- (combine_fst_sum _ out groups Len). apply (lsum_forall2 _ _ _ _ _ F). intros d mem (_ & _ & _ & D & _). cbn. rewrite D. reflexivity.
  - intros x. rewrite <- (lsum_perm _ _ _ P), <- (member_sum_total l (fun b => b_normal b x) k groups out F' X).
    rewrite <- (combine_fst_sum _ out groups Len). apply (lsum_forall2 _ _ _ _ _ F). intros d mem (_ & _ & _ & _ & D). cbn. rewrite D. reflexivity.
Qed.

(** ** Length of the normals *)
Lemma norm2_nonneg dim v : 0 <= norm2 dim v.
Proof. unfold norm2, dot. induction dim; cbn; [lra|]. nra. Qed.

Lemma norm2_scal' dim c v : norm2 dim (vscal c v) = c * c * norm2 dim v.
Proof. unfold norm2, dot. induction dim; cbn; [ring|]. rewrite IHdim. unfold vscal. ring. Qed.

Lemma C55_unit_proof dim eps n visits d : 0 < eps -> In d (construct_boundary_map dim eps n visits) ->
  norm2 dim (d_normal d) < 1 /\ eps <= d_normal_mass d /\
  d_normal_mass d = sqrt (norm2 dim (vscal (d_normal_mass d) (d_normal d))) + eps.
Proof.
  intros He I. unfold construct_boundary_map in I. apply in_map_iff in I. destruct I as ([k b] & <- & _). cbn [finish d_normal d_normal_mass].
  unfold norm. set (r := sqrt (norm2 dim (b_normal b))). assert (R0 : 0 <= r) by apply sqrt_pos.
  assert (S : r * r = norm2 dim (b_normal b)) by (apply sqrt_sqrt, norm2_nonneg).
  split; [|split; [lra|]].
  - rewrite norm2_scal', <- S. replace (/ (r + eps) * / (r + eps) * (r * r)) with (r * r / ((r + eps) * (r + eps))) by (field; lra).
    apply (Rmult_lt_reg_r ((r + eps) * (r + eps))); [nra|]. unfold Rdiv. rewrite Rmult_assoc, Rinv_l by nra. nra.
  - f_equal. rewrite !norm2_scal', <- S. replace ((r + eps) * (r + eps) * (/ (r + eps) * / (r + eps) * (r * r))) with (r * r) by (field; lra).
    symmetry. apply sqrt_square. exact R0.
Qed.
