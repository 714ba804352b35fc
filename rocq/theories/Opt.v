(** * Option monad used for "undefined behaviour or failed assertion = None" *)
From Coq Require Import List Arith Lia Permutation.
From Verif Require Import Vec.
Import ListNotations.

(** Sequencing of operations that may be undefined; not part of /repo. *)
Notation "x <- a ;; b" :=
  (match a with Some x => b | None => None end)
  (at level 61, a at next level, right associativity).

(** A loop "for x in l: acc = f(acc, x)"; not part of /repo.
    For instance the loops of source/sparse_matrix_simd.template.h:101-146. *)
Fixpoint foldM {A B} (f : A -> B -> option A) (a : A) (l : list B) : option A :=
  match l with
  | [] => Some a
  | x :: r => a' <- f a x ;; foldM f a' r
  end.

(** A loop that collects its results; not part of /repo.
    For instance the loops over SIMD lanes in source/simd.h:284-293. *)
Fixpoint mapM {A B} (f : A -> option B) (l : list A) : option (list B) :=
  match l with
  | [] => Some []
  | x :: r => y <- f x ;; ys <- mapM f r ;; Some (y :: ys)
  end.

Lemma foldM_app {A B} (f : A -> B -> option A) l1 l2 a :
  foldM f a (l1 ++ l2) = (a' <- foldM f a l1 ;; foldM f a' l2).
Proof.
  revert a; induction l1 as [|x l1 IH]; simpl; intros a; [reflexivity|].
  destruct (f a x); auto.
Qed.

Lemma foldM_inv {A B} (f : A -> B -> option A) (P : A -> Prop) l a a' :
  (forall x b b', In x l -> P b -> f b x = Some b' -> P b') ->
  foldM f a l = Some a' -> P a -> P a'.
Proof.
  revert a; induction l as [|x l IH]; simpl; intros a H E Pa.
  - inversion E; subst; auto.
  - destruct (f a x) eqn:Ex; [|discriminate].
    eapply IH; eauto.
Qed.

Lemma foldM_total {A B} (f : A -> B -> option A) (P : A -> Prop) l a :
  (forall x b, In x l -> P b -> exists b', f b x = Some b' /\ P b') ->
  P a -> exists a', foldM f a l = Some a' /\ P a'.
Proof.
  revert a; induction l as [|x l IH]; simpl; intros a H Pa; [eauto|].
  destruct (H x a (or_introl eq_refl) Pa) as [b [E Pb]]. rewrite E.
  apply IH; auto.
Qed.

Lemma foldM_ext {A B} (f g : A -> B -> option A) l a :
  (forall x b, In x l -> f b x = g b x) -> foldM f a l = foldM g a l.
Proof.
  revert a; induction l as [|x l IH]; simpl; intros a H; [reflexivity|].
  rewrite (H x a) by auto. destruct (g a x); auto.
Qed.

Lemma mapM_some {A B} (f : A -> option B) l ys :
  mapM f l = Some ys ->
  length ys = length l /\
  forall i x, nth_error l i = Some x ->
    exists y, f x = Some y /\ nth_error ys i = Some y.
Proof.
  revert ys; induction l as [|x l IH]; simpl; intros ys E.
  - inversion E; subst. split; [reflexivity|]. intros [|i] x H; discriminate.
  - destruct (f x) as [y|] eqn:Ex; [|discriminate].
    destruct (mapM f l) as [ys'|]; [|discriminate]. inversion E; subst.
    destruct (IH _ eq_refl) as [L H]. split; [simpl; congruence|].
    intros [|i] z Hz; simpl in *; [inversion Hz; subst; eauto|auto].
Qed.

Lemma mapM_total {A B} (f : A -> option B) l :
  (forall x, In x l -> exists y, f x = Some y) -> exists ys, mapM f l = Some ys.
Proof.
  induction l as [|x l IH]; simpl; intros H; [eauto|].
  destruct (H x) as [y E]; auto. rewrite E.
  destruct IH as [ys E']; auto. rewrite E'. eauto.
Qed.

Lemma mapM_ext {A B} (f g : A -> option B) l :
  (forall x, In x l -> f x = g x) -> mapM f l = mapM g l.
Proof.
  induction l as [|x l IH]; simpl; intros H; [reflexivity|].
  rewrite (H x), IH; auto.
Qed.

Lemma mapM_map {A B C} (f : B -> option C) (g : A -> B) l :
  mapM f (map g l) = mapM (fun x => f (g x)) l.
Proof.
  induction l as [|x l IH]; simpl; [reflexivity|].
  destruct (f (g x)); [|reflexivity]. rewrite IH. reflexivity.
Qed.

(** ** Several writes *)
(** A loop of writes, for instance source/simd.h:397-406; not itself part of /repo. *)
Definition write_all {A} (v : list A) (l : list (nat * A)) : option (list A) :=
  foldM (fun v ax => vset v (fst ax) (snd ax)) v l.

Lemma vset_none {A} (v : list A) i x : vset v i x = None <-> length v <= i.
Proof.
  split; intros H.
  - destruct (le_lt_dec (length v) i); auto.
    destruct (vset_defined v i x l) as [v' E]. congruence.
  - destruct (vset v i x) eqn:E; auto. apply vset_bound in E. lia.
Qed.

Lemma vset_comm {A} (v : list A) i j x y :
  i <> j ->
  (v' <- vset v i x ;; vset v' j y) = (v' <- vset v j y ;; vset v' i x).
Proof.
  intros Hne.
  destruct (vset v i x) as [v1|] eqn:E1; destruct (vset v j y) as [v2|] eqn:E2.
  - assert (L1 := vset_length _ _ _ _ E1). assert (L2 := vset_length _ _ _ _ E2).
    assert (B1 := vset_bound _ _ _ _ E1). assert (B2 := vset_bound _ _ _ _ E2).
    destruct (vset_defined v1 j y ltac:(lia)) as [w1 F1].
    destruct (vset_defined v2 i x ltac:(lia)) as [w2 F2].
    rewrite F1, F2. f_equal.
    assert (M1 := vset_length _ _ _ _ F1). assert (M2 := vset_length _ _ _ _ F2).
    apply vget_ext; [lia|]. intros k Hk.
    destruct (Nat.eq_dec k j) as [->|Nj].
    + rewrite (vget_vset_same _ _ _ _ F1), (vget_vset_other _ _ _ _ _ F2) by auto.
      now rewrite (vget_vset_same _ _ _ _ E2).
    + rewrite (vget_vset_other _ _ _ _ _ F1) by auto.
      destruct (Nat.eq_dec k i) as [->|Ni].
      * now rewrite (vget_vset_same _ _ _ _ E1), (vget_vset_same _ _ _ _ F2).
      * now rewrite (vget_vset_other _ _ _ _ _ E1), (vget_vset_other _ _ _ _ _ F2),
          (vget_vset_other _ _ _ _ _ E2) by auto.
  - apply vset_none in E2. apply vset_none. rewrite (vset_length _ _ _ _ E1). auto.
  - apply vset_none in E1. symmetry. apply vset_none. rewrite (vset_length _ _ _ _ E2). auto.
  - reflexivity.
Qed.

Lemma write_all_perm {A} (l l' : list (nat * A)) :
  Permutation l l' -> NoDup (map fst l) ->
  forall v, write_all v l = write_all v l'.
Proof.
  unfold write_all. induction 1; intros ND v; simpl.
  - reflexivity.
  - inversion ND; subst. destruct (vset v (fst x) (snd x)); auto.
  - inversion ND as [|? ? N1 ND']; subst.
    assert (Hne : fst y <> fst x) by (intros E; apply N1; rewrite E; left; reflexivity).
    assert (C := vset_comm v (fst y) (fst x) (snd y) (snd x) Hne).
    destruct (vset v (fst y) (snd y)) as [v1|], (vset v (fst x) (snd x)) as [v2|];
      simpl in *; rewrite ?C; try rewrite <- C; reflexivity.
  - rewrite IHPermutation1 by assumption. apply IHPermutation2.
    eapply Permutation_NoDup; [apply Permutation_map; eassumption|assumption].
Qed.

Lemma write_all_length {A} (l : list (nat * A)) v v' :
  write_all v l = Some v' -> length v' = length v.
Proof.
  unfold write_all. intros H.
  eapply (foldM_inv _ (fun u => length u = length v)); [|eassumption|reflexivity].
  intros x b b' _ E1 E2. simpl in E2. rewrite (vset_length _ _ _ _ E2). assumption.
Qed.

Lemma write_all_defined {A} (l : list (nat * A)) v :
  (forall a x, In (a, x) l -> a < length v) -> exists v', write_all v l = Some v'.
Proof.
  intros H. unfold write_all.
  destruct (foldM_total (fun v ax => vset v (fst ax) (snd ax))
              (fun u : list A => length u = length v) l v) as [v' [E _]]; eauto.
  intros [a x] b Hin Lb. simpl.
  destruct (vset_defined b a x) as [b' E]; [rewrite Lb; eauto|].
  exists b'. split; auto. rewrite (vset_length _ _ _ _ E). assumption.
Qed.

Lemma write_all_other {A} (l : list (nat * A)) v v' k :
  write_all v l = Some v' -> ~ In k (map fst l) -> vget v' k = vget v k.
Proof.
  unfold write_all. revert v; induction l as [|[a x] l IH]; simpl; intros v E N.
  - inversion E; reflexivity.
  - destruct (vset v a x) as [v1|] eqn:E1; [|discriminate].
    rewrite (IH _ E) by tauto. apply (vget_vset_other _ _ _ _ _ E1). auto.
Qed.

Lemma write_all_same {A} (l : list (nat * A)) v v' k x :
  write_all v l = Some v' -> NoDup (map fst l) -> In (k, x) l -> vget v' k = Some x.
Proof.
  unfold write_all. revert v; induction l as [|[a y] l IH]; simpl; intros v E ND Hin;
    [destruct Hin|].
  inversion ND; subst.
  destruct (vset v a y) as [v1|] eqn:E1; [|discriminate].
  destruct Hin as [Hin|Hin].
  - inversion Hin; subst. rewrite (write_all_other l v1 v' k E) by assumption.
    eapply vget_vset_same; eauto.
  - eauto.
Qed.

Lemma flat_map_swap {A B C} (f : A -> B -> C) (la : list A) (lb : list B) :
  Permutation (flat_map (fun a => map (fun b => f a b) lb) la)
              (flat_map (fun b => map (fun a => f a b) la) lb).
Proof.
  induction la as [|a la IH]; simpl.
  - induction lb; simpl; auto.
  - transitivity (map (fun b => f a b) lb ++ flat_map (fun b => map (fun a => f a b) la) lb).
    + apply Permutation_app_head. assumption.
    + clear IH. induction lb as [|b lb IH]; simpl; [auto|].
      constructor. rewrite Permutation_app_swap_app.
      apply Permutation_app_head. assumption.
Qed.
