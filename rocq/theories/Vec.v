(** * C++ [std::vector] with out-of-range accesses as a distinct outcome

    The vectors of /repo are indexed with [operator[]], for which an index
    outside of the range is undefined behaviour.  All models that use indexed
    vectors use the two functions below: [None] is the undefined outcome. *)
From Coq Require Import List Arith Lia Permutation.
Import ListNotations.

(** Models [v[i]] (read) for std::vector; e.g. source/local_index_handling.h:181.
    [None] models an out of range (undefined) access. *)
Definition vget {A} (v : list A) (i : nat) : option A := nth_error v i.

(** Models [v[i] = x] (write) for std::vector; e.g.
    source/local_index_handling.h:160.  [None] models an out of range
    (undefined) access. *)
Fixpoint vset {A} (v : list A) (i : nat) (x : A) : option (list A) :=
  match v, i with
  | [], _ => None
  | _ :: r, 0 => Some (x :: r)
  | y :: r, S i' => match vset r i' x with
                    | Some r' => Some (y :: r')
                    | None => None
                    end
  end.

Lemma vset_length {A} (v v' : list A) i x :
  vset v i x = Some v' -> length v' = length v.
Proof.
  revert i v'; induction v as [|y r IH]; intros [|i] v' H; simpl in *;
    try discriminate.
  - inversion H; reflexivity.
  - destruct (vset r i x) eqn:E; [|discriminate]. inversion H; subst; simpl.
    now rewrite (IH _ _ E).
Qed.

Lemma vset_defined {A} (v : list A) i x :
  i < length v -> exists v', vset v i x = Some v'.
Proof.
  revert i; induction v as [|y r IH]; intros [|i] H; simpl in *; try lia.
  - eauto.
  - destruct (IH i) as [r' E]; [lia|]. rewrite E; eauto.
Qed.

Lemma vset_bound {A} (v v' : list A) i x :
  vset v i x = Some v' -> i < length v.
Proof.
  revert i v'; induction v as [|y r IH]; intros [|i] v' H; simpl in *;
    try discriminate; try lia.
  destruct (vset r i x) eqn:E; [|discriminate]. apply IH in E. lia.
Qed.

Lemma vget_vset_same {A} (v v' : list A) i x :
  vset v i x = Some v' -> vget v' i = Some x.
Proof.
  unfold vget.
  revert i v'; induction v as [|y r IH]; intros [|i] v' H; simpl in *;
    try discriminate.
  - inversion H; reflexivity.
  - destruct (vset r i x) eqn:E; [|discriminate]. inversion H; subst; simpl.
    now apply IH.
Qed.

Lemma vget_vset_other {A} (v v' : list A) i k x :
  vset v i x = Some v' -> k <> i -> vget v' k = vget v k.
Proof.
  unfold vget.
  revert i k v'; induction v as [|y r IH]; intros [|i] k v' H Hne; simpl in *;
    try discriminate.
  - inversion H; subst. destruct k; [lia|reflexivity].
  - destruct (vset r i x) eqn:E; [|discriminate]. inversion H; subst.
    destruct k; [reflexivity|]. simpl. apply (IH i); [assumption|lia].
Qed.

Lemma vget_some {A} (v : list A) i x : vget v i = Some x -> i < length v.
Proof. unfold vget; intros H. apply nth_error_Some. congruence. Qed.

Lemma vget_defined {A} (v : list A) i :
  i < length v -> exists x, vget v i = Some x.
Proof.
  intros H. destruct (vget v i) eqn:E; [eauto|].
  unfold vget in E. apply nth_error_None in E. lia.
Qed.

Lemma vget_ext {A} (v w : list A) :
  length v = length w -> (forall i, i < length v -> vget v i = vget w i) ->
  v = w.
Proof.
  revert w; induction v as [|x v IH]; intros [|y w] Hl H; simpl in *; try lia;
    [reflexivity|].
  assert (E := H 0 ltac:(lia)). unfold vget in E; simpl in E. inversion E.
  f_equal. apply IH; [lia|]. intros i Hi. apply (H (S i)). lia.
Qed.

(** A list of the right length whose elements are an injective image of the
    positions into [seq a n] is a permutation of it. *)
Lemma inj_perm_seq (v : list nat) a n :
  length v = n ->
  (forall i x, vget v i = Some x -> a <= x < a + n) ->
  (forall i k x, vget v i = Some x -> vget v k = Some x -> i = k) ->
  Permutation v (seq a n).
Proof.
  intros Hl Hr Hi.
  apply NoDup_Permutation_bis.
  - apply NoDup_nth_error. intros i j Hlt E.
    destruct (vget_defined v i Hlt) as [x Ex].
    apply (Hi i j x); [exact Ex|]. unfold vget in *. congruence.
  - rewrite seq_length. lia.
  - intros x Hin. apply In_nth_error in Hin as [i Ei].
    apply in_seq. apply (Hr i). exact Ei.
Qed.
