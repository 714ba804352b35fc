(** * Proofs about transfinite interpolation *)
From Coq Require Import Reals Lra Lia List Bool Arith.
From Verif Require Import Transfinite TransfiniteSpec.
Import ListNotations.
Local Open Scope R_scope.

Lemma same_id_spec : forall a b, same_id a b = true <-> a = b.
Proof.
  intros [|n] [|m]; simpl; split; intros H; try discriminate; try reflexivity.
  - apply Nat.eqb_eq in H. subst. reflexivity.
  - injection H as ->. apply Nat.eqb_refl.
Qed.

Lemma own_spec : forall c i, own c i = true <-> plain c i.
Proof.
  intros c i. unfold own, plain. rewrite orb_true_iff, !same_id_spec. tauto.
Qed.

Lemma own_false : forall c i, own c i = false -> ~ plain c i /\ exists n, i = id n.
Proof.
  intros c i H. split.
  - intros P. apply own_spec in P. congruence.
  - destruct i as [|n]; [|eauto]. unfold own in H. simpl in H. rewrite orb_true_r in H. discriminate.
Qed.

(** ** Two dimensions *)

Lemma step_2 : forall M c x s line curve e, (line < 4)%nat ->
  is_edge M c (line_id c line) (line_vertex_2 line 0) (line_vertex_2 line 1) curve ->
  let s' := line_step_2 M c x s line in
  let val (s : (nat -> R) * pt) := snd s e - (fst s 0%nat * vertex c 0 e + fst s 1%nat * vertex c 1 e
                + fst s 2%nat * vertex c 2 e + fst s 3%nat * vertex c 3 e) in
  val s' = val s + line_weight_2 x line * curve (line_point_2 x line) e.
Proof.
  intros M c x [w q] line curve e Hl [E1 E2] s' val. subst s' val. unfold line_step_2.
  destruct (own c (line_id c line)) eqn:O.
  - rewrite E1 by (apply own_spec; exact O). unfold straight, add_at.
    destruct line as [|[|[|[|?]]]]; [| | | |lia]; cbn; ring.
  - destruct (own_false _ _ O) as [NP [n I]]. rewrite I in *. rewrite (E2 n) by auto.
    cbn. unfold plus_pt. ring.
Qed.

Lemma formula_2 : forall M c x left right bottom top e,
  edges_2 M c left right bottom top ->
  push_forward_2 M c x e =
    blend left right bottom top (vertex c 0) (vertex c 1) (vertex c 2) (vertex c 3) (x 0%nat) (x 1%nat) e.
Proof.
  intros M c x left right bottom top e [E0 E1 E2 E3]. unfold push_forward_2.
  destruct (cell_is_flat 2 c) eqn:F.
  - unfold cell_is_flat in F. cbn in F. rewrite !andb_true_iff in F.
    destruct F as ((F0 & F1 & F2 & F3 & _) & _).
    destruct E0 as [E0 _], E1 as [E1 _], E2 as [E2 _], E3 as [E3 _]. unfold blend.
    rewrite E0, E1, E2, E3 by (apply own_spec; assumption).
    unfold interpolate_2, straight. cbn. unfold plus_pt, zero_pt. ring.
  - unfold interpolate_2.
    set (s0 := (weights_2 x, zero_pt)).
    pose proof (step_2 M c x s0 0 left e ltac:(lia) E0) as H0. set (s1 := line_step_2 M c x s0 0) in *.
    pose proof (step_2 M c x s1 1 right e ltac:(lia) E1) as H1. set (s2 := line_step_2 M c x s1 1) in *.
    pose proof (step_2 M c x s2 2 bottom e ltac:(lia) E2) as H2. set (s3 := line_step_2 M c x s2 2) in *.
    pose proof (step_2 M c x s3 3 top e ltac:(lia) E3) as H3. set (s4 := line_step_2 M c x s3 3) in *.
    change (fold_left (line_step_2 M c x) (seq 0 4) s0) with s4.
    cbv zeta in *. cbn [fold_left seq]. unfold plus_pt.
    unfold s0 in H0. cbn in H0. unfold weights_2, zero_pt in H0. cbn in H0.
    unfold line_weight_2, line_point_2 in *. cbn in H0, H1, H2, H3.
    unfold blend. lra.
Qed.

Lemma edges_ok : forall M c left right bottom top v e,
  edges_2 M c left right bottom top ->
  joins left (vertex c 0) (vertex c 2) -> joins right (vertex c 1) (vertex c 3) ->
  joins bottom (vertex c 0) (vertex c 1) -> joins top (vertex c 2) (vertex c 3) ->
  push_forward_2 M c (chart (0, v)) e = left v e /\ push_forward_2 M c (chart (1, v)) e = right v e /\
  push_forward_2 M c (chart (v, 0)) e = bottom v e /\ push_forward_2 M c (chart (v, 1)) e = top v e.
Proof.
  intros M c left right bottom top v e E Jl Jr Jb Jt.
  rewrite !(formula_2 M c _ _ _ _ _ e E). unfold blend. cbn.
  destruct (Jl e), (Jr e), (Jb e), (Jt e).
  repeat split;
    repeat match goal with H : ?a = vertex _ _ _ |- _ => rewrite H; clear H end; ring.
Qed.

Lemma edge_joins : forall M c i a b curve, is_edge M c i a b curve ->
  (forall n, ~ plain c i -> i = id n ->
     forall e, M n [vertex c a; vertex c b] [1; 0] e = vertex c a e /\ M n [vertex c a; vertex c b] [0; 1] e = vertex c b e) ->
  joins curve (vertex c a) (vertex c b).
Proof.
  intros M c i a b curve [E1 E2] H e. destruct (own c i) eqn:O.
  - apply own_spec in O. rewrite !E1 by exact O. unfold straight. split; ring.
  - destruct (own_false _ _ O) as [NP [n I]]. rewrite !(E2 n NP I).
    destruct (H n NP I e) as [Ha Hb].
    replace (1 - 0) with 1 by ring. replace (1 - 1) with 0 by ring. auto.
Qed.

(** ** Three dimensions *)

(** The curve of a line and the surface of a face exist. *)
Definition edge_of (M : nat -> manifold) (c : cell) (i : manifold_id) (a b : nat) (t : R) : pt :=
  if own c i then straight (vertex c a) (vertex c b) t
  else match i with id n => M n [vertex c a; vertex c b] [1 - t; t] | flat => zero_pt end.

Lemma edge_of_ok : forall M c i a b, is_edge M c i a b (edge_of M c i a b).
Proof.
  intros M c i a b. unfold edge_of. split.
  - intros P t e. apply own_spec in P. rewrite P. reflexivity.
  - intros n NP -> t e. destruct (own c (id n)) eqn:O; [|reflexivity]. apply own_spec in O. contradiction.
Qed.

Definition sum8 (w : nat -> R) (V : nat -> pt) (e : nat) : R :=
  w 0%nat * V 0%nat e + w 1%nat * V 1%nat e + w 2%nat * V 2%nat e + w 3%nat * V 3%nat e
  + w 4%nat * V 4%nat e + w 5%nat * V 5%nat e + w 6%nat * V 6%nat e + w 7%nat * V 7%nat e.

Definition sum12 (w : nat -> R) (L : nat -> R) : R :=
  w 0%nat * L 0%nat + w 1%nat * L 1%nat + w 2%nat * L 2%nat + w 3%nat * L 3%nat + w 4%nat * L 4%nat + w 5%nat * L 5%nat
  + w 6%nat * L 6%nat + w 7%nat * L 7%nat + w 8%nat * L 8%nat + w 9%nat * L 9%nat + w 10%nat * L 10%nat
  + w 11%nat * L 11%nat.

Lemma add8 : forall w i a V e, (i < 8)%nat -> sum8 (add_at w i a) V e = sum8 w V e + a * V i e.
Proof.
  intros w i a V e Hi. unfold sum8, add_at.
  do 8 (destruct i as [|i]; [cbn; ring|]). lia.
Qed.

Lemma add12 : forall w i a L, (i < 12)%nat -> sum12 (add_at w i a) L = sum12 w L + a * L i.
Proof.
  intros w i a L Hi. unfold sum12, add_at.
  do 12 (destruct i as [|i]; [cbn; ring|]). lia.
Qed.

(** The factor with which a contribution of weight w enters. *)
Definition kept (w : R) : R := if Rlt_dec (Rabs w) cutoff then 0 else 1.

Lemma kept_off : forall w, Rabs ((1 - kept w) * w) <= cutoff.
Proof.
  intros w. unfold kept. destruct (Rlt_dec (Rabs w) cutoff).
  - replace ((1 - 0) * w) with w by ring. lra.
  - replace ((1 - 1) * w) with 0 by ring. rewrite Rabs_R0. unfold cutoff. lra.
Qed.

Section Three.
Variable M : nat -> manifold.
Variable c : cell.
Variable L : nat -> R -> pt.
Variable F : nat -> R -> R -> pt.
Variable x : nat -> R.
Variable e : nat.
Hypothesis HL : is_skeleton M c L.
Hypothesis HF : forall f, (f < 6)%nat -> is_face M c L f (F f).

(** Value of line l and of face f at the chart point. *)
Let Lv (l : nat) : R := L l (line_point_3 x l) e.
Let Fv (f : nat) : R := F f (x ((f / 2 + 1) mod 3)%nat) (x ((f / 2 + 2) mod 3)%nat) e.

Lemma face_step_ok : forall f s, (f < 6)%nat ->
  let s' := face_step M c x s f in
  let val (s : (nat -> R) * (nat -> R) * pt) :=
    snd s e + sum12 (fst (fst s)) Lv + sum8 (snd (fst s)) (vertex c) e in
  val s' = val s + kept (shape x f) * (shape x f * Fv f).
Proof using HF.
  intros f [[wl wv] q] Hf s' val. subst s' val. unfold face_step, kept.
  destruct (Rlt_dec (Rabs (shape x f)) cutoff) as [Hc|Hc]; [ring|].
  pose proof (HF f Hf) as H. unfold is_face in H.
  destruct (own c (face_id c f)) eqn:O.
  - assert (G : Fv f = (let '(l0, l1, l2, l3) := face_lines f in
        let '(v0, v1, v2, v3) := face_corners f in
        let s := x ((f / 2 + 1) mod 3)%nat in let t := x ((f / 2 + 2) mod 3)%nat in
        (1 - s) * L l0 t e + s * L l1 t e + ((1 - t) * L l2 s e + t * L l3 s e)
        - ((1 - s) * (1 - t) * vertex c v0 e + s * (1 - t) * vertex c v1 e
           + (1 - s) * t * vertex c v2 e + s * t * vertex c v3 e))).
    { unfold Fv. destruct f as [|[|[|[|[|[|?]]]]]]; [| | | | | |lia]; cbn [face_lines face_corners] in *;
        destruct H as [H _]; rewrite H by (apply own_spec; exact O); reflexivity. }
    rewrite G. clear G H.
    cbn [fst snd fold_left seq].
    rewrite !add12, !add8 by
      (destruct f as [|[|[|[|[|[|?]]]]]]; [| | | | | |lia]; cbn; lia).
    unfold Lv. destruct f as [|[|[|[|[|[|?]]]]]]; [| | | | | |lia]; cbn; unfold line_point_3; cbn; ring.
  - destruct (own_false _ _ O) as [NP [n I]]. rewrite I.
    assert (G : Fv f = M n (map (fun v => vertex c (face_vertex f v)) (seq 0 4)) (map (face_weight x f) (seq 0 4)) e).
    { unfold Fv. destruct f as [|[|[|[|[|[|?]]]]]]; [| | | | | |lia]; cbn [face_lines face_corners] in *;
        destruct H as [_ H]; rewrite (H n NP I); reflexivity. }
    rewrite G. cbn [fst snd]. unfold plus_pt. ring.
Qed.

Lemma line_step_ok : forall wl l s, (l < 12)%nat ->
  let s' := line_step_3 M c x wl s l in
  let val (s : (nat -> R) * pt) := snd s e + sum8 (fst s) (vertex c) e in
  let w := line_weight_3 x l - wl l in
  val s' = val s - kept w * (w * Lv l).
Proof using HL.
  intros wl l [wv q] Hl s' val w. subst s' val w. unfold line_step_3, kept.
  destruct (Rlt_dec (Rabs (line_weight_3 x l - wl l)) cutoff) as [Hc|Hc]; [ring|].
  pose proof (HL l Hl) as [E1 E2].
  destruct (own c (line_id c l)) eqn:O.
  - cbn [fst snd].
    assert (B : (line_vertex_3 l 0 < 8)%nat /\ (line_vertex_3 l 1 < 8)%nat).
    { do 12 (destruct l as [|l]; [cbn; lia|]). lia. }
    destruct B as [B0 B1]. rewrite !add8 by assumption.
    assert (G : Lv l = straight (vertex c (line_vertex_3 l 0)) (vertex c (line_vertex_3 l 1)) (line_point_3 x l) e).
    { unfold Lv. rewrite E1 by (apply own_spec; exact O). clear E1 E2 O Hc B0 B1.
      do 12 (destruct l as [|l]; [reflexivity|]). lia. }
    rewrite G. unfold straight. ring.
  - destruct (own_false _ _ O) as [NP [m I]]. rewrite I. cbn [fst snd].
    assert (G : Lv l = M m [vertex c (line_vertex_3 l 0); vertex c (line_vertex_3 l 1)]
                         [1 - line_point_3 x l; line_point_3 x l] e).
    { unfold Lv. rewrite (E2 m NP I). clear E1 E2 O I NP Hc.
      do 12 (destruct l as [|l]; [reflexivity|]). lia. }
    rewrite G. unfold plus_pt. ring.
Qed.
End Three.
