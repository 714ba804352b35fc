(** * Proofs: the blend in three dimensions, and the inverse *)
From Coq Require Import Reals Lra Lia List Bool Arith.
From Verif Require Import Transfinite TransfiniteSpec TransfiniteProofs.
Import ListNotations.
Local Open Scope R_scope.

Lemma off_bound : forall w a B, Rabs a <= B -> - (cutoff * B) <= (1 - kept w) * (w * a) <= cutoff * B.
Proof.
  intros w a B H. pose proof (kept_off w) as K.
  assert (R : Rabs ((1 - kept w) * (w * a)) <= cutoff * B).
  { replace ((1 - kept w) * (w * a)) with (((1 - kept w) * w) * a) by ring. rewrite Rabs_mult.
    apply Rmult_le_compat; auto using Rabs_pos. }
  revert R. unfold Rabs at 1. destruct (Rcase_abs ((1 - kept w) * (w * a))); lra.
Qed.

Lemma formula_3 : forall M c L F x y z e B,
  is_skeleton M c L -> (forall f, (f < 6)%nat -> is_face M c L f (F f)) -> below F L x y z e B ->
  Rabs (push_forward_3 M c (xyz x y z) e - blend_3 F L (vertex c) x y z e) <= 18 * cutoff * B.
Proof.
  intros M c L F x y z e B HL HF [BF BL].
  assert (PB : 0 <= cutoff * B).
  { pose proof (BL 0%nat ltac:(lia) x (or_introl eq_refl)) as H. pose proof (Rabs_pos (L 0%nat x e)).
    unfold cutoff. lra. }
  unfold push_forward_3. destruct (cell_is_flat 3 c) eqn:Fl.
  - unfold cell_is_flat in Fl. apply andb_true_iff in Fl. destruct Fl as [F1 F2].
    cbn [Nat.leb orb] in F2.
    assert (P1 : forall l, (l < 12)%nat -> plain c (line_id c l)).
    { intros l Hl. apply own_spec. rewrite forallb_forall in F1. apply F1.
      apply in_seq. cbn. lia. }
    assert (P2 : forall f, (f < 6)%nat -> plain c (face_id c f)).
    { intros f Hf. apply own_spec. rewrite forallb_forall in F2. apply F2. apply in_seq. lia. }
    assert (EL : forall l t, (l < 12)%nat ->
        L l t e = straight (vertex c (fst (line_ends l))) (vertex c (snd (line_ends l))) t e).
    { intros l t Hl. destruct (HL l Hl) as [H _]. apply H. auto. }
    assert (E0 : forall s t, F 0%nat s t e = blend (L 8%nat) (L 10%nat) (L 0%nat) (L 4%nat)
        (vertex c 0) (vertex c 2) (vertex c 4) (vertex c 6) s t e)
      by (intros; destruct (HF 0%nat ltac:(lia)) as [H _]; apply H, P2; lia).
    assert (E1 : forall s t, F 1%nat s t e = blend (L 9%nat) (L 11%nat) (L 1%nat) (L 5%nat)
        (vertex c 1) (vertex c 3) (vertex c 5) (vertex c 7) s t e)
      by (intros; destruct (HF 1%nat ltac:(lia)) as [H _]; apply H, P2; lia).
    assert (E2 : forall s t, F 2%nat s t e = blend (L 2%nat) (L 6%nat) (L 8%nat) (L 9%nat)
        (vertex c 0) (vertex c 4) (vertex c 1) (vertex c 5) s t e)
      by (intros; destruct (HF 2%nat ltac:(lia)) as [H _]; apply H, P2; lia).
    assert (E3 : forall s t, F 3%nat s t e = blend (L 3%nat) (L 7%nat) (L 10%nat) (L 11%nat)
        (vertex c 2) (vertex c 6) (vertex c 3) (vertex c 7) s t e)
      by (intros; destruct (HF 3%nat ltac:(lia)) as [H _]; apply H, P2; lia).
    assert (E4 : forall s t, F 4%nat s t e = blend (L 0%nat) (L 1%nat) (L 2%nat) (L 3%nat)
        (vertex c 0) (vertex c 1) (vertex c 2) (vertex c 3) s t e)
      by (intros; destruct (HF 4%nat ltac:(lia)) as [H _]; apply H, P2; lia).
    assert (E5 : forall s t, F 5%nat s t e = blend (L 4%nat) (L 5%nat) (L 6%nat) (L 7%nat)
        (vertex c 4) (vertex c 5) (vertex c 6) (vertex c 7) s t e)
      by (intros; destruct (HF 5%nat ltac:(lia)) as [H _]; apply H, P2; lia).
    replace (interpolate_3 M c true (xyz x y z) e - blend_3 F L (vertex c) x y z e) with 0.
    { rewrite Rabs_R0. lra. }
    unfold blend_3. rewrite E0, E1, E2, E3, E4, E5. unfold blend.
    rewrite !EL by lia. unfold straight, interpolate_3.
    cbn [line_ends fst snd]. cbn. unfold plus_pt, zero_pt, weights_3, shape. cbn. ring.
  - unfold interpolate_3.
    set (X := xyz x y z).
    set (s0 := (fun _ : nat => 0, weights_3 X, zero_pt)).
    set (Lv := fun l => L l (line_point_3 X l) e).
    pose proof (face_step_ok M c L F X e HF 0 s0 ltac:(lia)) as H0. set (s1 := face_step M c X s0 0) in *.
    pose proof (face_step_ok M c L F X e HF 1 s1 ltac:(lia)) as H1. set (s2 := face_step M c X s1 1) in *.
    pose proof (face_step_ok M c L F X e HF 2 s2 ltac:(lia)) as H2. set (s3 := face_step M c X s2 2) in *.
    pose proof (face_step_ok M c L F X e HF 3 s3 ltac:(lia)) as H3. set (s4 := face_step M c X s3 3) in *.
    pose proof (face_step_ok M c L F X e HF 4 s4 ltac:(lia)) as H4. set (s5 := face_step M c X s4 4) in *.
    pose proof (face_step_ok M c L F X e HF 5 s5 ltac:(lia)) as H5. set (s6 := face_step M c X s5 5) in *.
    change (fold_left (face_step M c X) (seq 0 6) s0) with s6.
    cbv zeta in H0, H1, H2, H3, H4, H5. fold Lv in H0, H1, H2, H3, H4, H5.
    set (wl := fst (fst s6)).
    set (t0 := (snd (fst s6), snd s6)).
    pose proof (line_step_ok M c L X e HL wl) as Hs.
    pose proof (Hs 0%nat t0 ltac:(lia)) as G0. set (t1 := line_step_3 M c X wl t0 0) in *.
    pose proof (Hs 1%nat t1 ltac:(lia)) as G1. set (t2 := line_step_3 M c X wl t1 1) in *.
    pose proof (Hs 2%nat t2 ltac:(lia)) as G2. set (t3 := line_step_3 M c X wl t2 2) in *.
    pose proof (Hs 3%nat t3 ltac:(lia)) as G3. set (t4 := line_step_3 M c X wl t3 3) in *.
    pose proof (Hs 4%nat t4 ltac:(lia)) as G4. set (t5 := line_step_3 M c X wl t4 4) in *.
    pose proof (Hs 5%nat t5 ltac:(lia)) as G5. set (t6 := line_step_3 M c X wl t5 5) in *.
    pose proof (Hs 6%nat t6 ltac:(lia)) as G6. set (t7 := line_step_3 M c X wl t6 6) in *.
    pose proof (Hs 7%nat t7 ltac:(lia)) as G7. set (t8 := line_step_3 M c X wl t7 7) in *.
    pose proof (Hs 8%nat t8 ltac:(lia)) as G8. set (t9 := line_step_3 M c X wl t8 8) in *.
    pose proof (Hs 9%nat t9 ltac:(lia)) as G9. set (t10 := line_step_3 M c X wl t9 9) in *.
    pose proof (Hs 10%nat t10 ltac:(lia)) as G10. set (t11 := line_step_3 M c X wl t10 10) in *.
    pose proof (Hs 11%nat t11 ltac:(lia)) as G11. set (t12 := line_step_3 M c X wl t11 11) in *.
    change (fold_left (line_step_3 M c X wl) (seq 0 12) t0) with t12.
    cbv zeta in G0, G1, G2, G3, G4, G5, G6, G7, G8, G9, G10, G11. clear Hs.
    assert (E : fold_left (fun q v => plus_pt q (fst t12 v) (vertex c v)) (seq 0 8) (snd t12) e
                = snd t12 e + sum8 (fst t12) (vertex c) e).
    { cbn [fold_left seq]. unfold plus_pt, sum8. ring. }
    rewrite E. clear E.
    assert (EL : forall l, (l < 12)%nat -> Rabs (Lv l) <= B).
    { intros l Hl. unfold Lv. apply BL; [exact Hl|]. unfold line_point_3, X.
      do 12 (destruct l as [|l]; [cbn; tauto|]). lia. }
    assert (EF : forall f, (f < 6)%nat ->
        Rabs (F f (X ((f / 2 + 1) mod 3)%nat) (X ((f / 2 + 2) mod 3)%nat) e) <= B).
    { intros f Hf. apply BF; [exact Hf|]. unfold X.
      destruct f as [|[|[|[|[|[|?]]]]]]; [| | | | | |lia]; cbn; tauto. }
    assert (K : forall l, (l < 12)%nat ->
       kept (line_weight_3 X l - wl l) * ((line_weight_3 X l - wl l) * Lv l) =
       line_weight_3 X l * Lv l - wl l * Lv l
       - (1 - kept (line_weight_3 X l - wl l)) * ((line_weight_3 X l - wl l) * Lv l)) by (intros; ring).
    assert (K' : forall f, kept (shape X f) * (shape X f * F f (X ((f / 2 + 1) mod 3)%nat) (X ((f / 2 + 2) mod 3)%nat) e)
       = shape X f * F f (X ((f / 2 + 1) mod 3)%nat) (X ((f / 2 + 2) mod 3)%nat) e
         - (1 - kept (shape X f)) * (shape X f * F f (X ((f / 2 + 1) mod 3)%nat) (X ((f / 2 + 2) mod 3)%nat) e))
      by (intros; ring).
    pose proof (off_bound (shape X 0) _ B (EF 0%nat ltac:(lia))) as A0.
    pose proof (off_bound (shape X 1) _ B (EF 1%nat ltac:(lia))) as A1.
    pose proof (off_bound (shape X 2) _ B (EF 2%nat ltac:(lia))) as A2.
    pose proof (off_bound (shape X 3) _ B (EF 3%nat ltac:(lia))) as A3.
    pose proof (off_bound (shape X 4) _ B (EF 4%nat ltac:(lia))) as A4.
    pose proof (off_bound (shape X 5) _ B (EF 5%nat ltac:(lia))) as A5.
    assert (Q : forall l, (l < 12)%nat -> - (cutoff * B) <=
       (1 - kept (line_weight_3 X l - wl l)) * ((line_weight_3 X l - wl l) * Lv l) <= cutoff * B).
    { intros l Hl. apply off_bound. auto. }
    pose proof (Q 0%nat ltac:(lia)) as Q0. pose proof (Q 1%nat ltac:(lia)) as Q1.
    pose proof (Q 2%nat ltac:(lia)) as Q2. pose proof (Q 3%nat ltac:(lia)) as Q3.
    pose proof (Q 4%nat ltac:(lia)) as Q4. pose proof (Q 5%nat ltac:(lia)) as Q5.
    pose proof (Q 6%nat ltac:(lia)) as Q6. pose proof (Q 7%nat ltac:(lia)) as Q7.
    pose proof (Q 8%nat ltac:(lia)) as Q8. pose proof (Q 9%nat ltac:(lia)) as Q9.
    pose proof (Q 10%nat ltac:(lia)) as Q10. pose proof (Q 11%nat ltac:(lia)) as Q11. clear Q.
    rewrite K in G0, G1, G2, G3, G4, G5, G6, G7, G8, G9, G10, G11 by lia.
    rewrite K' in H0, H1, H2, H3, H4, H5. clear K K' BF BL EL EF HL HF.
    set (V0 := snd s0 e + sum12 (fst (fst s0)) Lv + sum8 (snd (fst s0)) (vertex c) e) in *.
    set (V1 := snd s1 e + sum12 (fst (fst s1)) Lv + sum8 (snd (fst s1)) (vertex c) e) in *.
    set (V2 := snd s2 e + sum12 (fst (fst s2)) Lv + sum8 (snd (fst s2)) (vertex c) e) in *.
    set (V3 := snd s3 e + sum12 (fst (fst s3)) Lv + sum8 (snd (fst s3)) (vertex c) e) in *.
    set (V4 := snd s4 e + sum12 (fst (fst s4)) Lv + sum8 (snd (fst s4)) (vertex c) e) in *.
    set (V5 := snd s5 e + sum12 (fst (fst s5)) Lv + sum8 (snd (fst s5)) (vertex c) e) in *.
    assert (I0 : snd t0 e + sum8 (fst t0) (vertex c) e
                 = snd s6 e + sum12 (fst (fst s6)) Lv + sum8 (snd (fst s6)) (vertex c) e - sum12 wl Lv).
    { unfold t0, wl. cbn [fst snd]. ring. }
    set (U0 := snd t0 e + sum8 (fst t0) (vertex c) e) in *.
    set (U1 := snd t1 e + sum8 (fst t1) (vertex c) e) in *.
    set (U2 := snd t2 e + sum8 (fst t2) (vertex c) e) in *.
    set (U3 := snd t3 e + sum8 (fst t3) (vertex c) e) in *.
    set (U4 := snd t4 e + sum8 (fst t4) (vertex c) e) in *.
    set (U5 := snd t5 e + sum8 (fst t5) (vertex c) e) in *.
    set (U6 := snd t6 e + sum8 (fst t6) (vertex c) e) in *.
    set (U7 := snd t7 e + sum8 (fst t7) (vertex c) e) in *.
    set (U8 := snd t8 e + sum8 (fst t8) (vertex c) e) in *.
    set (U9 := snd t9 e + sum8 (fst t9) (vertex c) e) in *.
    set (U10 := snd t10 e + sum8 (fst t10) (vertex c) e) in *.
    set (U11 := snd t11 e + sum8 (fst t11) (vertex c) e) in *.
    set (U12 := snd t12 e + sum8 (fst t12) (vertex c) e) in *.
    set (V6 := snd s6 e + sum12 (fst (fst s6)) Lv + sum8 (snd (fst s6)) (vertex c) e) in *.
    unfold sum12 in I0.
    repeat match goal with
      | H : context[(1 - kept (shape X ?k)) * ?r] |- _ => set ((1 - kept (shape X k)) * r) in *
      | H : context[(1 - kept (line_weight_3 X ?k - wl ?k)) * ?r] |- _ =>
          set ((1 - kept (line_weight_3 X k - wl k)) * r) in *
      end.
    assert (T : blend_3 F L (vertex c) x y z e =
       V0 + shape X 0 * F 0%nat (X ((0 / 2 + 1) mod 3)%nat) (X ((0 / 2 + 2) mod 3)%nat) e
       + shape X 1 * F 1%nat (X ((1 / 2 + 1) mod 3)%nat) (X ((1 / 2 + 2) mod 3)%nat) e
       + shape X 2 * F 2%nat (X ((2 / 2 + 1) mod 3)%nat) (X ((2 / 2 + 2) mod 3)%nat) e
       + shape X 3 * F 3%nat (X ((3 / 2 + 1) mod 3)%nat) (X ((3 / 2 + 2) mod 3)%nat) e
       + shape X 4 * F 4%nat (X ((4 / 2 + 1) mod 3)%nat) (X ((4 / 2 + 2) mod 3)%nat) e
       + shape X 5 * F 5%nat (X ((5 / 2 + 1) mod 3)%nat) (X ((5 / 2 + 2) mod 3)%nat) e
       - (line_weight_3 X 0 * Lv 0%nat + line_weight_3 X 1 * Lv 1%nat + line_weight_3 X 2 * Lv 2%nat
          + line_weight_3 X 3 * Lv 3%nat + line_weight_3 X 4 * Lv 4%nat + line_weight_3 X 5 * Lv 5%nat
          + line_weight_3 X 6 * Lv 6%nat + line_weight_3 X 7 * Lv 7%nat + line_weight_3 X 8 * Lv 8%nat
          + line_weight_3 X 9 * Lv 9%nat + line_weight_3 X 10 * Lv 10%nat + line_weight_3 X 11 * Lv 11%nat)).
    { unfold blend_3, V0, s0, Lv, X. unfold sum8, sum12, zero_pt, weights_3, line_weight_3, line_point_3, shape.
      cbn. ring. }
    rewrite T. clear T. apply Rabs_le.
    repeat match goal with H : context[shape X ?k * ?r] |- _ => set (shape X k * r) in * end.
    repeat match goal with H : context[line_weight_3 X ?k * ?r] |- _ => set (line_weight_3 X k * r) in * end.
    repeat match goal with H : context[wl ?k * ?r] |- _ => set (wl k * r) in * end.
    set (CB := cutoff * B) in *. replace (18 * cutoff * B) with (18 * CB) by (unfold CB; ring).
    clearbody V0 V1 V2 V3 V4 V5 V6 U0 U1 U2 U3 U4 U5 U6 U7 U8 U9 U10 U11 U12 CB.
    repeat match goal with r := _ : R |- _ => clearbody r end.
    lra.
Qed.

Lemma plain_face_bounded : forall M c L f F,
  (f < 6)%nat -> is_face M c L f F -> plain c (face_id c f) ->
  (forall l, (l < 12)%nat -> joins (L l) (vertex c (fst (line_ends l))) (vertex c (snd (line_ends l)))) ->
  let '(l0, l1, l2, l3) := face_lines f in bounded_by F (L l0) (L l1) (L l2) (L l3).
Proof.
  intros M c L f F Hf HF P J. unfold is_face in HF.
  pose proof (fun l H e => proj1 (J l H e)) as J0. pose proof (fun l H e => proj2 (J l H e)) as J1. clear J.
  destruct f as [|[|[|[|[|[|?]]]]]]; [| | | | | |lia]; cbn [face_lines face_corners] in *;
    destruct HF as [HF _]; specialize (HF P); intros r e; rewrite !HF; unfold blend;
    rewrite !J0, !J1 by lia; cbn [line_ends fst snd]; repeat split; ring.
Qed.

Lemma blend_faces : forall c L F a b e,
  (forall l, (l < 12)%nat -> joins (L l) (vertex c (fst (line_ends l))) (vertex c (snd (line_ends l)))) ->
  (forall f, (f < 6)%nat ->
     let '(l0, l1, l2, l3) := face_lines f in bounded_by (F f) (L l0) (L l1) (L l2) (L l3)) ->
  blend_3 F L (vertex c) 0 a b e = F 0%nat a b e /\ blend_3 F L (vertex c) 1 a b e = F 1%nat a b e /\
  blend_3 F L (vertex c) b 0 a e = F 2%nat a b e /\ blend_3 F L (vertex c) b 1 a e = F 3%nat a b e /\
  blend_3 F L (vertex c) a b 0 e = F 4%nat a b e /\ blend_3 F L (vertex c) a b 1 e = F 5%nat a b e.
Proof.
  intros c L F a b e J HB.
  pose proof (fun l H => proj1 (J l H e)) as J0. pose proof (fun l H => proj2 (J l H e)) as J1. clear J.
  pose proof (HB 0%nat ltac:(lia)) as B0. pose proof (HB 1%nat ltac:(lia)) as B1.
  pose proof (HB 2%nat ltac:(lia)) as B2. pose proof (HB 3%nat ltac:(lia)) as B3.
  pose proof (HB 4%nat ltac:(lia)) as B4. pose proof (HB 5%nat ltac:(lia)) as B5. clear HB.
  cbn [face_lines] in *.
  assert (X : forall (f : R -> R -> pt) l0 l1 l2 l3, bounded_by f l0 l1 l2 l3 ->
     (forall r, f 0 r e = l0 r e) /\ (forall r, f 1 r e = l1 r e) /\
     (forall r, f r 0 e = l2 r e) /\ (forall r, f r 1 e = l3 r e)).
  { intros f l0 l1 l2 l3 H. repeat split; intros r; destruct (H r e) as (? & ? & ? & ?); auto. }
  apply X in B0. apply X in B1. apply X in B2. apply X in B3. apply X in B4. apply X in B5. clear X.
  destruct B0 as (B00 & B01 & B02 & B03), B1 as (B10 & B11 & B12 & B13), B2 as (B20 & B21 & B22 & B23),
    B3 as (B30 & B31 & B32 & B33), B4 as (B40 & B41 & B42 & B43), B5 as (B50 & B51 & B52 & B53).
  unfold blend_3. repeat split;
    rewrite ?B00, ?B01, ?B02, ?B03, ?B10, ?B11, ?B12, ?B13, ?B20, ?B21, ?B22, ?B23,
      ?B30, ?B31, ?B32, ?B33, ?B40, ?B41, ?B42, ?B43, ?B50, ?B51, ?B52, ?B53;
    rewrite ?J0, ?J1 by lia; cbn [line_ends fst snd]; ring.
Qed.

Lemma faces_3 : forall M c L F a b e B,
  is_skeleton M c L -> (forall f, (f < 6)%nat -> is_face M c L f (F f)) ->
  (forall l, (l < 12)%nat -> joins (L l) (vertex c (fst (line_ends l))) (vertex c (snd (line_ends l)))) ->
  (forall f, (f < 6)%nat -> ~ plain c (face_id c f) ->
     let '(l0, l1, l2, l3) := face_lines f in bounded_by (F f) (L l0) (L l1) (L l2) (L l3)) ->
  (forall x y z, In x [0; 1; a; b] -> In y [0; 1; a; b] -> In z [0; 1; a; b] -> below F L x y z e B) ->
  let S x y z := push_forward_3 M c (xyz x y z) e in
  Rabs (S 0 a b - F 0%nat a b e) <= 18 * cutoff * B /\ Rabs (S 1 a b - F 1%nat a b e) <= 18 * cutoff * B /\
  Rabs (S b 0 a - F 2%nat a b e) <= 18 * cutoff * B /\ Rabs (S b 1 a - F 3%nat a b e) <= 18 * cutoff * B /\
  Rabs (S a b 0 - F 4%nat a b e) <= 18 * cutoff * B /\ Rabs (S a b 1 - F 5%nat a b e) <= 18 * cutoff * B.
Proof.
  intros M c L F a b e B HL HF J HB Hb S.
  assert (HB' : forall f, (f < 6)%nat ->
     let '(l0, l1, l2, l3) := face_lines f in bounded_by (F f) (L l0) (L l1) (L l2) (L l3)).
  { intros f Hf. destruct (own c (face_id c f)) eqn:O.
    - apply (plain_face_bounded M c L f (F f) Hf (HF f Hf)); [apply own_spec; exact O|exact J].
    - apply HB; [exact Hf|]. apply (own_false _ _ O). }
  destruct (blend_faces c L F a b e J HB') as (E0 & E1 & E2 & E3 & E4 & E5).
  rewrite <- E0, <- E1, <- E2, <- E3, <- E4, <- E5.
  repeat split; apply formula_3; auto; apply Hb; cbn; auto 8.
Qed.

(** ** The inverse *)

Lemma inside_near : forall p r, inside p r = true <-> near_square r p.
Proof.
  intros [u v] r. unfold inside, near_square. cbn [fst snd].
  repeat match goal with |- context[Rlt_dec ?a ?b] => destruct (Rlt_dec a b) end;
    split; intros H; try discriminate; try lra; reflexivity.
Qed.

Lemma shorten_props : forall n x u alpha, 0 < alpha <= 1 ->
  0 < shorten n x u alpha <= 1 /\
  (inside (axpy x (shorten n x u alpha) u) (2 / 10) = true \/ shorten n x u alpha <= / 10000000
   \/ shorten n x u alpha <= alpha / 2 ^ n).
Proof.
  induction n as [|n IH]; intros x u alpha H; cbn [shorten].
  - split; [exact H|]. right. right. cbn. lra.
  - destruct (inside (axpy x alpha u) (2 / 10)) eqn:E; [auto|].
    destruct (Rlt_dec (/ 10000000) alpha) as [G|G].
    + destruct (IH x u (alpha / 2) ltac:(lra)) as [A [B|[B|B]]]; split; auto.
      right. right. replace (alpha / 2 ^ Datatypes.S n) with (alpha / 2 / 2 ^ n); [exact B|].
      cbn [pow]. field. apply pow_nonzero. lra.
    + split; [exact H|]. right. left. lra.
Qed.

Lemma shorten_24 : forall x u, 0 < shorten 24 x u 1 <= 1 /\
  (inside (axpy x (shorten 24 x u 1) u) (2 / 10) = true \/ shorten 24 x u 1 <= / 10000000).
Proof.
  intros x u. destruct (shorten_props 24 x u 1 ltac:(lra)) as [A [B|[B|B]]]; split; auto.
  right. eapply Rle_trans; [exact B|]. lra.
Qed.

Lemma line_search_some : forall n S p x u norm alpha a, 0 < alpha ->
  line_search n S p x u norm alpha = Some a ->
  / 10000 < a <= alpha /\ norm_square (minus p (S (axpy x a u))) < norm.
Proof.
  induction n as [|n IH]; intros S p x u norm alpha a H E; cbn [line_search] in E; [discriminate|].
  destruct (Rlt_dec (/ 10000) alpha) as [G|G]; [|discriminate].
  destruct (Rlt_dec _ norm) as [K|K].
  - injection E as <-. split; [lra|exact K].
  - assert (H' : 0 < alpha / 2) by lra.
    destruct (IH _ _ _ _ _ _ _ H' E). split; [lra|assumption].
Qed.

Lemma near_between : forall r x u alpha a, 0 < a <= alpha ->
  near_square r x -> near_square r (axpy x alpha u) -> near_square r (axpy x a u).
Proof.
  intros r [x0 x1] [u0 u1] alpha a H [A1 A2] [B1 B2]. unfold near_square, axpy in *. cbn [fst snd] in *.
  assert (E0 : x0 + a * u0 = (1 - a / alpha) * x0 + a / alpha * (x0 + alpha * u0)) by (field; lra).
  assert (E1 : x1 + a * u1 = (1 - a / alpha) * x1 + a / alpha * (x1 + alpha * u1)) by (field; lra).
  assert (T : 0 <= a / alpha <= 1).
  { split; [apply Rlt_le, Rdiv_lt_0_compat; lra|]. apply Rmult_le_reg_r with alpha; [lra|].
    unfold Rdiv. rewrite Rmult_assoc, Rinv_l by lra. lra. }
  rewrite E0, E1. set (t := a / alpha) in *. clearbody t.
  assert (C : forall p q lo hi, lo <= p <= hi -> lo <= q <= hi -> lo <= (1 - t) * p + t * q <= hi).
  { intros p q lo hi Hp Hq.
    assert (0 <= (1 - t) * (p - lo)) by (apply Rmult_le_pos; lra).
    assert (0 <= (1 - t) * (hi - p)) by (apply Rmult_le_pos; lra).
    assert (0 <= t * (q - lo)) by (apply Rmult_le_pos; lra).
    assert (0 <= t * (hi - q)) by (apply Rmult_le_pos; lra). lra. }
  split; apply C; assumption.
Qed.

Lemma axpy_1 : forall x u, axpy x 1 u = (fst x + fst u, snd x + snd u).
Proof. intros. unfold axpy. f_equal; ring. Qed.

Lemma iterate_safe : forall n S tol p i s,
  near_square (2 / 10) (chart_point s) -> residual s = minus p (S (chart_point s)) ->
  iterate n S tol p i s = outside \/
  exists x J, near_square (2 / 10) x /\ norm_square (minus p (S x)) < tol /\
    norm_square (minus p (S x)) <= norm_square (residual s) /\
    iterate n S tol p i s = axpy x 1 (apply J (minus p (S x))).
Proof.
  induction n as [|n IH]; intros S tol p i s Hn Hr; cbn [iterate]; [auto|].
  destruct (Rlt_dec (norm_square (residual s)) tol) as [G|G].
  { right. exists (chart_point s), (inv_grad s). rewrite <- Hr. auto with real. }
  match goal with |- context[if ?b then outside else _] => destruct b; [auto|] end.
  match goal with |- context[apply (if ?b then ?g else ?h) ?r] => set (J := if b then g else h) end.
  set (u := apply J (residual s)).
  destruct (shorten_24 (chart_point s) u) as [A B]. set (alpha := shorten 24 (chart_point s) u 1) in *.
  destruct (line_search 14 S p (chart_point s) u (norm_square (residual s)) alpha) as [a|] eqn:E.
  - destruct (line_search_some _ _ _ _ _ _ _ _ (proj1 A) E) as [Ha Hl].
    match goal with |- iterate n S tol p ?j ?s' = _ \/ _ => destruct (IH S tol p j s') as [O|(x & J' & P1 & P2 & P3 & P4)] end.
    + cbn [chart_point]. apply near_between with alpha; [lra|exact Hn|]. apply inside_near.
      destruct B as [B|B]; [exact B|lra].
    + reflexivity.
    + left. exact O.
    + right. exists x, J'. cbn [residual] in P3. repeat split; auto; try apply P1. lra.
  - match goal with |- iterate n S tol p ?j ?s' = _ \/ _ => destruct (IH S tol p j s') as [O|(x & J' & P1 & P2 & P3 & P4)] end;
      auto. right. exists x, J'. auto.
Qed.

Lemma project_near : forall g, near_square 0 (project g).
Proof.
  intros [u v]. unfold near_square, project. cbn [fst snd].
  assert (H : forall t, - 0 <= Rmin 1 (Rmax 0 t) <= 1 + 0).
  { intros t. pose proof (Rmin_l 1 (Rmax 0 t)). pose proof (Rmax_l 0 t).
    pose proof (Rmin_glb 1 (Rmax 0 t) 0 ltac:(lra) ltac:(lra)). lra. }
  split; apply H.
Qed.

Lemma project_id : forall g, near_square 0 g -> project g = g.
Proof.
  intros [u v] [A B]. unfold project. cbn [fst snd] in *.
  rewrite !Rmax_right, !Rmin_right by (rewrite ?Rmax_right by lra; lra). reflexivity.
Qed.

Lemma near_weaken : forall r r' p, r <= r' -> near_square r p -> near_square r' p.
Proof. intros r r' p H [A B]. split; lra. Qed.

Lemma pull_back_safe : forall S tol p g,
  pull_back S tol p g = outside \/
  exists x J, near_square (2 / 10) x /\ norm_square (minus p (S x)) < tol /\
    norm_square (minus p (S x)) <= norm_square (minus p (S (project g))) /\
    pull_back S tol p g = axpy x 1 (apply J (minus p (S x))).
Proof.
  intros S tol p g. unfold pull_back.
  match goal with |- iterate ?n S tol p ?i ?s = _ \/ _ => destruct (iterate_safe n S tol p i s) as [O|(x & J & H)] end.
  - cbn [chart_point]. apply near_weaken with 0; [lra|apply project_near].
  - reflexivity.
  - auto.
  - right. exists x, J. exact H.
Qed.

Lemma minus_self : forall p, minus p p = (0, 0).
Proof. intros p. unfold minus. f_equal; ring. Qed.

Lemma apply_0 : forall J, apply J (0, 0) = (0, 0).
Proof. intros J. unfold apply. cbn [fst snd]. f_equal; ring. Qed.

Lemma axpy_0 : forall x a, axpy x a (0, 0) = x.
Proof. intros [u v] a. unfold axpy. cbn [fst snd]. f_equal; ring. Qed.

Lemma pull_back_exact_start : forall S tol g, 0 < tol -> near_square 0 g -> pull_back S tol (S g) g = g.
Proof.
  intros S tol g Ht Hg. unfold pull_back. rewrite (project_id g Hg), minus_self. change 100%nat with (Datatypes.S 99). generalize 99%nat. intros n.
  cbn [iterate residual chart_point inv_grad].
  destruct (Rlt_dec (norm_square (0, 0)) tol) as [G|G].
  - rewrite apply_0. apply axpy_0.
  - exfalso. apply G. unfold norm_square. cbn. lra.
Qed.

(** *** Parallelograms *)

Section Affine.
Variables o a b : R * R.
Hypothesis Hdet : fst a * snd b - snd a * fst b > 0.
Variable S : R * R -> R * R.
Hypothesis HS : forall u v, S (u, v) = (fst o + u * fst a + v * fst b, snd o + u * snd a + v * snd b).

Let A : matrix := ((fst a, fst b), (snd a, snd b)).

Lemma affine_gradient : forall x, gradient S x (S x) = A.
Proof using HS.
  intros [u v]. unfold gradient, A. cbn [fst snd]. rewrite !HS. unfold minus. cbn [fst snd].
  assert (P : forall d, (if Rlt_dec (1 / 2) d then - / 100000000 else / 100000000) <> 0).
  { intros d. destruct (Rlt_dec (1 / 2) d); lra. }
  pose proof (P u) as Pu. pose proof (P v) as Pv.
  set (su := if Rlt_dec (1 / 2) u then - / 100000000 else / 100000000) in *.
  set (sv := if Rlt_dec (1 / 2) v then - / 100000000 else / 100000000) in *.
  clearbody su sv. f_equal; f_equal; field; assumption.
Qed.

Lemma affine_det : determinant A = fst a * snd b - snd a * fst b.
Proof. unfold determinant, A. cbn. ring. Qed.

Lemma affine_inverse : forall u v, apply (inverse A) (u * fst a + v * fst b, u * snd a + v * snd b) = (u, v).
Proof using Hdet.
  intros u v. unfold inverse, apply. rewrite affine_det. cbn [fst snd A]. unfold A. cbn [fst snd].
  f_equal; field; lra.
Qed.

Lemma affine_diff : forall x y, minus (S x) (S y) =
  ((fst x - fst y) * fst a + (snd x - snd y) * fst b, (fst x - fst y) * snd a + (snd x - snd y) * snd b).
Proof using HS. intros [x0 x1] [y0 y1]. rewrite !HS. unfold minus. cbn [fst snd]. f_equal; ring. Qed.

(** S is onto. *)
Definition pre (p : R * R) : R * R := apply (inverse A) (minus p o).

Lemma pre_ok : forall p, S (pre p) = p.
Proof using Hdet HS.
  intros [p0 p1]. unfold pre, minus, apply, inverse. rewrite affine_det. unfold A. cbn [fst snd]. rewrite HS.
  f_equal; field; lra.
Qed.

Lemma affine_update : forall q x, apply (inverse A) (minus (S q) (S x)) = minus q x.
Proof using Hdet HS. intros q x. rewrite affine_diff. apply affine_inverse. Qed.

Lemma broyden_keeps : forall tol x x', 
  broyden false tol (inverse A) (minus x' x) (minus (S x') (S x)) = inverse A.
Proof using Hdet HS.
  intros tol x x'. unfold broyden. rewrite affine_update.
  destruct (Rlt_dec _ _) as [G|G]; [|reflexivity].
  rewrite minus_self. cbn [fst snd].
  destruct (inverse A) as [[i0 i1] [i2 i3]]. cbn [fst snd].
  unfold Rdiv. rewrite !Rmult_0_l. f_equal; f_equal; ring.
Qed.

(** Once the derivative has been computed, the matrix is the exact inverse. *)
Definition good (p : R * R) (s : newton) : Prop :=
  residual s = minus p (S (chart_point s)) /\ (must s = true \/ inv_grad s = inverse A).

Lemma minus_minus : forall p q, minus p (minus p q) = q.
Proof. intros p [q0 q1]. unfold minus. cbn [fst snd]. f_equal; ring. Qed.

Lemma affine_iterate : forall n tol q i s, good (S q) s -> inv_grad s = inverse A ->
  iterate n S tol (S q) i s = outside \/ iterate n S tol (S q) i s = q.
Proof using Hdet HS.
  induction n as [|n IH]; intros tol q i s [Hr Hm] HJ; cbn [iterate]; [auto|].
  destruct (Rlt_dec (norm_square (residual s)) tol) as [G|G].
  { right. rewrite HJ, Hr, affine_update, axpy_1. destruct q. unfold minus. cbn [fst snd]. f_equal; ring. }
  match goal with |- context[if ?b then outside else _] => destruct b; [auto|] end.
  assert (EG : gradient S (chart_point s) (minus (S q) (residual s)) = A).
  { rewrite Hr, minus_minus. apply affine_gradient. }
  rewrite EG.
  match goal with |- context[apply (if ?b then ?g else ?h) ?r] => assert (EJ : (if b then g else h) = inverse A) by (destruct b; auto) end.
  rewrite EJ. clear EJ.
  set (u := apply (inverse A) (residual s)).
  assert (Eu : u = minus q (chart_point s)) by (unfold u; rewrite Hr; apply affine_update).
  destruct (line_search _ _ _ _ _ _ _) as [t|] eqn:E.
  - set (x' := axpy (chart_point s) t u).
    assert (Ed : (t * fst u, t * snd u) = minus x' (chart_point s)).
    { unfold x', axpy, minus. cbn [fst snd]. f_equal; ring. }
    assert (Ef : minus (residual s) (minus (S q) (S x')) = minus (S x') (S (chart_point s))).
    { rewrite Hr. unfold minus. cbn [fst snd]. f_equal; ring. }
    rewrite Ed, Ef. apply IH.
    + split; [reflexivity|]. right. cbn [inv_grad]. apply broyden_keeps.
    + cbn [inv_grad]. apply broyden_keeps.
  - apply IH; [split; auto|reflexivity].
Qed.

Lemma affine_pull_back : forall tol q g,
  let r := pull_back S tol (S q) g in
  r = outside \/ r = q \/ (r = project g /\ norm_square (minus (S q) (S r)) < tol).
Proof using Hdet HS.
  intros tol q g r. subst r. unfold pull_back. set (x := project g). change 100%nat with (Datatypes.S 99). generalize 99%nat. intros n.
  cbn [iterate residual chart_point inv_grad must].
  destruct (Rlt_dec (norm_square (minus (S q) (S x))) tol) as [G|G].
  { right. right.
    assert (E : axpy x 1 (apply ((0, 0), (0, 0)) (minus (S q) (S x))) = x).
    { unfold apply. cbn [fst snd]. rewrite axpy_1. cbn [fst snd]. destruct x. cbn [fst snd]. f_equal; ring. }
    rewrite E. auto. }
  rewrite minus_minus, affine_gradient. cbn [orb andb].
  destruct (Rle_dec (determinant A) 0) as [D|D]; [auto|].
  set (u := apply (inverse A) (minus (S q) (S x))).
  assert (HH : forall s, good (S q) s -> inv_grad s = inverse A -> forall i,
     iterate n S tol (S q) i s = outside \/ iterate n S tol (S q) i s = q \/
     (iterate n S tol (S q) i s = x /\ norm_square (minus (S q) (S (iterate n S tol (S q) i s))) < tol)).
  { intros s H1 H2 i. destruct (affine_iterate n tol q i s H1 H2); auto. }
  destruct (line_search _ _ _ _ _ _ _) as [t|] eqn:E.
  - set (x' := axpy x t u).
    assert (Ed : (t * fst u, t * snd u) = minus x' x).
    { unfold x', axpy, minus. cbn [fst snd]. f_equal; ring. }
    assert (Ef : minus (minus (S q) (S x)) (minus (S q) (S x')) = minus (S x') (S x)).
    { unfold minus. cbn [fst snd]. f_equal; ring. }
    rewrite Ed, Ef. apply HH.
    + split; [reflexivity|]. right. cbn [inv_grad]. apply broyden_keeps.
    + cbn [inv_grad]. apply broyden_keeps.
  - apply HH; [split; auto|reflexivity].
Qed.

Lemma affine_found : forall tol q g, 0 < tol -> near_square (2 / 10) q ->
  let r := pull_back S tol (S q) g in
  r = q \/ (r = project g /\ norm_square (minus (S q) (S r)) < tol).
Proof using Hdet HS.
  intros tol q g Ht Hq r. subst r. unfold pull_back. set (x := project g).
  change 100%nat with (Datatypes.S (Datatypes.S 98)).
  generalize 98%nat. intros n. cbn [iterate residual chart_point inv_grad must].
  destruct (Rlt_dec (norm_square (minus (S q) (S x))) tol) as [G|G].
  { right.
    assert (E : axpy x 1 (apply ((0, 0), (0, 0)) (minus (S q) (S x))) = x).
    { unfold apply. cbn [fst snd]. rewrite axpy_1. cbn [fst snd]. destruct x. cbn [fst snd]. f_equal; ring. }
    rewrite E. auto. }
  left. rewrite minus_minus, affine_gradient. cbn [orb andb].
  destruct (Rle_dec (determinant A) 0) as [D|D]; [rewrite affine_det in D; lra|].
  rewrite affine_update.
  assert (Eq : axpy x 1 (minus q x) = q).
  { destruct q, x. unfold axpy, minus. cbn [fst snd]. f_equal; ring. }
  assert (Es : shorten 24 x (minus q x) 1 = 1).
  { cbn [shorten]. rewrite Eq. rewrite (proj2 (inside_near q (2 / 10)) Hq). reflexivity. }
  rewrite Es. cbn [line_search].
  destruct (Rlt_dec (/ 10000) 1) as [_|N]; [|lra].
  rewrite Eq, minus_self.
  destruct (Rlt_dec (norm_square (0, 0)) (norm_square (minus (S q) (S x)))) as [_|N].
  2:{ exfalso. apply N. unfold norm_square at 1. cbn [fst snd]. lra. }
  rewrite Eq, (minus_self (S q)).
  destruct (Rlt_dec (norm_square (0, 0)) tol) as [_|N].
  - rewrite apply_0. apply axpy_0.
  - exfalso. apply N. unfold norm_square. cbn [fst snd]. lra.
Qed.
End Affine.

Lemma solved : forall S tol p g, 0 < tol -> parallelogram S ->
  pull_back S tol p g = outside \/ norm_square (minus p (S (pull_back S tol p g))) < tol.
Proof.
  intros S tol p g Ht (o & a & b & Hd & HS).
  pose proof (pre_ok o a b Hd S HS p) as E. set (q := pre o a b p) in *. rewrite <- E.
  destruct (affine_pull_back o a b Hd S HS tol q g) as [H|[H|[_ H]]]; auto.
  right. rewrite H, minus_self. unfold norm_square. cbn [fst snd]. lra.
Qed.

Lemma found : forall S tol q g, 0 < tol -> parallelogram S -> near_square (2 / 10) q ->
  pull_back S tol (S q) g <> outside /\ norm_square (minus (S q) (S (pull_back S tol (S q) g))) < tol.
Proof.
  intros S tol q g Ht (o & a & b & Hd & HS) Hq.
  destruct (affine_found o a b Hd S HS tol q g Ht Hq) as [H|[H1 H2]].
  - split.
    + rewrite H. intros ->. unfold near_square, outside in Hq. cbn [fst snd] in Hq. lra.
    + rewrite H, minus_self. unfold norm_square. cbn [fst snd]. lra.
  - split; [|exact H2]. rewrite H1. intros E. pose proof (project_near g) as N. rewrite E in N.
    unfold near_square, outside in N. cbn [fst snd] in N. lra.
Qed.

(** ** New points *)

Lemma chart_point_ok : forall S tol p cheap aff, 0 < tol -> parallelogram S ->
  let q := chart_point_of S tol p cheap aff in
  q = outside \/ norm_square (minus p (S q)) < tol.
Proof.
  intros S tol p cheap aff Ht HS. unfold chart_point_of.
  pose proof (fun g => solved S tol p g Ht HS) as H.
  destruct cheap as [g|]; repeat (match goal with |- context[if ?b then _ else _] => destruct b end); apply H.
Qed.

Lemma chart_points_ok : forall k points i found qs, 0 < c_tolerance k -> parallelogram (c_map k) ->
  chart_points k i found points = Some qs ->
  exists new, qs = found ++ new /\ Forall2 (fun p q => norm_square (minus p (c_map k q)) < c_tolerance k) points new.
Proof.
  intros k points. induction points as [|p rest IH]; intros i found qs Ht HS E; cbn [chart_points] in E.
  - injection E as <-. exists []. rewrite app_nil_r. auto.
  - set (q := chart_point_of _ _ _ _ _) in E.
    destruct (inside q (5 / 10000)) eqn:I; [|discriminate].
    destruct (IH _ _ _ Ht HS E) as (new & -> & F). exists (q :: new). split.
    + rewrite <- app_assoc. reflexivity.
    + constructor; [|exact F].
      destruct (chart_point_ok (c_map k) (c_tolerance k) p (c_cheap k i found) (c_affine k p) Ht HS) as [O|O]; [|exact O].
      fold q in O. rewrite O in I. apply inside_near in I. unfold near_square, outside in I. cbn [fst snd] in I. lra.
Qed.

Lemma compute_ok : forall ks points k qs,
  Forall (fun k => 0 < c_tolerance k /\ parallelogram (c_map k)) ks ->
  compute_chart_points ks points = Some (k, qs) ->
  In k ks /\ Forall2 (fun p q => norm_square (minus p (c_map k q)) < c_tolerance k) points qs.
Proof.
  induction ks as [|k0 ks IH]; intros points k qs HF E; cbn [compute_chart_points] in E; [discriminate|].
  inversion_clear HF as [|? ? [Ht HS] HF'].
  destruct (chart_points k0 0 [] points) as [l|] eqn:C.
  - injection E as <- <-. destruct (chart_points_ok _ _ _ _ _ Ht HS C) as (new & -> & F). split; [left; reflexivity|exact F].
  - destruct (IH _ _ _ HF' E). split; [right|]; assumption.
Qed.

Lemma norm_bound : forall d p, 0 <= d -> norm_square p < d * d -> Rabs (fst p) <= d /\ Rabs (snd p) <= d.
Proof.
  intros d [u v] Hd H. unfold norm_square in H. cbn [fst snd] in *.
  split; apply Rabs_le; nra.
Qed.

Definition wsum (ws : list R) : R := fold_right Rplus 0 ws.

Lemma affine_mean : forall S o a b, (forall u v, S (u, v) = (fst o + u * fst a + v * fst b, snd o + u * snd a + v * snd b)) ->
  forall points qs weights d, 0 <= d -> length weights = length points ->
  Forall2 (fun p q => Rabs (fst (minus p (S q))) <= d /\ Rabs (snd (minus p (S q))) <= d) points qs ->
  let m := mean qs weights in
  Rabs (wsum weights * fst o + fst m * fst a + snd m * fst b - fst (mean points weights)) <= wsum (map Rabs weights) * d /\
  Rabs (wsum weights * snd o + fst m * snd a + snd m * snd b - snd (mean points weights)) <= wsum (map Rabs weights) * d.
Proof.
  intros S o a b HS points qs weights d Hd HL F. revert weights HL.
  induction F as [|p q points qs [H1 H2] F IH]; intros [|w ws] HL; cbn [length] in HL; try discriminate.
  - unfold mean, wsum. cbn. rewrite !Rmult_0_l.
    replace (0 + 0 + 0 - 0) with 0 by ring. rewrite Rabs_R0. lra.
  - destruct (IH ws ltac:(lia)) as [I1 I2]. cbv zeta. unfold mean, wsum in *.
    cbn [combine map fold_right fst snd] in *.
    destruct q as [u v]. rewrite HS in H1, H2. unfold minus in H1, H2. cbn [fst snd] in H1, H2.
    set (X := fold_right Rplus 0 (map (fun pw => snd pw * fst (fst pw)) (combine qs ws))) in *.
    set (Y := fold_right Rplus 0 (map (fun pw => snd pw * snd (fst pw)) (combine qs ws))) in *.
    set (W := fold_right Rplus 0 ws) in *.
    set (P := fold_right Rplus 0 (map (fun pw => snd pw * fst (fst pw)) (combine points ws))) in *.
    set (Q := fold_right Rplus 0 (map (fun pw => snd pw * snd (fst pw)) (combine points ws))) in *.
    set (Z := fold_right Rplus 0 (map Rabs ws)) in *. cbn [fst snd].
    assert (K : forall e, Rabs e <= d -> Rabs (- (w * e)) <= Rabs w * d).
    { intros e He. rewrite Rabs_Ropp, Rabs_mult. apply Rmult_le_compat_l; [apply Rabs_pos|exact He]. }
    apply K in H1. apply K in H2. split.
    + match goal with |- Rabs ?t <= _ => replace t with
        (- (w * (fst p - (fst o + u * fst a + v * fst b))) + (W * fst o + X * fst a + Y * fst b - P)) by ring end.
      eapply Rle_trans; [apply Rabs_triang|]. lra.
    + match goal with |- Rabs ?t <= _ => replace t with
        (- (w * (snd p - (snd o + u * snd a + v * snd b))) + (W * snd o + X * snd a + Y * snd b - Q)) by ring end.
      eapply Rle_trans; [apply Rabs_triang|]. lra.
Qed.

Lemma new_point_mean : forall ks points weights d r,
  Forall (fun k => 0 < c_tolerance k <= d * d /\ parallelogram (c_map k)) ks -> 0 <= d ->
  length weights = length points -> fold_right Rplus 0 weights = 1 ->
  get_new_point mean ks points weights = Some r ->
  Rabs (fst r - fst (mean points weights)) <= fold_right Rplus 0 (map Rabs weights) * d /\
  Rabs (snd r - snd (mean points weights)) <= fold_right Rplus 0 (map Rabs weights) * d.
Proof.
  intros ks points weights d r HF Hd HL Hw E. unfold get_new_point in E.
  destruct (compute_chart_points ks points) as [[k qs]|] eqn:C; [|discriminate]. injection E as <-.
  assert (HF' : Forall (fun k => 0 < c_tolerance k /\ parallelogram (c_map k)) ks).
  { eapply Forall_impl; [|exact HF]. cbn. tauto. }
  destruct (compute_ok _ _ _ _ HF' C) as [HI H2].
  rewrite Forall_forall in HF. destruct (HF k HI) as [[T1 T2] (o & a & b & Hdet & HS)].
  assert (H3 : Forall2 (fun p q => Rabs (fst (minus p (c_map k q))) <= d /\ Rabs (snd (minus p (c_map k q))) <= d) points qs).
  { clear -H2 Hd T2. induction H2; constructor; [apply norm_bound; [exact Hd|lra]|assumption]. }
  destruct (affine_mean (c_map k) o a b HS points qs weights d Hd HL H3) as [A1 A2].
  unfold wsum in A1, A2. rewrite Hw in A1, A2. rewrite Rmult_1_l in A1, A2.
  rewrite (surjective_pairing (mean qs weights)), HS. cbn [fst snd]. auto.
Qed.

(** A flat cell whose vertices form a parallelogram. *)
Lemma flat_cell_parallelogram : forall M c,
  cell_is_flat 2 c = true ->
  (forall e, (e < 2)%nat -> vertex c 3 e = vertex c 1 e + vertex c 2 e - vertex c 0 e) ->
  (vertex c 1 0%nat - vertex c 0 0%nat) * (vertex c 2 1%nat - vertex c 0 1%nat)
  - (vertex c 1 1%nat - vertex c 0 1%nat) * (vertex c 2 0%nat - vertex c 0 0%nat) > 0 ->
  parallelogram (map_2 M c).
Proof.
  intros M c F H D. 
  exists (vertex c 0 0%nat, vertex c 0 1%nat), (vertex c 1 0%nat - vertex c 0 0%nat, vertex c 1 1%nat - vertex c 0 1%nat),
    (vertex c 2 0%nat - vertex c 0 0%nat, vertex c 2 1%nat - vertex c 0 1%nat).
  cbn [fst snd]. split; [exact D|].
  intros u v. unfold map_2, push_forward_2. rewrite F. unfold interpolate_2. cbn.
  unfold plus_pt, zero_pt. rewrite !H by lia. f_equal; ring.
Qed.

Lemma first_try : forall S tol q g, 0 < tol -> parallelogram S -> near_square 0 q ->
  near_square 0 (pull_back S tol (S q) g).
Proof.
  intros S tol q g Ht (o & a & b & Hd & HS) Hq.
  assert (Hq' : near_square (2 / 10) q) by (apply near_weaken with 0; [lra|exact Hq]).
  destruct (affine_found o a b Hd S HS tol q g Ht Hq') as [H|[H _]]; rewrite H; auto using project_near.
Qed.

Lemma near_valid : forall q, near_square 0 q -> invalid q = false.
Proof.
  intros q [H _]. unfold invalid. destruct (Req_EM_T (fst q) 20); [lra|reflexivity].
Qed.

Lemma chart_point_near : forall S tol q cheap aff, 0 < tol -> parallelogram S -> near_square 0 q ->
  near_square 0 (chart_point_of S tol (S q) cheap aff).
Proof.
  intros S tol q cheap aff Ht HS Hq. unfold chart_point_of.
  pose proof (fun g => first_try S tol q g Ht HS Hq) as N.
  destruct cheap as [g|]; rewrite ?(near_valid _ (N g)), ?(near_valid _ (N aff)); apply N.
Qed.

Lemma chart_points_exist : forall k qs i found, 0 < c_tolerance k -> parallelogram (c_map k) ->
  Forall (near_square 0) qs -> exists l, chart_points k i found (map (c_map k) qs) = Some l.
Proof.
  intros k qs. induction qs as [|q qs IH]; intros i found Ht HS HF; cbn [map chart_points]; [eauto|].
  inversion_clear HF as [|? ? H1 H2].
  pose proof (chart_point_near (c_map k) (c_tolerance k) q (c_cheap k i found) (c_affine k (c_map k q)) Ht HS H1) as N.
  rewrite (proj2 (inside_near _ _) (near_weaken 0 (5 / 10000) _ ltac:(lra) N)). apply IH; assumption.
Qed.

Lemma new_point_exists : forall chart_manifold k ks qs weights,
  0 < c_tolerance k -> parallelogram (c_map k) -> Forall (near_square 0) qs ->
  get_new_point chart_manifold (k :: ks) (map (c_map k) qs) weights <> None.
Proof.
  intros cm k ks qs weights Ht HS HF. unfold get_new_point. cbn [compute_chart_points].
  destruct (chart_points_exist k qs 0 [] Ht HS HF) as [l ->]. discriminate.
Qed.

(** The update of the inverse Jacobian satisfies the secant equation and changes
    nothing for differences the step does not see. *)
Lemma broyden_secant : forall tol J dx df, 0 <= tol ->
  1 / 10 * tol < Rabs (fst dx * fst (apply J df) + snd dx * snd (apply J df)) ->
  apply (broyden false tol J dx df) df = dx /\
  (forall v, fst dx * fst (apply J v) + snd dx * snd (apply J v) = 0 ->
     apply (broyden false tol J dx df) v = apply J v).
Proof.
  intros tol [[a b] [c d]] [x y] [f g] T H.
  unfold broyden. destruct (Rlt_dec _ _) as [_|n]; [|contradiction].
  unfold apply, minus in *. cbn [fst snd] in *.
  assert (N : x * (a * f + b * g) + y * (c * f + d * g) <> 0).
  { intro E. rewrite E, Rabs_R0 in H. lra. }
  split.
  - f_equal; field; exact N.
  - intros [v w] O. cbn [fst snd] in *. f_equal.
    + replace ((a + (x - (a * f + b * g)) / (x * (a * f + b * g) + y * (c * f + d * g)) * (x * a + y * c)) * v
               + (b + (x - (a * f + b * g)) / (x * (a * f + b * g) + y * (c * f + d * g)) * (x * b + y * d)) * w)
        with (a * v + b * w + (x - (a * f + b * g)) / (x * (a * f + b * g) + y * (c * f + d * g))
              * (x * (a * v + b * w) + y * (c * v + d * w))) by ring.
      rewrite O. ring.
    + replace ((c + (y - (c * f + d * g)) / (x * (a * f + b * g) + y * (c * f + d * g)) * (x * a + y * c)) * v
               + (d + (y - (c * f + d * g)) / (x * (a * f + b * g) + y * (c * f + d * g)) * (x * b + y * d)) * w)
        with (c * v + d * w + (y - (c * f + d * g)) / (x * (a * f + b * g) + y * (c * f + d * g))
              * (x * (a * v + b * w) + y * (c * v + d * w))) by ring.
      rewrite O. ring.
Qed.

Lemma broyden_example :
  1 / 10 * 1 < Rabs (fst (1, 1) * fst (apply ((1, 0), (0, 1)) (2, 1)) + snd (1, 1) * snd (apply ((1, 0), (0, 1)) (2, 1))).
Proof.
  unfold apply. cbn [fst snd]. rewrite Rabs_right; lra.
Qed.

(** All guesses are tried: if the search succeeds from the affine approximation
    or from the center of the cell, it succeeds. *)
Lemma chart_point_guesses : forall S tol p cheap affine,
  fst (chart_point_of S tol p cheap affine) = 20 ->
  fst (pull_back S tol p affine) = 20 /\ fst (pull_back S tol p (1 / 2, 1 / 2)) = 20 /\
  (forall g, cheap = Some g -> fst (pull_back S tol p g) = 20).
Proof.
  intros S tol p cheap affine. unfold chart_point_of, invalid.
  destruct cheap as [g|].
  - destruct (Req_EM_T (fst (pull_back S tol p g)) 20) as [a|a].
    + destruct (Req_EM_T (fst (pull_back S tol p affine)) 20) as [b|b]; [|contradiction].
      intros c. split; [exact b|]. split; [exact c|]. intros g' E. injection E as <-. exact a.
    + destruct (Req_EM_T (fst (pull_back S tol p g)) 20) as [b|b]; contradiction.
  - destruct (Req_EM_T (fst (pull_back S tol p affine)) 20) as [b|b]; [|contradiction].
    intros c. split; [exact b|]. split; [exact c|]. intros g' E. discriminate.
Qed.
