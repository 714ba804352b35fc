(** * Normalization, ranks and history of the plots; names; examples *)
From Coq Require Import Reals String List Bool Arith Lia Lra Psatz FunctionalExtensionality.
From Verif Require Import RVec Extractor Postprocess PostprocessSpec PostprocessProofs.
Import ListNotations.
Local Open Scope R_scope.

Lemma step2_true M big b qs : p_step2 M big true b qs = map (p_bound M big) qs.
Proof. unfold p_step2. destruct qs; reflexivity. Qed.

Lemma step2_nth M big raws s k : nth_error (p_step2 M big true (p_bounds s) (p_step1 M raws (p_quantities s))) k =
  match nth_error raws k, nth_error (p_quantities s) k with
  | Some r, Some o => Some (p_bound M big (seen M r o))
  | _, _ => None
  end.
Proof.
  rewrite step2_true, nth_error_map, step1_nth.
  destruct (nth_error raws k), (nth_error (p_quantities s) k); reflexivity.
Qed.

(** With fresh bounds: the row with the smallest raw value is shown as zero, and the
    largest one as 1 - exp(-beta) up to the noise floor. *)
Lemma C119_extremes_proof M big beta eps floor raws s k i v r :
  0 <= beta -> 0 < eps -> 0 <= floor ->
  (forall j, In j (owned M) -> p_constrained M j = false) -> In i (owned M) ->
  raw_at raws k i = Some r -> Rabs r <= big ->
  shown (p_compute M big beta eps floor true raws s) k i = Some v ->
  ((forall j rj, In j (owned M) -> raw_at raws k j = Some rj -> Rabs r <= Rabs rj) -> v = 0) /\
  (forall l rl, In l (owned M) -> raw_at raws k l = Some rl -> eps <= Rabs r - Rabs rl ->
     (forall j rj, In j (owned M) -> raw_at raws k j = Some rj -> Rabs rl <= Rabs rj <= Rabs r) ->
     Rabs v = 1 - exp (- beta * Rmax 0 (1 - floor / (Rabs r - Rabs rl)))).
Proof.
  intros Hb He Hf Hfree Hi Hr Hbig. unfold shown. rewrite compute_nth, step2_nth. unfold raw_at in *.
  destruct (nth_error raws k) as [R0|]; [|discriminate]. cbn in Hr. injection Hr as <-.
  destruct (nth_error (p_quantities s) k) as [o|]; [|discriminate]. cbn [option_map].
  rewrite dist_free, (Hfree i Hi) by (apply Hfree; exact Hi). intros E. injection E as <-.
  assert (S : forall j, In j (owned M) -> seen M R0 o j = R0 j).
  { intros j Hj. unfold seen. rewrite (Hfree j Hj). reflexivity. }
  destruct (p_bound_char M big (seen M R0 o)) as (A1 & A2 & A3 & A4 & A5 & A6).
  set (b := p_bound M big (seen M R0 o)) in *. clearbody b.
  split.
  - intros Hmin.
    assert (E : snd b = Rabs (R0 i)).
    { apply Rle_antisym; [rewrite <- (S i Hi); apply A4; exact Hi|]. apply A6; [exact Hbig|].
      intros j Hj. rewrite (S j Hj). exact (Hmin j (R0 j) Hj eq_refl). }
    unfold p_scale. rewrite E, Rmax_left by lra. cbv zeta.
    replace (- beta * (0 / Rmax (fst b - Rabs (R0 i)) eps)) with 0 by (unfold Rdiv; ring).
    rewrite exp_0, Rminus_diag_eq, Rabs_R0 by reflexivity. destruct (Rlt_dec (R0 i) 0); ring.
  - intros l rl Hl El Hsep Hall. injection El as <-.
    assert (EM : fst b = Rabs (R0 i)).
    { apply Rle_antisym; [|rewrite <- (S i Hi); apply A1; exact Hi]. apply A3; [apply Rabs_pos|].
      intros j Hj. rewrite (S j Hj). exact (proj2 (Hall j (R0 j) Hj eq_refl)). }
    assert (Em : snd b = Rabs (R0 l)).
    { apply Rle_antisym; [rewrite <- (S l Hl); apply A4; exact Hl|]. apply A6; [lra|].
      intros j Hj. rewrite (S j Hj). exact (proj1 (Hall j (R0 j) Hj eq_refl)). }
    rewrite p_scale_abs, EM, Em by assumption. rewrite (Rmax_left _ eps) by lra. do 3 f_equal.
    set (D := Rabs (R0 i) - Rabs (R0 l)) in *. assert (0 < D) by lra.
    replace (D - floor) with (D * (1 - floor / D)) by (field; lra).
    unfold Rmax. destruct (Rle_dec 0 (D * (1 - floor / D))) as [P|P], (Rle_dec 0 (1 - floor / D)) as [Q|Q].
    + field. lra.
    + exfalso. assert (D * (1 - floor / D) < 0) by nra. lra.
    + exfalso. apply P. nra.
    + field. lra.
Qed.

Lemma C119_strict_proof M big beta eps floor raws s k i j vi vj ri rj :
  0 < beta -> 0 < eps -> 0 <= floor ->
  (forall l, In l (owned M) -> p_constrained M l = false) -> In i (owned M) -> In j (owned M) ->
  raw_at raws k i = Some ri -> raw_at raws k j = Some rj ->
  shown (p_compute M big beta eps floor true raws s) k i = Some vi ->
  shown (p_compute M big beta eps floor true raws s) k j = Some vj ->
  Rabs ri + floor < Rabs rj -> Rabs vi < Rabs vj.
Proof.
  intros Hb He Hf Hfree Ii Ij Ri Rj Vi Vj L.
  destruct (shown_free _ _ _ _ _ _ _ _ _ _ _ (Hfree i Ii) Vi) as (b & r & B & R1 & ->).
  destruct (shown_free _ _ _ _ _ _ _ _ _ _ _ (Hfree j Ij) Vj) as (b' & r' & B' & R2 & ->).
  rewrite Ri in R1. injection R1 as <-. rewrite Rj in R2. injection R2 as <-. rewrite B in B'. injection B' as <-.
  rewrite step2_nth in B. unfold raw_at in *.
  destruct (nth_error raws k) as [R0|]; [|discriminate]. destruct (nth_error (p_quantities s) k) as [o|]; [|discriminate].
  cbn in Ri, Rj. injection Ri as <-. injection Rj as <-. injection B as <-.
  destruct (p_bound_char M big (seen M R0 o)) as (_ & _ & _ & A4 & _ & _).
  specialize (A4 i Ii). unfold seen in A4 at 2. rewrite (Hfree i Ii) in A4.
  apply p_scale_strict; try assumption; lra.
Qed.

(** The distribution over the ranks does not matter. *)
Lemma C119_ranks_proof M N big beta eps floor rc raws s :
  redistributed M N ->
  p_compute N big beta eps floor rc raws s = p_compute M big beta eps floor rc raws s.
Proof.
  intros (E1 & E2 & E3 & E4 & E5 & E6).
  assert (C : p_constrained N = p_constrained M) by (unfold p_constrained; rewrite E2; reflexivity).
  assert (S1 : p_step1 N raws (p_quantities s) = p_step1 M raws (p_quantities s)) by (unfold p_step1; rewrite C; reflexivity).
  assert (B : p_bound N big = p_bound M big).
  { apply functional_extensionality. intros q. symmetry. apply p_bound_ext; [exact E6|reflexivity]. }
  assert (D : p_distribute N = p_distribute M) by (unfold p_distribute; rewrite C, E5; reflexivity).
  unfold p_compute, p_step2. rewrite S1, B, D. reflexivity.
Qed.

(** Without constrained rows and with fresh bounds, the earlier outputs do not matter. *)
Lemma C119_history_proof M big beta eps floor raws s s' k i :
  (forall j, In j (owned M) -> p_constrained M j = false) -> In i (owned M) ->
  length (p_quantities s) = length raws -> length (p_quantities s') = length raws ->
  shown (p_compute M big beta eps floor true raws s) k i = shown (p_compute M big beta eps floor true raws s') k i.
Proof.
  intros Hfree Hi L L'. unfold shown. rewrite !compute_nth, !step2_nth.
  destruct (nth_error raws k) as [r|] eqn:Er; [|reflexivity].
  assert (K : (k < length raws)%nat) by (apply nth_error_Some; rewrite Er; discriminate).
  destruct (nth_error (p_quantities s) k) as [o|] eqn:Eo; [|apply nth_error_None in Eo; lia].
  destruct (nth_error (p_quantities s') k) as [o'|] eqn:Eo'; [|apply nth_error_None in Eo'; lia].
  cbn [option_map]. rewrite !dist_free, (Hfree i Hi) by (apply Hfree; exact Hi). do 2 f_equal.
  apply p_bound_ext; [reflexivity|]. intros j Hj. unfold seen. rewrite (Hfree j Hj). reflexivity.
Qed.

(** Bounds that are kept: from the second output cycle on, equal raw values are shown
    equally in all outputs. *)
Lemma compute_bounds_kept M big beta eps floor raws s :
  length (p_bounds s) = length raws -> length (p_quantities s) = length raws ->
  p_bounds (p_compute M big beta eps floor false raws s) = p_bounds s.
Proof.
  intros L Q. unfold p_compute, p_step2. cbn [p_bounds]. rewrite step1_length, L, Q, Nat.min_id, Nat.eqb_refl. reflexivity.
Qed.
Lemma compute_lengths M big beta eps floor rc raws s : length (p_quantities s) = length raws ->
  length (p_bounds (p_compute M big beta eps floor rc raws s)) = length raws /\ length (p_quantities (p_compute M big beta eps floor rc raws s)) = length raws.
Proof.
  intros Q. unfold p_compute. cbn [p_bounds p_quantities].
  assert (B : length (p_step2 M big rc (p_bounds s) (p_step1 M raws (p_quantities s))) = length raws).
  { unfold p_step2. destruct (Nat.eqb_spec (length (if rc then [] else p_bounds s)) (length (p_step1 M raws (p_quantities s)))) as [E|E].
    - rewrite E, step1_length, Q, Nat.min_id. reflexivity.
    - rewrite map_length, step1_length, Q, Nat.min_id. reflexivity. }
  split; [exact B|]. rewrite map_length, combine_length, B, step1_length, Q, !Nat.min_id. reflexivity.
Qed.

Lemma C119_kept_proof M big beta eps floor outs raws c s k i j r v v' :
  length (p_quantities s) = length raws -> c <> 0%nat ->
  (forall cr, In cr outs -> fst cr <> 0%nat /\ length (snd cr) = length raws) ->
  p_constrained M i = false -> p_constrained M j = false ->
  let first := p_output M big beta eps floor false raws c s in
  let later := fold_left (fun s cr => p_output M big beta eps floor false (snd cr) (fst cr) s) outs first in
  forall raws', outs <> [] -> raws' = snd (last outs (0%nat, [])) ->
  raw_at raws k i = Some r -> raw_at raws' k j = Some r ->
  shown first k i = Some v -> shown later k j = Some v' -> v = v'.
Proof.
  intros Q Hc Houts Ci Cj first later raws' Hne -> Ri Rj Vi Vj.
  assert (F : first = p_compute M big beta eps floor false raws s).
  { unfold first, p_output. destruct (Nat.eqb_spec c 0); [contradiction|reflexivity]. }
  assert (LF := compute_lengths M big beta eps floor false raws s Q). rewrite <- F in LF.
  assert (BF : p_bounds first = p_step2 M big false (p_bounds s) (p_step1 M raws (p_quantities s))) by (rewrite F; reflexivity).
  destruct (exists_last Hne) as (pre & (cl, rl) & Eouts).
  rewrite Eouts, last_last in Rj. cbn [snd] in Rj.
  assert (INV : let s' := fold_left (fun s cr => p_output M big beta eps floor false (snd cr) (fst cr) s) pre first in
     p_bounds s' = p_bounds first /\ length (p_quantities s') = length raws).
  { assert (HP : forall cr, In cr pre -> fst cr <> 0%nat /\ length (snd cr) = length raws).
    { intros cr H. apply Houts. rewrite Eouts. apply in_or_app. left. exact H. }
    clear - LF HP. destruct LF as [LB LQ]. revert HP LB LQ. generalize first as s0.
    induction pre as [|(c1, r1) pre IH]; intros s0 HP LB LQ; cbn [fold_left fst snd]; [split; [reflexivity|exact LQ]|].
    destruct (HP (c1, r1) (or_introl eq_refl)) as [N1 L1]. cbn [fst snd] in N1, L1.
    assert (E1 : p_output M big beta eps floor false r1 c1 s0 = p_compute M big beta eps floor false r1 s0).
    { unfold p_output. destruct (Nat.eqb_spec c1 0); [contradiction|reflexivity]. }
    rewrite E1. assert (BK := compute_bounds_kept M big beta eps floor r1 s0 ltac:(lia) ltac:(lia)).
    destruct (compute_lengths M big beta eps floor false r1 s0 ltac:(lia)) as [LB1 LQ1].
    destruct (IH (p_compute M big beta eps floor false r1 s0)) as [B1 B2].
    - intros cr H. apply HP. right. exact H.
    - lia.
    - lia.
    - split; [rewrite B1; exact BK|exact B2]. }
  cbv zeta in INV. set (s' := fold_left _ pre first) in INV. destruct INV as [IB IQ].
  assert (L : later = p_compute M big beta eps floor false rl s').
  { unfold later. rewrite Eouts, fold_left_app. cbn [fold_left fst snd]. fold s'. unfold p_output.
    destruct (Houts (cl, rl)) as [N _]; [rewrite Eouts; apply in_or_app; right; left; reflexivity|].
    cbn [fst] in N. destruct (Nat.eqb_spec cl 0); [contradiction|reflexivity]. }
  rewrite L in Vj. rewrite F in Vi.
  destruct (shown_free _ _ _ _ _ _ _ _ _ _ _ Ci Vi) as (b & ri & B & R1 & ->).
  destruct (shown_free _ _ _ _ _ _ _ _ _ _ _ Cj Vj) as (b' & rj & B' & R2 & ->).
  rewrite Ri in R1. injection R1 as <-. rewrite Rj in R2. injection R2 as <-.
  destruct (Houts (cl, rl)) as [_ LL]; [rewrite Eouts; apply in_or_app; right; left; reflexivity|]. cbn [snd] in LL.
  assert (BK := compute_bounds_kept M big beta eps floor rl s' ltac:(rewrite IB; destruct LF; lia) ltac:(lia)).
  cbn [p_compute p_bounds] in BK. unfold p_compute in BK. cbn [p_bounds] in BK. rewrite BK, IB, BF, B in B'. injection B' as <-. reflexivity.
Qed.

(** The bounds of the first output are not kept. *)
Lemma C119_first_proof M big beta eps floor raws0 raws s c k i :
  (forall j, In j (owned M) -> p_constrained M j = false) -> In i (owned M) -> c <> 0%nat ->
  length (p_quantities s) = length raws -> length raws0 = length raws ->
  shown (p_output M big beta eps floor false raws c (p_output M big beta eps floor false raws0 0 s)) k i =
  shown (p_output M big beta eps floor false raws c (p_prepared (length raws))) k i.
Proof.
  intros Hfree Hi Hc L L0.
  assert (F : forall s', p_bounds s' = [] -> p_output M big beta eps floor false raws c s' = p_compute M big beta eps floor true raws s').
  { intros s' B. unfold p_output. destruct (Nat.eqb_spec c 0); [contradiction|]. unfold p_compute, p_step2. rewrite B. reflexivity. }
  rewrite !F by reflexivity. apply C119_history_proof; [exact Hfree|exact Hi| |cbn; apply repeat_length].
  unfold p_output. cbn [Nat.eqb p_reset_bounds p_quantities].
  rewrite (proj2 (compute_lengths M big beta eps floor false raws0 s ltac:(lia))). exact L0.
Qed.

(** ** A periodic interval: three rows, and a fourth row identified with the first *)

Definition ring_c (i j : nat) : vec := fun _ =>
  if (j =? (i + 1) mod 3)%nat then 1 / 2 else if (j =? (i + 2) mod 3)%nat then - (1 / 2) else 0.
Definition ring_mesh : pmesh :=
  {| p_dim := 1; p_columns := fun i => match i with 3%nat => [3%nat] | _ => [0; 1; 2]%nat end;
     p_c := ring_c; p_mass := fun _ => 1; p_constraint := fun i => match i with 3%nat => [(0%nat, 1)] | _ => [] end;
     p_ranks := [[0; 1]; [2; 3]]%nat |}.
Definition ring_field (j : nat) : R := match j with 1%nat => 1 / 5 | _ => 0 end.
Definition ring_raws := [schlieren_raw ring_mesh ring_field].

Lemma sqrt_1_100 x : x = 1 / 100 -> sqrt x = 1 / 10.
Proof. intros ->. replace (1 / 100) with ((1 / 10) * (1 / 10)) by field. apply sqrt_square. lra. Qed.

Lemma ring_raw_values : schlieren_raw ring_mesh ring_field 0 = 1 / 10 /\ schlieren_raw ring_mesh ring_field 1 = 0 /\
  schlieren_raw ring_mesh ring_field 2 = 1 / 10.
Proof.
  unfold schlieren_raw, norm2, dot, vsub, vscal. cbn. unfold ring_c. cbn.
  repeat split.
  - rewrite (sqrt_1_100 _) by field. field.
  - match goal with |- sqrt ?x / 1 = 0 => replace x with 0 by field end. rewrite sqrt_0. field.
  - rewrite (sqrt_1_100 _) by field. field.
Qed.

(** What the bounds are when the constrained row holds z. *)
Lemma ring_bound z : 0 <= z <= 1000 ->
  p_bound ring_mesh 1000 (seen ring_mesh (schlieren_raw ring_mesh ring_field) (fun i => if (i =? 3)%nat then z else 0)) = (Rmax (1 / 10) z, 0).
Proof.
  intros Hz. destruct ring_raw_values as (E0 & E1 & E2).
  set (q := seen _ _ _).
  assert (Q : q 0%nat = 1 / 10 /\ q 1%nat = 0 /\ q 2%nat = 1 / 10 /\ q 3%nat = z).
  { unfold q, seen. cbn [p_constrained p_columns ring_mesh length Nat.eqb]. cbn. rewrite E0, E1, E2. repeat split. }
  clearbody q. destruct Q as (Q0 & Q1 & Q2 & Q3). unfold p_bound, ring_mesh. cbn [p_ranks map fold_left fold_right].
  rewrite Q0, Q1, Q2, Q3, Rabs_R0, (Rabs_right (1 / 10)), (Rabs_right z) by lra. f_equal.
  - rewrite (Rmax_right 0 (1 / 10)), (Rmax_left (1 / 10) 0) by lra. rewrite (Rmax_left (Rmax (1 / 10) z) 0).
    + apply Rmax_right. apply Rmax_l.
    + pose proof (Rmax_l (1 / 10) z). lra.
  - rewrite (Rmin_right 1000 (1 / 10)), (Rmin_right (1 / 10) 0) by lra.
    apply Rmin_left. apply Rmin_glb; [apply Rmin_glb; lra|lra].
Qed.

Lemma shown_ext M big beta eps floor raws s o k i : nth_error (p_quantities s) k = Some o ->
  forall r, nth_error raws k = Some r -> p_constrained M i = false ->
  shown (p_compute M big beta eps floor true raws s) k i = Some (p_scale beta eps floor (p_bound M big (seen M r o)) (r i)).
Proof.
  intros Eo r Er C. unfold shown. rewrite compute_nth, step2_nth, Er, Eo. cbn [option_map]. rewrite dist_free, C by exact C. reflexivity.
Qed.

(** The same state, shown twice: the second picture is darker, because the constrained row
    still holds the normalized value of the first picture when the bounds are computed. *)
Lemma C119_history_refuted_proof :
  exists (M : pmesh) (f : nat -> R) (i : nat) (v v' : R),
    let raws := [schlieren_raw M f] in
    let first := p_compute M 1000 10 (1 / 1000000) (1 / 1000) true raws (p_prepared 1) in
    let second := p_compute M 1000 10 (1 / 1000000) (1 / 1000) true raws first in
    (forall j, In j (owned M) -> p_constrained M j = false \/ averaging M j) /\
    In i (owned M) /\ p_constrained M i = false /\
    shown first 0 i = Some v /\ shown second 0 i = Some v' /\ v' < v.
Proof.
  destruct ring_raw_values as (E0 & E1 & E2).
  set (z := 1 - exp (- (10) * ((1 / 10 - 0 - 1 / 1000) / (1 / 10 - 0)))).
  assert (Z : 9 / 10 <= z < 1).
  { unfold z. replace (- (10) * ((1 / 10 - 0 - 1 / 1000) / (1 / 10 - 0))) with (- (99 / 10)) by field.
    pose proof (exp_pos (- (99 / 10))). pose proof (exp_ineq1 (99 / 10) ltac:(lra)).
    assert (exp (99 / 10) * exp (- (99 / 10)) = 1) by (rewrite <- exp_plus; replace (99 / 10 + - (99 / 10)) with 0 by ring; apply exp_0).
    split; [nra|lra]. }
  assert (V1 : p_scale 10 (1 / 1000000) (1 / 1000) (1 / 10, 0) (1 / 10) = z).
  { destruct (p_scale_value 10 (1 / 1000000) (1 / 1000) (1 / 10, 0) (1 / 10) ltac:(lra) ltac:(lra)) as [_ ->].
    destruct (Rlt_dec (1 / 10) 0); [lra|]. cbn [fst snd]. rewrite (Rabs_right (1 / 10)) by lra.
    rewrite (Rmax_right 0), (Rmax_left (1 / 10 - 0)) by lra. reflexivity. }
  exists ring_mesh, ring_field, 0%nat, z, (p_scale 10 (1 / 1000000) (1 / 1000) (z, 0) (1 / 10)). cbv zeta.
  refine (conj _ (conj _ (conj _ (conj _ (conj _ _))))).
  - intros j Hj. unfold owned in Hj. cbn in Hj. destruct Hj as [<-|[<-|[<-|[<-|[]]]]]; try (left; reflexivity).
    right. split; [|cbn; lra]. intros j w H. cbn in H. destruct H as [H|[]]. injection H as <- <-. split; [lra|reflexivity].
  - unfold owned. cbn. left. reflexivity.
  - reflexivity.
  - rewrite (shown_ext ring_mesh 1000 10 (1 / 1000000) (1 / 1000) [schlieren_raw ring_mesh ring_field] (p_prepared 1) (fun _ => 0) 0 0 eq_refl (schlieren_raw ring_mesh ring_field) eq_refl eq_refl).
    rewrite E0. f_equal. rewrite <- V1. f_equal.
    replace (fun _ : nat => 0) with (fun i : nat => if (i =? 3)%nat then 0 else 0)
      by (apply functional_extensionality; intros [|[|[|[|?]]]]; reflexivity).
    rewrite ring_bound by lra. rewrite Rmax_left by lra. reflexivity.
  - set (first := p_compute ring_mesh 1000 10 (1 / 1000000) (1 / 1000) true [schlieren_raw ring_mesh ring_field] (p_prepared 1)).
    assert (F : nth_error (p_quantities first) 0 = Some (p_distribute ring_mesh
        (fun i => p_scale 10 (1 / 1000000) (1 / 1000) (1 / 10, 0) (if p_constrained ring_mesh i then 0 else schlieren_raw ring_mesh ring_field i)))).
    { unfold first. rewrite compute_nth, step2_nth. cbn [nth_error p_prepared p_quantities repeat].
      replace (fun _ : nat => 0) with (fun i : nat => if (i =? 3)%nat then 0 else 0)
        by (apply functional_extensionality; intros [|[|[|[|?]]]]; reflexivity).
      rewrite ring_bound, Rmax_left by lra. reflexivity. }
    rewrite (shown_ext ring_mesh 1000 10 (1 / 1000000) (1 / 1000) [schlieren_raw ring_mesh ring_field] first _ 0 0 F (schlieren_raw ring_mesh ring_field) eq_refl eq_refl).
    rewrite E0. f_equal. f_equal.
    rewrite (p_bound_ext ring_mesh ring_mesh 1000 _ (seen ring_mesh (schlieren_raw ring_mesh ring_field) (fun i => if (i =? 3)%nat then z else 0))).
    + rewrite ring_bound by lra. rewrite Rmax_right by lra. reflexivity.
    + reflexivity.
    + intros i Hi. unfold owned in Hi. cbn in Hi. destruct Hi as [<-|[<-|[<-|[<-|[]]]]]; try reflexivity.
      unfold seen. cbn [p_constrained p_columns ring_mesh length Nat.eqb]. cbn. rewrite E0, V1. ring.
  - destruct (p_scale_value 10 (1 / 1000000) (1 / 1000) (z, 0) (1 / 10) ltac:(lra) ltac:(lra)) as [_ ->].
    destruct (Rlt_dec (1 / 10) 0); [lra|]. cbn [fst snd]. rewrite (Rabs_right (1 / 10)) by lra.
    rewrite (Rmax_right 0), (Rmax_left (z - 0)) by lra.
    assert (EZ : z = 1 - exp (- (10) * ((1 / 10 - 0 - 1 / 1000) / (1 / 10 - 0)))) by reflexivity. clearbody z.
    assert (exp (- (10) * ((1 / 10 - 0 - 1 / 1000) / (1 / 10 - 0))) < exp (- (10) * ((1 / 10 - 0 - 1 / 1000) / (z - 0)))); [|lra].
    apply exp_increasing.
    assert (I : / (z - 0) < / (1 / 10 - 0)) by (apply Rinv_lt_contravar; nra).
    unfold Rdiv at 1. unfold Rdiv at 4.
    set (a := 1 / 10 - 0 - 1 / 1000) in *. assert (0 < a) by (unfold a; lra). clearbody a.
    set (u := / (z - 0)) in *. set (w := / (1 / 10 - 0)) in *. clearbody u w. nra.
Qed.

(** ** Names *)
From Verif Require Import ExtractorProofs.

Lemma lookup_spec t e q : lookup_quantity t e = Some q ->
  (fst q = false /\ nth_error (component_names t) (snd q) = Some e) \/
  (fst q = true /\ ~ In e (component_names t) /\ nth_error (primitive_component_names t) (snd q) = Some e).
Proof.
  unfold lookup_quantity. destruct (find_index e (component_names t)) as [k|] eqn:F.
  - intros H. injection H as <-. left. split; [reflexivity|apply find_index_some, F].
  - destruct (find_index e (primitive_component_names t)) as [k|] eqn:G; [|discriminate]. intros H. injection H as <-. right.
    split; [reflexivity|]. split; [apply find_index_none, F|apply find_index_some, G].
Qed.
Lemma lookup_none t e : lookup_quantity t e = None <-> ~ In e (component_names t) /\ ~ In e (primitive_component_names t).
Proof.
  unfold lookup_quantity. rewrite <- !find_index_none.
  destruct (find_index e (component_names t)); [split; [discriminate|intros [H _]; discriminate]|].
  destruct (find_index e (primitive_component_names t)); [split; [discriminate|intros [_ H]; discriminate]|]. tauto.
Qed.

Lemma C120_accepted_proof t names :
  populate t names <> None <->
  forall e, In e names -> In e (component_names t) \/ In e (primitive_component_names t).
Proof.
  induction names as [|e l IH]; cbn [populate].
  - split; [intros _ e []|discriminate].
  - destruct (lookup_quantity t e) as [q|] eqn:L.
    + assert (K : In e (component_names t) \/ In e (primitive_component_names t)).
      { apply lookup_spec in L. destruct L as [[_ L]|(_ & _ & L)]; apply nth_error_In in L; tauto. }
      destruct (populate t l) as [idx|].
      * split; [|discriminate]. intros _ e' [<-|I]; [exact K|]. apply IH; [discriminate|exact I].
      * split; [contradiction|]. intros H. apply IH. intros e' I. apply H. right. exact I.
    + apply lookup_none in L. split; [contradiction|]. intros H. exfalso. destruct (H e (or_introl eq_refl)); tauto.
Qed.

Lemma C120_schlieren_proof t names idx u prim k e :
  populate t names = Some idx -> nth_error names k = Some e ->
  length u = length (component_names t) -> length prim = length (primitive_component_names t) ->
  exists q x, nth_error idx k = Some q /\ p_read u prim q 0 = Some x /\
    ((exists n, nth_error (component_names t) n = Some e /\ nth_error u n = Some x) \/
     (~ In e (component_names t) /\ exists n, nth_error (primitive_component_names t) n = Some e /\ nth_error prim n = Some x)).
Proof.
  intros P. revert idx k P. induction names as [|e0 l IH]; intros idx k P N Lu Lp; [destruct k; discriminate|].
  cbn [populate] in P. destruct (lookup_quantity t e0) as [q|] eqn:L; [|discriminate].
  destruct (populate t l) as [idx'|]; [|discriminate]. injection P as <-.
  destruct k as [|k]; [|exact (IH idx' k eq_refl N Lu Lp)]. cbn in N. injection N as <-.
  apply lookup_spec in L. destruct L as [[F L]|(F & NI & L)].
  - assert (K : (snd q < length u)%nat) by (rewrite Lu; apply nth_error_Some; rewrite L; discriminate).
    destruct (nth_error u (snd q)) as [x|] eqn:X; [|apply nth_error_None in X; lia].
    exists q, x. unfold p_read. rewrite Nat.add_0_r, F. split; [reflexivity|]. split; [exact X|]. left. exists (snd q). split; assumption.
  - assert (K : (snd q < length prim)%nat) by (rewrite Lp; apply nth_error_Some; rewrite L; discriminate).
    destruct (nth_error prim (snd q)) as [x|] eqn:X; [|apply nth_error_None in X; lia].
    exists q, x. unfold p_read. rewrite Nat.add_0_r, F. split; [reflexivity|]. split; [exact X|]. right. split; [exact NI|]. exists (snd q). split; assumption.
Qed.

(** The vorticity of the momentum and of the velocity. *)
Lemma C120_vorticity_proof dim t name idx :
  dim = 2%nat \/ dim = 3%nat -> In t [euler_tables dim; aeos_tables dim; shallow_water_tables dim] ->
  name = "m_1"%string \/ name = "v_1"%string -> populate t [name] = Some [idx] ->
  forall u prim, length u = length (component_names t) -> length prim = length (primitive_component_names t) ->
  p_read_vector u prim idx dim = Some (firstn dim (tl (if String.eqb name "m_1" then u else prim))).
Proof.
  intros D T N P u prim Lu Lp.
  destruct D as [-> | ->]; cbn [In] in T; (destruct T as [<-|[<-|[<-|[]]]]); (destruct N as [-> | ->]);
    cbn in P; injection P as <-; cbn in Lu, Lp;
    (destruct u as [|u0 [|u1 [|u2 [|u3 [|u4 [|u5 u]]]]]]; cbn in Lu; try discriminate);
    (destruct prim as [|w0 [|w1 [|w2 [|w3 [|w4 [|w5 w]]]]]]; cbn in Lp; try discriminate);
    reflexivity.
Qed.

Lemma p_read_vector_some (u prim : list R) (q : bool * nat) d : (snd q + d <= length (if fst q then prim else u))%nat ->
  p_read_vector u prim q d <> None.
Proof.
  induction d as [|d IH]; intros H; cbn [p_read_vector]; [discriminate|].
  assert (H' := IH ltac:(lia)). destruct (p_read_vector u prim q d); [|contradiction]. unfold p_read.
  destruct (nth_error (if fst q then prim else u) (snd q + d)) eqn:E; [discriminate|]. apply nth_error_None in E. lia.
Qed.
Lemma p_read_vector_none (u prim : list R) (q : bool * nat) d : (length (if fst q then prim else u) < snd q + d)%nat -> (0 < d)%nat ->
  p_read_vector u prim q d = None.
Proof.
  intros H D. destruct d as [|d]; [lia|]. cbn [p_read_vector]. destruct (p_read_vector u prim q d); [|reflexivity]. unfold p_read.
  destruct (nth_error (if fst q then prim else u) (snd q + d)) eqn:E; [|reflexivity].
  assert (K : (snd q + d < length (if fst q then prim else u))%nat) by (apply nth_error_Some; rewrite E; discriminate). lia.
Qed.

(** Which accepted names of the shipped systems are read out of range. *)
Lemma C120_range_refuted_proof :
  exists t name idx, In t (shipped_tables 2) /\ populate t [name] = Some [idx] /\
    forall u prim, length u = length (component_names t) -> length prim = length (primitive_component_names t) ->
    p_read_vector u prim idx 2 = None.
Proof.
  exists (euler_tables 2), "E"%string, (false, 3%nat). split; [left; reflexivity|]. split; [reflexivity|].
  intros u prim Lu _. apply p_read_vector_none; [cbn; cbn in Lu; lia|lia].
Qed.

Lemma append_inj p a b : String.append p a = String.append p b -> a = b.
Proof. induction p as [|c p IH]; cbn; [auto|]. intros H. injection H as H. auto. Qed.
Lemma nodup_map_inj {A B} (f : A -> B) l : (forall a b, f a = f b -> a = b) -> NoDup l -> NoDup (map f l).
Proof.
  intros I. induction 1 as [|a l N D IH]; cbn; constructor; [|exact IH].
  intros H. apply in_map_iff in H. destruct H as (b & E & H). apply I in E. subst. contradiction.
Qed.
Lemma C120_distinct_proof schlieren vorticity :
  NoDup schlieren -> NoDup vorticity -> NoDup (plot_names schlieren vorticity).
Proof.
  intros A B. unfold plot_names.
  assert (NA : NoDup (map (String.append "schlieren_") schlieren)) by (apply nodup_map_inj; [apply append_inj|exact A]).
  assert (NB : NoDup (map (String.append "vorticity_") vorticity)) by (apply nodup_map_inj; [apply append_inj|exact B]).
  assert (DIS : forall x, In x (map (String.append "schlieren_") schlieren) -> ~ In x (map (String.append "vorticity_") vorticity)).
  { intros x HX HY. apply in_map_iff in HX. apply in_map_iff in HY. destruct HX as (a & <- & _), HY as (b & E & _). cbn in E. discriminate. }
  induction NA as [|x l N D IH]; cbn; [exact NB|]. constructor.
  - intros H. apply in_app_or in H. destruct H as [H|H]; [contradiction|]. exact (DIS x (or_introl eq_refl) H).
  - apply IH. intros y Hy. apply DIS. right. exact Hy.
Qed.

(** ** A cross of five nodes, a stencil in the plane and in space *)

Definition cross_point (j : nat) : vec := fun k =>
  match j with
  | 1%nat => if (k =? 0)%nat then 1 else 0 | 2%nat => if (k =? 0)%nat then - (1) else 0
  | 3%nat => if (k =? 1)%nat then 1 else 0 | 4%nat => if (k =? 1)%nat then - (1) else 0
  | 5%nat => if (k =? 2)%nat then 1 else 0 | 6%nat => if (k =? 2)%nat then - (1) else 0
  | _ => 0
  end.
Definition cross_mesh (dim : nat) : pmesh :=
  {| p_dim := dim; p_columns := fun _ => seq 0 (2 * dim + 1); p_c := fun _ j => vscal (1 / 2) (cross_point j);
     p_mass := fun _ => 1; p_constraint := fun _ => []; p_ranks := [[0%nat]] |}.
Lemma cross_exact dim : dim = 2%nat \/ dim = 3%nat -> exact_gradient (cross_mesh dim) cross_point 0.
Proof.
  intros [-> | ->]; (split; [cbn; lra|split]).
  - intros a Ha. destruct a as [|[|a]]; [| |cbn in Ha; lia]; cbn; unfold vscal; cbn; field.
  - intros a b Ha Hb. destruct a as [|[|a]]; [| |cbn in Ha; lia]; (destruct b as [|[|b]]; [| |cbn in Hb; lia]); cbn; unfold vscal; cbn; field.
  - intros a Ha. destruct a as [|[|[|a]]]; [| | |cbn in Ha; lia]; cbn; unfold vscal; cbn; field.
  - intros a b Ha Hb. destruct a as [|[|[|a]]]; [| | |cbn in Ha; lia]; (destruct b as [|[|[|b]]]; [| | |cbn in Hb; lia]); cbn; unfold vscal; cbn; field.
Qed.

(** The ring without the identified row, on two ranks and on one. *)
Definition free_ring (ranks : list (list nat)) : pmesh :=
  {| p_dim := 1; p_columns := fun _ => [0; 1; 2]%nat; p_c := ring_c; p_mass := fun _ => 1; p_constraint := fun _ => []; p_ranks := ranks |}.
Lemma free_ring_free ranks : forall j, In j (owned (free_ring ranks)) -> p_constrained (free_ring ranks) j = false.
Proof. reflexivity. Qed.
Lemma free_ring_redistributed : redistributed (free_ring [[0; 1; 2]]%nat) (free_ring [[2]; [0; 1]]%nat).
Proof. repeat split; try reflexivity; unfold owned; cbn; tauto. Qed.
Lemma ring_averaging : averaging ring_mesh 3.
Proof. split; [|cbn; lra]. intros j w [H|[]]. injection H as <- <-. split; [lra|reflexivity]. Qed.

(** The ring with the field of above: everything the theorems on normalization ask for. *)
Lemma free_ring_case :
  let M := free_ring [[0; 1]; [2]]%nat in
  let raws := [schlieren_raw M ring_field] in
  let out := p_compute M 1000 10 (1 / 1000000) (1 / 1000) true raws (p_prepared 1) in
  In 0%nat (owned M) /\ In 1%nat (owned M) /\ (forall j, In j (owned M) -> p_constrained M j = false) /\
  raw_at raws 0 0 = Some (1 / 10) /\ raw_at raws 0 1 = Some 0 /\ raw_at raws 0 2 = Some (1 / 10) /\
  shown out 0 1 = Some 0 /\ exists v, shown out 0 0 = Some v /\ 9 / 10 < v.
Proof.
  destruct ring_raw_values as (E0 & E1 & E2). cbv zeta.
  assert (F0 : schlieren_raw (free_ring [[0; 1]; [2]]%nat) ring_field 0 = 1 / 10) by exact E0.
  assert (F1 : schlieren_raw (free_ring [[0; 1]; [2]]%nat) ring_field 1 = 0) by exact E1.
  assert (F2 : schlieren_raw (free_ring [[0; 1]; [2]]%nat) ring_field 2 = 1 / 10) by exact E2.
  set (M := free_ring [[0; 1]; [2]]%nat) in *.
  set (raws := [schlieren_raw M ring_field]).
  assert (R0 : raw_at raws 0 0 = Some (1 / 10)) by (unfold raw_at; cbn [nth_error raws option_map]; rewrite F0; reflexivity).
  assert (R1 : raw_at raws 0 1 = Some 0) by (unfold raw_at; cbn [nth_error raws option_map]; rewrite F1; reflexivity).
  assert (R2 : raw_at raws 0 2 = Some (1 / 10)) by (unfold raw_at; cbn [nth_error raws option_map]; rewrite F2; reflexivity).
  assert (I0 : In 0%nat (owned M)) by (left; reflexivity).
  assert (I1 : In 1%nat (owned M)) by (right; left; reflexivity).
  assert (FR : forall j, In j (owned M) -> p_constrained M j = false) by reflexivity.
  assert (ALL : forall (P : nat -> R -> Prop), P 0%nat (1 / 10) -> P 1%nat 0 -> P 2%nat (1 / 10) ->
     forall j rj, In j (owned M) -> raw_at raws 0 j = Some rj -> P j rj).
  { intros P P0 P1 P2 j rj Hj. unfold owned in Hj. cbn in Hj. destruct Hj as [<-|[<-|[<-|[]]]].
    - rewrite R0. intros H. injection H as <-. exact P0.
    - rewrite R1. intros H. injection H as <-. exact P1.
    - rewrite R2. intros H. injection H as <-. exact P2. }
  assert (S0 := shown_ext M 1000 10 (1 / 1000000) (1 / 1000) raws (p_prepared 1) (fun _ => 0) 0 0 eq_refl _ eq_refl eq_refl).
  assert (S1 := shown_ext M 1000 10 (1 / 1000000) (1 / 1000) raws (p_prepared 1) (fun _ => 0) 0 1 eq_refl _ eq_refl eq_refl).
  refine (conj I0 (conj I1 (conj FR (conj R0 (conj R1 (conj R2 (conj _ _))))))).
  - rewrite S1. f_equal.
    refine (proj1 (C119_extremes_proof M 1000 10 (1 / 1000000) (1 / 1000) raws (p_prepared 1) 0 1 _ 0 ltac:(lra) ltac:(lra) ltac:(lra) FR I1 R1 _ S1) _).
    + rewrite Rabs_R0. lra.
    + apply ALL; rewrite Rabs_R0; try apply Rabs_pos; lra.
  - eexists. split; [exact S0|].
    destruct (p_scale_bounds 10 (1 / 1000000) (1 / 1000) (p_bound M 1000 (seen M (schlieren_raw M ring_field) (fun _ => 0))) (1 / 10) ltac:(lra) ltac:(lra)) as [_ SG].
    rewrite <- F0 in SG at 1.
    assert (A := proj2 (C119_extremes_proof M 1000 10 (1 / 1000000) (1 / 1000) raws (p_prepared 1) 0 0 _ (1 / 10) ltac:(lra) ltac:(lra) ltac:(lra) FR I0 R0 ltac:(rewrite Rabs_right; lra) S0) 1%nat 0 I1 R1).
    rewrite Rabs_R0, (Rabs_right (1 / 10)) in A by lra.
    set (v := p_scale _ _ _ _ (schlieren_raw M ring_field 0)) in *. clearbody v.
    specialize (A ltac:(lra) ltac:(apply ALL; rewrite ?Rabs_R0, ?(Rabs_right (1 / 10)); lra)).
    rewrite (Rmax_right 0) in A by lra. rewrite Rabs_right in A by lra. rewrite A.
    replace (- (10) * (1 - 1 / 1000 / (1 / 10 - 0))) with (- (99 / 10)) by field.
    pose proof (exp_pos (- (99 / 10))). pose proof (exp_ineq1 (99 / 10) ltac:(lra)).
    assert (exp (99 / 10) * exp (- (99 / 10)) = 1) by (rewrite <- exp_plus; replace (99 / 10 + - (99 / 10)) with 0 by ring; apply exp_0).
    nra.
Qed.

(** Two outputs with kept bounds. *)
Lemma free_ring_kept :
  let M := free_ring [[0; 1]; [2]]%nat in
  let raws := [schlieren_raw M ring_field] in
  let outs := [(2%nat, raws)] in
  let first := p_output M 1000 10 (1 / 1000000) (1 / 1000) false raws 1 (p_prepared 1) in
  let later := fold_left (fun s cr => p_output M 1000 10 (1 / 1000000) (1 / 1000) false (snd cr) (fst cr) s) outs first in
  length (p_quantities (p_prepared 1)) = length raws /\
  (forall cr, In cr outs -> fst cr <> 0%nat /\ length (snd cr) = length raws) /\ raws = snd (last outs (0%nat, [])) /\
  raw_at raws 0 0 = raw_at raws 0 2 /\ shown first 0 0 <> None /\ shown later 0 2 <> None.
Proof.
  destruct ring_raw_values as (E0 & E1 & E2). cbv zeta.
  refine (conj eq_refl (conj _ (conj eq_refl (conj _ (conj _ _))))).
  - intros cr [<-|[]]. split; [discriminate|reflexivity].
  - unfold raw_at. cbn [nth_error option_map]. f_equal. transitivity (1 / 10); [exact E0|symmetry; exact E2].
  - discriminate.
  - discriminate.
Qed.

(** Names as a user might give them. *)
Lemma names_case : populate (euler_tables 2) ["rho"; "p"; "m_1"]%string = Some [(false, 0); (true, 3); (false, 1)]%nat /\
  populate (euler_tables 3) ["m_1"]%string = Some [(false, 1%nat)] /\ populate (aeos_tables 2) ["v_1"]%string = Some [(true, 1%nat)] /\
  populate (euler_tables 2) ["m"]%string = None.
Proof. repeat split. Qed.

(** A rotating and stretching flow in the plane. *)
Lemma cross_case : vorticity_raw (cross_mesh 2) (fun j => affine_field 2 (fun k b => if (k =? b)%nat then 1 else if (k =? 1)%nat then 3 else - (4)) (fun _ => 5) (cross_point j)) 0 = 7 /\
  schlieren_raw (cross_mesh 2) (fun j => dot 2 (fun k => if (k =? 0)%nat then 3 else 4) (cross_point j) + 9) 0 = 5.
Proof.
  split.
  - rewrite (C118_vorticity_2d_proof (cross_mesh 2) cross_point 0 _ (fun k b => if (k =? b)%nat then 1 else if (k =? 1)%nat then 3 else - (4)) (fun _ => 5) eq_refl (cross_exact 2 (or_introl eq_refl))).
    + cbn. lra.
    + reflexivity.
  - rewrite (C118_schlieren_proof (cross_mesh 2) cross_point 0 _ (fun k => if (k =? 0)%nat then 3 else 4) 9 (cross_exact 2 (or_introl eq_refl))).
    + unfold norm2, dot. cbn. replace (0 + 3 * 3 + 4 * 4) with (5 * 5) by ring. apply sqrt_square. lra.
    + reflexivity.
Qed.
