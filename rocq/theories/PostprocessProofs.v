(** * Proofs about the plots *)
From Coq Require Import Reals String List Bool Arith Lia Lra Psatz.
From Verif Require Import RVec Extractor Postprocess PostprocessSpec.
Import ListNotations.
Local Open Scope R_scope.

(** ** Sums *)

Lemma psum_ext l f g : (forall j, In j l -> f j = g j) -> psum l f = psum l g.
Proof.
  induction l as [|a l IH]; intros H; cbn; [reflexivity|].
  rewrite (H a (or_introl eq_refl)), IH by (intros j Hj; apply H; right; exact Hj). reflexivity.
Qed.
Lemma psum_plus l f g : psum l (fun j => f j + g j) = psum l f + psum l g.
Proof. induction l as [|a l IH]; cbn; [ring|rewrite IH; ring]. Qed.
Lemma psum_scal l c f : psum l (fun j => c * f j) = c * psum l f.
Proof. induction l as [|a l IH]; cbn; [ring|rewrite IH; ring]. Qed.
Lemma psum_zero l : psum l (fun _ => 0) = 0.
Proof. induction l as [|a l IH]; cbn; [ring|rewrite IH; ring]. Qed.
Lemma psum_opp l f : psum l (fun j => - f j) = - psum l f.
Proof. induction l as [|a l IH]; cbn; [ring|rewrite IH; ring]. Qed.
Lemma psum_rsum l n f : psum l (fun j => rsum n (f j)) = rsum n (fun k => psum l (fun j => f j k)).
Proof.
  induction n as [|n IH]; cbn; [apply psum_zero|]. rewrite psum_plus, IH. reflexivity.
Qed.

Lemma fold_sub_psum f l g0 : fold_left (fun g j => g - f j) l g0 = g0 - psum l f.
Proof. revert g0. induction l as [|a l IH]; intros g0; cbn; [ring|rewrite IH; ring]. Qed.

Lemma fold_vsub_psum (f : nat -> vec) l (g0 : vec) k :
  fold_left (fun (g : vec) j => vsub g (f j)) l g0 k = g0 k - psum l (fun j => f j k).
Proof. revert g0. induction l as [|a l IH]; intros g0; cbn; [ring|rewrite IH; unfold vsub; ring]. Qed.

Lemma rsum_pick n (k : nat) (c : R) : (k < n)%nat -> rsum n (fun b => if (k =? b)%nat then c else 0) = c.
Proof.
  induction n as [|n IH]; intros H; [lia|]. cbn [rsum]. destruct (Nat.eq_dec k n) as [->|D].
  - rewrite Nat.eqb_refl. rewrite (rsum_ext n _ (fun _ => 0)); [rewrite rsum_0; ring|].
    intros b Hb. destruct (Nat.eqb_spec n b); [lia|reflexivity].
  - rewrite IH by lia. destruct (Nat.eqb_spec k n); [lia|ring].
Qed.

(** The discrete derivative in direction a of an affine component. *)
Lemma derivative_affine M x i (g : nat -> R) (b : R) a : exact_gradient M x i -> (a < p_dim M)%nat ->
  psum (p_columns M i) (fun j => p_c M i j a * (rsum (p_dim M) (fun k => g k * x j k) + b)) = p_mass M i * g a.
Proof.
  intros (Hm & H0 & H1) Ha.
  rewrite (psum_ext _ _ (fun j => rsum (p_dim M) (fun k => g k * (p_c M i j a * x j k)) + b * p_c M i j a)).
  2:{ intros j _. rewrite Rmult_plus_distr_l, <- rsum_scal. f_equal; [apply rsum_ext; intros; ring|ring]. }
  rewrite psum_plus, psum_rsum, psum_scal, H0 by exact Ha.
  rewrite (rsum_ext _ _ (fun k => if (a =? k)%nat then p_mass M i * g a else 0)).
  - rewrite rsum_pick by exact Ha. ring.
  - intros k Hk. rewrite psum_scal, H1 by assumption. destruct (Nat.eqb_spec a k); [subst; ring|ring].
Qed.

Lemma sqrt_scaled m n a : 0 < m -> sqrt (m * m * norm2 n a) / m = sqrt (norm2 n a).
Proof.
  intros H. assert (0 <= norm2 n a). { apply rsum_nonneg. intros. apply Rle_0_sqr. }
  rewrite sqrt_mult by nra. rewrite sqrt_square by lra. field. lra.
Qed.

Lemma C118_schlieren_proof M x i f (g : vec) b :
  exact_gradient M x i ->
  (forall j, In j (p_columns M i) -> f j = dot (p_dim M) g (x j) + b) ->
  schlieren_raw M f i = sqrt (norm2 (p_dim M) g).
Proof.
  intros E Hf. pose proof E as (Hm & _).
  unfold schlieren_raw. rewrite <- (sqrt_scaled (p_mass M i) (p_dim M) g) by exact Hm. cbv zeta. f_equal. f_equal.
  unfold norm2, dot. rewrite <- rsum_scal. apply rsum_ext. intros a Ha.
  rewrite fold_vsub_psum.
  assert (D : psum (p_columns M i) (fun j => vscal (f j) (p_c M i j) a) = p_mass M i * g a).
  { rewrite <- (derivative_affine M x i g b a E Ha). apply psum_ext. intros j Hj. unfold vscal. rewrite (Hf j Hj). unfold dot. ring. }
  rewrite D. ring.
Qed.

Lemma C118_vorticity_2d_proof M x i q A v :
  p_dim M = 2%nat -> exact_gradient M x i ->
  (forall j, In j (p_columns M i) -> forall k, (k < 2)%nat -> q j k = affine_field 2 A v (x j) k) ->
  vorticity_raw M q i = A 1%nat 0%nat - A 0%nat 1%nat.
Proof.
  intros D2 E Hq. pose proof E as (Hm & _). unfold vorticity_raw. rewrite D2. cbn [Nat.eqb].
  rewrite fold_sub_psum. unfold cross2.
  rewrite psum_plus.
  assert (D : forall a k, (a < 2)%nat -> (k < 2)%nat -> psum (p_columns M i) (fun j => p_c M i j a * q j k) = p_mass M i * A k a).
  { intros a k Ha Hk. rewrite <- (derivative_affine M x i (A k) (v k) a E) by lia.
    apply psum_ext. intros j Hj. rewrite (Hq j Hj k Hk). unfold affine_field. rewrite D2. reflexivity. }
  rewrite (psum_ext _ (fun j => - p_c M i j 0%nat * q j 1%nat) (fun j => - (p_c M i j 0%nat * q j 1%nat))) by (intros; ring).
  rewrite psum_opp, !D by lia. field. lra.
Qed.

Lemma C118_vorticity_3d_proof M x i q A v :
  p_dim M = 3%nat -> exact_gradient M x i ->
  (forall j, In j (p_columns M i) -> forall k, (k < 3)%nat -> q j k = affine_field 3 A v (x j) k) ->
  let wx := A 2%nat 1%nat - A 1%nat 2%nat in
  let wy := A 0%nat 2%nat - A 2%nat 0%nat in
  let wz := A 1%nat 0%nat - A 0%nat 1%nat in
  vorticity_raw M q i = sqrt (wx * wx + wy * wy + wz * wz).
Proof.
  intros D3 E Hq wx wy wz. pose proof E as (Hm & _). unfold vorticity_raw. rewrite D3. cbn [Nat.eqb].
  assert (D : forall a k, (a < 3)%nat -> (k < 3)%nat -> psum (p_columns M i) (fun j => p_c M i j a * q j k) = p_mass M i * A k a).
  { intros a k Ha Hk. rewrite <- (derivative_affine M x i (A k) (v k) a E) by lia.
    apply psum_ext. intros j Hj. rewrite (Hq j Hj k Hk). unfold affine_field. rewrite D3. reflexivity. }
  assert (M2 : forall a b k l, (a < 3)%nat -> (b < 3)%nat -> (k < 3)%nat -> (l < 3)%nat ->
     psum (p_columns M i) (fun j => p_c M i j a * q j k - p_c M i j b * q j l) = p_mass M i * (A k a - A l b)).
  { intros a b k l Ha Hb Hk Hl.
    rewrite (psum_ext _ _ (fun j => p_c M i j a * q j k + - (p_c M i j b * q j l))) by (intros; ring).
    rewrite psum_plus, psum_opp, !D by lia. ring. }
  replace (sqrt (wx * wx + wy * wy + wz * wz))
    with (sqrt (norm2 3 (fun k => match k with 0%nat => wx | 1%nat => wy | _ => wz end))).
  2:{ f_equal. unfold norm2, dot. cbn. ring. }
  rewrite <- (sqrt_scaled (p_mass M i) 3 (fun k => match k with 0%nat => wx | 1%nat => wy | _ => wz end)) by exact Hm. f_equal. f_equal.
  unfold norm2, dot. cbn [rsum]. rewrite !fold_vsub_psum. unfold cross3.
  rewrite !M2 by lia. unfold wx, wy, wz. ring.
Qed.

(** ** Scaling *)

Lemma p_scale_value beta eps floor b q :
  0 <= beta -> 0 < eps ->
  let m := 1 - exp (- beta * (Rmax 0 (Rabs q - snd b - floor) / Rmax (fst b - snd b) eps)) in
  0 <= m < 1 /\ p_scale beta eps floor b q = (if Rlt_dec q 0 then - m else m).
Proof.
  intros Hb He m.
  assert (Q : 0 <= Rmax 0 (Rabs q - snd b - floor) / Rmax (fst b - snd b) eps).
  { apply Rmult_le_pos; [apply Rmax_l|]. left. apply Rinv_0_lt_compat.
    pose proof (Rmax_r (fst b - snd b) eps). lra. }
  assert (B : 0 <= m < 1).
  { unfold m. set (r := Rmax 0 _ / _) in *. split.
    - assert (exp (- beta * r) <= exp 0).
      { assert (LE : - beta * r <= 0) by nra. destruct LE as [LT|E]; [left; apply exp_increasing; exact LT|rewrite E; lra]. }
      rewrite exp_0 in *. lra.
    - pose proof (exp_pos (- beta * r)). lra. }
  split; [exact B|]. unfold p_scale. fold m. cbv zeta. rewrite (Rabs_right m) by lra. reflexivity.
Qed.

Lemma p_scale_bounds beta eps floor b q : 0 <= beta -> 0 < eps ->
  -1 < p_scale beta eps floor b q < 1 /\ 0 <= p_scale beta eps floor b q * q.
Proof.
  intros Hb He. destruct (p_scale_value beta eps floor b q Hb He) as [B E]. rewrite E.
  destruct (Rlt_dec q 0); split; try lra; nra.
Qed.

Lemma p_scale_abs beta eps floor b q : 0 <= beta -> 0 < eps ->
  Rabs (p_scale beta eps floor b q) = 1 - exp (- beta * (Rmax 0 (Rabs q - snd b - floor) / Rmax (fst b - snd b) eps)).
Proof.
  intros Hb He. destruct (p_scale_value beta eps floor b q Hb He) as [B E]. rewrite E.
  destruct (Rlt_dec q 0); [rewrite Rabs_Ropp|]; apply Rabs_right; lra.
Qed.

Lemma p_scale_mono beta eps floor b q r : 0 <= beta -> 0 < eps -> Rabs q <= Rabs r ->
  Rabs (p_scale beta eps floor b q) <= Rabs (p_scale beta eps floor b r).
Proof.
  intros Hb He H. rewrite !p_scale_abs by assumption.
  set (d := Rmax (fst b - snd b) eps). assert (0 < d). { unfold d. pose proof (Rmax_r (fst b - snd b) eps). lra. }
  assert (L : Rmax 0 (Rabs q - snd b - floor) / d <= Rmax 0 (Rabs r - snd b - floor) / d).
  { apply Rmult_le_compat_r; [left; apply Rinv_0_lt_compat; assumption|]. apply Rmax_lub; [apply Rmax_l|].
    eapply Rle_trans; [|apply Rmax_r]. lra. }
  set (u := Rmax 0 (Rabs q - snd b - floor) / d) in *. set (w := Rmax 0 (Rabs r - snd b - floor) / d) in *. clearbody u w.
  assert (exp (- beta * w) <= exp (- beta * u)).
  { assert (LE : - beta * w <= - beta * u) by nra.
    destruct LE as [LT|E]; [left; apply exp_increasing; exact LT|rewrite E; lra]. }
  lra.
Qed.

Lemma p_scale_strict beta eps floor b q r : 0 < beta -> 0 < eps -> Rabs q < Rabs r -> snd b + floor < Rabs r ->
  Rabs (p_scale beta eps floor b q) < Rabs (p_scale beta eps floor b r).
Proof.
  intros Hb He H F. rewrite !p_scale_abs by lra.
  set (d := Rmax (fst b - snd b) eps). assert (0 < d). { unfold d. pose proof (Rmax_r (fst b - snd b) eps). lra. }
  assert (L : Rmax 0 (Rabs q - snd b - floor) / d < Rmax 0 (Rabs r - snd b - floor) / d).
  { apply Rmult_lt_compat_r; [apply Rinv_0_lt_compat; assumption|]. rewrite (Rmax_right 0 (Rabs r - _ - _)) by lra.
    apply Rmax_lub_lt; lra. }
  set (u := Rmax 0 (Rabs q - snd b - floor) / d) in *. set (w := Rmax 0 (Rabs r - snd b - floor) / d) in *. clearbody u w.
  assert (exp (- beta * w) < exp (- beta * u)) by (apply exp_increasing; nra). lra.
Qed.

(** ** Bounds *)

Lemma fold_max_ge (f : nat -> R) l m : m <= fold_left (fun m i => Rmax m (f i)) l m.
Proof.
  revert m. induction l as [|a l IH]; intros m; cbn; [lra|].
  eapply Rle_trans; [apply (Rmax_l m (f a))|apply IH].
Qed.
Lemma fold_max_in (f : nat -> R) l m i : In i l -> f i <= fold_left (fun m i => Rmax m (f i)) l m.
Proof.
  revert m. induction l as [|a l IH]; intros m H; cbn; [contradiction|]. destruct H as [->|H]; [|apply IH; exact H].
  eapply Rle_trans; [apply (Rmax_r m (f i))|apply fold_max_ge].
Qed.
Lemma fold_max_lub (f : nat -> R) l m B : m <= B -> (forall i, In i l -> f i <= B) -> fold_left (fun m i => Rmax m (f i)) l m <= B.
Proof.
  revert m. induction l as [|a l IH]; intros m H G; cbn; [exact H|]. apply IH; [|intros; apply G; right; assumption].
  apply Rmax_lub; [exact H|apply G; left; reflexivity].
Qed.
Lemma fold_min_le (f : nat -> R) l m : fold_left (fun m i => Rmin m (f i)) l m <= m.
Proof.
  revert m. induction l as [|a l IH]; intros m; cbn; [lra|].
  eapply Rle_trans; [apply IH|apply Rmin_l].
Qed.
Lemma fold_min_in (f : nat -> R) l m i : In i l -> fold_left (fun m i => Rmin m (f i)) l m <= f i.
Proof.
  revert m. induction l as [|a l IH]; intros m H; cbn; [contradiction|]. destruct H as [->|H]; [|apply IH; exact H].
  eapply Rle_trans; [apply fold_min_le|apply Rmin_r].
Qed.
Lemma fold_min_glb (f : nat -> R) l m B : B <= m -> (forall i, In i l -> B <= f i) -> B <= fold_left (fun m i => Rmin m (f i)) l m.
Proof.
  revert m. induction l as [|a l IH]; intros m H G; cbn; [exact H|]. apply IH; [|intros; apply G; right; assumption].
  apply Rmin_glb; [exact H|apply G; left; reflexivity].
Qed.

Lemma fr_max_ge l : 0 <= fold_right Rmax 0 l.
Proof. induction l as [|a l IH]; cbn; [lra|]. eapply Rle_trans; [exact IH|apply Rmax_r]. Qed.
Lemma fr_max_in l a : In a l -> a <= fold_right Rmax 0 l.
Proof.
  induction l as [|b l IH]; cbn; [contradiction|]. intros [->|H]; [apply Rmax_l|].
  eapply Rle_trans; [apply IH; exact H|apply Rmax_r].
Qed.
Lemma fr_max_lub l B : 0 <= B -> (forall a, In a l -> a <= B) -> fold_right Rmax 0 l <= B.
Proof.
  intros H. induction l as [|b l IH]; cbn; intros G; [exact H|].
  apply Rmax_lub; [apply G; left; reflexivity|apply IH; intros; apply G; right; assumption].
Qed.
Lemma fr_min_le big l : fold_right Rmin big l <= big.
Proof. induction l as [|a l IH]; cbn; [lra|]. eapply Rle_trans; [apply Rmin_r|exact IH]. Qed.
Lemma fr_min_in big l a : In a l -> fold_right Rmin big l <= a.
Proof.
  induction l as [|b l IH]; cbn; [contradiction|]. intros [->|H]; [apply Rmin_l|].
  eapply Rle_trans; [apply Rmin_r|apply IH; exact H].
Qed.
Lemma fr_min_glb big l B : B <= big -> (forall a, In a l -> B <= a) -> B <= fold_right Rmin big l.
Proof.
  intros H. induction l as [|b l IH]; cbn; intros G; [exact H|].
  apply Rmin_glb; [apply G; left; reflexivity|apply IH; intros; apply G; right; assumption].
Qed.

(** The bounds are the smallest and largest values over the rows, whatever the ranks. *)
Lemma p_bound_char M big q :
  (forall i, In i (owned M) -> Rabs (q i) <= fst (p_bound M big q)) /\ 0 <= fst (p_bound M big q) /\
  (forall B, 0 <= B -> (forall i, In i (owned M) -> Rabs (q i) <= B) -> fst (p_bound M big q) <= B) /\
  (forall i, In i (owned M) -> snd (p_bound M big q) <= Rabs (q i)) /\ snd (p_bound M big q) <= big /\
  (forall B, B <= big -> (forall i, In i (owned M) -> B <= Rabs (q i)) -> B <= snd (p_bound M big q)).
Proof.
  unfold p_bound, owned. cbn [fst snd].
  assert (INC : forall i, In i (concat (p_ranks M)) -> exists l, In l (p_ranks M) /\ In i l).
  { intros i Hi. apply in_concat in Hi. destruct Hi as (l & A & B). exists l. split; assumption. }
  refine (conj _ (conj _ (conj _ (conj _ (conj _ _))))).
  - intros i Hi. destruct (INC i Hi) as (l & A & B).
    eapply Rle_trans; [apply (fold_max_in (fun i => Rabs (q i)) l 0 i B)|]. apply fr_max_in.
    exact (in_map (fun rows => fold_left (fun m i => Rmax m (Rabs (q i))) rows 0) _ _ A).
  - apply fr_max_ge.
  - intros B HB H. apply fr_max_lub; [exact HB|]. intros a Ha. apply in_map_iff in Ha. destruct Ha as (l & <- & Hl).
    apply (fold_max_lub (fun i => Rabs (q i))); [exact HB|]. intros i Hi. apply H. apply in_concat. exists l. split; assumption.
  - intros i Hi. destruct (INC i Hi) as (l & A & B).
    eapply Rle_trans; [|apply (fold_min_in (fun i => Rabs (q i)) l big i B)]. apply fr_min_in.
    exact (in_map (fun rows => fold_left (fun m i => Rmin m (Rabs (q i))) rows big) _ _ A).
  - apply fr_min_le.
  - intros B HB H. apply fr_min_glb; [exact HB|]. intros a Ha. apply in_map_iff in Ha. destruct Ha as (l & <- & Hl).
    apply (fold_min_glb (fun i => Rabs (q i))); [exact HB|]. intros i Hi. apply H. apply in_concat. exists l. split; assumption.
Qed.

Lemma p_bound_ext M N big q r : (forall i, In i (owned M) <-> In i (owned N)) ->
  (forall i, In i (owned M) -> q i = r i) -> p_bound M big q = p_bound N big r.
Proof.
  intros H E.
  destruct (p_bound_char M big q) as (A1 & A2 & A3 & A4 & A5 & A6).
  destruct (p_bound_char N big r) as (B1 & B2 & B3 & B4 & B5 & B6).
  apply injective_projections.
  - apply Rle_antisym.
    + apply A3; [exact B2|]. intros i Hi. rewrite (E i Hi). apply B1, H, Hi.
    + apply B3; [exact A2|]. intros i Hi. apply H in Hi. rewrite <- (E i Hi). apply A1, Hi.
  - apply Rle_antisym.
    + apply B6; [exact A5|]. intros i Hi. apply H in Hi. rewrite <- (E i Hi). apply A4, Hi.
    + apply A6; [exact B5|]. intros i Hi. rewrite (E i Hi). apply B4, H, Hi.
Qed.

(** ** The output of one call *)

Lemma step1_nth M raws old k : nth_error (p_step1 M raws old) k =
  match nth_error raws k, nth_error old k with
  | Some r, Some o => Some (fun i => if p_constrained M i then o i else r i)
  | _, _ => None
  end.
Proof.
  unfold p_step1. revert old k. induction raws as [|r raws IH]; intros [|o old] [|k]; cbn; try reflexivity.
  - destruct (nth_error raws k); reflexivity.
  - apply IH.
Qed.
Lemma step1_length M raws old : length (p_step1 M raws old) = Nat.min (length raws) (length old).
Proof. unfold p_step1. rewrite map_length, combine_length. reflexivity. Qed.

Lemma combine_nth {A B} (l : list A) (m : list B) k : nth_error (combine l m) k =
  match nth_error l k, nth_error m k with Some a, Some b => Some (a, b) | _, _ => None end.
Proof.
  revert m k. induction l as [|a l IH]; intros [|b m] [|k]; cbn; try reflexivity.
  - destruct (nth_error l k); reflexivity.
  - apply IH.
Qed.

Lemma compute_nth M big beta eps floor rc raws s k :
  nth_error (p_quantities (p_compute M big beta eps floor rc raws s)) k =
  match nth_error (p_step2 M big rc (p_bounds s) (p_step1 M raws (p_quantities s))) k, nth_error raws k, nth_error (p_quantities s) k with
  | Some b, Some r, Some o =>
      Some (p_distribute M (fun i => p_scale beta eps floor b (if p_constrained M i then o i else r i)))
  | _, _, _ => None
  end.
Proof.
  unfold p_compute. cbn [p_quantities]. rewrite nth_error_map, combine_nth, step1_nth.
  destruct (nth_error (p_step2 _ _ _ _ _) k); [|reflexivity].
  destruct (nth_error raws k), (nth_error (p_quantities s) k); reflexivity.
Qed.

Lemma dist_free M q i : p_constrained M i = false -> p_distribute M q i = q i.
Proof. intros H. unfold p_distribute. rewrite H. reflexivity. Qed.

(** The raw values of one quantity after step 1. *)
Definition seen (M : pmesh) (r o : nat -> R) : nat -> R := fun i => if p_constrained M i then o i else r i.

Lemma shown_free M big beta eps floor rc raws s k i v :
  p_constrained M i = false -> shown (p_compute M big beta eps floor rc raws s) k i = Some v ->
  exists b r, nth_error (p_step2 M big rc (p_bounds s) (p_step1 M raws (p_quantities s))) k = Some b /\
    raw_at raws k i = Some r /\ v = p_scale beta eps floor b r.
Proof.
  intros H. unfold shown, raw_at. rewrite compute_nth.
  destruct (nth_error (p_step2 _ _ _ _ _) k) as [b|]; [|discriminate].
  destruct (nth_error raws k) as [r|]; [|discriminate]. destruct (nth_error (p_quantities s) k) as [o|]; [|discriminate].
  cbn. rewrite dist_free, H by exact H. intros E. injection E as <-. exists b, (r i). repeat split.
Qed.

Lemma C119_range_proof M big beta eps floor rc raws s k i v :
  0 <= beta -> 0 < eps -> p_constrained M i = false \/ averaging M i ->
  shown (p_compute M big beta eps floor rc raws s) k i = Some v -> -1 < v < 1.
Proof.
  intros Hb He HC. unfold shown. rewrite compute_nth.
  destruct (nth_error (p_step2 _ _ _ _ _) k) as [b|]; [|discriminate].
  destruct (nth_error raws k) as [r|]; [|discriminate]. destruct (nth_error (p_quantities s) k) as [o|]; [|discriminate].
  cbn. intros E. injection E as <-.
  set (q := fun i => p_scale beta eps floor b (if p_constrained M i then o i else r i)).
  assert (Q : forall i, -1 < q i < 1) by (intros; apply p_scale_bounds; assumption).
  clearbody q. unfold p_distribute. destruct (p_constrained M i) eqn:C; [|apply Q].
  destruct HC as [HC|(HW & HS)]; [discriminate|].
  assert (G : forall l a, (forall j w, In (j, w) l -> 0 <= w) ->
     let t := fold_right (fun jw s => snd jw + s) 0 l in
     let f := fold_left (fun s jw => s + snd jw * q (fst jw)) l a in
     0 <= t /\ (t = 0 /\ f = a \/ 0 < t /\ a - t < f < a + t)).
  { induction l as [|(j, w) l IH]; intros a Hl; cbn.
    - split; [lra|left; split; reflexivity].
    - assert (W := Hl j w (or_introl eq_refl)).
      specialize (IH (a + w * q j) (fun j' w' H' => Hl j' w' (or_intror H'))). cbn in IH. destruct IH as [T F].
      set (t := fold_right _ 0 l) in *. set (f := fold_left _ l _) in *. clearbody t f.
      specialize (Q j). split; [lra|].
      destruct (Req_dec w 0) as [->|Wn].
      + destruct F as [[-> ->]|[P F]]; [left; split; ring|right; split; lra].
      + right. assert (- w < w * q j < w) by nra. destruct F as [[-> ->]|[P F]]; split; lra. }
  specialize (G (p_constraint M i) 0 (fun j w H => proj1 (HW j w H))). cbn in G.
  destruct G as [T [[Z ->]|[P F]]]; lra.
Qed.

Lemma C119_order_proof M big beta eps floor rc raws s k i j vi vj ri rj :
  0 <= beta -> 0 < eps -> p_constrained M i = false -> p_constrained M j = false ->
  raw_at raws k i = Some ri -> raw_at raws k j = Some rj ->
  shown (p_compute M big beta eps floor rc raws s) k i = Some vi ->
  shown (p_compute M big beta eps floor rc raws s) k j = Some vj ->
  0 <= vi * ri /\ (Rabs ri <= Rabs rj -> Rabs vi <= Rabs vj).
Proof.
  intros Hb He Ci Cj Ri Rj Vi Vj.
  destruct (shown_free _ _ _ _ _ _ _ _ _ _ _ Ci Vi) as (b & r & B & R1 & ->).
  destruct (shown_free _ _ _ _ _ _ _ _ _ _ _ Cj Vj) as (b' & r' & B' & R2 & ->).
  rewrite Ri in R1. injection R1 as <-. rewrite Rj in R2. injection R2 as <-. rewrite B in B'. injection B' as <-.
  split; [apply p_scale_bounds; assumption|apply p_scale_mono; assumption].
Qed.
