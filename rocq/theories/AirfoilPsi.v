(** * Lemmas: the parametrization of the airfoil by splines *)
From Coq Require Import Reals List Bool Lra Lia Arith.
From Verif Require Import RVec Airfoil AirfoilSpec AirfoilProofs AirfoilFinal AirfoilNaca.
Import ListNotations.
Local Open Scope R_scope.

Lemma spline_some S xs ys x v : cubic_spline S xs ys x = Some v ->
  increasing xs = true /\ length xs = length ys /\ (3 <= length xs)%nat /\ hd 0 xs <= x <= last xs 0 /\ v = S xs ys x.
Proof.
  unfold cubic_spline. intros H. destruct (increasing xs); [|discriminate H]. destruct (Nat.leb_spec 3 (length xs)); [|discriminate H].
  destruct (Nat.eqb_spec (length xs) (length ys)); [|discriminate H]. cbn [andb] in H.
  destruct (Rle_dec (hd 0 xs) x); [|discriminate H]. destruct (Rle_dec x (last xs 0)); [|discriminate H]. injection H as <-. auto 6.
Qed.

Lemma in_removelast (A : Type) (l : list A) x y : In x l -> In x (removelast (l ++ [y])).
Proof. rewrite removelast_last. auto. Qed.

Lemma fix_last_in pts (x y : R) : x <> 0 -> In (x, y) pts -> In (x, y) (combine (fix_last (map fst pts)) (map snd pts)).
Proof.
  intros Hx H. unfold fix_last. rewrite <- map_rev.
  assert (N : In (x, y) (combine (map fst pts) (map snd pts))).
  { clear Hx. induction pts as [|[a b] l IH]; [destruct H|]. cbn [map combine fst snd]. destruct H as [E|H]; [left; exact E|right; apply IH; exact H]. }
  destruct (rev pts) as [|[a b] r] eqn:E; cbn [map fst].
  - apply (f_equal (@rev _)) in E. rewrite rev_involutive in E. subst pts. destruct H.
  - destruct (Req_EM_T a 0) as [Z|Z]; [|exact N].
    apply (f_equal (@rev _)) in E. rewrite rev_involutive in E. cbn [rev] in E. subst pts. cbn [rev]. rewrite <- map_rev, map_app. cbn [map snd].
    apply in_app_or in H. destruct H as [H|[H|[]]]; [|injection H as -> _; contradiction].
    clear N. generalize (2 * PI) as q. intros q. revert H. generalize (rev r) as l. induction l as [|[c d] l IH]; intros H; [destruct H|].
    cbn [map app combine fst snd]. destruct H as [H|H]; [left; exact H|right; apply IH; exact H].
Qed.

Section Psi.
  Variable S : list R -> list R -> R -> R.
  Hypothesis HS : interpolates S.
  Variable f : profile.
  Variables x_center y_center scaling : R.
  Hypothesis Hc : 0 < x_center < 1.
  Hypothesis Hs : 0 < scaling.

  Lemma nose_value phi x y v : psi_nose S f x_center y_center scaling phi = Some v -> phi <> 0 ->
    (forall l, combined S f x_center = Some l -> In (x, y) l) -> angle (x - x_center) (y - y_center) = phi ->
    v = scaling * sqrt ((x - x_center) * (x - x_center) + (y - y_center) * (y - y_center)).
  Proof using HS.
    unfold psi_nose. intros H Hp Hin Ha. destruct (combined S f x_center) as [l|]; [|discriminate H]. specialize (Hin l eq_refl).
    cbv zeta in H. destruct (Req_EM_T phi 0); [contradiction|].
    destruct (cubic_spline S _ _ phi) as [w|] eqn:E; [|discriminate H]. injection H as <-. f_equal.
    apply spline_some in E. destruct E as (I & _ & _ & _ & ->). apply HS; [exact I|]. apply fix_last_in; [exact Hp|].
    apply in_map_iff. exists (x, y). split; [|exact Hin]. unfold to_polar, polar_pull_back. cbn [fst snd]. rewrite Ha. reflexivity.
  Qed.

  Lemma side_0 xs ys u : psi_side S xs ys x_center y_center scaling 0 = Some u ->
    exists c, cubic_spline S xs ys x_center = Some c /\ u = scaling * (c - y_center).
  Proof using Hc.
    unfold psi_side. cbv zeta. replace (0 / scaling) with 0 by (unfold Rdiv; ring).
    destruct (Rlt_dec (1 - x_center) 0); [lra|]. rewrite Rplus_0_l. destruct (cubic_spline S xs ys x_center) as [c|]; [|discriminate].
    intros H. injection H as <-. exists c. auto.
  Qed.

  Lemma combined_upper l c : hd 1 (x_up f) = 0 -> length (x_up f) = length (y_up f) -> cubic_spline S (x_up f) (y_up f) x_center = Some c ->
    combined S f x_center = Some l -> In (x_center, c) l.
  Proof using Hc.
    intros H0 HL E. unfold combined, glue. rewrite E. destruct (cubic_spline S (x_up f) (y_up f) (x_center + 0.01)) as [c1|]; [|discriminate].
    destruct (cubic_spline S (x_up f) (y_up f) (x_center + 0.02)) as [c2|]; [|discriminate].
    destruct (match cubic_spline S (x_lo f) (y_lo f) x_center with Some _ => _ | None => None end) as [k|]; [|discriminate].
    intros Hl. injection Hl as <-. apply in_or_app. left.
    destruct (x_up f) as [|x xs]; [cbn in H0; lra|]. destruct (y_up f) as [|y ys]; [discriminate HL|]. cbn in H0. subst x.
    cbn [before]. destruct (Rle_dec x_center 0); [lra|]. cbn [app rev]. apply in_removelast. rewrite <- in_rev. apply in_or_app. right. left. reflexivity.
  Qed.

  Lemma combined_lower l c : cubic_spline S (x_lo f) (y_lo f) x_center = Some c -> combined S f x_center = Some l -> In (x_center, c) l.
  Proof using.
    intros E. unfold combined. destruct (glue S (x_up f) (y_up f) x_center) as [k|]; [|discriminate]. unfold glue. rewrite E.
    destruct (cubic_spline S (x_lo f) (y_lo f) (x_center + 0.01)) as [c1|]; [|discriminate].
    destruct (cubic_spline S (x_lo f) (y_lo f) (x_center + 0.02)) as [c2|]; [|discriminate].
    intros Hl. injection Hl as <-. apply in_or_app. right. apply in_or_app. right. left. reflexivity.
  Qed.

  Lemma combined_nose l : hd 1 (x_lo f) = 0 -> hd 1 (y_lo f) = 0 -> combined S f x_center = Some l -> In (0, 0) l.
  Proof using Hc.
    intros H0 H1. unfold combined. destruct (glue S (x_up f) (y_up f) x_center) as [k|]; [|discriminate]. destruct (glue S (x_lo f) (y_lo f) x_center) as [k'|]; [|discriminate].
    intros Hl. injection Hl as <-. apply in_or_app. right. apply in_or_app. left.
    destruct (x_lo f) as [|x xs]; [cbn in H0; lra|]. destruct (y_lo f) as [|y ys]; [cbn in H1; lra|]. cbn in H0, H1. subst x y.
    cbn [before]. destruct (Rle_dec x_center 0); [lra|]. left. reflexivity.
  Qed.

  Lemma angle_up y : 0 < y -> angle 0 y = PI / 2.
  Proof using.
    intros H. pose proof PI_RGT_0. unfold angle, atan2. destruct (Rlt_dec 0 0); [lra|]. destruct (Rlt_dec 0 y); [|contradiction].
    cbv zeta. destruct (Rlt_dec (PI / 2) 0); lra.
  Qed.

  Lemma angle_down y : y < 0 -> angle 0 y = 3 * PI / 2.
  Proof using.
    intros H. pose proof PI_RGT_0. unfold angle, atan2. destruct (Rlt_dec 0 0); [lra|]. destruct (Rlt_dec 0 y); [lra|]. destruct (Rlt_dec y 0); [|contradiction].
    cbv zeta. destruct (Rlt_dec (- (PI / 2)) 0); lra.
  Qed.

  Lemma angle_left x : x < 0 -> angle x 0 = PI.
  Proof using.
    intros H. pose proof PI_RGT_0. unfold angle, atan2. destruct (Rlt_dec 0 x); [lra|]. destruct (Rlt_dec x 0); [|contradiction]. destruct (Rle_dec 0 0); [|lra].
    replace (0 / x) with 0 by (unfold Rdiv; ring). rewrite atan_0. cbv zeta. destruct (Rlt_dec (0 + PI) 0); lra.
  Qed.

  Lemma C140_seam_sec : 
    (forall u v, hd 1 (x_up f) = 0 -> psi_side S (x_up f) (y_up f) x_center y_center scaling 0 = Some u -> 0 < u ->
       psi_nose S f x_center y_center scaling (PI / 2) = Some v -> v = u) /\
    (forall u v, psi_side S (x_lo f) (y_lo f) x_center y_center scaling 0 = Some u -> u < 0 ->
       psi_nose S f x_center y_center scaling (3 * PI / 2) = Some v -> v = - u) /\
    (forall v, hd 1 (x_lo f) = 0 -> hd 1 (y_lo f) = 0 -> y_center = 0 ->
       psi_nose S f x_center y_center scaling PI = Some v -> v = scaling * x_center).
  Proof using HS Hc Hs.
    pose proof PI_RGT_0 as Pi. split; [|split].
    - intros u v H0 Hu Pu Hv. apply side_0 in Hu. destruct Hu as (c & E & ->). assert (Y : 0 < c - y_center) by nra.
      assert (L : length (x_up f) = length (y_up f)) by (apply spline_some in E; apply E).
      rewrite (nose_value _ x_center c v Hv); [|lra|intros l Hl; exact (combined_upper l c H0 L E Hl)|rewrite Rminus_eq_0; apply angle_up; exact Y].
      f_equal. rewrite Rminus_eq_0, Rmult_0_l, Rplus_0_l. apply sqrt_square. lra.
    - intros u v Hu Pu Hv. apply side_0 in Hu. destruct Hu as (c & E & ->). assert (Y : c - y_center < 0) by nra.
      rewrite (nose_value _ x_center c v Hv); [|lra|intros l Hl; exact (combined_lower l c E Hl)|rewrite Rminus_eq_0; apply angle_down; exact Y].
      rewrite Rminus_eq_0, Rmult_0_l, Rplus_0_l. replace ((c - y_center) * (c - y_center)) with ((- (c - y_center)) * (- (c - y_center))) by ring.
      rewrite sqrt_square by lra. ring.
    - intros v H0 H1 Yc Hv.
      rewrite (nose_value _ 0 0 v Hv); [|lra|intros l Hl; exact (combined_nose l H0 H1 Hl)|rewrite Yc, (Rminus_eq_0 0); apply angle_left; lra].
      f_equal. rewrite Yc. replace ((0 - x_center) * (0 - x_center) + (0 - 0) * (0 - 0)) with (x_center * x_center) by ring. apply sqrt_square. lra.
  Qed.

  (** Past the trailing edge. *)
  Lemma combine_last (xs ys : list R) : length xs = length ys -> (0 < length xs)%nat -> In (last xs 0, last ys 0) (combine xs ys).
  Proof using.
    intros L P. rewrite !last_nth, <- L. rewrite <- combine_nth by exact L. apply nth_In. rewrite combine_length. lia.
  Qed.

  Lemma C140_trailing_sec xs ys x_hat u : last xs 0 = 1 -> scaling * (1 - x_center) <= x_hat ->
    psi_side S xs ys x_center y_center scaling x_hat = Some u -> u = scaling * (last ys 0 - y_center).
  Proof using HS Hs.
    intros HL Hx. unfold psi_side. cbv zeta.
    assert (Q : x_hat = x_hat / scaling * scaling) by (field; lra).
    assert (X : 1 - x_center <= x_hat / scaling) by nra.
    assert (G : forall z v, z = 1 -> cubic_spline S xs ys z = Some v -> v = last ys 0).
    { intros z v -> E. apply spline_some in E. destruct E as (I & L & L3 & _ & ->). apply HS; [exact I|]. rewrite <- HL. apply combine_last; [exact L|lia]. }
    destruct (Rlt_dec (1 - x_center) (x_hat / scaling)).
    - destruct (cubic_spline S xs ys 1) as [v|] eqn:E; [|discriminate]. intros H. injection H as <-. rewrite (G 1 v eq_refl E). reflexivity.
    - destruct (cubic_spline S xs ys (x_hat / scaling + x_center)) as [v|] eqn:E; [|discriminate]. intros H. injection H as <-.
      assert (Z : x_hat / scaling + x_center = 1) by lra. rewrite (G _ v Z E). reflexivity.
  Qed.
End Psi.

Lemma C140_seam_proof : forall S f x_center y_center scaling, interpolates S -> 0 < x_center < 1 -> 0 < scaling ->
  (forall u v, hd 1 (x_up f) = 0 -> psi_side S (x_up f) (y_up f) x_center y_center scaling 0 = Some u -> 0 < u ->
     psi_nose S f x_center y_center scaling (PI / 2) = Some v -> v = u) /\
  (forall u v, psi_side S (x_lo f) (y_lo f) x_center y_center scaling 0 = Some u -> u < 0 ->
     psi_nose S f x_center y_center scaling (3 * PI / 2) = Some v -> v = - u) /\
  (forall v, hd 1 (x_lo f) = 0 -> hd 1 (y_lo f) = 0 -> y_center = 0 ->
     psi_nose S f x_center y_center scaling PI = Some v -> v = scaling * x_center).
Proof. intros S f xc yc sc HS Hc Hs. exact (C140_seam_sec S HS f xc yc sc Hc Hs). Qed.

(** At the trailing edge, found at the length psi_front returns for the angle 0, and behind it. *)
Lemma C140_trailing_proof : forall S f x_center y_center scaling back_length, interpolates S -> 0 < scaling ->
  psi_nose S f x_center y_center scaling 0 = Some back_length -> last (x_up f) 0 = 1 -> last (x_lo f) 0 = 1 ->
  back_length = scaling * (1 - x_center) /\
  forall x_hat u l, back_length <= x_hat ->
    psi_side S (x_up f) (y_up f) x_center y_center scaling x_hat = Some u ->
    psi_side S (x_lo f) (y_lo f) x_center y_center scaling x_hat = Some l ->
    u = scaling * (last (y_up f) 0 - y_center) /\ u - l = scaling * (last (y_up f) 0 - last (y_lo f) 0).
Proof.
  intros S f xc yc sc bl HS Hs Hb Lu Ll.
  assert (B : bl = sc * (1 - xc)).
  { unfold psi_nose in Hb. destruct (combined S f xc); [|discriminate Hb]. cbv zeta in Hb. destruct (Req_EM_T 0 0); [|contradiction]. injection Hb as <-. reflexivity. }
  split; [exact B|]. intros x u l Hx Hu Hl. rewrite B in Hx.
  apply (C140_trailing_sec S HS xc yc sc Hs _ _ _ _ Lu Hx) in Hu. apply (C140_trailing_sec S HS xc yc sc Hs _ _ _ _ Ll Hx) in Hl.
  split; [exact Hu|]. rewrite Hu, Hl. ring.
Qed.

(** ** The points in front *)
Lemma before_spec x_center xs : forall ys p, In p (before x_center xs ys) -> In p (combine xs ys) /\ fst p < x_center.
Proof.
  induction xs as [|x xs IH]; intros [|y ys] p H; cbn in H; try contradiction. destruct (Rle_dec x_center x); [destruct H|].
  destruct H as [<-|H]; [split; [left; reflexivity|cbn; lra]|]. destruct (IH ys p H) as [I L]. split; [right; exact I|exact L].
Qed.
Lemma before_all x_center xs : forall ys p, increasing xs = true -> In p (combine xs ys) -> fst p < x_center -> In p (before x_center xs ys).
Proof.
  induction xs as [|x xs IH]; intros [|y ys] p Hi H L; cbn in H; try contradiction. cbn [before].
  assert (T : increasing xs = true /\ forall z, In z xs -> x < z).
  { clear - Hi. revert x Hi. induction xs as [|z xs IH]; intros x Hi; [split; [reflexivity|intros ? []]|].
    cbn in Hi. apply andb_true_iff in Hi. destruct Hi as [A B]. destruct (Rlt_dec x z) as [Q|]; [|discriminate]. split; [exact B|].
    destruct (IH z B) as [_ C]. intros w [<-|W]; [exact Q|]. specialize (C w W). lra. }
  destruct T as [T U]. destruct H as [<-|H].
  - cbn in L. destruct (Rle_dec x_center x); [lra|]. left. reflexivity.
  - destruct p as [px py]. pose proof (in_combine_l _ _ _ _ H) as I. specialize (U px I). cbn in L. destruct (Rle_dec x_center x); [lra|]. right. apply IH; auto.
Qed.
Lemma before_increasing x_center xs : forall ys more, increasing xs = true -> increasing more = true -> (forall z, In z more -> x_center <= z) ->
  increasing (map fst (before x_center xs ys) ++ more) = true.
Proof.
  induction xs as [|x xs IH]; intros [|y ys] more Hi Hm Hz; cbn [before map app]; try exact Hm.
  destruct (Rle_dec x_center x) as [Hx|Hx]; [exact Hm|]. cbn [map app fst].
  assert (Hi' : increasing xs = true) by (destruct xs as [|z xs]; [reflexivity|]; cbn in Hi; apply andb_true_iff in Hi; apply Hi).
  specialize (IH ys more Hi' Hm Hz). destruct (map fst (before x_center xs ys) ++ more) as [|z l] eqn:E; [reflexivity|].
  change (increasing (x :: z :: l)) with ((if Rlt_dec x z then true else false) && increasing (z :: l)). rewrite IH, andb_true_r.
  destruct (Rlt_dec x z) as [|N]; [reflexivity|]. exfalso. apply N.
  destruct xs as [|w xs]; [cbn in E|destruct ys as [|v ys]; cbn [before map app] in E].
  - destruct more; [discriminate|]. injection E as -> _. specialize (Hz z (or_introl eq_refl)). lra.
  - destruct more; [discriminate|]. injection E as -> _. specialize (Hz z (or_introl eq_refl)). lra.
  - cbn in Hi. apply andb_true_iff in Hi. destruct Hi as [A _]. destruct (Rlt_dec x w) as [Q|]; [|discriminate].
    destruct (Rle_dec x_center w); [destruct more; [discriminate|]; injection E as -> _; specialize (Hz z (or_introl eq_refl)); lra|].
    cbn in E. injection E as -> _. exact Q.
Qed.

Lemma one_side S xs ys x_center g : glue S xs ys x_center = Some g -> front_side S xs ys x_center (before x_center xs ys ++ g).
Proof.
  unfold glue. intros H. destruct (cubic_spline S xs ys x_center) as [u|] eqn:A; [|discriminate]. destruct (cubic_spline S xs ys (x_center + 0.01)) as [v|] eqn:B; [|discriminate].
  destruct (cubic_spline S xs ys (x_center + 0.02)) as [w|] eqn:C; [|discriminate]. injection H as <-.
  assert (I : increasing xs = true) by (apply spline_some in A; apply A). split.
  - rewrite map_app. cbn [map fst]. apply before_increasing; [exact I| |].
    + cbn [increasing]. destruct (Rlt_dec x_center (x_center + 0.01)); [|lra]. destruct (Rlt_dec (x_center + 0.01) (x_center + 0.02)); [reflexivity|lra].
    + intros z [<-|[<-|[<-|[]]]]; lra.
  - intros x y. rewrite in_app_iff. split.
    + intros [H|H]; [left; apply before_spec in H; exact H|right].
      destruct H as [H|[H|[H|[]]]]; injection H as <- <-; auto.
    + intros [[H L]|[[-> | [-> | ->]] E]].
      * left. apply before_all; auto.
      * right. left. congruence.
      * right. right. left. congruence.
      * right. right. right. left. congruence.
Qed.

Lemma C140_front_proof : forall S f x_center l, combined S f x_center = Some l ->
  exists up lo, l = rev (tl up) ++ lo /\ front_side S (x_up f) (y_up f) x_center up /\ front_side S (x_lo f) (y_lo f) x_center lo.
Proof.
  intros S f x_center l. unfold combined. destruct (glue S (x_up f) (y_up f) x_center) as [u|] eqn:U; [|discriminate].
  destruct (glue S (x_lo f) (y_lo f) x_center) as [v|] eqn:V; [|discriminate]. intros H. injection H as <-.
  exists (before x_center (x_up f) (y_up f) ++ u), (before x_center (x_lo f) (y_lo f) ++ v).
  split; [|split; apply one_side; assumption]. f_equal. destruct (before x_center (x_up f) (y_up f) ++ u) as [|p r]; [reflexivity|]. cbn [rev tl]. apply removelast_last.
Qed.

Lemma C140_angles_proof : forall l i,
  length (fix_last l) = length l /\
  cos (nth i (fix_last l) 0) = cos (nth i l 0) /\ sin (nth i (fix_last l) 0) = sin (nth i l 0) /\
  (l <> [] -> last (fix_last l) 0 <> 0) /\
  (nth i (fix_last l) 0 = nth i l 0 \/ (S i = length l)%nat /\ nth i l 0 = 0).
Proof.
  intros l i. pose proof PI_RGT_0 as P. unfold fix_last. destruct (rev l) as [|x r] eqn:E.
  - apply (f_equal (@rev _)) in E. rewrite rev_involutive in E. cbn in E. subst l. split; [reflexivity|]. split; [reflexivity|]. split; [reflexivity|]. split; [congruence|left; reflexivity].
  - apply (f_equal (@rev _)) in E. rewrite rev_involutive in E. cbn [rev] in E. subst l. destruct (Req_EM_T x 0) as [Z|Z].
    + subst x. cbn [rev]. rewrite !app_length, last_last. split; [reflexivity|].
      destruct (Nat.lt_trichotomy i (length (rev r))) as [L|[L|L]].
      * rewrite !(app_nth1 _ _ 0 L). split; [reflexivity|]. split; [reflexivity|]. split; [lra|left; reflexivity].
      * rewrite !app_nth2, L, Nat.sub_diag by lia. cbn [nth]. rewrite cos_2PI, sin_2PI, cos_0, sin_0. split; [reflexivity|]. split; [reflexivity|]. split; [lra|right; cbn; split; [lia|reflexivity]].
      * rewrite !nth_overflow by (rewrite app_length; cbn; lia). split; [reflexivity|]. split; [reflexivity|]. split; [lra|left; reflexivity].
    + split; [reflexivity|]. split; [reflexivity|]. split; [reflexivity|]. split; [rewrite last_last; auto|left; reflexivity].
Qed.

Lemma front_case : fix_last [PI / 2; PI; 0] = [PI / 2; PI; 2 * PI].
Proof. unfold fix_last. cbn [rev app]. destruct (Req_EM_T 0 0); [reflexivity|contradiction]. Qed.
