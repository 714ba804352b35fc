(** * Examples: airfoils *)
From Coq Require Import Reals List Bool Lra Lia Arith.
From Verif Require Import RVec Airfoil AirfoilSpec AirfoilProofs AirfoilFinal AirfoilNaca AirfoilPsi.
Import ListNotations.
Local Open Scope R_scope.

(** A round nose of radius 1/2, continued by straight lines. *)
Definition bullet (side : bool) : airfoil := make_airfoil (0, 0) (fun phi => 1 / 2) (fun _ => 1 / 2) (fun _ => - (1 / 2)) side 1.

Lemma bullet_case : 0 < ratio (bullet true) /\ (forall phi, PI / 2 <= phi <= 3 * PI / 2 -> 0 < psi_front (bullet true) phi) /\
  on_curve (bullet true) (1, 1 / 2) /\ on_curve (bullet true) (- (1 / 2), 0) /\
  average [((1, 1 / 2), 1 / 2); ((- (1 / 2), 0), 1 / 2)].
Proof.
  pose proof PI_RGT_0. split; [cbn; lra|]. split; [intros; cbn; lra|]. split; [|split].
  - left. cbn. split; lra.
  - right. exists PI. split; [lra|]. rewrite cos_PI, sin_PI. cbn. split; lra.
  - split; [|cbn; lra]. intros p w [E|[E|[]]]; injection E as _ <-; lra.
Qed.

Lemma seam_case : 0 < ratio (bullet true) /\ upper_side (bullet true) = true /\ continuity_pt (psi_upper (bullet true)) 0 /\
  continuity_pt (psi_front (bullet true)) (PI / 2) /\ psi_upper (bullet true) 0 = psi_front (bullet true) (PI / 2).
Proof. cbn. split; [lra|]. split; [reflexivity|]. split; [|split; [|reflexivity]]; apply continuity_pt_const; intros ? ?; reflexivity. Qed.

(** The default grading; a point at distance 1 from the airfoil. *)
Lemma grading_case : / 10000000000 < Rabs (-1) /\ 1 <= 5.5 /\ 0 < 0.02 /\ 0 < (-1 - 0) * (-1 / Rabs (-1)) + 0.02.
Proof. split; [rewrite Rabs_left; lra|]. split; [lra|]. split; [lra|]. rewrite Rabs_left by lra. replace (-1 / - -1) with (-1) by field. lra. Qed.

(** NACA 0012 with 101 samples. *)
Lemma naca_0012 : exists f, naca_points 0 0 1 2 101 = Some f.
Proof. unfold naca_points. cbv zeta. destruct (Rlt_dec 0 _) as [_|B]; [eexists; reflexivity|exfalso; apply B; cbn; lra]. Qed.

(** NACA 2412: cambered. *)
Lemma naca_2412 : exists f, naca_points 2 4 1 2 101 = Some f /\ (4 <= 9)%nat /\ (0 < 50 < 101 - 1)%nat.
Proof. unfold naca_points. cbv zeta. destruct (Rlt_dec 0 _) as [_|B]; [eexists; split; [reflexivity|lia]|exfalso; apply B; cbn; lra]. Qed.

(** ** A diamond, interpolated by straight lines *)

Fixpoint linear (xs ys : list R) (x : R) : R :=
  match xs, ys with
  | a :: ((b :: _) as xs'), c :: ((d :: _) as ys') => if Rle_dec x b then c + (d - c) * ((x - a) / (b - a)) else linear xs' ys' x
  | _, c :: _ => c
  | _, _ => 0
  end.

Lemma increasing_head a xs x : increasing (a :: xs) = true -> In x xs -> a < x.
Proof.
  revert a. induction xs as [|b xs IH]; intros a H Hx; [destruct Hx|]. cbn [increasing] in H. destruct (Rlt_dec a b) as [L|L]; [|discriminate H]. cbn [andb] in H.
  destruct Hx as [<-|Hx]; [exact L|]. specialize (IH b H Hx). lra.
Qed.

Lemma increasing_tail a xs : increasing (a :: xs) = true -> increasing xs = true.
Proof. destruct xs as [|b xs]; [reflexivity|]. cbn [increasing]. intros H. apply andb_prop in H. apply H. Qed.

Lemma linear_interpolates : interpolates linear.
Proof.
  intros xs. induction xs as [|a xs IH]; intros ys x y I H; [destruct H|]. destruct ys as [|c ys]; [destruct H|].
  destruct xs as [|b xs]; [cbn in H |- *; destruct H as [E|[]]; injection E as _ ->; reflexivity|].
  destruct ys as [|d ys].
  - cbn [combine] in H. destruct H as [E|H]; [|destruct H]. injection E as _ ->. reflexivity.
  - pose proof (increasing_head a (b :: xs) b I (or_introl eq_refl)) as AB. cbn [linear]. destruct H as [E|H].
    + injection E as -> ->. destruct (Rle_dec x b); [|exfalso; lra]. unfold Rdiv. rewrite Rminus_eq_0. ring.
    + pose proof (increasing_tail _ _ I) as I'. destruct (Rle_dec x b) as [L|L].
      * destruct H as [E|H]; [injection E as -> ->; field; lra|].
        exfalso. pose proof (increasing_head b xs x I' (in_combine_l _ _ _ _ H)). lra.
      * exact (IH (d :: ys) x y I' H).
Qed.

Definition diamond : profile := {| x_up := [0; 1 / 4; 1]; y_up := [0; 3 / 4; 0]; x_lo := [0; 1 / 4; 1]; y_lo := [0; - (3 / 4); 0] |}.

Ltac dec_le := match goal with |- context [Rle_dec ?a ?b] => let H := fresh in destruct (Rle_dec a b) as [H|H]; [|exfalso; apply H; cbn; lra]; clear H end.
Ltac dec_gt := match goal with |- context [Rle_dec ?a ?b] => let H := fresh in destruct (Rle_dec a b) as [H|H]; [exfalso; cbn in H; lra|]; clear H end.
Ltac dec_lt := match goal with |- context [Rlt_dec ?a ?b] => let H := fresh in destruct (Rlt_dec a b) as [H|H]; [|exfalso; apply H; cbn; lra]; clear H end.

Lemma diamond_spline (s : R) x : 1 / 4 <= x <= 1 -> cubic_spline linear [0; 1 / 4; 1] [0; s; 0] x = Some (s * (1 - (x - 1 / 4) / (3 / 4))).
Proof.
  intros H. unfold cubic_spline. cbn [increasing]. dec_lt. dec_lt. cbn [andb length Nat.leb Nat.eqb hd last]. dec_le. dec_le. f_equal. cbn [linear].
  destruct (Rle_dec x (1 / 4)); [assert (x = 1 / 4) as -> by lra; field|]. dec_le. field.
Qed.

Lemma diamond_combined : combined linear diamond (1 / 4) =
  Some [(1 / 4 + 0.02, 0.73); (1 / 4 + 0.01, 0.74); (1 / 4, 3 / 4); (0, 0); (1 / 4, - (3 / 4)); (1 / 4 + 0.01, - 0.74); (1 / 4 + 0.02, - 0.73)].
Proof.
  unfold combined, glue, diamond. cbn [x_up y_up x_lo y_lo]. rewrite !diamond_spline by lra.
  cbn [before]. dec_gt. dec_le. cbn [rev app removelast]. repeat (f_equal; try lra).
Qed.

Lemma angle_pos x y : 0 < x -> 0 < y -> angle x y = atan (y / x).
Proof.
  intros Hx Hy. unfold angle, atan2. destruct (Rlt_dec 0 x); [|contradiction]. cbv zeta.
  assert (0 < atan (y / x)) by (rewrite <- atan_0; apply atan_increasing; apply Rdiv_lt_0_compat; assumption). destruct (Rlt_dec _ 0); [lra|reflexivity].
Qed.

Lemma angle_neg x y : 0 < x -> y < 0 -> angle x y = 2 * PI - atan (- y / x).
Proof.
  intros Hx Hy. unfold angle, atan2. destruct (Rlt_dec 0 x); [|contradiction]. cbv zeta.
  assert (A : atan (y / x) = - atan (- y / x)) by (rewrite <- atan_opp; f_equal; field; lra).
  assert (0 < atan (- y / x)) by (rewrite <- atan_0; apply atan_increasing; apply Rdiv_lt_0_compat; lra). rewrite A. destruct (Rlt_dec _ 0); lra.
Qed.

Lemma diamond_case : interpolates linear /\ 0 < 1 / 4 < 1 /\ 0 < (2 : R) /\
  hd 1 (x_up diamond) = 0 /\ last (x_up diamond) 0 = 1 /\ last (x_lo diamond) 0 = 1 /\
  psi_side linear (x_up diamond) (y_up diamond) (1 / 4) 0 2 0 = Some (3 / 2) /\
  psi_side linear (x_lo diamond) (y_lo diamond) (1 / 4) 0 2 0 = Some (- (3 / 2)) /\
  (forall phi, PI / 2 <= phi <= 3 * PI / 2 -> exists v, psi_nose linear diamond (1 / 4) 0 2 phi = Some v) /\
  psi_nose linear diamond (1 / 4) 0 2 0 = Some (3 / 2).
Proof.
  split; [exact linear_interpolates|]. split; [lra|]. split; [lra|]. split; [reflexivity|]. split; [reflexivity|]. split; [reflexivity|].
  assert (Q : forall s, psi_side linear [0; 1 / 4; 1] [0; s; 0] (1 / 4) 0 2 0 = Some (2 * s)).
  { intros s. unfold psi_side. cbv zeta. replace (0 / 2) with 0 by field. destruct (Rlt_dec (1 - 1 / 4) 0); [lra|]. rewrite diamond_spline by lra. f_equal. field. }
  split; [unfold diamond; cbn [x_up y_up]; rewrite Q; f_equal; lra|]. split; [unfold diamond; cbn [x_lo y_lo]; rewrite Q; f_equal; lra|].
  unfold psi_nose. rewrite diamond_combined. cbv zeta. split.
  - intros phi Hp. pose proof PI_RGT_0 as Pi. destruct (Req_EM_T phi 0); [lra|].
    cbn [map fst snd]. unfold to_polar, polar_pull_back. cbn [fst snd].
    replace (1 / 4 + 0.02 - 1 / 4) with 0.02 by lra. replace (1 / 4 + 0.01 - 1 / 4) with 0.01 by lra. rewrite (Rminus_eq_0 (1 / 4)), (Rminus_eq_0 0).
    rewrite !Rminus_0_r. rewrite (angle_pos 0.02 0.73), (angle_pos 0.01 0.74), (angle_neg 0.02 (- 0.73)), (angle_neg 0.01 (- 0.74)) by lra.
    rewrite (angle_up (3 / 4)), (angle_down (- (3 / 4))), (angle_left (0 - 1 / 4)) by lra.
    assert (A : atan (0.73 / 0.02) < atan (0.74 / 0.01)) by (apply atan_increasing; lra).
    pose proof (atan_bound (0.74 / 0.01)) as B. pose proof (atan_bound (0.73 / 0.02)) as B'.
    replace (- - 0.74 / 0.01) with (0.74 / 0.01) by lra. replace (- - 0.73 / 0.02) with (0.73 / 0.02) by lra.
    unfold fix_last. cbn [rev app]. destruct (Req_EM_T (2 * PI - atan (0.73 / 0.02)) 0); [lra|].
    unfold cubic_spline. cbn [increasing]. do 6 dec_lt. cbn [andb length Nat.leb Nat.eqb hd last]. dec_le. dec_le. eexists. reflexivity.
  - destruct (Req_EM_T 0 0); [|contradiction]. f_equal. lra.
Qed.
