(** * Lemmas: sample points of the NACA 4 digit series *)
From Coq Require Import Reals List Bool Lra Lia Arith Sorting.Sorted.
From Verif Require Import RVec Airfoil AirfoilSpec AirfoilProofs AirfoilFinal.
Import ListNotations.
Local Open Scope R_scope.

Lemma fix_front_length l : length (fix_front l) = length l.
Proof. destruct l; reflexivity. Qed.

Lemma fix_front_nth l i : nth i (fix_front l) 0 = if (i =? 0)%nat then 0 else nth i l 0.
Proof. destruct l, i; reflexivity. Qed.

Lemma fix_back_length l : length (fix_back l) = length l.
Proof. unfold fix_back. rewrite rev_length, fix_front_length, rev_length. reflexivity. Qed.

Lemma fix_back_nth l i : (i < length l)%nat -> nth i (fix_back l) 0 = if (i =? length l - 1)%nat then 0 else nth i l 0.
Proof.
  intros H. unfold fix_back. rewrite rev_nth by (rewrite fix_front_length, rev_length; exact H).
  rewrite fix_front_length, rev_length, fix_front_nth. destruct (Nat.eqb_spec i (length l - 1)) as [E|E].
  - subst i. replace (length l - Datatypes.S (length l - 1))%nat with 0%nat by lia. reflexivity.
  - destruct (Nat.eqb_spec (length l - Datatypes.S i) 0) as [Z|Z]; [lia|].
    rewrite rev_nth by lia. f_equal. lia.
Qed.

Lemma last_nth (l : list R) d : last l d = nth (length l - 1) l d.
Proof.
  induction l as [|x l IH]; [reflexivity|]. destruct l as [|y l]; [reflexivity|].
  change (last (x :: y :: l) d) with (last (y :: l) d). rewrite IH. cbn [length]. rewrite !Nat.sub_succ, !Nat.sub_0_r. reflexivity.
Qed.

Lemma hd_nth (l : list R) d : hd d l = nth 0 l d.
Proof. destruct l; reflexivity. Qed.

Lemma sample_nth (F : R -> R) G n i d : (i < n)%nat -> nth i (map F (map G (seq 0 n))) d = F (G i).
Proof.
  intros H. rewrite map_map. rewrite nth_indep with (d' := F (G 0%nat)) by (rewrite map_length, seq_length; exact H).
  rewrite (map_nth (fun k => F (G k))). rewrite seq_nth by exact H. reflexivity.
Qed.

Section Naca.
  Variables (d0 d1 d2 d3 n : nat) (f : profile).
  Let t := 0.1 * INR d2 + 0.01 * INR d3.
  Let m := 0.01 * INR d0.
  Let p := 0.1 * INR d1.
  Let at_ (i : nat) := 1 * INR i / INR (n - 1).
  Hypothesis Hf : naca_points d0 d1 d2 d3 n = Some f.

  Lemma naca_inv : 0 < t /\ (2 <= n)%nat /\
    x_up f = map (fun x => x - naca_thickness t x * sin (atan (naca_slope m p x))) (map at_ (seq 0 n)) /\
    y_up f = fix_back (fix_front (map (fun x => naca_camber m p x + naca_thickness t x * cos (atan (naca_slope m p x))) (map at_ (seq 0 n)))) /\
    x_lo f = map (fun x => x + naca_thickness t x * sin (atan (naca_slope m p x))) (map at_ (seq 0 n)) /\
    y_lo f = fix_back (fix_front (map (fun x => naca_camber m p x - naca_thickness t x * cos (atan (naca_slope m p x))) (map at_ (seq 0 n)))).
  Proof using Hf.
    unfold naca_points in Hf. cbv zeta in Hf. fold t in Hf.
    destruct (Rlt_dec 0 t) as [T|T]; [|discriminate Hf]. destruct (Nat.leb_spec 2 n) as [N|N]; [|discriminate Hf].
    injection Hf as <-. cbn [x_up y_up x_lo y_lo]. auto 8.
  Qed.

  Lemma naca_len : length (x_up f) = n /\ length (y_up f) = n /\ length (x_lo f) = n /\ length (y_lo f) = n.
  Proof using Hf.
    destruct naca_inv as (_ & _ & -> & -> & -> & ->). rewrite !fix_back_length, !fix_front_length, !map_length, seq_length. auto.
  Qed.

  Lemma n1_pos : 0 < INR (n - 1).
  Proof using Hf. destruct naca_inv as (_ & N & _). apply lt_0_INR. lia. Qed.

  Lemma at_range i : (i < n)%nat -> 0 <= at_ i <= 1.
  Proof using Hf.
    intros H. pose proof n1_pos as P. unfold at_. assert (INR i <= INR (n - 1)) by (apply le_INR; lia). pose proof (pos_INR i).
    split; [apply Rmult_le_pos; [lra|left; apply Rinv_0_lt_compat; lra]|]. apply Rmult_le_reg_r with (INR (n - 1)); [lra|]. unfold Rdiv. rewrite Rmult_assoc, Rinv_l by lra. lra.
  Qed.

  Lemma at_inner i : (0 < i < n - 1)%nat -> 0 < at_ i < 1.
  Proof using Hf.
    intros H. pose proof n1_pos as P. unfold at_. assert (INR i < INR (n - 1)) by (apply lt_INR; lia). assert (0 < INR i) by (apply lt_0_INR; lia).
    split; [apply Rmult_lt_0_compat; [lra|apply Rinv_0_lt_compat; lra]|]. apply Rmult_lt_reg_r with (INR (n - 1)); [lra|]. unfold Rdiv. rewrite Rmult_assoc, Rinv_l by lra. lra.
  Qed.

  Lemma at_0 : at_ 0 = 0.
  Proof using. unfold at_. cbn [INR]. unfold Rdiv. ring. Qed.

  Lemma at_1 : at_ (n - 1) = 1.
  Proof using Hf. pose proof n1_pos as P. unfold at_. field. lra. Qed.

  Lemma up_x i : (i < n)%nat -> nth i (x_up f) 0 = at_ i - naca_thickness t (at_ i) * sin (atan (naca_slope m p (at_ i))).
  Proof using Hf. intros H. destruct naca_inv as (_ & _ & -> & _). rewrite sample_nth by exact H. reflexivity. Qed.
  Lemma lo_x i : (i < n)%nat -> nth i (x_lo f) 0 = at_ i + naca_thickness t (at_ i) * sin (atan (naca_slope m p (at_ i))).
  Proof using Hf. intros H. destruct naca_inv as (_ & _ & _ & _ & -> & _). rewrite sample_nth by exact H. reflexivity. Qed.

  Lemma fixed (F : R -> R) i : (i < n)%nat -> nth i (fix_back (fix_front (map F (map at_ (seq 0 n))))) 0 =
    if (i =? 0)%nat || (i =? n - 1)%nat then 0 else F (at_ i).
  Proof using.
    intros H. rewrite fix_back_nth by (rewrite fix_front_length, !map_length, seq_length; exact H).
    rewrite fix_front_length, !map_length, seq_length, fix_front_nth, sample_nth by exact H.
    destruct (i =? n - 1)%nat, (i =? 0)%nat; reflexivity.
  Qed.

  Lemma up_y i : (i < n)%nat -> nth i (y_up f) 0 = if (i =? 0)%nat || (i =? n - 1)%nat then 0
    else naca_camber m p (at_ i) + naca_thickness t (at_ i) * cos (atan (naca_slope m p (at_ i))).
  Proof using Hf. intros H. destruct naca_inv as (_ & _ & _ & -> & _). rewrite fixed by exact H. reflexivity. Qed.
  Lemma lo_y i : (i < n)%nat -> nth i (y_lo f) 0 = if (i =? 0)%nat || (i =? n - 1)%nat then 0
    else naca_camber m p (at_ i) - naca_thickness t (at_ i) * cos (atan (naca_slope m p (at_ i))).
  Proof using Hf. intros H. destruct naca_inv as (_ & _ & _ & _ & _ & ->). rewrite fixed by exact H. reflexivity. Qed.

  Lemma C140_ends_sec : length (x_up f) = n /\ length (y_up f) = n /\ length (x_lo f) = n /\ length (y_lo f) = n /\
    hd 1 (x_up f) = 0 /\ hd 1 (y_up f) = 0 /\ hd 1 (x_lo f) = 0 /\ hd 1 (y_lo f) = 0 /\
    last (x_up f) 0 = 1 /\ last (y_up f) 1 = 0 /\ last (x_lo f) 0 = 1 /\ last (y_lo f) 1 = 0.
  Proof using Hf.
    destruct naca_len as (L1 & L2 & L3 & L4). destruct naca_inv as (_ & N & _).
    rewrite !hd_nth, !last_nth, L1, L2, L3, L4.
    rewrite (nth_indep (x_up f) 1 0), (nth_indep (x_lo f) 1 0), (nth_indep (y_up f) 1 0), (nth_indep (y_lo f) 1 0) by lia.
    rewrite (nth_indep (y_up f) 1 0), (nth_indep (y_lo f) 1 0) by lia.
    rewrite !up_x, !lo_x, !up_y, !lo_y by lia. rewrite at_0, at_1, thickness_0, thickness_1, !Nat.eqb_refl, !Bool.orb_true_r. cbn [orb].
    repeat (split; [first [assumption | ring | reflexivity]|]). reflexivity.
  Qed.

  Lemma slope_deriv : (d1 <= 9)%nat -> forall x, 0 < x < 1 -> derivable_pt_lim (mean_line m p) x (naca_slope m p x).
  Proof using.
    intros Hd x Hx. assert (P : 0 <= p <= 0.9).
    { unfold p. assert (INR d1 <= INR 9) by (apply le_INR; exact Hd). pose proof (pos_INR d1). cbn in *. lra. }
    assert (Lo : p <> 0 -> forall y, derivable_pt_lim (fun x => m * (2 * p * x - x ^ 2) / p ^ 2) y (2 * m / (p * p) * (p - y))).
    { intros Z y. replace (2 * m / (p * p) * (p - y)) with (m / p ^ 2 * (2 * p * 1 - INR 2 * y ^ 1)) by (cbn; field; exact Z).
      replace (fun x => m * (2 * p * x - x ^ 2) / p ^ 2) with (mult_real_fct (m / p ^ 2) (minus_fct (mult_real_fct (2 * p) id) (fun x => x ^ 2))).
      - apply derivable_pt_lim_scal, derivable_pt_lim_minus; [apply derivable_pt_lim_scal, derivable_pt_lim_id|apply derivable_pt_lim_pow].
      - apply FunctionalExtensionality.functional_extensionality. intros z. unfold mult_real_fct, minus_fct, id. field. exact Z. }
    assert (Hi : forall y, derivable_pt_lim (fun x => m * ((1 - 2 * p) + 2 * p * x - x ^ 2) / (1 - p) ^ 2) y (2 * m / ((1 - p) * (1 - p)) * (p - y))).
    { intros y. replace (2 * m / ((1 - p) * (1 - p)) * (p - y)) with (m / (1 - p) ^ 2 * (0 + 2 * p * 1 - INR 2 * y ^ 1)) by (cbn; field; lra).
      replace (fun x => m * ((1 - 2 * p) + 2 * p * x - x ^ 2) / (1 - p) ^ 2)
        with (mult_real_fct (m / (1 - p) ^ 2) (minus_fct (plus_fct (fct_cte (1 - 2 * p)) (mult_real_fct (2 * p) id)) (fun x => x ^ 2))).
      - apply derivable_pt_lim_scal, derivable_pt_lim_minus; [apply derivable_pt_lim_plus; [apply derivable_pt_lim_const|apply derivable_pt_lim_scal, derivable_pt_lim_id]|apply derivable_pt_lim_pow].
      - apply FunctionalExtensionality.functional_extensionality. intros z. unfold mult_real_fct, minus_fct, plus_fct, fct_cte, id. field. lra. }
    unfold naca_slope. destruct (Rlt_dec x p) as [L|L].
    - intros e He. destruct (Lo ltac:(lra) x e He) as (d & D). assert (Q : 0 < Rmin d (p - x)) by (apply Rmin_glb_lt; [apply cond_pos|lra]).
      exists (mkposreal _ Q). intros h Hh Hs. cbn in Hs. pose proof (Rmin_l d (p - x)). pose proof (Rmin_r d (p - x)).
      specialize (D h Hh ltac:(lra)). unfold mean_line. destruct (Rlt_dec x p); [|contradiction].
      destruct (Rlt_dec (x + h) p) as [_|B]; [exact D|]. exfalso. apply B. pose proof (Rle_abs h). lra.
    - destruct (Rlt_dec p x) as [G|G].
      + intros e He. destruct (Hi x e He) as (d & D). assert (Q : 0 < Rmin d (x - p)) by (apply Rmin_glb_lt; [apply cond_pos|lra]).
        exists (mkposreal _ Q). intros h Hh Hs. cbn in Hs. pose proof (Rmin_l d (x - p)). pose proof (Rmin_r d (x - p)).
        specialize (D h Hh ltac:(lra)). unfold mean_line. destruct (Rlt_dec x p); [contradiction|].
        destruct (Rlt_dec (x + h) p) as [B|_]; [|exact D]. exfalso. pose proof (Rle_abs (- h)) as W. rewrite Rabs_Ropp in W. lra.
      + assert (x = p) as E by lra. clear L G. rewrite E. assert (Z : p <> 0) by lra.
        intros e He. destruct (Lo Z p e He) as (d & D). destruct (Hi p e He) as (d' & D').
        assert (Q : 0 < Rmin d d') by (apply Rmin_glb_lt; apply cond_pos). exists (mkposreal _ Q). intros h Hh Hs. cbn in Hs.
        pose proof (Rmin_l d d'). pose proof (Rmin_r d d'). specialize (D h Hh ltac:(lra)). specialize (D' h Hh ltac:(lra)).
        unfold mean_line. destruct (Rlt_dec p p); [lra|]. destruct (Rlt_dec (p + h) p) as [B|B]; [|exact D'].
        replace (m * (1 - 2 * p + 2 * p * p - p ^ 2) / (1 - p) ^ 2) with (m * (2 * p * p - p ^ 2) / p ^ 2) by (field; lra).
        replace (2 * m / ((1 - p) * (1 - p)) * (p - p)) with (2 * m / (p * p) * (p - p)) by (field; lra). exact D.
  Qed.

  Lemma C140_shape_sec : (d1 <= 9)%nat -> forall i, (0 < i < n - 1)%nat ->
    let x := INR i / INR (n - 1) in
    let xu := nth i (x_up f) 0 in let yu := nth i (y_up f) 0 in
    let xl := nth i (x_lo f) 0 in let yl := nth i (y_lo f) 0 in
    (xu + xl) / 2 = x /\ (yu + yl) / 2 = mean_line m p x /\ yl < yu /\
    (xu - xl) ^ 2 + (yu - yl) ^ 2 = (2 * half_thickness t x) ^ 2 /\
    exists slope, derivable_pt_lim (mean_line m p) x slope /\ (xu - xl) + slope * (yu - yl) = 0.
  Proof using Hf.
    intros Hd i Hi x xu yu xl yl. assert (X : at_ i = x) by (unfold at_, x; field; pose proof n1_pos; lra).
    pose proof (at_inner i Hi) as R01. rewrite X in R01.
    unfold xu, yu, xl, yl. rewrite up_x, lo_x, up_y, lo_y by lia.
    destruct (Nat.eqb_spec i 0); [lia|]. destruct (Nat.eqb_spec i (n - 1)); [lia|]. cbn [orb]. rewrite X.
    set (y := naca_thickness t x). set (s := naca_slope m p x).
    assert (T : 0 < t) by apply naca_inv. assert (Y : 0 < y) by (apply thickness_pos; assumption).
    assert (C : 0 < cos (atan s)) by (pose proof (atan_bound s); apply cos_gt_0; lra).
    assert (P : 0 <= p <= 0.9).
    { unfold p. assert (INR d1 <= INR 9) by (apply le_INR; exact Hd). pose proof (pos_INR d1). cbn in *. lra. }
    split; [field|]. split; [|split; [nra|split]].
    - transitivity (naca_camber m p x); [field|]. unfold naca_camber, mean_line. destruct (Rlt_dec x p); field; lra.
    - replace (half_thickness t x) with y. 2:{ unfold y, naca_thickness, half_thickness. lra. }
      pose proof (sin2_cos2 (atan s)) as Q. unfold Rsqr in Q.
      transitivity (4 * (y * y) * (sin (atan s) * sin (atan s) + cos (atan s) * cos (atan s))); [ring|rewrite Q; ring].
    - exists s. split; [apply slope_deriv; assumption|].
      assert (W : sin (atan s) = s * cos (atan s)).
      { assert (K : sqrt (1 + s²) <> 0) by (apply Rgt_not_eq, sqrt_lt_R0; pose proof (Rle_0_sqr s); lra). rewrite sin_atan, cos_atan. field. exact K. }
      rewrite W. ring.
  Qed.

  Lemma C140_symmetric_sec : d0 = 0%nat -> x_up f = x_lo f /\ increasing (x_up f) = true /\ forall i, nth i (y_lo f) 0 = - nth i (y_up f) 0.
  Proof using Hf.
    intros Z. assert (M : m = 0) by (unfold m; rewrite Z; cbn; ring).
    assert (Sl : forall x, naca_slope m p x = 0) by (intros x; unfold naca_slope; rewrite M; destruct (Rlt_dec x p); unfold Rdiv; ring).
    assert (Ca : forall x, naca_camber m p x = 0) by (intros x; unfold naca_camber; rewrite M; destruct (Rlt_dec x p); unfold Rdiv; ring).
    pose proof naca_inv as (_ & N & Xu & _ & Xl & _).
    assert (Xu' : x_up f = map at_ (seq 0 n)).
    { rewrite Xu, map_map. apply map_ext. intros i. rewrite Sl, atan_0, sin_0. ring. }
    assert (Xl' : x_lo f = map at_ (seq 0 n)).
    { rewrite Xl, map_map. apply map_ext. intros i. rewrite Sl, atan_0, sin_0. ring. }
    split; [congruence|]. split.
    - rewrite Xu'. pose proof n1_pos as P.
      assert (G : forall r k, increasing (map at_ (seq k r)) = true).
      { induction r as [|r IH]; intros k; [reflexivity|]. cbn [seq map]. destruct r as [|r]; [reflexivity|].
        specialize (IH (Datatypes.S k)). cbn [seq map] in IH |- *. cbn [increasing]. destruct (Rlt_dec (at_ k) (at_ (Datatypes.S k))) as [_|B]; [exact IH|].
        exfalso. apply B. unfold at_. rewrite S_INR. apply Rmult_lt_compat_r; [apply Rinv_0_lt_compat; exact P|lra]. }
      apply G.
    - intros i. destruct naca_len as (_ & L2 & _ & L4). destruct (Nat.lt_ge_cases i n) as [H|H].
      + rewrite up_y, lo_y by exact H. rewrite Ca. destruct ((i =? 0)%nat || (i =? n - 1)%nat); ring.
      + rewrite !nth_overflow by lia. ring.
  Qed.
End Naca.

Lemma C140_ends_proof : forall d0 d1 d2 d3 n f, naca_points d0 d1 d2 d3 n = Some f ->
  length (x_up f) = n /\ length (y_up f) = n /\ length (x_lo f) = n /\ length (y_lo f) = n /\
  hd 1 (x_up f) = 0 /\ hd 1 (y_up f) = 0 /\ hd 1 (x_lo f) = 0 /\ hd 1 (y_lo f) = 0 /\
  last (x_up f) 0 = 1 /\ last (y_up f) 1 = 0 /\ last (x_lo f) 0 = 1 /\ last (y_lo f) 1 = 0.
Proof. exact C140_ends_sec. Qed.

Lemma C140_shape_proof : forall d0 d1 d2 d3 n f i, naca_points d0 d1 d2 d3 n = Some f -> (d1 <= 9)%nat -> (0 < i < n - 1)%nat ->
  let t := INR (10 * d2 + d3) / 100 in
  let m := INR d0 / 100 in let p := INR d1 / 10 in let x := INR i / INR (n - 1) in
  let xu := nth i (x_up f) 0 in let yu := nth i (y_up f) 0 in
  let xl := nth i (x_lo f) 0 in let yl := nth i (y_lo f) 0 in
  (xu + xl) / 2 = x /\ (yu + yl) / 2 = mean_line m p x /\ yl < yu /\
  (xu - xl) ^ 2 + (yu - yl) ^ 2 = (2 * half_thickness t x) ^ 2 /\
  exists slope, derivable_pt_lim (mean_line m p) x slope /\ (xu - xl) + slope * (yu - yl) = 0.
Proof.
  intros d0 d1 d2 d3 n f i Hf Hd Hi t m p.
  replace t with (0.1 * INR d2 + 0.01 * INR d3).
  2:{ unfold t. rewrite plus_INR, mult_INR. replace (INR 10) with 10 by (cbn; lra). lra. }
  replace m with (0.01 * INR d0) by (unfold m; lra). replace p with (0.1 * INR d1) by (unfold p; lra).
  exact (C140_shape_sec d0 d1 d2 d3 n f Hf Hd i Hi).
Qed.

Lemma C140_symmetric_proof : forall d1 d2 d3 n f, naca_points 0 d1 d2 d3 n = Some f ->
  x_up f = x_lo f /\ increasing (x_up f) = true /\ forall i, nth i (y_lo f) 0 = - nth i (y_up f) 0.
Proof. intros d1 d2 d3 n f H. exact (C140_symmetric_sec 0 d1 d2 d3 n f H eq_refl). Qed.

(** The assertion on the trailing edge in debug builds. *)
Lemma C140_debug_refuted_proof : forall d0 d1 d2 d3 n f x_center, naca_points d0 d1 d2 d3 n = Some f -> ~ psi_assertions f x_center.
Proof.
  intros d0 d1 d2 d3 n f xc Hf (_ & _ & _ & _ & _ & _ & _ & _ & _ & _ & _ & _ & L & _).
  destruct (C140_ends_proof _ _ _ _ _ _ Hf) as (_ & L2 & _ & L4 & _ & _ & _ & _ & _ & Y2 & _ & Y4).
  destruct (naca_inv _ _ _ _ _ _ Hf) as (_ & N & _).
  rewrite last_nth in L, Y2, Y4. rewrite last_nth in L. rewrite L4 in Y4, L. rewrite L2 in Y2, L.
  rewrite (nth_indep _ 0 1) in L by lia. rewrite (nth_indep (y_up f) 0 1) in L by lia. lra.
Qed.

(** The second point of a cambered airfoil lies in front of the first if there are enough samples. *)
Lemma C140_cambered_refuted_proof : forall d0 d1 d2 d3, (0 < d0)%nat -> (0 < d1 <= 9)%nat -> (0 < d2 + d3)%nat ->
  exists N, forall n, (N <= n)%nat -> exists f, naca_points d0 d1 d2 d3 n = Some f /\ nth 1 (x_up f) 0 < 0 /\ increasing (x_up f) = false.
Proof.
  intros d0 d1 d2 d3 H0 H1 H23.
  set (t := 0.1 * INR d2 + 0.01 * INR d3). set (m := 0.01 * INR d0). set (p := 0.1 * INR d1).
  assert (T : 0 < t).
  { unfold t. pose proof (pos_INR d2). pose proof (pos_INR d3). assert (0 < INR (d2 + d3)) by (apply lt_0_INR; lia). rewrite plus_INR in *. lra. }
  assert (M : 0 < m) by (unfold m; assert (0 < INR d0) by (apply lt_0_INR; lia); lra).
  assert (P : 0.1 <= p <= 0.9).
  { unfold p. assert (INR 1 <= INR d1 <= INR 9) by (split; apply le_INR; lia). cbn in *. lra. }
  (* slope at least m / p on [0, p/2] *)
  set (s0 := sin (atan (m / p))).
  assert (S0 : 0 < s0).
  { assert (0 < m / p) by (apply Rdiv_lt_0_compat; lra). apply sin_gt_0; [rewrite <- atan_0; apply atan_increasing; assumption|].
    pose proof (atan_bound (m / p)). pose proof PI_RGT_0. lra. }
  (* the thickness is at least 5 t sqrt x / 10 for x <= 1/10 *)
  set (c := Rmin (p / 2) ((t * s0 / 4) * (t * s0 / 4))).
  assert (C : 0 < c) by (apply Rmin_glb_lt; [lra|apply Rmult_lt_0_compat; apply Rdiv_lt_0_compat; nra]).
  destruct (archimed_cor1 c C) as (K & HK & HK0).
  exists (Nat.max 21 (K + 2))%nat. intros n Hn.
  assert (Hs : exists f, naca_points d0 d1 d2 d3 n = Some f).
  { unfold naca_points. cbv zeta. fold t. destruct (Rlt_dec 0 t); [|contradiction]. destruct (Nat.leb_spec 2 n); [|lia]. eexists. reflexivity. }
  destruct Hs as [f Hf]. exists f. split; [exact Hf|].
  assert (X1 : nth 1 (x_up f) 0 < 0).
  { rewrite (up_x _ _ _ _ _ _ Hf) by lia. fold t m p. set (x := 1 * INR 1 / INR (n - 1)).
    assert (N0 : 0 < INR (n - 1)) by (apply lt_0_INR; lia).
    assert (X0 : 0 < x) by (unfold x; cbn [INR]; apply Rdiv_lt_0_compat; lra).
    assert (Xc : x < c).
    { apply Rle_lt_trans with (/ INR K); [|exact HK]. unfold x. cbn [INR]. unfold Rdiv. rewrite !Rmult_1_l.
      apply Rinv_le_contravar; [apply lt_0_INR; lia|apply le_INR; lia]. }
    assert (X2 : x <= / 20).
    { unfold x. cbn [INR]. unfold Rdiv. rewrite !Rmult_1_l. apply Rinv_le_contravar; [lra|]. replace 20 with (INR 20) by (cbn; lra). apply le_INR. lia. }
    assert (Xp : x < p / 2) by (eapply Rlt_le_trans; [exact Xc|apply Rmin_l]).
    assert (Xq : x < (t * s0 / 4) * (t * s0 / 4)) by (eapply Rlt_le_trans; [exact Xc|apply Rmin_r]).
    set (r := sqrt x). assert (R0 : 0 < r) by (apply sqrt_lt_R0; exact X0). assert (E : x = r * r) by (symmetry; apply sqrt_sqrt; lra).
    assert (Rs : r < t * s0 / 4).
    { assert (0 < t * s0 / 4) by (apply Rdiv_lt_0_compat; nra). apply Rsqr_incrst_0; [unfold Rsqr; lra|lra|lra]. }
    assert (Sl : s0 <= sin (atan (naca_slope m p x))).
    { unfold naca_slope. destruct (Rlt_dec x p) as [_|B]; [|exfalso; lra].
      assert (L : m / p <= 2 * m / (p * p) * (p - x)).
      { replace (2 * m / (p * p) * (p - x)) with (m / p * ((2 * (p - x)) / p)) by (field; lra).
        assert (0 < m / p) by (apply Rdiv_lt_0_compat; lra). assert (1 <= 2 * (p - x) / p).
        { apply Rmult_le_reg_r with p; [lra|]. unfold Rdiv. rewrite Rmult_assoc, Rinv_l by lra. lra. } nra. }
      unfold s0. destruct (Req_dec (m / p) (2 * m / (p * p) * (p - x))) as [<-|Ne]; [lra|].
      left. pose proof (atan_bound (m / p)). pose proof (atan_bound (2 * m / (p * p) * (p - x))). apply sin_increasing_1; try lra. apply atan_increasing. lra. }
    assert (Y : t * r / 4 <= naca_thickness t x).
    { unfold naca_thickness. fold r.
      assert (B : 0.05 * r <= 0.2969 * r + x * (-0.126 + x * (-0.3516 + x * (0.2843 + x * -0.1036)))).
      { assert (R4 : r <= 0.25) by nra.
        assert (x * (-0.126 + x * (-0.3516 + x * (0.2843 + x * -0.1036))) >= - (0.2 * x)) by nra.
        assert (0.2 * x <= 0.05 * r) by nra. lra. }
      nra. }
    assert (Y0 : 0 < t * r / 4) by (apply Rdiv_lt_0_compat; nra).
    assert (Z1 : t * r / 4 * s0 <= naca_thickness t x * sin (atan (naca_slope m p x))) by (apply Rmult_le_compat; lra).
    assert (Z2 : r * r < r * (t * s0 / 4)) by (apply Rmult_lt_compat_l; assumption).
    replace (t * r / 4 * s0) with (r * (t * s0 / 4)) in Z1 by field. lra. }
  split; [exact X1|].
  destruct (C140_ends_proof _ _ _ _ _ _ Hf) as (L1 & _ & _ & _ & Z & _).
  destruct (x_up f) as [|a [|b l]]; cbn in L1; [lia|lia|]. cbn in Z, X1. cbn [increasing]. destruct (Rlt_dec a b); [exfalso; lra|reflexivity].
Qed.
