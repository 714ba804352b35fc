(** * The shallow water Riemann solver: final lemmas and examples *)
From Coq Require Import Reals Lra Lia Arith Psatz.
From Verif Require Import RVec Simd SimdProofs Newton SWSystem EulerSystem PhysSpec PhysLib SWPhysProofs SWRiemann SWRiemannSpec SWRiemannProofs.
Local Open Scope R_scope.

Lemma wr_data_eq s eps dim U n :
  wr_data s eps dim U n =
  data (gravity s) (Rmax (water_depth U) (cutoff_small s eps))
       (dot dim (w_momentum U) n / Rmax (water_depth U) (cutoff_small s eps)).
Proof.
  unfold wr_data, data, water_depth_sharp. fold (cutoff_small s eps). f_equal.
  - unfold dot, Rdiv. rewrite (Rmult_comm (rsum _ _)), <- rsum_scal. apply rsum_ext. intros; ring.
  - f_equal. ring.
Qed.

Lemma C39_regularised_depth_proof s eps dim U_i U_j n :
  0 < gravity s -> 0 < cutoff_small s eps ->
  let h U := Rmax (water_depth U) (cutoff_small s eps) in
  let u U := dot dim (w_momentum U) n / h U in
  (exists sl sr, extreme_speeds (gravity s) (h U_i) (u U_i) (h U_j) (u U_j) sl sr) /\
  forall sl sr xi, extreme_speeds (gravity s) (h U_i) (u U_i) (h U_j) (u U_j) sl sr ->
    sl <= xi <= sr -> Rabs xi <= sw_wavespeed s eps dim U_i U_j n.
Proof.
  intros Hg Hc h u.
  assert (P : forall U, 0 < h U) by (intros U; eapply Rlt_le_trans; [exact Hc|apply Rmax_r]).
  split; [apply exact_exists; auto|].
  intros sl sr xi E X. unfold sw_wavespeed. rewrite !wr_data_eq. eapply compute_bound; eauto.
Qed.

Lemma C39_wave_speed_proof s eps dim U_i U_j n :
  0 < gravity s ->
  0 < water_depth U_i -> cutoff_small s eps <= water_depth U_i ->
  0 < water_depth U_j -> cutoff_small s eps <= water_depth U_j ->
  let u U := w_normal_velocity dim n U in
  (exists sl sr, extreme_speeds (gravity s) (water_depth U_i) (u U_i) (water_depth U_j) (u U_j) sl sr) /\
  forall sl sr xi, extreme_speeds (gravity s) (water_depth U_i) (u U_i) (water_depth U_j) (u U_j) sl sr ->
    sl <= xi <= sr -> Rabs xi <= sw_wavespeed s eps dim U_i U_j n.
Proof.
  intros Hg Pi Ci Pj Cj u.
  split; [apply exact_exists; auto|].
  intros sl sr xi E X. unfold sw_wavespeed. rewrite !wr_data_eq.
  rewrite (Rmax_left _ _ Ci), (Rmax_left _ _ Cj). eapply compute_bound; eauto.
Qed.

(** ** Symmetry *)

Definition mirror (d : wdata) : wdata := {| wd_h := wd_h d; wd_u := - wd_u d; wd_a := wd_a d |}.

Lemma np_pp x : negative_part (- x) = positive_part x.
Proof. unfold negative_part, positive_part. rewrite Rabs_Ropp. lra. Qed.

Lemma pp_np x : positive_part (- x) = negative_part x.
Proof. unfold negative_part, positive_part. rewrite Rabs_Ropp. lra. Qed.

Lemma f_mirror g d x : wr_f g (mirror d) x = wr_f g d x.
Proof. reflexivity. Qed.

Lemma phi_mirror g di dj x : wr_phi g (mirror dj) (mirror di) x = wr_phi g di dj x.
Proof. unfold wr_phi. rewrite !f_mirror. simpl. ring. Qed.

Lemma h_star_mirror g di dj : wr_compute_h_star g (mirror dj) (mirror di) = wr_compute_h_star g di dj.
Proof.
  unfold wr_compute_h_star. rewrite !phi_mirror. simpl.
  rewrite (Rmin_comm (wd_h dj)), (Rmax_comm (wd_h dj)).
  replace (- wd_u dj - - wd_u di) with (wd_u di - wd_u dj) by ring. reflexivity.
Qed.

Lemma compute_mirror g di dj : wr_compute g (mirror dj) (mirror di) = wr_compute g di dj.
Proof.
  unfold wr_compute. rewrite h_star_mirror. set (x := wr_compute_h_star g di dj).
  unfold wr_compute_lambda.
  replace (wr_lambda1_minus (mirror dj) x) with (- wr_lambda3_plus dj x) by (unfold wr_lambda1_minus, wr_lambda3_plus; simpl; ring).
  replace (wr_lambda3_plus (mirror di) x) with (- wr_lambda1_minus di x) by (unfold wr_lambda1_minus, wr_lambda3_plus; simpl; ring).
  rewrite np_pp, pp_np. apply Rmax_comm.
Qed.

Lemma wr_data_mirror s eps dim U n : wr_data s eps dim U (fun k => - n k) = mirror (wr_data s eps dim U n).
Proof.
  unfold wr_data, mirror; simpl. f_equal. unfold dot.
  replace (- rsum dim (fun k => n k * (w_momentum U k / water_depth_sharp s eps U)))
    with (-1 * rsum dim (fun k => n k * (w_momentum U k / water_depth_sharp s eps U))) by ring.
  rewrite <- rsum_scal. apply rsum_ext. intros; ring.
Qed.

Lemma sw_wavespeed_symmetric s eps dim U_i U_j n :
  sw_wavespeed s eps dim U_j U_i (fun k => - n k) = sw_wavespeed s eps dim U_i U_j n.
Proof. unfold sw_wavespeed. rewrite !wr_data_mirror. apply compute_mirror. Qed.

Lemma sw_wavespeed_nonneg s eps dim U_i U_j n : 0 <= sw_wavespeed s eps dim U_i U_j n.
Proof. apply compute_nonneg. Qed.

(** ** A dry neighbour *)

Definition ex_dry_system : shallow :=
  {| gravity := 1; manning_friction_coefficient := 0; reference_water_depth := 1;
     dry_state_relaxation_factor := 1; dry_state_relaxation_small := 1; dry_state_relaxation_large := 1 |}.
Definition ex_water : vec := mkwater 1 1 (fun _ => 0).
Definition ex_dry : vec := mkwater 1 0 (fun _ => 0).

Lemma dry_data : wr_data ex_dry_system (1 / 100) 1 ex_water (fun _ => 1) = {| wd_h := 1; wd_u := 0; wd_a := 1 |} /\
  wr_data ex_dry_system (1 / 100) 1 ex_dry (fun _ => 1) = {| wd_h := 1 / 100; wd_u := 0; wd_a := 1 / 10 |}.
Proof.
  assert (D : forall h, dot 1 (fun _ => 1) (fun k => w_momentum (mkwater 1 h (fun _ => 0)) k / Rmax h (1/100)) = 0).
  { intros h. unfold dot, rsum, w_momentum, mkwater; simpl. unfold Rdiv. rewrite Rmult_0_l. ring. }
  split; unfold wr_data, water_depth_sharp, ex_water, ex_dry, water_depth; cbn [gravity reference_water_depth dry_state_relaxation_small ex_dry_system];
    change (mkwater 1 1 (fun _ => 0) 0%nat) with 1; change (mkwater 1 0 (fun _ => 0) 0%nat) with 0;
    replace (1 * 1 * (1 / 100)) with (1 / 100) by lra; rewrite D.
  - rewrite (Rmax_left 1 (1 / 100)) by lra. rewrite Rmult_1_l, sqrt_1. reflexivity.
  - rewrite (Rmax_right 0 (1 / 100)) by lra. f_equal. symmetry. apply sqrt_uniq; lra.
Qed.

Lemma dry_front :
  sw_wavespeed ex_dry_system (1 / 100) 1 ex_water ex_dry (fun _ => 1) <
  w_normal_velocity 1 (fun _ => 1) ex_water + 2 * w_speed_of_sound ex_dry_system ex_water.
Proof.
  replace (w_normal_velocity 1 (fun _ => 1) ex_water + 2 * w_speed_of_sound ex_dry_system ex_water) with 2.
  2:{ unfold w_normal_velocity, w_speed_of_sound, ex_water, dot, rsum, w_momentum, water_depth, mkwater; simpl.
      rewrite Rmult_1_l, sqrt_1. field. }
  unfold sw_wavespeed. destruct dry_data as [-> ->]. unfold wr_compute. change (gravity ex_dry_system) with 1.
  set (di := {| wd_h := 1; wd_u := 0; wd_a := 1 |}). set (dj := {| wd_h := 1 / 100; wd_u := 0; wd_a := 1 / 10 |}).
  assert (S2 : 14 / 10 < sqrt 2 < 15 / 10).
  { pose proof (sqrt_sqrt 2 ltac:(lra)). pose proof (sqrt_pos 2). split; nra. }
  assert (H : 0 <= wr_compute_h_star 1 di dj <= 2 / 10).
  { unfold wr_compute_h_star. cbn [wd_h wd_u wd_a di dj].
    rewrite (Rmin_right 1 (1 / 100)), (Rmax_left 1 (1 / 100)) by lra.
    unfold mask_lt. destruct (Rlt_dec _ _) as [N|_].
    - exfalso. revert N. unfold wr_phi, wr_f, mask_le. cbn [wd_h wd_u wd_a di dj].
      set (x := (9 - 4 * sqrt 2) * 1). assert (3 <= x) by (unfold x; lra).
      destruct (Rle_dec x 1); [lra|]. destruct (Rle_dec x (1 / 100)); [lra|].
      pose proof (sqrt_pos (1 / 2 * 1 * (x + 1) / (x * 1))).
      pose proof (sqrt_pos (1 / 2 * 1 * (x + 1 / 100) / (x * (1 / 100)))).
      assert (0 <= (x - 1) * sqrt (1 / 2 * 1 * (x + 1) / (x * 1))) by (apply Rmult_le_pos; lra).
      assert (0 <= (x - 1 / 100) * sqrt (1 / 2 * 1 * (x + 1 / 100) / (x * (1 / 100)))) by (apply Rmult_le_pos; lra).
      lra.
    - replace (sqrt (1 / 100)) with (1 / 10) by (apply sqrt_uniq; lra).
      replace (sqrt (1 / 100 * 1)) with (1 / 10) by (apply sqrt_uniq; lra).
      replace (0 - 0) with 0 by lra. rewrite Rmult_0_r, Rplus_0_r.
      rewrite pp_pos by lra.
      set (q := sqrt (3 * (1 / 100) + 2 * sqrt 2 * (1 / 10))).
      assert (Q : q * q = 3 * (1 / 100) + 2 * sqrt 2 * (1 / 10)) by (apply sqrt_sqrt; lra).
      assert (0 <= q) by apply sqrt_pos.
      assert (55 / 100 <= q <= 58 / 100) by (split; nra).
      split; nra. }
  set (x := wr_compute_h_star 1 di dj) in *.
  unfold wr_compute_lambda. apply Rmax_lub_lt.
  - unfold wr_lambda1_minus. cbn [wd_h wd_u wd_a di]. rewrite (pp_neg ((x - 1) / 1)) by (clearbody x; clear -H; lra).
    replace ((1 + 1 / 2 * 0) * (1 + 0)) with 1 by lra. rewrite sqrt_1.
    unfold negative_part. rewrite Rabs_left; lra.
  - unfold wr_lambda3_plus. cbn [wd_h wd_u wd_a dj].
    assert (F : 0 <= positive_part ((x - 1 / 100) / (1 / 100)) <= 19).
    { split; [apply pp_nonneg|]. replace 19 with (positive_part 19) by (apply pp_pos; lra). apply pp_mono. lra. }
    set (f := positive_part ((x - 1 / 100) / (1 / 100))) in *.
    assert (S : sqrt ((1 + 1 / 2 * f) * (1 + f)) <= 15).
    { rewrite <- (sqrt_square 15) by lra. apply sqrt_le_1_alt. nra. }
    pose proof (sqrt_pos ((1 + 1 / 2 * f) * (1 + f))).
    rewrite pp_pos by lra. lra.
Qed.

Lemma C39_dry_front_refuted_proof : exists s eps dim U_i U_j n,
  0 < gravity s /\ 0 < cutoff_small s eps /\
  cutoff_small s eps <= water_depth U_i /\
  dot dim n n = 1 /\
  water_depth U_j = 0 /\ (forall k, w_momentum U_j k = 0) /\
  sw_wavespeed s eps dim U_i U_j n < w_normal_velocity dim n U_i + 2 * w_speed_of_sound s U_i.
Proof.
  exists ex_dry_system, (1 / 100), 1%nat, ex_water, ex_dry, (fun _ => 1).
  split; [simpl; lra|]. split; [unfold cutoff_small; simpl; lra|].
  split; [unfold cutoff_small, water_depth, ex_water, mkwater; simpl; lra|].
  split; [unfold dot, rsum; simpl; lra|]. split; [reflexivity|]. split; [reflexivity|].
  exact dry_front.
Qed.

(** Two streams of depth 1 with velocities 1 and -1: shocks with the speeds -1 and 1 leave
    standing water of depth 2 behind. *)
Lemma ex_collision : extreme_speeds (4 / 3) 1 1 1 (-1) (-1) 1.
Proof.
  left. exists 2, 0. unfold right_wave, left_wave. split; right; repeat split; lra.
Qed.

(** Water torn apart. *)
Lemma ex_separation : extreme_speeds 1 1 (-3) 1 3 (-4) 4.
Proof. right. rewrite Rmult_1_l, sqrt_1. repeat split; lra. Qed.
