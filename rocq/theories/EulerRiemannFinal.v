(** * The Euler Riemann solver: final lemmas and examples *)
From Coq Require Import Reals Lra Lia Arith Psatz.
From Verif Require Import RVec Simd SimdProofs Newton NewtonSpec NewtonProofs NewtonFinal EulerSystem PhysSpec PhysLib GasWaves SWRiemannProofs SWRiemannFinal EulerRiemann EulerRiemannSpec EulerRiemannProofs EulerRiemannExist EulerRiemannNewton.
Local Open Scope R_scope.

(** ** The result is the speed of some pressure *)

Lemma gap_lambda g di dj p1 p2 : snd (er_compute_gap g di dj p1 p2) = er_compute_lambda g di dj p2.
Proof. reflexivity. Qed.

Lemma newton_lambda eps tol g di dj n : forall p1 p2 gap,
  exists P, er_newton eps tol g di dj n p1 p2 gap (er_compute_lambda g di dj p2) = er_compute_lambda g di dj P.
Proof.
  induction n as [|n IH]; intros p1 p2 gap; cbn [er_newton]; [exists p2; reflexivity|].
  destruct (Req_EM_T _ _); [exists p2; reflexivity|].
  destruct (quadratic_newton_step _ _ _ _ _ _ _ _) as [q1 q2].
  unfold er_compute_gap. apply IH.
Qed.

Lemma compute_is_lambda eps tol n g di dj : exists P, er_compute eps tol n g di dj = er_compute_lambda g di dj P.
Proof.
  unfold er_compute. destruct n; [eexists; reflexivity|].
  unfold er_compute_gap. apply newton_lambda.
Qed.

Lemma newton_keeps tol g di dj a b z n : forall p1 p2 gap,
  branch g di a b -> branch g dj a b -> er_phi g di dj z = 0 -> a <= p1 -> p1 <= z <= p2 -> p2 <= b ->
  exists P, z <= P /\ er_newton 0 tol g di dj n p1 p2 gap (er_compute_lambda g di dj p2) = er_compute_lambda g di dj P.
Proof.
  induction n as [|n IH]; intros p1 p2 gap B1 B2 Z H1 H2 H3; cbn [er_newton].
  { exists p2. split; [lra|reflexivity]. }
  destruct (Req_EM_T _ _). { exists p2. split; [lra|reflexivity]. }
  destruct (quadratic_newton_step _ _ _ _ _ _ _ _) as [q1 q2] eqn:E.
  destruct (newton_bracket g di dj a b z p1 p2 q1 q2 B1 B2 Z H1 H2 H3 E) as (K1 & K2 & K3).
  unfold er_compute_gap. apply IH; assumption.
Qed.

Section Fan.
  Variables (g ri ui pi rj uj pj : R).
  Hypothesis Hg : 1 < g.
  Hypothesis Hri : 0 < ri.
  Hypothesis Hpi : 0 < pi.
  Hypothesis Hrj : 0 < rj.
  Hypothesis Hpj : 0 < pj.
  Let di := gas g ri ui pi.
  Let dj := gas g rj uj pj.

  Lemma lambda_ge P : - er_compute_lambda g di dj P <= ui - sound g ri pi * e_stretch g pi P /\
    uj + sound g rj pj * e_stretch g pj P <= er_compute_lambda g di dj P.
  Proof.
    unfold er_compute_lambda.
    assert (L1 : er_lambda1_minus g di P = ui - sound g ri pi * e_stretch g pi P) by reflexivity.
    assert (L3 : er_lambda3_plus g dj P = uj + sound g rj pj * e_stretch g pj P) by reflexivity.
    rewrite L1, L3.
    pose proof (np_ge (ui - sound g ri pi * e_stretch g pi P)) as A.
    pose proof (pp_ge (uj + sound g rj pj * e_stretch g pj P)) as B.
    match goal with |- - Rmax ?a ?b <= _ /\ _ => pose proof (Rmax_l a b); pose proof (Rmax_r a b) end. lra.
  Qed.

  Lemma sound_speeds eps tol n :
    - er_compute eps tol n g di dj <= ui - sound g ri pi /\ uj + sound g rj pj <= er_compute eps tol n g di dj.
  Proof.
    destruct (compute_is_lambda eps tol n g di dj) as [P ->]. destruct (lambda_ge P) as [A B].
    pose proof (e_stretch_ge_1 g pi P ltac:(lra)). pose proof (e_stretch_ge_1 g pj P ltac:(lra)).
    pose proof (sound_pos g ri pi ltac:(lra) Hri Hpi). pose proof (sound_pos g rj pj ltac:(lra) Hrj Hpj). split; nra.
  Qed.

  Lemma fan_root us ps sl sr : e_fan g ri ui pi rj uj pj us ps sl sr ->
    0 < ps /\ er_phi g di dj ps = 0 /\
    sl = ui - sound g ri pi * e_stretch g pi ps /\ sr = uj + sound g rj pj * e_stretch g pj ps.
  Proof.
    intros [L R].
    destruct (e_wave_speed g ri ui pi us ps sl ltac:(lra) Hri Hpi L) as (P & F1 & S1).
    destruct (e_wave_speed g rj (- uj) pj (- us) ps (- sr) ltac:(lra) Hrj Hpj R) as (_ & F2 & S2).
    split; [exact P|]. split; [|lra].
    unfold di, dj. rewrite e_phi_eq. rewrite (f_velocity g rj uj (- uj)). lra.
  Qed.

  (** Two rarefactions. *)
  Lemma fan_low eps tol n us ps sl sr xi : e_fan g ri ui pi rj uj pj us ps sl sr ->
    ps <= Rmin pi pj -> sl <= xi <= sr -> Rabs xi <= er_compute eps tol n g di dj.
  Proof.
    intros F L X. destruct (fan_root us ps sl sr F) as (_ & _ & S1 & S2).
    assert (ps <= pi /\ ps <= pj) by (pose proof (Rmin_l pi pj); pose proof (Rmin_r pi pj); lra).
    rewrite e_stretch_below in S1 by lra. rewrite e_stretch_below in S2 by lra.
    destruct (sound_speeds eps tol n). apply Rabs_le. lra.
  Qed.

  Lemma vacuum_bound eps tol n sl sr xi : e_vacuum g ri ui pi rj uj pj sl sr ->
    sl <= xi <= sr -> Rabs xi <= er_compute eps tol n g di dj.
  Proof. intros (V & -> & ->) X. destruct (sound_speeds eps tol n). apply Rabs_le. lra. Qed.

  Hypothesis Hg53 : g <= 5 / 3.

  (** The initial upper bound is valid. *)
  Lemma fan_high eps tol n us ps sl sr xi : e_fan g ri ui pi rj uj pj us ps sl sr ->
    (n = 0%nat \/ eps = 0) -> Rmin pi pj <= ps -> ps <= er_p_2 g di dj ->
    sl <= xi <= sr -> Rabs xi <= er_compute eps tol n g di dj.
  Proof.
    intros F N Lo Hi X. destruct (fan_root us ps sl sr F) as (Pps & Z & S1 & S2).
    assert (C : exists P, ps <= P /\ er_compute eps tol n g di dj = er_compute_lambda g di dj P).
    { unfold er_compute. destruct n as [|n]; [exists (er_p_2 g di dj); split; [exact Hi|reflexivity]|].
      destruct N as [N| ->]; [discriminate|].
      set (p2 := er_p_2 g di dj) in *.
      pose proof (Rmin_l pi pj). pose proof (Rmin_r pi pj). pose proof (Rmax_l pi pj). pose proof (Rmax_r pi pj).
      unfold er_compute_gap.
      destruct (Rlt_dec (er_phi_of_p_max g di dj) 0) as [C|C].
      - (* two shocks *)
        assert (M : Rmax pi pj <= ps).
        { destruct (Rle_dec (Rmax pi pj) ps) as [K|K]; [exact K|exfalso].
          unfold di, dj in C. rewrite phi_max_eq in C by lra. fold di dj in C.
          (* phi(ps) = 0 with ps < p_max contradicts monotonicity on [p_min, p_max] *)
          assert (er_phi g di dj ps < er_phi g di dj (Rmax pi pj)); [|lra].
          destruct (Rle_dec pi pj) as [Q|Q].
          - rewrite Rmin_left in * by lra. rewrite Rmax_right in * by lra.
            apply (phi_mono g di dj pi pj); try lra; [apply shock_branch|apply rare_branch]; lra.
          - rewrite Rmin_right in * by lra. rewrite Rmax_left in * by lra.
            apply (phi_mono g di dj pj pi); try lra; [apply rare_branch|apply shock_branch]; lra. }
        assert (P1 : er_p_1 g di dj p2 = Rmax pi pj).
        { unfold er_p_1, mask_lt. destruct (Rlt_dec _ _); [|lra]. change (ed_p di) with pi. change (ed_p dj) with pj.
          destruct (Rle_dec _ _); lra. }
        rewrite P1. apply (newton_keeps tol g di dj (Rmax pi pj) p2 ps (S n)); try assumption; try lra;
          apply shock_branch; lra.
      - assert (P1 : er_p_1 g di dj p2 = Rmin pi pj).
        { unfold er_p_1, mask_lt. destruct (Rlt_dec _ _); [lra|]. change (ed_p di) with pi. change (ed_p dj) with pj.
          destruct (Rle_dec _ _); lra. }
        assert (P2 : p2 <= Rmax pi pj).
        { unfold p2, er_p_2, mask_lt. destruct (Rlt_dec _ _); [lra|]. apply Rmin_l. }
        rewrite P1. destruct (Rle_dec pi pj) as [Q|Q].
        + rewrite Rmin_left in * by lra. rewrite Rmax_right in * by lra.
          apply (newton_keeps tol g di dj pi p2 ps (S n)); try assumption; try lra; [apply shock_branch|apply rare_branch]; lra.
        + rewrite Rmin_right in * by lra. rewrite Rmax_left in * by lra.
          apply (newton_keeps tol g di dj pj p2 ps (S n)); try assumption; try lra; [apply rare_branch|apply shock_branch]; lra. }
    destruct C as (P & HP & ->). destruct (lambda_ge P) as [A B].
    pose proof (e_stretch_mono g pi ps P ltac:(lra) Hpi HP). pose proof (e_stretch_mono g pj ps P ltac:(lra) Hpj HP).
    pose proof (sound_pos g ri pi ltac:(lra) Hri Hpi). pose proof (sound_pos g rj pj ltac:(lra) Hrj Hpj).
    apply Rabs_le. split; nra.
  Qed.

  Lemma fan_bound eps tol n us ps sl sr xi : e_fan g ri ui pi rj uj pj us ps sl sr ->
    (n = 0%nat \/ eps = 0) -> (ps <= Rmin pi pj \/ Rmax pi pj <= ps) ->
    sl <= xi <= sr -> Rabs xi <= er_compute eps tol n g di dj.
  Proof.
    intros F N [L|L] X; [eapply fan_low; eassumption|].
    destruct (fan_root us ps sl sr F) as (Pps & Z & _).
    pose proof (Rmin_l pi pj). pose proof (Rmax_l pi pj).
    eapply fan_high; try eassumption; [lra|].
    apply p_2_bound; try assumption; try lra. apply failsafe_bound; try assumption; lra.
  Qed.
End Fan.

(** ** States *)

Lemma mkstate_1_energy rho m E : internal_energy 1 (mkstate 1 rho (fun _ => m) E) = E - 1 / 2 * (m * m) * (1 / rho).
Proof. unfold internal_energy, density, total_energy, norm2, dot, rsum, momentum, mkstate; simpl. ring. Qed.

Lemma er_data_eq s dim U n : 0 < density U -> dot dim n n = 1 ->
  er_data s dim U n = gas (gamma s) (density U) (normal_velocity dim n U) (pressure s dim U).
Proof.
  intros Hr Hn. unfold er_data, gas.
  set (m := dot dim n (momentum U)).
  assert (E : internal_energy 1 (mkstate 1 (density U) (fun _ => m)
      (total_energy dim U - 1 / 2 * norm2 dim (vsub (momentum U) (vscal m n)) * (1 / density U))) = internal_energy dim U).
  { rewrite mkstate_1_energy. unfold internal_energy.
    assert (N : norm2 dim (vsub (momentum U) (vscal m n)) = norm2 dim (momentum U) - m * m).
    { unfold vsub. unfold norm2, dot, vscal.
      rewrite (rsum_ext dim _ (fun k => momentum U k * momentum U k + (-2 * m) * (n k * momentum U k) + m * m * (n k * n k)))
        by (intros; ring).
      rewrite !rsum_plus, !rsum_scal. fold (dot dim n (momentum U)) (dot dim n n). fold m. rewrite Hn. ring. }
    rewrite N. ring. }
  f_equal.
  - unfold normal_velocity. rewrite dot_comm. fold m. field. lra.
  - unfold pressure. rewrite E. reflexivity.
  - unfold speed_of_sound, pressure, sound. rewrite E. f_equal.
    change (density (mkstate 1 (density U) _ _)) with (density U). unfold pressure. field. lra.
Qed.

Lemma C37_exact_exists_proof s dim U_i U_j n :
  1 < gamma s <= 5 / 3 -> 0 < density U_i -> 0 < pressure s dim U_i -> 0 < density U_j -> 0 < pressure s dim U_j ->
  exists sl sr,
    (exists us ps, e_fan (gamma s) (density U_i) (normal_velocity dim n U_i) (pressure s dim U_i)
                         (density U_j) (normal_velocity dim n U_j) (pressure s dim U_j) us ps sl sr) \/
    e_vacuum (gamma s) (density U_i) (normal_velocity dim n U_i) (pressure s dim U_i)
             (density U_j) (normal_velocity dim n U_j) (pressure s dim U_j) sl sr.
Proof. intros. apply e_exact_exists; assumption. Qed.

Lemma C37_wave_speed_proof s eps tol N dim U_i U_j n us ps sl sr xi :
  1 < gamma s <= 5 / 3 -> dot dim n n = 1 ->
  0 < density U_i -> 0 < pressure s dim U_i -> 0 < density U_j -> 0 < pressure s dim U_j ->
  (N = 0%nat \/ eps = 0) ->
  e_fan (gamma s) (density U_i) (normal_velocity dim n U_i) (pressure s dim U_i)
        (density U_j) (normal_velocity dim n U_j) (pressure s dim U_j) us ps sl sr ->
  (ps <= Rmin (pressure s dim U_i) (pressure s dim U_j) \/ Rmax (pressure s dim U_i) (pressure s dim U_j) <= ps) ->
  sl <= xi <= sr ->
  Rabs xi <= er_wavespeed s eps tol N dim U_i U_j n.
Proof.
  intros Hg Hn Ri Pi Rj Pj HN F C X. unfold er_wavespeed. rewrite !er_data_eq by assumption.
  destruct Hg. eapply fan_bound; eassumption.
Qed.

Lemma C37_vacuum_proof s eps tol N dim U_i U_j n sl sr xi :
  1 < gamma s -> dot dim n n = 1 ->
  0 < density U_i -> 0 < pressure s dim U_i -> 0 < density U_j -> 0 < pressure s dim U_j ->
  e_vacuum (gamma s) (density U_i) (normal_velocity dim n U_i) (pressure s dim U_i)
           (density U_j) (normal_velocity dim n U_j) (pressure s dim U_j) sl sr ->
  sl <= xi <= sr ->
  Rabs xi <= er_wavespeed s eps tol N dim U_i U_j n.
Proof.
  intros Hg Hn Ri Pi Rj Pj F X. unfold er_wavespeed. rewrite !er_data_eq by assumption.
  eapply vacuum_bound; eassumption.
Qed.

Lemma speed_of_sound_eq s dim U : 0 < density U -> speed_of_sound s dim U = sound (gamma s) (density U) (pressure s dim U).
Proof. intros H. unfold speed_of_sound, sound. f_equal. field. lra. Qed.

Lemma C37_characteristics_proof s eps tol N dim U_i U_j n :
  1 < gamma s -> dot dim n n = 1 ->
  0 < density U_i -> 0 < pressure s dim U_i -> 0 < density U_j -> 0 < pressure s dim U_j ->
  let lambda := er_wavespeed s eps tol N dim U_i U_j n in
  - lambda <= normal_velocity dim n U_i - speed_of_sound s dim U_i /\
  normal_velocity dim n U_j + speed_of_sound s dim U_j <= lambda.
Proof.
  intros Hg Hn Ri Pi Rj Pj. cbv zeta. unfold er_wavespeed. rewrite !er_data_eq, !speed_of_sound_eq by assumption.
  apply sound_speeds; assumption.
Qed.

(** ** Symmetry and sign *)

Definition e_mirror (d : edata) : edata := {| ed_rho := ed_rho d; ed_u := - ed_u d; ed_p := ed_p d; ed_a := ed_a d |}.

Lemma e_phi_mirror g di dj x : er_phi g (e_mirror dj) (e_mirror di) x = er_phi g di dj x.
Proof.
  unfold er_phi. change (er_f g (e_mirror dj) x) with (er_f g dj x). change (er_f g (e_mirror di) x) with (er_f g di x).
  cbn [ed_u e_mirror]. ring.
Qed.

Lemma e_dphi_mirror g di dj x : er_dphi g (e_mirror dj) (e_mirror di) x = er_dphi g di dj x.
Proof.
  unfold er_dphi. change (er_df g (e_mirror dj) x) with (er_df g dj x). change (er_df g (e_mirror di) x) with (er_df g di x). ring.
Qed.

Lemma e_phimax_mirror g di dj : er_phi_of_p_max g (e_mirror dj) (e_mirror di) = er_phi_of_p_max g di dj.
Proof. unfold er_phi_of_p_max, e_mirror; cbn [ed_u ed_rho ed_p]. rewrite (Rmax_comm (ed_p dj)). ring. Qed.

Lemma l1_mirror g d x : er_lambda1_minus g (e_mirror d) x = - er_lambda3_plus g d x.
Proof. unfold er_lambda1_minus, er_lambda3_plus, e_mirror; cbn [ed_u ed_rho ed_p ed_a]. ring. Qed.

Lemma l3_mirror g d x : er_lambda3_plus g (e_mirror d) x = - er_lambda1_minus g d x.
Proof. unfold er_lambda1_minus, er_lambda3_plus, e_mirror; cbn [ed_u ed_rho ed_p ed_a]. ring. Qed.

Lemma lambda_mirror g di dj x : er_compute_lambda g (e_mirror dj) (e_mirror di) x = er_compute_lambda g di dj x.
Proof. unfold er_compute_lambda. rewrite l1_mirror, l3_mirror, pp_np, np_pp. apply Rmax_comm. Qed.

Lemma gap_mirror g di dj x y : er_compute_gap g (e_mirror dj) (e_mirror di) x y = er_compute_gap g di dj x y.
Proof.
  unfold er_compute_gap. rewrite !l1_mirror, !l3_mirror, pp_np, np_pp. f_equal; [|apply Rmax_comm].
  rewrite Rmax_comm. f_equal.
  - replace (- er_lambda3_plus g dj x - - er_lambda3_plus g dj y) with (er_lambda3_plus g dj y - er_lambda3_plus g dj x) by ring. reflexivity.
  - replace (- er_lambda1_minus g di y - - er_lambda1_minus g di x) with (er_lambda1_minus g di x - er_lambda1_minus g di y) by ring. reflexivity.
Qed.

Lemma failsafe_mirror g di dj : er_p_star_failsafe g (e_mirror dj) (e_mirror di) = er_p_star_failsafe g di dj.
Proof.
  unfold er_p_star_failsafe, e_mirror; cbn [ed_u ed_rho ed_p ed_a]. rewrite (Rmax_comm (ed_p dj)).
  set (xi := sqrt (2 * _ / (ed_rho di * _))). set (xj := sqrt (2 * _ / (ed_rho dj * _))).
  replace (xj + xi) with (xi + xj) by ring. replace (- ed_u di - - ed_u dj) with (ed_u dj - ed_u di) by ring.
  replace (- ed_p dj * xj - ed_p di * xi) with (- ed_p di * xi - ed_p dj * xj) by ring. reflexivity.
Qed.

Lemma two_rarefaction_mirror g di dj : 1 < g -> 0 < ed_p di -> 0 < ed_p dj -> 0 < ed_a di -> 0 < ed_a dj ->
  er_p_star_two_rarefaction g (e_mirror dj) (e_mirror di) = er_p_star_two_rarefaction g di dj.
Proof.
  intros Hg Pi Pj Ai Aj. unfold er_p_star_two_rarefaction, e_mirror; cbn [ed_u ed_rho ed_p ed_a].
  replace (ed_a dj + ed_a di - (g - 1) * (1 / 2) * (- ed_u di - - ed_u dj)) with
    (ed_a di + ed_a dj - (g - 1) * (1 / 2) * (ed_u dj - ed_u di)) by ring.
  set (N := positive_part _). assert (HN : 0 <= N) by apply pp_nonneg.
  set (k := (g - 1) / (2 * g)).
  assert (Pk : 0 < k) by (unfold k; apply Rdiv_lt_0_compat; lra).
  replace (- ((g - 1) * (1 / 2)) * (1 / g)) with (- k) by (unfold k; field; lra).
  replace (2 * g * (1 / (g - 1))) with (/ k) by (unfold k; field; lra).
  replace (ed_p di * (1 / ed_p dj)) with (ed_p di / ed_p dj) by (field; lra).
  replace (ed_p dj * (1 / ed_p di)) with (ed_p dj / ed_p di) by (field; lra).
  assert (Pq : forall x y, 0 < x -> 0 < y -> powr (x / y) (- k) = Rpower y k / Rpower x k).
  { intros x y Hx Hy. unfold powr. destruct (Rlt_dec 0 (x / y)) as [_|F].
    2: { exfalso; apply F; apply Rdiv_lt_0_compat; assumption. }
    unfold Rdiv at 1.
    rewrite <- Rpower_mult_distr by (try apply Rinv_0_lt_compat; assumption).
    rewrite Rpower_Ropp. unfold Rpower at 2. rewrite ln_Rinv by assumption.
    replace (- k * - ln y) with (k * ln y) by ring. fold (Rpower y k). field. apply Rgt_not_eq, exp_pos. }
  rewrite !Pq by assumption.
  set (X := Rpower (ed_p di) k). set (Y := Rpower (ed_p dj) k).
  assert (HX : 0 < X) by apply exp_pos. assert (HY : 0 < Y) by apply exp_pos.
  assert (HXi : Rpower X (/ k) = ed_p di) by (unfold X; rewrite Rpower_mult, Rinv_r, Rpower_1; lra).
  assert (HYi : Rpower Y (/ k) = ed_p dj) by (unfold Y; rewrite Rpower_mult, Rinv_r, Rpower_1; lra).
  destruct HN as [HN|HN].
  2: { rewrite <- HN. unfold Rdiv at 1 3. rewrite !Rmult_0_l. unfold powr.
       destruct (Rlt_dec 0 0) as [F|_]; [lra|]. destruct (Req_EM_T (/ k) 0) as [F|_]; [|ring].
       pose proof (Rinv_0_lt_compat k Pk). lra. }
  set (D := ed_a di * Y + ed_a dj * X). assert (HD : 0 < D) by (unfold D; nra).
  replace (N / (ed_a di * (Y / X) + ed_a dj)) with (N * X / D)
    by (unfold D in *; field; repeat split; apply Rgt_not_eq; lra).
  replace (N / (ed_a dj * (X / Y) + ed_a di)) with (N * Y / D)
    by (unfold D in *; field; repeat split; apply Rgt_not_eq; lra).
  unfold powr.
  assert (G : forall Z, 0 < Z -> 0 < N * Z / D) by (intros; apply Rdiv_lt_0_compat; nra).
  destruct (Rlt_dec 0 (N * X / D)) as [_|F]; [|exfalso; apply F; auto].
  destruct (Rlt_dec 0 (N * Y / D)) as [_|F]; [|exfalso; apply F; auto].
  rewrite <- HXi at 1. rewrite <- HYi at 1.
  rewrite !Rpower_mult_distr by auto. f_equal. field. lra.
Qed.

Lemma p2_mirror g di dj : 1 < g -> 0 < ed_p di -> 0 < ed_p dj -> 0 < ed_a di -> 0 < ed_a dj ->
  er_p_2 g (e_mirror dj) (e_mirror di) = er_p_2 g di dj.
Proof.
  intros. unfold er_p_2. rewrite two_rarefaction_mirror, failsafe_mirror, e_phimax_mirror by assumption.
  unfold e_mirror; cbn [ed_p]. rewrite (Rmax_comm (ed_p dj)). reflexivity.
Qed.

Lemma p1_mirror g di dj p : er_p_1 g (e_mirror dj) (e_mirror di) p = er_p_1 g di dj p.
Proof.
  unfold er_p_1. rewrite e_phimax_mirror. unfold e_mirror; cbn [ed_p].
  rewrite (Rmax_comm (ed_p dj)), (Rmin_comm (ed_p dj)). reflexivity.
Qed.

Lemma newton_mirror eps tol g di dj n : forall p1 p2 gap l,
  er_newton eps tol g (e_mirror dj) (e_mirror di) n p1 p2 gap l = er_newton eps tol g di dj n p1 p2 gap l.
Proof.
  induction n as [|n IH]; intros; cbn [er_newton]; [reflexivity|].
  destruct (Req_EM_T _ _); [reflexivity|]. rewrite !e_phi_mirror, !e_dphi_mirror.
  destruct (quadratic_newton_step _ _ _ _ _ _ _ _) as [q1 q2]. rewrite gap_mirror.
  destruct (er_compute_gap g di dj q1 q2). apply IH.
Qed.

Lemma compute_mirror eps tol n g di dj : 1 < g -> 0 < ed_p di -> 0 < ed_p dj -> 0 < ed_a di -> 0 < ed_a dj ->
  er_compute eps tol n g (e_mirror dj) (e_mirror di) = er_compute eps tol n g di dj.
Proof.
  intros. unfold er_compute. rewrite p2_mirror by assumption. destruct n; [apply lambda_mirror|].
  rewrite p1_mirror, gap_mirror. destruct (er_compute_gap _ _ _ _ _). apply newton_mirror.
Qed.

Lemma er_wavespeed_symmetric s eps tol N dim U_i U_j n : 1 < gamma s -> dot dim n n = 1 ->
  0 < density U_i -> 0 < pressure s dim U_i -> 0 < density U_j -> 0 < pressure s dim U_j ->
  er_wavespeed s eps tol N dim U_j U_i (fun k => - n k) = er_wavespeed s eps tol N dim U_i U_j n.
Proof.
  intros Hg Hn Ri Pi Rj Pj. unfold er_wavespeed.
  assert (M : dot dim (fun k => - n k) (fun k => - n k) = 1).
  { rewrite <- Hn. unfold dot. apply rsum_ext. intros. ring. }
  assert (V : forall U, normal_velocity dim (fun k => - n k) U = - normal_velocity dim n U).
  { intros U. unfold normal_velocity. replace (dot dim (momentum U) (fun k => - n k)) with (- dot dim (momentum U) n); [unfold Rdiv; ring|].
    unfold dot. rewrite <- (Rmult_1_l (rsum _ _)), Ropp_mult_distr_l, <- rsum_scal. apply rsum_ext. intros. ring. }
  rewrite !er_data_eq by assumption. rewrite !V.
  match goal with |- er_compute _ _ _ _ ?a ?b = er_compute _ _ _ _ ?c ?d =>
    change a with (e_mirror d); change b with (e_mirror c) end.
  apply compute_mirror; try assumption; cbn [ed_a ed_p gas]; apply sound_pos; assumption.
Qed.

Lemma er_wavespeed_nonneg s eps tol N dim U_i U_j n : 0 <= er_wavespeed s eps tol N dim U_i U_j n.
Proof.
  unfold er_wavespeed. match goal with |- 0 <= er_compute _ _ _ ?g ?a ?b =>
    destruct (compute_is_lambda eps tol N g a b) as [P ->] end.
  unfold er_compute_lambda. apply Rle_trans with (2 := Rmax_l _ _). apply pp_nonneg.
Qed.

(** ** The mixed regime *)

Definition ex_air : euler :=
  {| gamma := 7 / 5; reference_density := 1; vacuum_state_relaxation_small := 10000; vacuum_state_relaxation_large := 10000 |}.

(** A dense gas at rest with pressure (5/4)^7 and speed of sound 1/100 ... *)
Definition ex_dense : vec := mkstate 1 (14000 * (78125 / 16384)) (fun _ => 0) (5 / 2 * (78125 / 16384)).

(** ... and a light gas with density 4/5, velocity -37/50 and pressure 1/4. *)
Definition ex_light : vec := mkstate 1 (4 / 5) (fun _ => - (74 / 125)) (5 / 8 + 2 / 5 * (37 / 50) * (37 / 50)).

Lemma ex_dense_values : density ex_dense = 14000 * (78125 / 16384) /\
  normal_velocity 1 (fun _ => 1) ex_dense = 0 /\ pressure ex_air 1 ex_dense = 78125 / 16384.
Proof.
  unfold pressure, ex_dense. rewrite mkstate_1_energy.
  unfold normal_velocity, density, dot, rsum, momentum, mkstate; simpl. repeat split; field.
Qed.

Lemma ex_light_values : density ex_light = 4 / 5 /\
  normal_velocity 1 (fun _ => 1) ex_light = - (37 / 50) /\ pressure ex_air 1 ex_light = 1 / 4.
Proof.
  unfold pressure, ex_light. rewrite mkstate_1_energy.
  unfold normal_velocity, density, dot, rsum, momentum, mkstate; simpl. repeat split; field.
Qed.

Section Mixed.
  Let g := 7 / 5.
  Let ri := 14000 * (78125 / 16384).
  Let pi := 78125 / 16384.
  Let rj := 4 / 5.
  Let uj := - (37 / 50).
  Let pj := 1 / 4.

  Lemma mixed_sound : sound g ri pi = 1 / 100.
  Proof. unfold sound, g, ri, pi. symmetry; apply sqrt_uniq; [lra|field]. Qed.

  Lemma mixed_f_i : er_f g (gas g ri 0 pi) 1 = - (1 / 100).
  Proof.
    rewrite f_below by (unfold g, pi; lra). rewrite mixed_sound.
    assert (E : powr (1 / pi) ((g - 1) / (2 * g)) = 4 / 5).
    { unfold powr. destruct (Rlt_dec 0 (1 / pi)) as [_|F]; [|exfalso; apply F; unfold pi; lra].
      replace (1 / pi) with (Rpower (4 / 5) (INR 7)).
      2: { rewrite Rpower_pow by lra. unfold pi; simpl; field. }
      rewrite Rpower_mult. replace (INR 7 * ((g - 1) / (2 * g))) with 1 by (unfold g; simpl; field).
      apply Rpower_1. lra. }
    rewrite E. unfold g. field.
  Qed.

  Lemma mixed_f_j : er_f g (gas g rj uj pj) 1 = 3 / 4.
  Proof.
    rewrite f_above by (unfold g, rj, pj; lra).
    replace (2 / (rj * ((g + 1) * 1 + (g - 1) * pj))) with 1 by (unfold g, rj, pj; field).
    rewrite sqrt_1. unfold pj. field.
  Qed.

  Lemma mixed_failsafe : er_p_star_failsafe g (gas g ri 0 pi) (gas g rj uj pj) < 1.
  Proof.
    unfold er_p_star_failsafe. cbn [ed_rho ed_u ed_p ed_a gas].
    replace (Rmax pi pj) with pi by (rewrite Rmax_left; unfold pi, pj; lra).
    set (xi := sqrt (2 * pi / (ri * _))). set (xj := sqrt (2 * pi / (rj * _))).
    assert (Hxi : xi <= 1 / 300).
    { unfold xi. replace (1 / 300) with (sqrt ((1 / 300) * (1 / 300))) by (apply sqrt_square; lra).
      apply sqrt_le_1_alt. unfold ri, pi, g. lra. }
    assert (Pxi : 0 < xi) by (unfold xi; apply sqrt_lt_R0; unfold ri, pi, g; lra).
    assert (Hxj : 203 / 200 <= xj).
    { unfold xj. replace (203 / 200) with (sqrt ((203 / 200) * (203 / 200))) by (apply sqrt_square; lra).
      apply sqrt_le_1_alt. unfold rj, pj, pi, g. lra. }
    clearbody xi xj.
    set (b := uj - 0). assert (Hb : b = - (37 / 50)) by (unfold b, uj; lra). clearbody b.
    set (c := - pi * xi - pj * xj). assert (Hc : c = - (78125 / 16384) * xi - 1 / 4 * xj) by (unfold c, pi, pj; lra). clearbody c.
    set (a := xi + xj). assert (Ha : a = xi + xj) by reflexivity. clearbody a.
    assert (P : 0 < b * b - 4 * a * c) by nra.
    assert (K : 0 < a + b + c) by lra.
    assert (Q : sqrt (b * b - 4 * a * c) < 2 * a + b).
    { replace (2 * a + b) with (sqrt ((2 * a + b) * (2 * a + b))) by (apply sqrt_square; lra).
      apply sqrt_lt_1_alt. split; [lra|]. nra. }
    pose proof (sqrt_lt_R0 _ P).
    set (base := (- b + sqrt (b * b - 4 * a * c)) / (2 * a)).
    assert (0 < base < 1); [|nra].
    unfold base. split; [apply Rdiv_lt_0_compat; lra|].
    apply Rmult_lt_reg_r with (2 * a); [lra|]. unfold Rdiv. rewrite Rmult_assoc, Rinv_l by lra. lra.
  Qed.

  Lemma mixed_p2 : er_p_2 g (gas g ri 0 pi) (gas g rj uj pj) < 1.
  Proof.
    pose proof mixed_failsafe. unfold er_p_2, mask_lt. destruct (Rlt_dec _ _).
    - eapply Rle_lt_trans; [apply Rmin_r|assumption].
    - eapply Rle_lt_trans; [apply Rmin_r|]. eapply Rle_lt_trans; [apply Rmin_r|assumption].
  Qed.

  Lemma mixed_speed : e_stretch g pj 1 * sound g rj pj = 5 / 4 /\ forall P, P < 1 -> e_stretch g pj P * sound g rj pj < 5 / 4.
  Proof.
    assert (E : e_stretch g pj 1 * sound g rj pj = 5 / 4).
    { unfold e_stretch, sound. rewrite <- sqrt_mult_alt.
      - symmetry; apply sqrt_uniq; [lra|]. rewrite pp_pos by (unfold pj; lra). unfold g, pj, rj. field.
      - rewrite pp_pos by (unfold pj; lra). unfold g, pj; lra. }
    split; [exact E|]. intros P HP. rewrite <- E.
    apply Rmult_lt_compat_r; [apply sound_pos; unfold g, rj, pj; lra|].
    unfold e_stretch. apply sqrt_lt_1_alt. split.
    - pose proof (pp_nonneg ((P - pj) * (1 / pj))). unfold g; lra.
    - rewrite (pp_pos ((1 - pj) * (1 / pj))) by (unfold pj; lra).
      destruct (Rle_dec 0 ((P - pj) * (1 / pj))) as [C|C]; [rewrite pp_pos|rewrite pp_neg]; unfold g, pj in *; lra.
  Qed.

  Lemma mixed_fan : e_fan g ri 0 pi rj uj pj (1 / 100) 1 (- (1 / 100)) (51 / 100).
  Proof.
    destruct (e_wave_exists g ri 0 pi 1 ltac:(unfold g; lra) ltac:(unfold ri; lra) ltac:(unfold pi; lra) ltac:(lra)) as [sl L].
    destruct (e_wave_exists g rj (- uj) pj 1 ltac:(unfold g; lra) ltac:(unfold rj; lra) ltac:(unfold pj; lra) ltac:(lra)) as [sr W].
    pose proof (e_wave_speed g ri 0 pi _ 1 sl ltac:(unfold g; lra) ltac:(unfold ri; lra) ltac:(unfold pi; lra) L) as (_ & _ & S1).
    pose proof (e_wave_speed g rj (- uj) pj _ 1 sr ltac:(unfold g; lra) ltac:(unfold rj; lra) ltac:(unfold pj; lra) W) as (_ & _ & S2).
    rewrite e_stretch_below, mixed_sound in S1 by (unfold pi; lra).
    destruct mixed_speed as [E _].
    rewrite mixed_f_i in L. change (er_f g (gas g rj (- uj) pj) 1) with (er_f g (gas g rj uj pj) 1) in W. rewrite mixed_f_j in W.
    split.
    - replace sl with (- (1 / 100)) in L by lra. replace (0 - - (1 / 100)) with (1 / 100) in L by lra. exact L.
    - unfold e_right_wave. replace (- (1 / 100)) with (- uj - 3 / 4) by (unfold uj; lra).
      replace (- (51 / 100)) with sr by (unfold uj in *; lra). exact W.
  Qed.

  Lemma mixed_lambda P : P < 1 -> er_compute_lambda g (gas g ri 0 pi) (gas g rj uj pj) P < 51 / 100.
  Proof.
    intros HP. unfold er_compute_lambda.
    assert (L1 : er_lambda1_minus g (gas g ri 0 pi) P = - (1 / 100)).
    { change (0 - sound g ri pi * e_stretch g pi P = - (1 / 100)). rewrite e_stretch_below, mixed_sound by (unfold pi; lra). lra. }
    assert (L3 : er_lambda3_plus g (gas g rj uj pj) P < 51 / 100).
    { change (uj + sound g rj pj * e_stretch g pj P < 51 / 100). destruct mixed_speed as [_ E]. pose proof (E P HP). unfold uj. lra. }
    rewrite L1. apply Rmax_lub_lt.
    - destruct (Rle_dec 0 (er_lambda3_plus g (gas g rj uj pj) P)); [rewrite pp_pos|rewrite pp_neg]; lra.
    - unfold negative_part. rewrite Rabs_left by lra. lra.
  Qed.
End Mixed.

Lemma C37_mixed_refuted_proof : exists s dim U_i U_j n us ps sl sr,
  gamma s = 7 / 5 /\ dot dim n n = 1 /\
  0 < density U_i /\ 0 < pressure s dim U_i /\ 0 < density U_j /\ 0 < pressure s dim U_j /\
  e_fan (gamma s) (density U_i) (normal_velocity dim n U_i) (pressure s dim U_i)
        (density U_j) (normal_velocity dim n U_j) (pressure s dim U_j) us ps sl sr /\
  forall eps tol, er_wavespeed s eps tol 0 dim U_i U_j n < sr.
Proof.
  exists ex_air, 1%nat, ex_dense, ex_light, (fun _ => 1), (1 / 100), 1, (- (1 / 100)), (51 / 100).
  destruct ex_dense_values as (D1 & D2 & D3). destruct ex_light_values as (L1 & L2 & L3).
  assert (N : dot 1 (fun _ => 1) (fun _ => 1) = 1) by (unfold dot, rsum; simpl; lra).
  split; [reflexivity|]. split; [exact N|].
  split; [rewrite D1; lra|]. split; [rewrite D3; lra|]. split; [rewrite L1; lra|]. split; [rewrite L3; lra|].
  split.
  - rewrite D1, D2, D3, L1, L2, L3. exact mixed_fan.
  - intros eps tol. unfold er_wavespeed. rewrite !er_data_eq by (try exact N; rewrite ?D1, ?L1; lra).
    rewrite D1, D2, D3, L1, L2, L3. unfold er_compute. apply mixed_lambda. exact mixed_p2.
Qed.

(** ** Concrete Riemann problems *)

(** Two streams of density 4/5 and pressure 1/4 collide with the velocities 3/4 and -3/4. *)
Definition ex_stream (m : R) : vec := mkstate 1 (4 / 5) (fun _ => m) (17 / 20).

Lemma ex_stream_values m : m * m = 9 / 25 -> density (ex_stream m) = 4 / 5 /\
  normal_velocity 1 (fun _ => 1) (ex_stream m) = 5 / 4 * m /\ pressure ex_air 1 (ex_stream m) = 1 / 4.
Proof.
  intros H. unfold pressure, ex_stream. rewrite mkstate_1_energy, H.
  unfold normal_velocity, density, dot, rsum, momentum, mkstate; simpl. repeat split; field.
Qed.

Lemma collision_fan : e_fan (7 / 5) (4 / 5) (3 / 4) (1 / 4) (4 / 5) (- (3 / 4)) (1 / 4) 0 1 (- (1 / 2)) (1 / 2).
Proof.
  destruct (e_wave_exists (7 / 5) (4 / 5) (3 / 4) (1 / 4) 1 ltac:(lra) ltac:(lra) ltac:(lra) ltac:(lra)) as [sl L].
  pose proof (e_wave_speed (7 / 5) (4 / 5) (3 / 4) (1 / 4) _ 1 sl ltac:(lra) ltac:(lra) ltac:(lra) L) as (_ & _ & S).
  rewrite (f_velocity _ _ _ (- (37 / 50))), mixed_f_j in L. destruct mixed_speed as [E _].
  replace sl with (- (1 / 2)) in L by lra. replace (3 / 4 - 3 / 4) with 0 in L by lra.
  split; [exact L|]. unfold e_right_wave. rewrite Ropp_involutive, Ropp_0. exact L.
Qed.

(** Gas of density 7/5 and pressure 1 (speed of sound 1) is torn apart. *)
Definition ex_tear (m : R) : vec := mkstate 1 (7 / 5) (fun _ => m) (5 / 2 + 126 / 5).

Lemma ex_tear_values m : m * m = 1764 / 25 -> density (ex_tear m) = 7 / 5 /\
  normal_velocity 1 (fun _ => 1) (ex_tear m) = 5 / 7 * m /\ pressure ex_air 1 (ex_tear m) = 1.
Proof.
  intros H. unfold pressure, ex_tear. rewrite mkstate_1_energy, H.
  unfold normal_velocity, density, dot, rsum, momentum, mkstate; simpl. repeat split; field.
Qed.

Lemma tear_vacuum : e_vacuum (7 / 5) (7 / 5) (- (6)) 1 (7 / 5) 6 1 (- (7)) 7.
Proof.
  assert (S : sound (7 / 5) (7 / 5) 1 = 1) by (unfold sound; symmetry; apply sqrt_uniq; [lra|field]).
  unfold e_vacuum. rewrite S. lra.
Qed.
