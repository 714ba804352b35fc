(** * Proofs of the property theorems C17 - C22, C61, C62 *)
From Coq Require Import Reals List Arith Bool Lia Lra Permutation FunctionalExtensionality.
From Verif Require TimeInt TimeIntProofs.
From Verif Require Import Scheme SchemeSpec SchemeProofs SchemeUpdate SchemeLimit SchemeIndep
  SchemeExamples.
Import ListNotations.
Local Open Scope R_scope.

Lemma columns_neighbours M i j :
  symmetric_pattern M -> (i < n_rows M)%nat -> In j (columns M i) -> j <> i -> In j (neighbours M i).
Proof. intros H Hi Hj Hne. apply neighbours_in; auto. Qed.

Lemma neighbours_columns M i j :
  symmetric_pattern M -> (i < n_rows M)%nat -> In j (neighbours M i) -> In j (columns M i) /\ j <> i.
Proof. intros H Hi Hj. apply neighbours_in in Hj; auto. Qed.

Lemma active_constrained M i : active M i <-> (i < n_rows M)%nat /\ constrained M i = false.
Proof. rewrite active_spec. apply active_rows_in. Qed.

Lemma nth_neg x c : nth x (neg c) 0 = - nth x c 0.
Proof. revert x. induction c as [|a c IH]; intros [|x]; simpl; try lra. apply IH. Qed.

Lemma nth_cdiv x c a : nth x (cdiv c a) 0 = nth x c 0 / a.
Proof.
  unfold cdiv. revert x. induction c as [|b c IH]; intros [|x]; simpl; unfold Rdiv; try ring. apply IH.
Qed.

Lemma dotp_cdiv dim f c a : dotp dim f (cdiv c a) = dotp dim f c / a.
Proof.
  unfold dotp, Rdiv. rewrite Rmult_comm, <- lsum_scal. apply lsum_ext. intros x _.
  rewrite nth_cdiv. unfold Rdiv. ring.
Qed.

Lemma cnorm_zero c : cnorm c = 0 -> forall x, nth x c 0 = 0.
Proof.
  intros H. apply sqrt_eq_0 in H; [|apply squares_nonneg].
  induction c as [|a c IH]; intros [|x]; simpl in *; auto.
  - pose proof (squares_nonneg c). pose proof (Rle_0_sqr a). unfold Rsqr in *.
    apply Rsqr_0_uniq. unfold Rsqr. lra.
  - pose proof (squares_nonneg c). pose proof (Rle_0_sqr a). unfold Rsqr in *. apply IH. lra.
Qed.

Lemma ring3_instance :
  symmetric_pattern ring3 /\ positive_masses ring3 /\ valid_numbering ring3 /\
  pairs_listed ring3 /\ symmetric_matrices ring3 /\
  (forall i, (i < n_rows ring3)%nat -> zero_row_sum ring3 i) /\
  symmetric_riemann burgers ring3 ring_state /\ nonneg_riemann burgers /\ plain burgers /\
  central_flux burgers 1 (fun a _ _ => a) /\ active ring3 2 /\
  fst ring_state 1%nat tt <> fst ring_state 2%nat tt.
Proof.
  split; [exact ring3_pattern|]. split; [exact ring3_masses|]. split; [exact ring3_numbering|].
  split; [exact ring3_pairs|]. split; [exact ring3_symmetric|]. split; [exact ring3_sum|].
  split; [apply burgers_symmetric|]. split; [exact burgers_nonneg|].
  split; [split; reflexivity|]. split; [exact burgers_central|].
  split; [split; cbn; lia|]. cbn. lra.
Qed.

Lemma interval_instance :
  (forall b, convex_set (in_interval b)) /\ limiter_guarantee burgers in_interval /\
  fst (interval_limit (0, 1) (fun _ => 1 / 2) (fun _ => 2)) = 1 / 4.
Proof.
  split; [exact interval_convex|]. split; [exact burgers_guarantee|].
  unfold interval_limit. cbn [fst snd]. destruct (Rlt_dec 0 2); [|lra].
  rewrite Rmax_right by lra. rewrite Rmin_right; lra.
Qed.

Lemma ring3'_instance :
  same_problem ring3 ring3' /\ order_independent burgers /\
  symmetric_pattern ring3' /\ valid_numbering ring3' /\ pairs_listed ring3' /\
  owner ring3 2%nat <> owner ring3 0%nat /\ owner ring3' 2%nat = owner ring3' 0%nat.
Proof.
  split; [exact ring3_same|]. split; [exact burgers_order|]. split; [exact ring3'_pattern|].
  split; [exact ring3'_numbering|]. split; [exact ring3'_pairs|]. split; [cbn; lia|reflexivity].
Qed.

Lemma segment_weighted alpha d :
  weighted_update (advection false) segment alpha d all_zero [(all_one, -1)] 1 0 tt = 0.
Proof.
  unfold weighted_update, corrected, neighbours. cbn [tl columns segment].
  unfold high_order_flux, low_order_flux, flux, jump, smult. cbn.
  unfold sminus. field.
Qed.

Lemma chain_symmetric : symmetric_matrices chain.
Proof. intros i j Hi Hj. cbn. rewrite (Nat.eqb_sym j i). auto. Qed.

Lemma nth_le_cnorm c : Rabs (nth 0 c 0) <= cnorm c.
Proof.
  unfold cnorm. rewrite <- sqrt_Rsqr_abs. apply sqrt_le_1_alt. unfold Rsqr.
  destruct c as [|a c]; simpl; [lra|]. pose proof (squares_nonneg c). lra.
Qed.

(** Burgers: the estimate is large enough for every interval. *)
Lemma burgers_wave_bound b : wave_bound burgers 1 (fun a _ _ => a) tt (in_interval b).
Proof.
  intros u v i j n lambda Hu Hv Hn Hlam. unfold dotp. cbn [lsum seq].
  cbn [flux_contribution burgers]. cbn [riemann_compute burgers] in Hlam.
  set (m := nth 0 n 0).
  assert (Hm : Rabs m <= 1) by (unfold m; destruct Hn as [Hn _]; rewrite <- Hn; apply nth_le_cnorm).
  set (x := u tt) in *. set (y := v tt) in *.
  assert (Hx : Rabs x <= lambda) by (eapply Rle_trans; [apply Rmax_l|exact Hlam]).
  assert (Hy : Rabs y <= lambda) by (eapply Rle_trans; [apply Rmax_r|exact Hlam]).
  split.
  - intros Hl. set (a := 1 / 2 - (x + y) * m / (4 * lambda)).
    assert (Ha : 0 <= a <= 1).
    { assert (Hp : Rabs ((x + y) * m) <= 2 * lambda * 1).
      { rewrite Rabs_mult. apply Rmult_le_compat; try apply Rabs_pos; [|exact Hm].
        eapply Rle_trans; [apply Rabs_triang|]. lra. }
      assert (Hq : -(1 / 2) <= (x + y) * m / (4 * lambda) <= 1 / 2).
      {
        assert (Hp' : - (2 * lambda) <= (x + y) * m <= 2 * lambda).
        { revert Hp. unfold Rabs. destruct (Rcase_abs _); lra. }
        split; apply Rmult_le_reg_r with (4 * lambda); try lra;
          replace ((x + y) * m / (4 * lambda) * (4 * lambda)) with ((x + y) * m) by (field; lra); lra. }
      unfold a. lra. }
    assert (HC := interval_convex b v u a Hv Hu Ha). unfold in_interval in *.
    fold x y in HC. fold x y. unfold a in HC.
    replace ((x + y) / 2 - (y * y / 2 * m + 0 - (x * x / 2 * m + 0)) / (2 * lambda))
      with ((1 / 2 - (x + y) * m / (4 * lambda)) * y + (1 - (1 / 2 - (x + y) * m / (4 * lambda))) * x);
      [exact HC|]. field. lra.
  - intros -> k. fold x y.
    assert (x = 0) by (revert Hx; unfold Rabs; destruct (Rcase_abs x); lra).
    assert (y = 0) by (revert Hy; unfold Rabs; destruct (Rcase_abs y); lra).
    rewrite H, H0. lra.
Qed.

(** ** Statements of the property theorems *)

Lemma C17_viscosity_proof :
  forall K (S : system K) M num_min old d0 i j,
    symmetric_pattern M -> valid_numbering M -> pairs_listed M ->
    symmetric_riemann S M old -> nonneg_riemann S ->
    (i < n_rows M)%nat -> In j (columns M i) -> j <> i ->
    let d := dij_matrix S M num_min old d0 in
    d i j = Rmax (wave_viscosity S M old i j) (wave_viscosity S M old j i) /\
    d j i = d i j /\ 0 <= d i j.
Proof.
  intros K S M nm old d0 i j H HV HP HR HN Hi Hj Hne d.
  assert (Hn := columns_neighbours M i j H Hi Hj Hne).
  destruct (neighbours_bound M i j H Hi Hn) as [Hjb [Hji _]].
  unfold d. rewrite !dij_value by assumption. split; [reflexivity|]. split; [apply Rmax_comm|].
  eapply Rle_trans; [|apply Rmax_l]. apply wave_viscosity_nonneg. exact HN.
Qed.

Lemma C17_diagonal_proof :
  forall K (S : system K) M num_min old d0 i,
    symmetric_pattern M -> (i < n_rows M)%nat ->
    let d := dij_matrix S M num_min old d0 in
    d i i = - Rmax (lsum (d i) (remove Nat.eq_dec i (columns M i))) (1000000 * num_min).
Proof.
  intros K S M nm old d0 i H Hi d. unfold d. rewrite dij_diag by assumption. do 2 f_equal.
  change (lsum (fun j => dij_matrix S M nm old d0 i j)) with (lsum (dij_matrix S M nm old d0 i)).
  f_equal. rewrite (columns_split M i H Hi). simpl.
  destruct (Nat.eq_dec i i); [|contradiction]. symmetry. apply notin_remove.
  intros Hin. destruct (neighbours_columns M i i H Hi Hin) as [_ Hc]. auto.
Qed.

Lemma C17_step_size_proof :
  forall K (S : system K) M num_min cfl old d0 tau_max,
    symmetric_pattern M -> positive_masses M -> 0 < num_min -> 0 < cfl -> 0 < tau_max ->
    exists tau,
      TimeInt.select_tau 0 (Some tau_max) (row_tau S M num_min cfl old d0) = TimeInt.Ok tau /\
      0 < tau <= tau_max /\
      (forall i, active M i ->
         tau * (2 * Rabs (dij_matrix S M num_min old d0 i i)) <= cfl * mass M i) /\
      (tau = tau_max \/ exists i, active M i /\
         tau * (2 * Rabs (dij_matrix S M num_min old d0 i i)) = cfl * mass M i).
Proof.
  intros K S M nm cfl old d0 m H HM Hnm Hc Hm.
  set (rows := row_tau S M nm cfl old d0).
  assert (Hp : forall l, (forall t, In t l -> 0 < t) -> 0 < fold_right Rmin m l).
  { induction l as [|t l IH]; intros Hl; simpl; [exact Hm|].
    apply Rmin_glb_lt; [apply Hl; left; reflexivity|apply IH; intros; apply Hl; right; assumption]. }
  assert (Hle : forall l, (forall t, In t l -> fold_right Rmin m l <= t) /\ fold_right Rmin m l <= m /\
            (fold_right Rmin m l = m \/ In (fold_right Rmin m l) l)).
  { induction l as [|t l [IH1 [IH2 IH3]]]; simpl; [split; [tauto|split; [lra|tauto]]|].
    split; [|split].
    - intros s [<-|Hs]; [apply Rmin_l|]. eapply Rle_trans; [apply Rmin_r|apply IH1; exact Hs].
    - eapply Rle_trans; [apply Rmin_r|exact IH2].
    - destruct (Rle_dec t (fold_right Rmin m l)).
      + rewrite Rmin_left by assumption. tauto.
      + rewrite Rmin_right by lra. tauto. }
  assert (Hpos : 0 < fold_right Rmin m rows)
    by (apply Hp; intros t Ht; apply (row_tau_positive S M nm cfl old d0 t H HM Hnm Hc Ht)).
  destruct (Hle rows) as [L1 [L2 L3]].
  exists (fold_right Rmin m rows). split; [|split; [lra|]].
  - unfold TimeInt.select_tau. destruct (Rlt_dec _ _); [|contradiction].
    destruct (Req_EM_T 0 0); [reflexivity|contradiction].
  - assert (Hneg : forall i, active M i -> dij_matrix S M nm old d0 i i < 0).
    { intros i [Hb _]. rewrite (dij_diag S M nm old d0 i H Hb).
      pose proof (Rmax_r (lsum (fun j => dij_matrix S M nm old d0 i j) (neighbours M i)) (1000000 * nm)).
      lra. }
    split.
    + intros i Hi. rewrite Rabs_left by (apply Hneg; exact Hi).
      apply (row_tau_bound S M nm cfl old d0 _ H HM Hnm Hc L1 i Hi).
    + destruct L3 as [E|E]; [left; exact E|right].
      generalize dependent (fold_right Rmin m rows). intros q _ _ _ E.
      unfold rows, row_tau in E. apply in_map_iff in E. destruct E as [i [<- Hi]].
      apply active_spec in Hi. exists i. split; [exact Hi|].
      rewrite Rabs_left by (apply Hneg; exact Hi).
      field. specialize (Hneg i Hi). lra.
Qed.

Lemma C18_convex_combination_proof :
  forall K (S : system K) M num_min cfl dim F X order a0 d0 l0 ln0 new0 old stages tau i,
    plain S -> central_flux S dim F -> symmetric_pattern M -> positive_masses M ->
    0 < num_min -> 0 < cfl <= 1 -> zero_row_sum M i -> active M i ->
    0 <= tau -> (forall t, In t (row_tau S M num_min cfl old d0) -> tau <= t) ->
    convex_set X -> X (fst old i) ->
    let d := dij_matrix S M num_min old d0 in
    (forall j, In j (columns M i) -> j <> i ->
       (0 < d i j /\ X (bar_state S M dim F old (d i j) i j)) \/
       (d i j = 0 /\ forall k,
          dotp dim (F (flux_contribution K S (snd old) j (fst old j)) k) (c_ij M i j) =
          dotp dim (F (flux_contribution K S (snd old) i (fst old i)) k) (c_ij M i j))) ->
    X (fst (hyperbolic_update S M num_min order 0 a0 d0 l0 ln0 new0 old stages tau) i).
Proof.
  intros K S M nm cfl dim F X order a0 d0 l0 ln0 new0 old stages tau i Hpl HF H HM Hnm Hc Hz Ha Ht HT
    HX HU d Hbar.
  pose proof (proj1 (active_constrained M i) Ha) as [Hi Hcon].
  pose proof (row_tau_bound S M nm cfl old d0 tau H HM Hnm (proj1 Hc) HT i Ha) as Hb.
  rewrite dij_diag in Hb by assumption. destruct (HM i Ha) as [Hm _].
  pose proof (Rmax_l (lsum (fun j => dij_matrix S M nm old d0 i j) (neighbours M i)) (1000000 * nm)) as Hl.
  apply (low_order_convex S M old d tau dim F X new0 i); auto.
  - apply Rle_trans with (cfl * mass M i).
    + eapply Rle_trans; [|exact Hb]. apply Rmult_le_compat_l; [exact Ht|]. unfold d. lra.
    + rewrite <- (Rmult_1_l (mass M i)) at 2. apply Rmult_le_compat_r; lra.
  - intros j Hj. destruct (neighbours_columns M i j H Hi Hj) as [H1 H2]. apply Hbar; assumption.
Qed.

Lemma C18_invariant_domain_proof :
  forall K (S : system K) M num_min cfl dim F X order a0 d0 l0 ln0 new0 old stages tau,
    plain S -> central_flux S dim F -> symmetric_pattern M -> positive_masses M ->
    valid_numbering M -> pairs_listed M -> symmetric_riemann S M old -> nonneg_riemann S ->
    mesh_dimension M dim -> 0 < num_min -> 0 < cfl <= 1 -> (forall i, active M i -> zero_row_sum M i) ->
    0 <= tau -> (forall t, In t (row_tau S M num_min cfl old d0) -> tau <= t) ->
    convex_set X -> wave_bound S dim F (snd old) X -> (forall i, active M i -> X (fst old i)) ->
    forall i, active M i ->
    X (fst (hyperbolic_update S M num_min order 0 a0 d0 l0 ln0 new0 old stages tau) i).
Proof.
  intros K S M nm cfl dim F X order a0 d0 l0 ln0 new0 old stages tau Hpl HF H HM HV HP HR HN HD Hnm Hc
    Hz Ht HT HX HW HU i Ha.
  destruct Ha as [Hi Hcon]. assert (Ha : active M i) by (split; assumption).
  eapply (C18_convex_combination_proof K S M nm cfl dim F X); try eassumption; auto.
  intros j Hj Hne.
  destruct (C17_viscosity_proof K S M nm old d0 i j H HV HP HR HN Hi Hj Hne) as [Hd [_ Hd0]].
  set (d := dij_matrix S M nm old d0 i j) in *.
  assert (Hjb : active M j) by (eapply cols_active; eassumption).
  set (c := c_ij M i j). set (a := cnorm c).
  assert (Ha0 : 0 <= a) by apply cnorm_nonneg.
  destruct (Rle_lt_or_eq_dec 0 a Ha0) as [Hap|Haz].
  - set (n := cdiv c a).
    assert (Hn : unit_vector dim n).
    { split; [apply cnorm_cdiv; exact Hap|]. unfold n, cdiv. rewrite map_length. apply HD; assumption. }
    assert (Hlam : riemann_compute K S (snd old) (fst old i) (fst old j) i j n <= d / a).
    { apply Rmult_le_reg_l with a; [exact Hap|].
      replace (a * (d / a)) with d by (field; lra). rewrite Hd. eapply Rle_trans; [|apply Rmax_l].
      unfold wave_viscosity. fold c. fold a. fold n. lra. }
    assert (Hdot : forall f, dotp dim f n = dotp dim f c / a).
    { intros f. unfold n. apply dotp_cdiv. }
    destruct (HW (fst old i) (fst old j) i j n (d / a) (HU i Ha) (HU j Hjb) Hn Hlam) as [W1 W2].
    destruct (Rle_lt_or_eq_dec 0 d Hd0) as [Hdp|Hdz].
    + left. split; [exact Hdp|].
      assert (Hq : 0 < d / a) by (apply Rdiv_lt_0_compat; assumption).
      specialize (W1 Hq). unfold bar_state. fold c. fold d.
      match goal with |- X ?g => match type of W1 with X ?h => replace g with h; [exact W1|] end end.
      apply functional_extensionality. intros k. rewrite !Hdot. field. lra.
    + right. split; [symmetry; exact Hdz|]. intros k. fold c.
      assert (Hq : d / a = 0) by (rewrite <- Hdz; unfold Rdiv; ring).
      specialize (W2 Hq k). rewrite !Hdot in W2.
      apply Rmult_eq_reg_r with (/ a); [|apply Rinv_neq_0_compat; lra]. unfold Rdiv in W2. lra.
  - assert (Hc0 : forall x, nth x c 0 = 0) by (apply cnorm_zero; symmetry; exact Haz).
    assert (Hf : forall f, dotp dim f c = 0).
    { intros f. unfold dotp. apply lsum_zero. intros x _. rewrite Hc0. ring. }
    destruct (Rle_lt_or_eq_dec 0 d Hd0) as [Hdp|Hdz].
    + left. split; [exact Hdp|].
      assert (HA := HX (fst old i) (fst old j) (1 / 2) (HU i Ha) (HU j Hjb) ltac:(lra)).
      unfold bar_state. fold c. fold d.
      match goal with |- X ?g => match type of HA with X ?h => replace g with h; [exact HA|] end end.
      apply functional_extensionality. intros k. rewrite !Hf. field. lra.
    + right. split; [symmetry; exact Hdz|]. intros k. fold c. rewrite !Hf. reflexivity.
Qed.

Lemma C19_conservation_proof :
  forall K (S : system K) M num_min order n a0 d0 l0 ln0 new0 old stages tau k,
    symmetric_pattern M -> positive_masses M -> valid_numbering M -> pairs_listed M ->
    symmetric_matrices M -> symmetric_riemann S M old -> nonneg_riemann S ->
    source_free S k -> swapped_equilibrated S ->
    (skew_divergence S M (flux_divergence K S) k /\
     (have_high_order_flux K S = true ->
      skew_divergence S M (high_order_flux_divergence K S) k)
     \/ (stages = [] /\ have_high_order_flux K S = false)) ->
    let rows := active_rows M in
    total M rows (fst (hyperbolic_update S M num_min order n a0 d0 l0 ln0 new0 old stages tau)) k =
    total M rows (fst old) k
    + tau * lsum (fun i => lsum (fun j =>
        flux_divergence K S (flux_contribution K S (snd old) i (fst old i))
          (flux_contribution K S (snd old) j (fst old j)) (c_ij M i j) k) (columns M i)) rows.
Proof.
  intros K S M nm order n a0 d0 l0 ln0 new0 old stages tau k H HM HV HP HSM HR HN Hs Hsw Hskew rows.
  assert (Hd : forall i j, (i < n_rows M)%nat -> In j (neighbours M i) ->
            dij_matrix S M nm old d0 j i = dij_matrix S M nm old d0 i j).
  { intros i j Hi Hj. destruct (neighbours_columns M i j H Hi Hj) as [H1 H2].
    apply (C17_viscosity_proof K S M nm old d0 i j); assumption. }
  unfold hyperbolic_update, update. cbn [fst].
  rewrite (passes_conservation S M nm old stages _ _ tau k); auto.
  - apply low_order_conservation; assumption.
  - apply corr_antisymmetric; assumption.
Qed.

Lemma C19_exact_proof :
  forall K (S : system K) M num_min dim F order n a0 d0 l0 ln0 new0 old stages tau k,
    symmetric_pattern M -> positive_masses M -> valid_numbering M ->
    symmetric_matrices M -> symmetric_riemann S M old -> nonneg_riemann S ->
    plain S -> central_flux S dim F -> have_high_order_flux K S = false ->
    (forall i j, active M i -> In j (columns M i) -> skew_at M i j) ->
    let rows := active_rows M in
    total M rows (fst (hyperbolic_update S M num_min order n a0 d0 l0 ln0 new0 old stages tau)) k =
    total M rows (fst old) k.
Proof.
  intros K S M nm dim F order n a0 d0 l0 ln0 new0 old stages tau k H HM HV HSM HR HN [Hp1 Hp2] HF Hho Hsk rows.
  assert (Hneg : forall f c, dotp dim f (neg c) = - dotp dim f c).
  { intros f c. unfold dotp. rewrite <- lsum_opp. apply lsum_ext. intros x _.
    rewrite nth_neg. ring. }
  assert (HSD : skew_divergence S M (flux_divergence K S) k).
  { intros i j a b Hi Hj Hne. assert (Hn : In j (neighbours M i)) by (apply neighbours_in; auto).
    rewrite (Hsk i j (row_active M i j H Hi Hn) Hj), !HF, !Hneg. ring. }
  rewrite C19_conservation_proof; auto.
  - rewrite (lsum_ext _ (fun i => lsum (fun j =>
        flux_divergence K S (flux_contribution K S (snd old) i (fst old i))
          (flux_contribution K S (snd old) j (fst old j)) (c_ij M i j) k) (neighbours M i))).
    + fold rows. rewrite pattern_sum; [ring|exact H|].
      intros i j Hi Hj. destruct (neighbours_columns M i j H Hi Hj) as [H1 H2].
      apply HSD; auto.
    + intros i Ha. apply active_spec in Ha. destruct Ha as [Hi Hcon]. assert (Ha : active M i) by (split; assumption).
      rewrite (columns_split M i H Hi). cbn [lsum].
      assert (Hii : In i (columns M i)) by (rewrite (columns_split M i H Hi); left; reflexivity).
      assert (E : forall f, dotp dim f (c_ij M i i) = 0).
      { intros f. pose proof (f_equal (dotp dim f) (Hsk i i Ha Hii)) as E. rewrite Hneg in E. lra. }
      rewrite HF, !E. ring.
  - intros i j Hi Hj Hne. left. apply Hsk; assumption.
  - intros E. rewrite Hp1 in E. discriminate.
  - intros E. rewrite Hp2 in E. discriminate.
  - left. split; [exact HSD|]. intros E. rewrite Hho in E. discriminate.
Qed.

Lemma C20_inside_bounds_proof :
  forall K (S : system K) M num_min inside order n a0 d0 l0 ln0 new0 old stages tau,
    symmetric_pattern M -> (forall b, convex_set (inside b)) -> limiter_guarantee S inside ->
    (n <= 2)%nat ->
    let bounds := limiter_bounds_i S M num_min old (dij_matrix S M num_min old d0) tau order in
    let result n := fst (hyperbolic_update S M num_min order n a0 d0 l0 ln0 new0 old stages tau) in
    (forall i, active M i -> inside (bounds i) (result 0%nat i)) ->
    forall i, active M i -> inside (bounds i) (result n i).
Proof.
  intros K S M nm inside order n a0 d0 l0 ln0 new0 old stages tau H Hc Hl Hn bounds result Hlow i Ha.
  apply active_constrained in Ha. destruct Ha as [Hi Hcon].
  apply (update_inside S M nm old stages (compute_alpha S M old a0) (dij_matrix S M nm old d0) tau
           order inside H Hc Hl n l0 ln0 new0 Hn); [|exact Hi|exact Hcon].
  intros j Hj Hcj. apply (Hlow j). apply active_constrained. auto.
Qed.

Lemma C21_uniform_proof :
  forall K (S : system K) M num_min dim F u f order n a0 d0 l0 ln0 new0 old stages tau i,
    symmetric_pattern M -> plain S -> have_high_order_flux K S = false -> central_flux S dim F ->
    (forall i, active M i -> zero_row_sum M i) ->
    (forall v, v = old \/ In v (map fst stages) -> forall j, active M j ->
       fst v j = u /\ flux_contribution K S (snd v) j u = f) ->
    active M i ->
    fst (hyperbolic_update S M num_min order n a0 d0 l0 ln0 new0 old stages tau) i = u.
Proof.
  intros K S M nm dim F u f order n a0 d0 l0 ln0 new0 old stages tau i H Hp Hh HF Hz Hu Ha.
  apply (uniform_update S M nm old stages _ _ tau dim F u f H Hp Hh HF Hz); auto.
  - intros j Hj. apply (Hu old); auto.
  - intros st Hst j Hj. apply (Hu (fst st)); auto. right. apply in_map. exact Hst.
Qed.

Lemma C22_verdict_proof :
  forall K (S : system K) M num_min order n a0 d0 l0 ln0 new0
         (s : TimeInt.mstate ((nat -> state K) * PC K S)) old stages tau pc_new,
    symmetric_pattern M -> positive_masses M -> 0 < num_min -> 0 < TimeInt.st_cfl _ s ->
    0 < tau -> (exists i, active M i) ->
    let upd old stages tau :=
      let r := hyperbolic_update S M num_min order n a0 d0 l0 ln0 new0 old stages tau in
      ((fst r, pc_new), snd r) in
    let step := TimeInt.hyperbolic_step _ (fun cfl old => row_tau S M num_min cfl old d0) upd
                  old stages tau None s in
    let flagged := violation S M num_min order n (compute_alpha S M old a0)
                     (dij_matrix S M num_min old d0) new0 old stages tau in
    let new := fst (upd old stages tau) in
    (~ flagged -> step = (TimeInt.Ok (new, tau), s)) /\
    (flagged -> TimeInt.st_hyp _ s = TimeInt.raise_exception ->
       step = (TimeInt.Restart, TimeInt.count_hyp _ 1 0 s)) /\
    (flagged -> TimeInt.st_hyp _ s = TimeInt.warn ->
       step = (TimeInt.Ok (new, tau), TimeInt.count_hyp _ 0 1 s)) /\
    (n = 0%nat -> ~ flagged).
Proof.
  intros K S M nm order n a0 d0 l0 ln0 new0 s old stages tau pcn H HM Hnm Hcfl Ht [i0 Hi0]
    upd step flagged new.
  assert (Hrows : exists t, TimeInt.select_tau tau None (row_tau S M nm (TimeInt.st_cfl _ s) old d0)
                  = TimeInt.Ok t /\ t = tau).
  { unfold TimeInt.select_tau.
    assert (Hp : forall t, In t (row_tau S M nm (TimeInt.st_cfl _ s) old d0) -> 0 < t)
      by (intros t; apply row_tau_positive; assumption).
    assert (Hne : row_tau S M nm (TimeInt.st_cfl _ s) old d0 <> []).
    { unfold row_tau. apply active_spec in Hi0. destruct (active_rows M); [contradiction|discriminate]. }
    destruct (row_tau _ _ _ _ _ _) as [|r rs]; [contradiction|].
    assert (0 < fold_right Rmin r rs).
    { assert (Hr := Hp r (or_introl eq_refl)).
      assert (Hq : forall t, In t rs -> 0 < t) by (intros; apply Hp; right; assumption).
      clear - Hr Hq. induction rs as [|t l IH]; simpl; [exact Hr|].
      apply Rmin_glb_lt; [apply Hq; left; reflexivity|apply IH; intros; apply Hq; right; assumption]. }
    destruct (Rlt_dec _ _); [|contradiction]. destruct (Req_EM_T tau 0); [lra|].
    eexists; split; reflexivity. }
  destruct Hrows as [t [Hsel ->]].
  assert (Hf : flagged <->
    snd (hyperbolic_update S M nm order n a0 d0 l0 ln0 new0 old stages tau) = true).
  { unfold hyperbolic_update, update. cbn [snd]. rewrite restart_spec. unfold flagged, violation.
    split; intros [Hn [i [j [Ha [Hj Hx]]]]]; (split; [exact Hn|]); exists i, j;
      (split; [exact Ha|]).
    - destruct Hx as [Hne Hx]. split; [apply columns_neighbours; [exact H|apply Ha|exact Hj|exact Hne]|exact Hx].
    - destruct (neighbours_columns M i j H (proj1 Ha) Hj) as [H1 H2]. auto. }
  unfold step, TimeInt.hyperbolic_step, upd, new. rewrite Hsel. cbv zeta. cbn [fst snd].
  destruct (snd (hyperbolic_update S M nm order n a0 d0 l0 ln0 new0 old stages tau)) eqn:E.
  - split; [intros Hc; exfalso; apply Hc, Hf; reflexivity|].
    split; [intros _ ->; reflexivity|]. split; [intros _ ->; reflexivity|].
    intros En [Hc _]. contradiction.
  - split; [reflexivity|]. split; [intros Hc; apply Hf in Hc; discriminate|].
    split; [intros Hc; apply Hf in Hc; discriminate|]. intros En [Hc _]. contradiction.
Qed.

Lemma C22_unflagged_proof :
  forall K (S : system K) M num_min (inside : BD K S -> state K -> Prop)
         order n a0 d0 l0 ln0 new0 old stages tau i,
    symmetric_pattern M -> n <> 0%nat ->
    (forall b u p, snd (limiter_limit K S b u p) = true <-> inside b u) ->
    ~ violation S M num_min order n (compute_alpha S M old a0)
        (dij_matrix S M num_min old d0) new0 old stages tau ->
    active M i ->
    inside (limiter_bounds_i S M num_min old (dij_matrix S M num_min old d0) tau order i)
      (fst (hyperbolic_update S M num_min order 0 a0 d0 l0 ln0 new0 old stages tau) i).
Proof.
  intros K S M nm inside order n a0 d0 l0 ln0 new0 old stages tau i H Hn Hs Hv Ha.
  destruct Ha as [Hi Hlen].
  pose proof (columns_split M i H Hi) as Hcs.
  destruct (neighbours M i) as [|j nb] eqn:En.
  { rewrite Hcs in Hlen. simpl in Hlen. contradiction. }
  destruct (neighbours_columns M i j H Hi) as [Hj Hne]; [rewrite En; left; reflexivity|].
  apply (Hs _ _ (pij S M old stages (compute_alpha S M old a0) (dij_matrix S M nm old d0) tau i j)).
  destruct (snd _) eqn:E; [reflexivity|]. exfalso. apply Hv. split; [exact Hn|].
  exists i, j. split; [split; assumption|]. split; [exact Hj|]. split; [exact Hne|]. exact E.
Qed.

Lemma C61_unlimited_update_proof :
  forall K (S : system K) M num_min order n a0 d0 l0 ln0 new0 old stages tau i k,
    plain S -> symmetric_pattern M -> positive_masses M -> symmetric_matrices M ->
    (forall i a k, active M i ->
       flux_divergence K S a a (c_ij M i i) k = 0 /\
       (have_high_order_flux K S = true ->
        high_order_flux_divergence K S a a (c_ij M i i) k = 0)) ->
    (forall b u p, fst (limiter_limit K S b u p) = 1) ->
    (n = 1 \/ n = 2)%nat -> active M i ->
    fst (hyperbolic_update S M num_min order n a0 d0 l0 ln0 new0 old stages tau) i k =
    weighted_update S M (compute_alpha S M old a0) (dij_matrix S M num_min old d0)
      old stages tau i k.
Proof.
  intros K S M nm order n a0 d0 l0 ln0 new0 old stages tau i k Hp H HM HSM Hd Hl Hn Ha.
  apply active_constrained in Ha. destruct Ha as [Hi Hcon].
  apply unlimited_update; assumption.
Qed.

Lemma C61_boundary_rows_refuted_proof :
  exists K (S : system K) M num_min order a0 d0 l0 ln0 new0 old stages tau i k,
    plain S /\ symmetric_pattern M /\ positive_masses M /\ symmetric_matrices M /\
    (forall i, zero_row_sum M i) /\ 0 < tau /\
    (forall b u p, fst (limiter_limit K S b u p) = 1) /\ active M i /\
    fst (hyperbolic_update S M num_min order 1 a0 d0 l0 ln0 new0 old stages tau) i k <>
    weighted_update S M (compute_alpha S M old a0) (dij_matrix S M num_min old d0)
      old stages tau i k.
Proof.
  exists unit, (advection false), segment, 1, [], (fun _ => 0), (fun _ _ => 0), (fun _ _ => 0),
    (fun _ _ => 0), (fun _ _ => 0), all_zero, [(all_one, -1)], 1, 0%nat, tt.
  split; [split; reflexivity|]. split; [exact segment_pattern|]. split; [exact segment_masses|].
  split; [exact segment_symmetric|]. split; [exact segment_sum|]. split; [lra|].
  split; [reflexivity|]. split; [split; [cbn; lia|cbn; lia]|].
  unfold hyperbolic_update. rewrite segment_value, segment_weighted. lra.
Qed.

Lemma C61_sources_refuted_proof :
  exists K (S : system K) M num_min order a0 d0 l0 ln0 new0 old stage w tau i k,
    symmetric_pattern M /\ positive_masses M /\ symmetric_matrices M /\
    (forall i, zero_row_sum M i) /\ 0 < tau /\
    (forall a b c k, flux_divergence K S a b c k = 0) /\
    (forall b u p, fst (limiter_limit K S b u p) = 1) /\ active M i /\
    (forall j, fst old j = fst old i /\ fst stage j = fst stage i) /\
    fst (hyperbolic_update S M num_min order 1 a0 d0 l0 ln0 new0 old [(stage, w)] tau) i k <>
    fst old i k + tau *
      ((1 - w) * nodal_source K S (snd old) i (fst old i) tau k
       + w * nodal_source K S (snd stage) i (fst stage i) tau k).
Proof.
  exists unit, (advection true), segment, 1, [], (fun _ => 0), (fun _ _ => 0), (fun _ _ => 0),
    (fun _ _ => 0), (fun _ _ => 0), all_zero, all_one, (-1), 1, 0%nat, tt.
  split; [exact segment_pattern|]. split; [exact segment_masses|].
  split; [exact segment_symmetric|]. split; [exact segment_sum|]. split; [lra|].
  split; [reflexivity|]. split; [reflexivity|]. split; [split; [cbn; lia|cbn; lia]|].
  split; [split; reflexivity|].
  unfold hyperbolic_update. rewrite segment_value. cbn. lra.
Qed.

Lemma C62_independence_proof :
  forall K (S : system K) M M' num_min old stages tau n
         order order' a0 a0' d0 d0' l0 l0' ln0 ln0' new0 new0',
    same_problem M M' -> symmetric_pattern M -> symmetric_pattern M' ->
    order_independent S -> valid_numbering M -> valid_numbering M' ->
    pairs_listed M -> pairs_listed M' -> symmetric_riemann S M old ->
    discontinuous M = false -> (n <= 2)%nat ->
    let r := hyperbolic_update S M num_min order n a0 d0 l0 ln0 new0 old stages tau in
    let r' := hyperbolic_update S M' num_min order' n a0' d0' l0' ln0' new0' old stages tau in
    (forall i, active M i -> fst r' i = fst r i) /\ snd r' = snd r.
Proof.
  intros; apply hyperbolic_update_indep; assumption.
Qed.

Lemma C62_step_size_proof :
  forall K (S : system K) M M' num_min cfl old d0 d0',
    same_problem M M' -> symmetric_pattern M -> symmetric_pattern M' ->
    valid_numbering M -> valid_numbering M' -> pairs_listed M -> pairs_listed M' ->
    symmetric_riemann S M old ->
    row_tau S M' num_min cfl old d0' = row_tau S M num_min cfl old d0.
Proof.
  intros; apply row_tau_indep; assumption.
Qed.

Lemma C62_discontinuous_refuted_proof :
  exists K (S : system K) M num_min a0 d0 l0 ln0 new0 old stages tau order order' i,
    symmetric_pattern M /\ positive_masses M /\ valid_numbering M /\ pairs_listed M /\
    symmetric_matrices M /\ order_independent S /\ symmetric_riemann S M old /\
    (forall a b, combine_bounds K S a b = combine_bounds K S b a) /\
    Permutation order order' /\ active M i /\
    fst (hyperbolic_update S M num_min order 1 a0 d0 l0 ln0 new0 old stages tau) i <>
    fst (hyperbolic_update S M num_min order' 1 a0 d0 l0 ln0 new0 old stages tau) i.
Proof.
  exists unit, chain_system, chain, 1, (fun _ => 0), (fun _ _ => 0), (fun _ _ => 0), (fun _ _ => 0),
    (fun _ _ => 0), chain_state, [], (1 / 4), [0; 1; 2]%nat, [2; 1; 0]%nat, 0%nat.
  split; [exact chain_pattern|]. split; [exact chain_masses|]. split; [exact chain_numbering|].
  split; [exact chain_pairs|]. split; [exact chain_symmetric|].
  split; [repeat split|]. split; [repeat split|]. split; [exact Rmax_comm|].
  split; [apply (Permutation_rev [0; 1; 2]%nat)|]. split; [split; cbn; lia|].
  intros E. apply (f_equal (fun f => f tt)) in E. revert E. rewrite !chain_value.
  rewrite !chain_bounds_eq, chain_bounds_up.
  destruct chain_bounds_down as [-> ->].
  destruct (Rle_dec 2 1); [lra|]. destruct (Rle_dec 2 2); [|lra].
  rewrite (Rmin_left 1 1) by lra. destruct (Rle_dec 2 _); unfold Rmin; destruct (Rle_dec _ _); lra.
Qed.

(** ** Extension of the bounds *)

Section Extension.
Context {K : Type} (S : system K) (M : mesh) (inside : BD K S -> state K -> Prop).
Hypothesis relaxing : forall a b u, inside a u \/ inside b u -> inside (combine_bounds K S a b) u.

Lemma combine_fold (f : nat -> BD K S) l acc u :
  inside acc u \/ (exists j, In j l /\ inside (f j) u) ->
  inside (fold_left (fun acc j => combine_bounds K S acc (f j)) l acc) u.
Proof.
  revert acc. induction l as [|a l IH]; intros acc H; simpl.
  - destruct H as [H|(j & [] & _)]. exact H.
  - apply IH. destruct H as [H|(j & [->|Hj] & H)]; [left|left|right; exists j; split; assumption];
      apply relaxing; [left|right]; exact H.
Qed.

Lemma extension_grows order b b0 : (forall j u, inside (b0 j) u -> inside (b j) u) -> forall j u, inside (b0 j) u ->
  inside (fold_left (fun b i => if constrained M i then b
    else upd b i (fold_left (fun acc j => combine_bounds K S acc (if owner M j =? owner M i then b j else b0 j)) (neighbours M i) (b i)))
    order b j) u.
Proof.
  revert b. induction order as [|i order IH]; intros b Hb j u H; simpl; [apply Hb; exact H|].
  apply IH; [|exact H]. clear j u H. intros j u H. destruct (constrained M i); [apply Hb; exact H|].
  unfold upd. destruct (Nat.eqb j i) eqn:E; [|apply Hb; exact H]. apply Nat.eqb_eq in E. subst j.
  apply (combine_fold (fun j => if owner M j =? owner M i then b j else b0 j)). left. apply Hb. exact H.
Qed.

Lemma extension_covers order b b0 : (forall j u, inside (b0 j) u -> inside (b j) u) -> forall i j u,
  In i order -> constrained M i = false -> In j (neighbours M i) -> inside (b0 j) u ->
  inside (fold_left (fun b i => if constrained M i then b
    else upd b i (fold_left (fun acc j => combine_bounds K S acc (if owner M j =? owner M i then b j else b0 j)) (neighbours M i) (b i)))
    order b i) u.
Proof.
  revert b. induction order as [|k order IH]; intros b Hb i j u Hi Hc Hj H; simpl; [destruct Hi|].
  assert (G : forall j u, inside (b0 j) u -> inside ((if constrained M k then b
    else upd b k (fold_left (fun acc j => combine_bounds K S acc (if owner M j =? owner M k then b j else b0 j)) (neighbours M k) (b k))) j) u).
  { intros j' u' H'. exact (extension_grows [k] b b0 Hb j' u' H'). }
  destruct (in_dec Nat.eq_dec i order) as [I|I]; [apply (IH _ G i j u I Hc Hj H)|].
  destruct Hi as [->|Hi]; [|contradiction].
  (* the entry of i is not touched again *)
  assert (U : forall order b', ~ In i order -> fold_left (fun b i => if constrained M i then b
    else upd b i (fold_left (fun acc j => combine_bounds K S acc (if owner M j =? owner M i then b j else b0 j)) (neighbours M i) (b i)))
    order b' i = b' i).
  { clear - i. induction order as [|k order IH]; intros b' N; simpl; [reflexivity|]. rewrite IH by (intros Q; apply N; right; exact Q).
    destruct (constrained M k); [reflexivity|]. unfold upd. destruct (Nat.eqb i k) eqn:E; [|reflexivity].
    apply Nat.eqb_eq in E. exfalso. apply N. left. congruence. }
  rewrite U by exact I. rewrite Hc. unfold upd. rewrite Nat.eqb_refl.
  apply (combine_fold (fun j => if owner M j =? owner M i then b j else b0 j)). right. exists j. split; [exact Hj|].
  destruct (owner M j =? owner M i); [apply Hb; exact H|exact H].
Qed.

Lemma C20_extended_bounds_proof order b0 i u :
  (inside (b0 i) u -> inside (extend_bounds S M order b0 i) u) /\
  (In i order -> constrained M i = false -> forall j, In j (neighbours M i) -> inside (b0 j) u ->
   inside (extend_bounds S M order b0 i) u).
Proof.
  split.
  - apply extension_grows. tauto.
  - intros I C j J H. apply (extension_covers order b0 b0 ltac:(tauto) i j u I C J H).
Qed.
End Extension.
